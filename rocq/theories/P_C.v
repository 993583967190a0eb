(** Properties C27 and C28: C output.  Theorems only.
    [c_parse typedefs text]: the expression a C compiler reads in [text]
    (longest-match tokens, casts recognised by type names, C's operator levels);
    [c_tree o e]: the C tree expected for [e] (method calls as calls, [mul_add]
    written out, [::] as [_], C type names); [rust_wp e]: [e] is a tree the Rust
    parser builds; [c_names]: its names, numbers and types can be written in C
    and it has no construct without C translation; [expr_text]: compositional
    description of the text; [expr_ok]: no [Verbatim] node and every [mul_add]
    has two arguments. *)
From Coq Require Import List String Ascii Bool Arith ZArith.
From Verif Require Import Res Syntax Item Parse Functions GenCode CGen CGenFacts CLex CText CLibrary.
Import ListNotations.
Open Scope string_scope.
Open Scope list_scope.

Definition ftypes : list string := ["fty"; "uty"; "ity"].
Definition no_opts : copts := COpts "" "".

(** ** C27 *)

(** [c_agrees]: no comparison has a comparison or a bit operation as a bare
    operand, and no minus sign is applied directly to a minus sign. *)
Theorem C27_same_tree_partial :
  forall o typedefs e,
  forallb (fun w => is_alpha (first_char w)) typedefs = true ->
  c_names o typedefs e = true -> rust_wp e = true -> c_agrees e = true ->
  exists text, (forall s, visit_expr o (cof e) s = Ok (text :: s)) /\ c_parse typedefs text = Some (c_tree o e).
Proof.
  intros o typedefs e T N W A. exists (expr_text o (cof e)). split.
  - intros s. apply visit_expr_text; [exact (names_ok o typedefs e N)|exact (cof_leak e)].
  - exact (text_parses o typedefs e T N W A).
Qed.
Print Assumptions C27_same_tree_partial.

(** (a - b) as fty * x.mul_add(-y, c.round()) - std::f(z, 1.5e-3 as f64) % w *)
Definition c27_expr : expr :=
  EBinary BSub
    (EBinary BMul (ECast (EParen (EBinary BSub (EPath ["a"]) (EPath ["b"]))) "fty")
       (EMethodCall (EPath ["x"]) "mul_add" None [EUnary UNeg (EPath ["y"]); EMethodCall (EPath ["c"]) "round" None []]))
    (EBinary BRem (ECall (EPath ["std"; "f"]) [EPath ["z"]; ECast (ELit (LFloat "1.5e-3" "")) "f64"]) (EPath ["w"])).
Example C27_example :
  let o := COpts "dr_" "f" in
  (c_names o ftypes c27_expr && rust_wp c27_expr && c_agrees c27_expr = true) /\
  expr_text o (cof c27_expr) =
    ("(fty)(a - b) * ((x" ++ nl ++ ") * (-y) + (roundf(c))) - dr_std_f(z, (double)1.5e-3) % w")%string.
Proof. split; vm_compute; reflexivity. Qed.

(** [a & b == c] is (a & b) == c in Rust and a & (b == c) in C; [- -x] becomes
    the decrement [--x]. *)
Theorem C27_refuted :
  exists e t, c_names no_opts ftypes e = true /\ rust_wp e = true /\
    c_parse ftypes (expr_text no_opts (cof e)) = Some t /\ t <> c_tree no_opts e.
Proof.
  exists (EBinary BEq (EBinary BBitAnd (EPath ["a"]) (EPath ["b"])) (EPath ["c"])),
    (EBinary BBitAnd (EPath ["a"]) (EBinary BEq (EPath ["b"]) (EPath ["c"]))).
  repeat split; try (vm_compute; reflexivity). discriminate.
Qed.
Print Assumptions C27_refuted.
Theorem C27_decrement_refuted :
  exists e, c_names no_opts ftypes e = true /\ rust_wp e = true /\
    c_lex (expr_text no_opts (cof e)) = ["--"; "x"] /\ c_parse ftypes (expr_text no_opts (cof e)) = None.
Proof. exists (EUnary UNeg (EUnary UNeg (EPath ["x"]))). repeat split; vm_compute; reflexivity. Qed.
Print Assumptions C27_decrement_refuted.

(** ** C28 *)

(** Every node leaves its own text and, below it, one string for each compound
    assignment in it; what was on the stack before stays. *)
Theorem C28_stack_partial :
  forall o,
  (forall e s, expr_ok e = true -> visit_expr o e s = Ok (expr_text o e :: leak (expr_leak e) ++ s)) /\
  (forall t s, stmt_ok t = true -> visit_stmt o t s = Ok (stmt_text o t :: leak (stmt_leak t) ++ s)) /\
  (forall i s, item_ok i = true -> visit_item o i s = Ok (item_text o i :: leak (item_leak i) ++ s)).
Proof. intros o. destruct (visit_ok o) as (A & B & D). repeat split; auto. Qed.
Print Assumptions C28_stack_partial.

(** Items as doctor-syn reads them, without compound assignments: exactly one
    string. *)
Theorem C28_one_string_partial :
  forall o e s, expr_ok (cof e) = true -> visit_expr o (cof e) s = Ok (expr_text o (cof e) :: s).
Proof. intros o e s H. exact (visit_expr_text o (cof e) s H (cof_leak e)). Qed.
Print Assumptions C28_one_string_partial.

Theorem C28_file_partial :
  forall o items, forallb item_ok items = true -> to_c o items = Ok (file_text o items).
Proof. exact to_c_ok. Qed.
Print Assumptions C28_file_partial.

(** Every library libmgen can generate. *)
Theorem C28_library :
  forall o bits sub names exclude lib, library bits sub names exclude = Some lib ->
  (forall n, expr_ok (cof (sub n)) = true) ->
  to_c o (map cof_item lib) = Ok (file_text o (map cof_item lib)).
Proof. exact library_to_c. Qed.
Print Assumptions C28_library.

Example C28_example :
  let lib := match library 32 (fun _ => EPath ["x"]) ["negate_on_odd"; "fty"; "uty"; "ity"] [] with Some l => l | None => [] end in
  List.length lib = 4 /\ is_ok (to_c no_opts (map cof_item lib)) = true /\
  to_c no_opts [CFn "f" [inl (CPatTyped (CPatIdent "x") (CTyPath ["f32"]))] (Some (CTyPath ["f32"]))
    [CSemi (CAssignOp AAdd (CPath ["x"]) (CNum "1")); CExprStmt (CPath ["x"])]] =
  Ok ("#include <math.h>" ++ nl ++ nl ++ "float f(float x) { return ({" ++ nl ++ "x += 1;" ++ nl ++ "x;" ++ nl ++ "}); }")%string.
Proof. repeat split; vm_compute; reflexivity. Qed.

(** [x.mul_add(y)] panics (index out of bounds), a function body that syn keeps
    verbatim panics (pop on the empty stack), and [x += 1] leaves two strings. *)
Theorem C28_refuted :
  exists i j, to_c no_opts [i] = Panic /\ to_c no_opts [j] = Panic /\ item_leak i = 0 /\ item_leak j = 0 /\ i <> j.
Proof.
  exists (CConst "K" (CTyPath ["f32"]) (CMethodCall (CPath ["x"]) "mul_add" [CPath ["y"]])),
    (CConst "K" (CTyPath ["f32"]) (CParen CVerbatim)).
  repeat split; try (vm_compute; reflexivity). discriminate.
Qed.
Print Assumptions C28_refuted.
Theorem C28_two_strings_refuted :
  exists e s, visit_expr no_opts e [] = Ok s /\ List.length s = 2.
Proof. exists (CAssignOp AAdd (CPath ["x"]) (CNum "1")). eexists. split; vm_compute; reflexivity. Qed.
Print Assumptions C28_two_strings_refuted.
