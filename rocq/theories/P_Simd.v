(** Properties of the conversion to SIMD methods. *)
From Coq Require Import List String Bool ZArith Lia.
From Verif Require Import Res Syntax Item Functions GenCode GenCodeFacts Simd SimdSpec SimdFacts SimdNames SimdFile SimdLibrary.
Import ListNotations.
Open Scope string_scope.
Open Scope list_scope.

(** ** C31: lane-wise equivalence *)

(** What lane [i] sees. *)
Definition lane {L V} (env : string -> option (L -> V)) (i : L) : string -> option V :=
  fun n => option_map (fun v => v i) (env n).

(** Missing from the full claim: unsuffixed integer literals, literals of the
    other width, [&&] and [||], conditionals whose first branch has a let, and
    casts of prefix and binary operations (refuted below). *)
Theorem C31_lanes_partial : forall bits e, lanes_ok bits e = true ->
  exists e', conv bits e = Ok e'
  /\ forall (V L : Type) (A : algebra V) (env : string -> option (L -> V)) (i : L) x,
     ev A bits (lane env i) e = Some x -> exists v, vev A bits env e' = Some v /\ v i = x.
Proof.
  intros bits e H. destruct (all_good bits e H) as (e' & E & HL & _). exists e'. split; [exact E|].
  intros V L A env i x EX. apply (HL V L A (lane env i) env i x); [|exact EX].
  intros n _ y Ey. unfold lane in Ey. destruct (env n) as [v|]; [|discriminate]. injection Ey as <-. exists v. auto.
Qed.
Print Assumptions C31_lanes_partial.

(** Whole functions: the method called with the lanes of its arguments, against
    the scalar function that sees the constants of the file. *)
Theorem C31_function_partial : forall bits pre n p0 t0 rest ret b post ms,
  to_simd bits (pre ++ IFn n ((p0, t0) :: rest) ret b :: post) = Ok ms ->
  body_ok bits b = true ->
  (forall c e, In (c, e) (const_defs pre) -> lanes_ok bits e = true) ->
  NoDup (const_names pre) ->
  (forall p, In p (map fst rest) -> p <> "self" /\ p <> "fty" /\ ~ In p (const_names pre)) ->
  p0 <> "fty" -> ~ In "self" (const_names pre) ->
  exists m, nth_error ms (fn_count pre) = Some m
  /\ forall (V L : Type) (A : algebra V) (self : L -> V) (args : list (L -> V)) (i : L) x,
     (forall c e, In (c, e) (const_defs pre) -> ev A bits (fun _ => None) e <> None) ->
     ev A bits (scope A bits (p0 :: map fst rest) (self i :: map (fun v => v i) args) (const_defs pre)) (EBlock b) = Some x ->
     exists v, vev A bits (method_scope self (map fst (m_params m)) args) (EBlock (m_body m)) = Some v /\ v i = x.
Proof. exact fn_lanes. Qed.
Print Assumptions C31_function_partial.

(** [x & 1], as in the shipped [negate_on_odd]: the converted code splats an
    integer into a float vector. *)
Theorem C31_integer_refuted : exists bits e e', conv bits e = Ok e'
  /\ (forall (V : Type) (A : algebra V) x, exists y, ev A bits (upd (fun _ => None) "x" x) e = Some y)
  /\ forall (V L : Type) (A : algebra V) (env : string -> option (L -> V)), vev A bits env e' = None.
Proof.
  exists 32%Z, (EBinary BBitAnd (EPath ["x"]) (ELit (LInt "1" ""))). eexists. split; [reflexivity|]. split.
  - intros V A x. eexists. reflexivity.
  - intros V L A env. cbn. destruct (env "x"); reflexivity.
Qed.
Print Assumptions C31_integer_refuted.
(** [x << 63i32], as in the 64-bit [negate_on_odd]: the suffix makes an [i32] of
    an element of a vector of [i64]. *)
Theorem C31_width_refuted : exists e e', conv 64 e = Ok e'
  /\ (forall (V : Type) (A : algebra V) x, exists y, ev A 64 (upd (fun _ => None) "x" x) e = Some y)
  /\ forall (V L : Type) (A : algebra V) (env : string -> option (L -> V)), vev A 64 env e' = None.
Proof.
  exists (EBinary BShl (EPath ["x"]) (ELit (LInt "63" "i32"))). eexists. split; [reflexivity|]. split.
  - intros V A x. eexists. reflexivity.
  - intros V L A env. cbn. destruct (env "x"); reflexivity.
Qed.
Print Assumptions C31_width_refuted.
(** [x < y && y < x]: comparisons become masks, which have no [&&]. *)
Theorem C31_and_refuted : exists bits e e', conv bits e = Ok e'
  /\ (forall (V : Type) (A : algebra V) x y, exists z, ev A bits (upd (upd (fun _ => None) "x" x) "y" y) e = Some z)
  /\ forall (V L : Type) (A : algebra V) (env : string -> option (L -> V)), vev A bits env e' = None.
Proof.
  exists 32%Z, (EBinary BAnd (EBinary BLt (EPath ["x"]) (EPath ["y"])) (EBinary BLt (EPath ["y"]) (EPath ["x"]))).
  eexists. split; [reflexivity|]. split.
  - intros V A x y. eexists. reflexivity.
  - intros V L A env. reflexivity.
Qed.
Print Assumptions C31_and_refuted.
(** [if x < y { let z = x; z } else { y }] makes the converter panic. *)
Theorem C31_branch_refuted : exists bits e, conv bits e = Panic
  /\ forall (V : Type) (A : algebra V) x y, exists z, ev A bits (upd (upd (fun _ => None) "x" x) "y" y) e = Some z.
Proof.
  exists 32%Z, (EIf (EBinary BLt (EPath ["x"]) (EPath ["y"])) [SLocal "z" None (Some (EPath ["x"])); SExpr (EPath ["z"])]
    (Some (EBlock [SExpr (EPath ["y"])]))).
  split; [reflexivity|]. intros V A x y. eexists. reflexivity.
Qed.
Print Assumptions C31_branch_refuted.
(** [-x as uty] converts the operand before the negation.  The algebra: integers,
    casts to unsigned saturate. *)
Definition zalg : algebra Z :=
  Algebra Z (fun _ => 0%Z) (fun _ => 0%Z) (fun op x => match op with UNeg => (- x)%Z | _ => x end)
    (fun op x y => match op with BAdd => (x + y)%Z | BMul => (x * y)%Z | BSub => (x - y)%Z | BLt => if (x <? y)%Z then 1%Z else 0%Z | _ => 0%Z end)
    (fun _ x _ => x) (fun t x => if String.eqb t "u32" then Z.max 0 x else x) (fun x => negb (x =? 0)%Z).
Theorem C31_cast_refuted : exists e e' (env : string -> option (bool -> Z)) i x v, conv 32 e = Ok e'
  /\ ev zalg 32 (lane env i) e = Some x /\ vev zalg 32 env e' = Some v /\ v i <> x.
Proof.
  exists (ECast (EUnary UNeg (EPath ["x"])) "uty"). eexists. exists (upd (fun _ => None) "x" (fun _ => 5%Z)), true. do 2 eexists.
  split; [reflexivity|]. split; [reflexivity|]. split; [reflexivity|]. vm_compute. discriminate.
Qed.
Print Assumptions C31_cast_refuted.

(** [{ let z: fty = x * y - 1.5; if z < f32::NAN { (z.abs() as ity) as fty } else if x < y { -z } else { y } }] *)
Definition sample_body : list stmt :=
  [SLocal "z" (Some "fty") (Some (EBinary BSub (EBinary BMul (EPath ["x"]) (EPath ["y"])) (ELit (LFloat "1.5" ""))));
   SExpr (EIf (EBinary BLt (EPath ["z"]) (EPath ["f32"; "NAN"]))
     [SExpr (ECast (EParen (ECast (EMethodCall (EPath ["z"]) "abs" None []) "ity")) "fty")]
     (Some (EIf (EBinary BLt (EPath ["x"]) (EPath ["y"])) [SExpr (EUnary UNeg (EPath ["z"]))] (Some (EBlock [SExpr (EPath ["y"])])))))].
Example C31_example : lanes_ok 32 (EBlock sample_body) = true
  /\ exists e' v, conv 32 (EBlock sample_body) = Ok e'
     /\ vev zalg 32 (upd (upd (fun _ => None) "x" (fun i : bool => if i then 2%Z else (-3)%Z)) "y" (fun _ => 1%Z)) e' = Some v
     /\ v true = 1%Z /\ v false = (-3)%Z.
Proof. split; [reflexivity|]. do 2 eexists. repeat split; reflexivity. Qed.
(** The hypotheses of [C31_function_partial] hold for a file with constants. *)
Definition sample_file : list item :=
  [IConst "HALF" "fty" (ELit (LFloat "0.5" "")); IConst "TWO" "fty" (ELit (LFloat "2.0" "f32"));
   IFn "f" [("x", "fty"); ("y", "fty")] "fty" [SExpr (EBinary BAdd (EBinary BMul (EPath ["x"]) (EPath ["TWO"])) (EPath ["y"]))]].
Example C31_function_example : exists ms m, to_simd 32 sample_file = Ok ms /\ nth_error ms 0 = Some m
  /\ m_body m = [SLocal "TWO" None (Some (splat ["Self"] (ELit (LFloat "2.0" "f32")))); SLocal "x" None (Some (EPath ["self"]));
                 SExpr (EBinary BAdd (EBinary BMul (EPath ["x"]) (EPath ["TWO"])) (EPath ["y"]))]
  /\ body_ok 32 [SExpr (EBinary BAdd (EBinary BMul (EPath ["x"]) (EPath ["TWO"])) (EPath ["y"]))] = true.
Proof. do 2 eexists. repeat split; reflexivity. Qed.

(** ** C32: constants are bound before use *)

(** Missing from the full claim: constants whose definition mentions another
    constant, and constants defined after the function (refuted below). *)
Theorem C32_consts_partial : forall bits pre n ps ret b post ms,
  to_simd bits (pre ++ IFn n ps ret b :: post) = Ok ms ->
  (forall c e d, In (c, e) (const_defs pre) -> In d (const_names pre) -> ~ In d (unbound e [])) ->
  exists m, nth_error ms (fn_count pre) = Some m
  /\ forall c, In c (const_names pre) -> ~ In c ["Self"; "UintType"; "IntType"] ->
     ~ In c (unbound (EBlock (m_body m)) (map fst (m_params m))).
Proof. exact consts_bound. Qed.
Print Assumptions C32_consts_partial.

(** Every library that can be requested is of this kind: no method mentions a
    constant of the library that it does not bind. *)
Theorem C32_library : forall bits sub names exclude lib pre n ps ret b post ms,
  bits = 32%Z \/ bits = 64%Z -> plain_sub sub -> library bits sub names exclude = Some lib ->
  lib = pre ++ IFn n ps ret b :: post -> to_simd bits lib = Ok ms ->
  exists m, nth_error ms (fn_count pre) = Some m
  /\ forall c, In c (const_names lib) -> ~ In c (unbound (EBlock (m_body m)) (map fst (m_params m))).
Proof. intros bits sub names exclude lib pre n ps ret b post ms HB HP HL. exact (library_consts bits sub names exclude lib HB HP HL pre n ps ret b post ms). Qed.
Print Assumptions C32_library.

(** [const A = 2.0; const B = A * A; fn f(x) { x * B }]: only [B] is bound. *)
Theorem C32_refuted : exists bits pre n ps ret b m c,
  to_simd bits (pre ++ [IFn n ps ret b]) = Ok [m] /\ In c (const_names pre)
  /\ In c (unbound (EBlock (m_body m)) (map fst (m_params m))).
Proof.
  exists 32%Z, [IConst "A" "fty" (ELit (LFloat "2.0" "")); IConst "B" "fty" (EBinary BMul (EPath ["A"]) (EPath ["A"]))],
    "f", [("x", "fty")], "fty", [SExpr (EBinary BMul (EPath ["x"]) (EPath ["B"]))].
  eexists. exists "A". split; [reflexivity|]. split; [left; reflexivity|]. left. reflexivity.
Qed.
Print Assumptions C32_refuted.
(** If the function mentions both, the lets are in the wrong order. *)
Theorem C32_nested_refuted : exists bits pre n ps ret b m c,
  to_simd bits (pre ++ [IFn n ps ret b]) = Ok [m] /\ (forall d, In d (const_names pre) -> In d (flat_map seen_stmt b))
  /\ In c (const_names pre) /\ In c (unbound (EBlock (m_body m)) (map fst (m_params m))).
Proof.
  exists 32%Z, [IConst "A" "fty" (ELit (LFloat "2.0" "")); IConst "B" "fty" (EBinary BMul (EPath ["A"]) (EPath ["A"]))],
    "f", [("x", "fty")], "fty", [SExpr (EBinary BMul (EPath ["A"]) (EPath ["B"]))].
  eexists. exists "A". split; [reflexivity|]. split; [|split; [left; reflexivity|left; reflexivity]].
  intros d [<-|[<-|[]]]; cbn; auto.
Qed.
Print Assumptions C32_nested_refuted.
(** A constant defined after the function. *)
Theorem C32_order_refuted : exists bits items m c,
  to_simd bits items = Ok [m] /\ In c (const_names items)
  /\ In c (unbound (EBlock (m_body m)) (map fst (m_params m))).
Proof.
  exists 32%Z, [IFn "f" [("x", "fty")] "fty" [SExpr (EBinary BMul (EPath ["x"]) (EPath ["A"]))]; IConst "A" "fty" (ELit (LFloat "2.0" ""))].
  eexists. exists "A". split; [reflexivity|]. split; [left; reflexivity|right; left; reflexivity].
Qed.
Print Assumptions C32_order_refuted.

(** The library of [atan2] does not even contain [PI] (an undeclared
    dependency, C25), so its method does not bind it. *)
Theorem C32_missing_refuted : exists lib m, library 32 sample ["atan2"] [] = Some lib /\ to_simd 32 lib = Ok [m]
  /\ In "PI" table_names /\ In "PI" (unbound (EBlock (m_body m)) (map fst (m_params m))).
Proof.
  do 2 eexists. split; [vm_compute; reflexivity|]. split; [vm_compute; reflexivity|]. split.
  - vm_compute. tauto.
  - vm_compute. tauto.
Qed.
Print Assumptions C32_missing_refuted.

Example C32_example :
  (forall c e d, In (c, e) (const_defs sample_file) -> In d (const_names sample_file) -> ~ In d (unbound e []))
  /\ exists lib ms, library 32 sample ["atan2"] [] = Some lib /\ to_simd 32 lib = Ok ms
     /\ List.length (const_names lib) = 3 /\ map m_name ms = ["atan2"].
Proof.
  split.
  - intros c e d [H|[H|[]]] _; injection H as <- <-; intros [].
  - do 2 eexists. split; [vm_compute; reflexivity|]. split; [vm_compute; reflexivity|]. split; reflexivity.
Qed.
