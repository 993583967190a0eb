(** Properties C66, C67: the text of generated Rust libraries and their tests.
    Theorems only. *)
From Coq Require Import List String Ascii Bool Arith ZArith.
From Verif Require Import Res Syntax Item RustFmt RustLex Functions FunctionsFacts GenCode GenCodeFacts GenTokens ItemTokens
  RustLibrary RustTrees RustSub RustTests.
Import ListNotations.
Open Scope string_scope.
Open Scope list_scope.

(** ** C66 the text of a library is the library *)

(** The text exists and reads back as exactly the generated tokens, whatever is
    requested, with or without tests and plots. [sub]: the spliced
    approximations; [rows], [acc]: the numbers in the tests. *)
Theorem C66_text :
  forall bits tests plots sub rows acc names exclude ts, bits = 32%Z \/ bits = 64%Z ->
  (forall n, insertable (sub n) = true) -> (forall t r, In r (rows t) -> row_ok r = true) -> (forall t, lit_text (acc t) = true) ->
  library_tokens bits tests plots sub rows acc names exclude = Some ts ->
  exists text, format_token_stream ts = Ok text /\ rust_lex text = stream_tokens ts.
Proof. exact library_text. Qed.
Print Assumptions C66_text.

(** What approximations and constants are made of may be spliced. *)
Theorem C66_spliced : forall e, simple e = true -> insertable (expr_tts e) = true.
Proof. exact simple_insertable. Qed.
Print Assumptions C66_spliced.

(** These tokens are the tokens of the trees of [library] (what C26, C46, C47
    and C56-C65 speak about), with the same approximation spliced into the same
    [T], but for the attributes, [pub] and the spelling of numbers. *)
Theorem C66_trees :
  forall bits sub name, bits = 32%Z \/ bits = 64%Z ->
  exists T, tokens bits (fun n => expr_tts (sub n)) name = quote [("sub", expr_tts (sub name))] T /\
  flat_map item_tts (code bits sub name) = quote [("sub", expr_tts (sub name))] (plain T).
Proof.
  intros bits sub name HB. exists (template bits name). split.
  - exact (tokens_template bits (fun n => expr_tts (sub n)) name HB).
  - exact (code_template bits sub name HB).
Qed.
Print Assumptions C66_trees.

(** A chain as [approx] emits it, and the library of sin, exp2 with tests. *)
Definition chain : expr :=
  EMethodCall (EMethodCall (ELit (LFloat "0.25" "f32")) "mul_add" None [EPath ["x"]; EUnary UNeg (ELit (LFloat "1.5" "f32"))])
    "mul_add" None [EPath ["x"]; ELit (LFloat "1.0" "f32")].
Definition number (s : string) : list tt := [TLit s].
Definition lib_tokens (plots : bool) : list tt :=
  match library_tokens 32 true plots (fun _ => expr_tts chain) (fun _ => [(number "0.5", number "0.25", number "0.0")]) (fun _ => "0.001")
    ["sin"; "exp2"] [""] with
  | Some ts => ts
  | None => []
  end.
Example C66_example :
  simple chain = true /\ row_ok (number "0.5", number "0.25", number "0.0") = true /\ lit_text "0.001" = true /\
  800 <= List.length (stream_tokens (lib_tokens false)) < List.length (stream_tokens (lib_tokens true)) /\
  match format_token_stream (lib_tokens true) with
  | Ok text => rust_lex text = stream_tokens (lib_tokens true) /\ 1000 <= List.length (rust_lex text)
  | _ => False
  end.
Proof.
  split; [vm_compute; reflexivity|]. split; [vm_compute; reflexivity|]. split; [vm_compute; reflexivity|].
  split; [split; apply Nat.leb_le; vm_compute; reflexivity|].
  destruct (format_token_stream (lib_tokens true)) as [text|e|] eqn:E; [|vm_compute in E; discriminate|vm_compute in E; discriminate].
  vm_compute in E. injection E as <-. split; [vm_compute; reflexivity|apply Nat.leb_le; vm_compute; reflexivity].
Qed.

(** ** C67 what the tests call is there *)

(** Missing from the full claim: libraries with rnorm but not dnorm (next
    theorem), and excluded functions of the table. *)
Theorem C67_called_partial :
  forall bits sub names exclude lib, bits = 32%Z \/ bits = 64%Z ->
  library bits sub names exclude = Some lib -> (forall n, In n exclude -> ~ In n table_names) ->
  forall f t w, In t (specs f) -> reach FUNCTIONS names exclude f -> In w (called t) ->
  (f = "rnorm" -> w = "dnorm" -> reach FUNCTIONS names exclude "dnorm") ->
  exists it, In it lib /\ item_name it = Some w.
Proof. exact tests_called. Qed.
Print Assumptions C67_called_partial.

(** The library of rnorm comes with a test that calls dnorm, which it does not
    define. *)
Theorem C67_refuted :
  exists names lib t, (forall bits sub, library bits sub names [] = Some (lib bits sub)) /\ In t (specs "rnorm") /\
  reach FUNCTIONS names [] "rnorm" /\ In "dnorm" (called t) /\
  forall bits sub, bits = 32%Z \/ bits = 64%Z -> ~ exists it, In it (lib bits sub) /\ item_name it = Some "dnorm".
Proof.
  set (l := fun bits sub => match library bits sub ["rnorm"] [] with Some l => l | None => [] end).
  assert (K : forall bits sub, library bits sub ["rnorm"] [] = Some (l bits sub)).
  { intros. unfold l. destruct (library_exists bits sub ["rnorm"] []) as (x & ->). reflexivity. }
  destruct (specs "rnorm") as [|t r] eqn:E; [vm_compute in E; discriminate|].
  assert (I : In t (specs "rnorm")) by (rewrite E; left; reflexivity).
  exists ["rnorm"], l, t. split; [exact K|]. split; [left; reflexivity|]. split; [constructor; [left; reflexivity|intros []]|].
  split; [exact (proj1 (rnorm_test 32 (fun _ => EOther "") _ t (or_introl eq_refl) (K _ _) I))|].
  intros bits sub HB. exact (proj2 (rnorm_test bits sub _ t HB (K _ _) I)).
Qed.
Print Assumptions C67_refuted.

(** No two tests share a name, with each other or with anything generated. *)
Theorem C67_names :
  NoDup (map s_name (flat_map (fun f => specs (f_name f)) FUNCTIONS) ++ ["test_function"; "plot_function"] ++ table_names).
Proof. exact tests_distinct. Qed.
Print Assumptions C67_names.

Example C67_example :
  List.length (flat_map (fun f => specs (f_name f)) FUNCTIONS) = 34 /\
  map called (specs "sin") = [["sin"]; ["sin"]; ["sin"]; ["sin"]] /\ map called (specs "rnorm") = [["rnorm"; "dnorm"]].
Proof. repeat split; vm_compute; reflexivity. Qed.
