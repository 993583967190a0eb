(** C71: what libmgen computes is fit for its templates, so that the theorems
    about generated libraries hold for real runs.  Theorems only. *)
From Coq Require Import List String Ascii Bool ZArith.
From Verif Require Import Res Syntax BdMath AccEval UseNumberType NumberTypeFacts ExactFloats Item Functions FunctionsFacts RustFmt RustLex GenTokens ItemTokens
  RustSub CGen CGenFacts CLex CText CLibrary CNames CNamesText GenCode GenCodeFacts GenType GenTypeLib CNamesFacts Main MainFacts P_Main P_CNames P_Types Spliced SplicedOk SplicedExample.
Import ListNotations.
Open Scope string_scope.
Open Scope list_scope.

(** ** C71 *)

(** The expressions are tokens that survive printing, mention only their
    variable and primitive types, and have the right types. *)
Theorem C71_spliced :
  forall F o kind bits sub, working kind bits -> plain_show F -> reads_back F -> spliced F o kind bits sub ->
  (forall n, simple (sub n) = true) /\ plain_sub sub /\ fits bits sub /\ forall n, expr_ok (cof (sub n)) = true.
Proof.
  intros F o kind bits sub W PS RB SP. split; [exact (spliced_simple F o kind bits W PS sub SP)|]. split; [exact (spliced_plain F o kind bits W PS sub SP)|].
  split; [exact (spliced_fits F o kind bits W PS sub SP RB)|exact (spliced_c F o kind bits W PS sub SP)].
Qed.
Print Assumptions C71_spliced.

(** The file that a run writes is the Rust library, tests included. *)
Theorem C71_file :
  forall F o kind w opts ts path, working kind (o_bits opts) -> plain_show F -> made F o kind (o_bits opts) w ->
  asks opts -> o_language opts = "rust" -> o_output opts = Some path -> w_writable w path = true ->
  library_tokens (o_bits opts) (o_tests opts) (o_plots opts) (fun n => expr_tts (w_sub w n)) (w_rows w) (w_accuracy w)
    (split_commas (o_functions opts)) (split_commas (o_exclude opts)) = Some ts ->
  exists e text, main w opts = Ok e /\ e_file e = Some (path, text) /\ rust_lex text = stream_tokens ts.
Proof.
  intros F o kind w opts ts path W PS M A L O Wr E.
  destruct (C68_rust_partial w opts ts (made_usual F o kind _ w W PS M) A (working_bits kind _ W) L E) as (text & R & H).
  rewrite O in H. destruct (proj1 H Wr) as (e & X & Y). exists e, text. auto.
Qed.
Print Assumptions C71_file.

(** Which libraries type-check. *)
Theorem C71_types :
  forall F o kind bits sub names exclude lib, working kind bits -> plain_show F -> reads_back F -> spliced F o kind bits sub ->
  library bits sub names exclude = Some lib ->
  (well_typed bits lib <->
   self_contained lib /\ forall it n, In it lib -> item_name it = Some n -> ~ In n ["ONE_MASK"; "ONE_BITS"; "log2"; "runif"]).
Proof.
  intros F o kind bits sub names exclude lib W PS RB SP. destruct (C71_spliced F o kind bits sub W PS RB SP) as (_ & P & Fi & _).
  exact (C48_criterion_partial bits sub names exclude lib (working_bits kind bits W) P Fi).
Qed.
Print Assumptions C71_types.

(** Which C libraries declare what they use, with decimal numbers. *)
Theorem C71_c :
  forall F o bits sub names exclude lib text, bits = 32%Z \/ bits = 64%Z -> plain_show F -> spliced F o "decimal" bits sub ->
  library bits sub names exclude = Some lib -> to_c (c_opts bits) (map cof_item lib) = Ok text ->
  (c_closed text = true <->
   self_contained lib /\ forall it n, In it lib -> item_name it = Some n ->
     In n ["fty"; "uty"; "ity"; "LOG2_SHIFT"; "LOG2_OFFSET"; "ONE_MASK"; "ONE_BITS"; "EXP2_ONE"; "EXP2_SCALE"; "EXP2_MIN"; "EXP2_MAX";
           "ONE_THIRD"; "TWO_THIRDS"; "PI"; "PI_BY_2"; "TAN_PI_BY_8"; "PI_BY_8"; "LOG2_E"; "RECIP_LOG2_E"; "RECIP_LOG2_10"; "RECIP_PI";
           "RECIP_2PI"; "SQRT_RECIP_2PI"; "asin"; "acos"]).
Proof.
  intros F o bits sub names exclude lib text B PS SP. assert (W : working "decimal" bits) by (left; auto).
  exact (C70_criterion_partial bits sub names exclude lib text B (spliced_plain F o _ bits W PS sub SP) (spliced_decimal F o _ bits W PS sub SP eq_refl)
    (spliced_c F o _ bits W PS sub SP)).
Qed.
Print Assumptions C71_c.

(** With hexadecimal numbers the C text of every polynomial calls a function
    that no library defines. *)
Theorem C71_hex :
  forall F o sub n, plain_show F -> spliced F o "hex" 32 sub -> is_const_item (template 32 n) = false ->
  In "ds32_f32_from_bits" (c_lex (expr_text (c_opts 32) (cof (sub n)))).
Proof. exact spliced_hex. Qed.
Print Assumptions C71_hex.

(** Such runs exist, in decimal and in hexadecimal; the polynomial of sin and
    the constant RECIP_2PI are in the library of sin. *)
Example C71_example :
  forall nans, plain_show (exact_floats nans) /\ reads_back (exact_floats nans) /\
  (exists sub, spliced (exact_floats nans) sqrt_oracles "decimal" 32 sub /\
     exists w, w_sub w = sub /\ made (exact_floats nans) sqrt_oracles "decimal" 32 w) /\
  (exists sub, spliced (exact_floats nans) sqrt_oracles "hex" 32 sub /\ is_const_item (template 32 "sin") = false) /\
  asks (Opt None false false (Some "lib.rs") "sin" "" 32 "rust").
Proof.
  intros nans. split; [apply exact_plain|]. split; [apply exact_reads_back|]. split; [|split].
  - destruct (spliced_exists nans "decimal" (or_introl eq_refl)) as (sub & SP). exists sub. split; [exact SP|].
    exists (World sub (fun _ => []) (fun _ => "0f64") (fun _ => None) (fun _ => None) (fun _ => []) (fun _ => true)). split; [reflexivity|].
    split; [exact SP|]. split; [intros t r []|]. intros t. exists (Flocq.IEEE754.Binary.B754_zero _ _ false). repeat split.
  - destruct (spliced_exists nans "hex" (or_intror eq_refl)) as (sub & SP). exists sub. split; [exact SP|reflexivity].
  - repeat split; discriminate.
Qed.
