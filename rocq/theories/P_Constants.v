(** Property C62: the mathematical constants of the generated library.  Theorems only.
    [const_source name] is the expression evaluated for the constant; [toks] the tokens of an expression as they are
    written into the generated file and [rust_parse] reading them back. *)
From Coq Require Import List String Bool ZArith QArith Reals Ascii Lia Lra.
From Flocq Require Import Core IEEE754.Binary IEEE754.Bits.
From Verif Require Import Res Dec DecFacts DecStr Syntax Trans Parse BdMath Eval TrigAcc Item Functions FunctionsFacts GenCode GenCodeFacts GenSem FloatBits GenRun GenFloat GenFloat4
  TestTable ConstSource Constants P_Generated.
From Flocq Require Import Core.
Import ListNotations.
Open Scope string_scope.
Open Scope list_scope.
Open Scope R_scope.

(** Evaluation succeeds, the literal survives printing and parsing, and as a float it is the real constant up to a
    relative error of at most 1.00001 half units. *)
Theorem C62_constants :
  forall o bits name v, (name = "SQRT_RECIP_2PI" -> sqrt_good o) -> (bits = 32 \/ bits = 64)%Z ->
  In (name, v) [("PI", PI); ("PI_BY_2", PI / 2); ("PI_BY_8", PI / 8); ("TAN_PI_BY_8", tan (PI / 8)); ("LOG2_E", 1 / ln 2);
    ("RECIP_LOG2_E", ln 2); ("RECIP_LOG2_10", ln 2 / ln 10); ("RECIP_PI", 1 / PI); ("RECIP_2PI", 1 / (2 * PI));
    ("SQRT_RECIP_2PI", sqrt (1 / (2 * PI)))] ->
  exists e fuel0, const_source name = Some e /\ forall fuel, (fuel0 <= fuel)%nat -> exists c,
    eval o fuel (config_digits bits) e = Ok c /\ rust_parse (toks c) = Some c /\
    forall sub lib nan_of std checked, generated bits sub lib [name] -> sub name = c ->
      exists x : flt bits, const_of bits nan_of std checked lib name = Ok (VFlt x) /\ finite x = true /\
        Rabs (fR x - v) <= (1 + / 100000) * bpow radix2 (- prec bits) * v.
Proof.
  intros o bits name v G HB I. destruct (constant_float o bits name v G HB I) as (e & f & S & H). exists e, f. split; [exact S|]. intros fuel Hf.
  destruct (H fuel Hf) as (c & E & P & L). exists c. split; [exact E|]. split; [exact P|]. intros sub lib nan_of std checked Gn Hs.
  apply (L sub); [|exact Hs]. apply (generated_has _ _ _ _ Gn). left. reflexivity.
Qed.
Print Assumptions C62_constants.

(** pi as an f32: the literal, and the bits of the constant in the whole library *)
Definition pi_lit : expr := ELit (LFloat "3.14159265358979323846" "").
Definition pi_lib : list item := match library 32 (fun _ => pi_lit) ["libm"; "all"] [] with Some l => l | None => [] end.
Example C62_case : forall o nan_of,
  const_source "PI" = Some (EPath ["PI"]) /\ eval o 0 (config_digits 32) (EPath ["PI"]) = Ok pi_lit /\
  generated 32 (fun _ => pi_lit) pi_lib ["PI"] /\
  match const_of 32 nan_of (no_std 32) true pi_lib "PI" with Ok (VFlt x) => to_bits x = 0x40490FDB%Z | _ => False end.
Proof.
  intros o nan_of. split; [reflexivity|]. split; [vm_compute; reflexivity|]. split.
  - split; [left; reflexivity|]. split.
    + exists ["libm"; "all"], []. unfold pi_lib. destruct (library_exists 32 (fun _ => pi_lit) ["libm"; "all"] []) as (l & E). rewrite E. reflexivity.
    + intros n [<-|[]]. assert (A : existsb (fun i => match item_name i with Some m => String.eqb m "PI" | None => false end) pi_lib = true) by (vm_compute; reflexivity).
      apply existsb_exists in A. destruct A as (it & I2 & N). exists it. split; [exact I2|]. destruct (item_name it); [|discriminate]. apply String.eqb_eq in N. congruence.
  - vm_compute. reflexivity.
Qed.
