(** Property C33: retyping number literals.  Theorems only. *)
From Coq Require Import List String Bool ZArith Reals Ascii Lia Lra.
From Flocq Require Import Core IEEE754.BinarySingleNaN IEEE754.Binary IEEE754.Bits.
From Verif Require Import Res Dec DecStr Syntax Visitor GenSem FloatBits GenFloat DecimalLit UseNumberType NumberTypeFacts ExactFloats NumberTypeCases.
Import ListNotations.
Open Scope string_scope.
Open Scope list_scope.
Open Scope Z_scope.

(** Only integer and float literals change, whatever the mode. *)
Theorem C33_structure : forall (F : floats) (kind : string) (bits : Z) (e e' : expr),
  use_number_type F kind bits e = Ok e' -> relit (fun l r => is_number l = false -> r = ELit l) e e'.
Proof.
  intros F kind bits e e'. apply visit_relit. intros l r _ R N. destruct l; try discriminate N; cbn in R; congruence.
Qed.
(** Any other mode changes nothing. *)
Theorem C33_other_modes : forall (F : floats) (kind : string) (bits : Z) (e e' : expr),
  ~ ((kind = "decimal" \/ kind = "hex") /\ (bits = 32 \/ bits = 64)) -> use_number_type F kind bits e = Ok e' -> e' = e.
Proof. exact other_modes_same. Qed.

(** In the modes decimal 32, decimal 64 and hex 32 every number becomes an
    expression of the requested float type.  When [10f64.powi] has the relative
    error [k] its value is within [k] plus about one unit of the literal's; the
    nearest float is not always reached, see below. *)
Theorem C33_close_partial : forall (F : floats) (k : R) (kind : string) (bits : Z) (e : expr),
  reads_back F -> powi_within F k -> (0 <= k <= 1 / 1024)%R -> working kind bits -> supported e = true ->
  (forall l, In l (lits e) -> is_number l = true -> exists n, number_of l = Some n /\ ordinary bits n) ->
  exists e', use_number_type F kind bits e = Ok e' /\
    relit (fun l r => is_number l = true -> exists n x, number_of l = Some n /\ denotes bits r x /\ finite x = true /\
      (Rabs (fR x - dreal n) <= (k + (if (bits =? 32)%Z then bpow radix2 (-23) else 3 * bpow radix2 (-53))) * Rabs (dreal n))%R) e e'.
Proof. exact all_close. Qed.

(** Integers: the nearest float, up to 2^53 in size for f32. *)
Theorem C33_integer_partial : forall (F : floats) (kind : string) (bits : Z) (m : Z) (l : lit),
  reads_back F -> finite (powi10 F 0) = true -> fR (powi10 F 0) = 1%R -> working kind bits ->
  is_number l = true -> number_of l = Some (BD m 0) -> Z.abs m <= (if bits =? 32 then 2 ^ 53 else 2 ^ 1023) ->
  exists r x, use_number_type F kind bits (ELit l) = Ok r /\ denotes bits r x /\ nearest_to (IZR m) x.
Proof. exact integer_nearest. Qed.

(** 0.3 becomes 0.30000000000000004f64 (3 times the float nearest 1/10). *)
Theorem C33_nearest_refuted : forall F : floats, reads_back F -> powi10 F (-1) = of_decimal 64 (BD 1 1) ->
  exists r x, use_number_type F "decimal" 64 (ELit (LFloat "0.3" "")) = Ok r /\ denotes 64 r x /\ ~ nearest_to (3 / 10) x.
Proof. exact tenths. Qed.
(** f32 values are rounded twice. *)
Theorem C33_twice_rounded_refuted : forall F : floats, powi10 F 0 = of_int 64 1 ->
  exists r x, use_number_type F "hex" 32 (ELit (LInt "18014399583223809" "")) = Ok r /\ denotes 32 r x /\
  ~ nearest_to 18014399583223809 x.
Proof. exact twice_rounded. Qed.
(** In the mode hex 64 no number becomes an expression of type f64: the call is
    [f32::from_bits] with a u64. *)
Theorem C33_hex64_refuted : forall (F : floats) (l : lit) (n : bd), is_number l = true -> number_of l = Some n ->
  exists r, use_number_type F "hex" 64 (ELit l) = Ok r /\ (forall x, ~ denotes 64 r x) /\ (forall x, ~ denotes 32 r x).
Proof. exact hex64_stuck. Qed.
(** A zero with a large exponent becomes NaN. *)
Theorem C33_zero_refuted : forall F : floats, powi10 F 400 = inf 64 ->
  exists r x, use_number_type F "hex" 32 (ELit (LFloat "0e400" "")) = Ok r /\ denotes 32 r x /\ Binary.is_nan _ _ x = true.
Proof. exact zero_nan. Qed.

(** The assumptions about the standard library can be met. *)
Example C33_floats_example : forall nans,
  reads_back (exact_floats nans) /\ powi_within (exact_floats nans) (bpow radix2 (-53)) /\
  powi10 (exact_floats nans) (-1) = of_decimal 64 (BD 1 1) /\ powi10 (exact_floats nans) 0 = of_int 64 1 /\
  powi10 (exact_floats nans) 400 = inf 64 /\ finite (powi10 (exact_floats nans) 0) = true /\ fR (powi10 (exact_floats nans) 0) = 1%R.
Proof. exact exact_example. Qed.
(** x * 1.5 + f(2).min(true) in the modes decimal 32 and hex 32 *)
Definition sample : expr :=
  EBinary BAdd (EBinary BMul (EPath ["x"]) (ELit (LFloat "1.5" ""))) (EMethodCall (ELit (LInt "2" "")) "min" None [ELit (LBool true)]).
Example C33_sample_decimal : forall nans, use_number_type (exact_floats nans) "decimal" 32 sample =
  Ok (EBinary BAdd (EBinary BMul (EPath ["x"]) (ELit (LFloat "1.50000000000000000000000" "f32")))
    (EMethodCall (ELit (LFloat "2.0000000000000000000000" "f32")) "min" None [ELit (LBool true)])).
Proof. intros. vm_compute. reflexivity. Qed.
Example C33_sample_hex : forall nans, use_number_type (exact_floats nans) "hex" 32 sample =
  Ok (EBinary BAdd (EBinary BMul (EPath ["x"]) (quote_bits "u32" 1069547520))
    (EMethodCall (quote_bits "u32" 1073741824) "min" None [ELit (LBool true)])).
Proof. intros. vm_compute. reflexivity. Qed.
Example C33_sample_ordinary : Forall (fun l => is_number l = true -> exists n, number_of l = Some n /\ ordinary 32 n) (lits sample).
Proof. exact sample_ordinary. Qed.

Print Assumptions C33_structure.
Print Assumptions C33_other_modes.
Print Assumptions C33_close_partial.
Print Assumptions C33_integer_partial.
Print Assumptions C33_nearest_refuted.
Print Assumptions C33_twice_rounded_refuted.
Print Assumptions C33_hex64_refuted.
Print Assumptions C33_zero_refuted.
