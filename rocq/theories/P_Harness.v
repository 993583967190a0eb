(** Property C40: the generated tests.  Theorems only. *)
From Coq Require Import List Bool ZArith Reals Lia Lra.
From Flocq Require Import Core IEEE754.BinarySingleNaN IEEE754.Binary IEEE754.Bits.
From Verif Require Import GenSem FloatBits GenFloat Harness HarnessFacts NumberTypeCases.
Import ListNotations.
Open Scope Z_scope.

(** A passing test: at every sample whose measured error is not NaN the
    measured error is at most the limit; infinite results are caught.
    Missing for the full claim: samples where the error is NaN. *)
Theorem C40_measured_partial : forall bits nan_of (f : flt bits -> flt bits) (rows : list (flt bits * flt bits * flt bits)) (limit : flt bits),
  test_passes bits nan_of f rows limit = true -> forall x yref yerr, In (x, yref, yerr) rows ->
  let error := fabs bits (fsub bits nan_of (fsub bits nan_of (f x) yref) yerr) in
  is_nan_f error = false -> le_ext error limit.
Proof. intros bits nan_of f rows limit T x yref yerr I error N. exact (passes_bound bits nan_of f rows limit T (x, yref, yerr) I N). Qed.
(** At every sample with a finite result the true error is at most the limit,
    up to the rounding of the measurement. *)
Theorem C40_error_partial : forall bits nan_of (f : flt bits -> flt bits) (rows : list (flt bits * flt bits * flt bits)) (limit : flt bits),
  test_passes bits nan_of f rows limit = true -> finite limit = true -> forall x yref yerr, In (x, yref, yerr) rows ->
  finite (f x) = true -> finite yref = true -> finite yerr = true ->
  (Rabs (fR (f x) - (fR yref + fR yerr)) <=
   (1 + bpow radix2 (- prec bits)) ^ 2 * fR limit + bpow radix2 (- prec bits) * Rabs (fR yerr))%R.
Proof. exact finite_error. Qed.
(** A function that returns NaN everywhere passes. *)
Theorem C40_nan_refuted : forall bits nan_of (f : flt bits -> flt bits) (rows : list (flt bits * flt bits * flt bits)) (limit : flt bits),
  (forall x yref yerr, In (x, yref, yerr) rows -> is_nan_f (f x) = true) -> le_ext (B754_zero _ _ false) limit ->
  test_passes bits nan_of f rows limit = true.
Proof. exact nan_passes. Qed.
(** The assertion that the largest error is not NaN cannot fail. *)
Theorem C40_nan_assertion_vacuous : forall bits nan_of (f : flt bits -> flt bits) (rows : list (flt bits * flt bits * flt bits)),
  is_nan_f (max_error bits nan_of f rows (zero bits)) = false.
Proof. intros. apply (max_error_bounds bits nan_of f rows (zero bits)). reflexivity. Qed.

(** The histogram test says something about the last bucket only. *)
Theorem C40_histogram_partial : forall nan_of (pdf : flt 64 -> flt 64) (tmin tmax : flt 64) (h : list Z) (last : Z),
  histogram_passes nan_of pdf tmin tmax (h ++ [last]) =
  match fcmp 64 (bucket_error nan_of pdf tmin tmax (Z.of_nat (length h)) last) milli with Some Lt => true | _ => false end.
Proof. intros. unfold histogram_passes. rewrite hist_last. reflexivity. Qed.
(** So any counts pass once the last bucket is right. *)
Theorem C40_histogram_refuted : forall nan_of (h : list Z), length h = 31%nat ->
  histogram_passes nan_of (fun _ => of_int 64 1) (of_int 64 0) (of_int 64 1) (h ++ [31250]) = true.
Proof. exact last_bucket. Qed.

(** Hypotheses met: the identity tested against itself at 1 and 2, limit 1. *)
Example C40_example : test_passes 64 (some_nan 64) (fun x => x)
  [(of_int 64 1, of_int 64 1, of_int 64 0); (of_int 64 2, of_int 64 2, of_int 64 0)] (of_int 64 1) = true.
Proof. vm_compute. reflexivity. Qed.
(** … and one that fails: an infinite result. *)
Example C40_infinite_example : test_passes 64 (some_nan 64) (fun x => inf 64)
  [(of_int 64 1, of_int 64 1, of_int 64 0)] (of_int 64 1) = false.
Proof. vm_compute. reflexivity. Qed.

Print Assumptions C40_measured_partial.
Print Assumptions C40_error_partial.
Print Assumptions C40_nan_refuted.
Print Assumptions C40_nan_assertion_vacuous.
Print Assumptions C40_histogram_partial.
Print Assumptions C40_histogram_refuted.
