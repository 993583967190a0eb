(** Property C73: the generated hypot.  Theorems only.
    [fR x]: the real value of the float x.  [same x y]: equal, or both NaN.  With p = [prec bits] and e = [emax bits]
    (24 and 128, or 53 and 1024), MIN_POSITIVE is 2^(2-e) and the floats end at 2^e. *)
From Coq Require Import List String Bool ZArith Reals Lra Ascii.
From Flocq Require Import Core IEEE754.Binary.
From Verif Require Import Res Dec Syntax Item GenCode GenCodeFacts GenSem FloatBits GenRun GenFloat GenFloat2 GenFloat4 SignFacts Hypot.
Import ListNotations.
Open Scope string_scope.
Open Scope list_scope.
Open Scope R_scope.

(** ** C73 *)

(** When one argument exceeds MIN_POSITIVE in magnitude, and the length is
    not within eight units of the overflow threshold, the result is finite and within
    5 * 2^-p of the length, relatively. *)
Theorem C73_accuracy :
  forall bits sub lib nan_of std checked, generated bits sub lib ["fty"; "MIN_POSITIVE"; "hypot"] ->
  forall d (x y : flt bits), finite x = true -> finite y = true ->
    bpow radix2 (2 - emax bits) < Rmax (Rabs (fR x)) (Rabs (fR y)) ->
    sqrt (fR x * fR x + fR y * fR y) <= (1 - 8 * bpow radix2 (- prec bits)) * bpow radix2 (emax bits) ->
    exists z, run bits nan_of std checked lib (S d) "hypot" [VFlt x; VFlt y] = Ok (VFlt z) /\ finite z = true /\
      Rabs (fR z - sqrt (fR x * fR x + fR y * fR y)) <= 5 * bpow radix2 (- prec bits) * sqrt (fR x * fR x + fR y * fR y).
Proof. intros bits sub lib nan_of std checked G d x y Fx Fy M O. exists (hypot_of bits nan_of x y). split; [exact (lib_run bits sub lib nan_of std checked d x y G)|]. exact (hypot_accuracy bits (proj1 G) nan_of std x y Fx Fy M O). Qed.
Print Assumptions C73_accuracy.

(** Otherwise the result is the argument of larger magnitude, with its sign (the second when they are equal). *)
Theorem C73_tiny :
  forall bits sub lib nan_of std checked, generated bits sub lib ["fty"; "MIN_POSITIVE"; "hypot"] ->
  forall d (x y : flt bits), finite x = true -> finite y = true ->
    Rabs (fR x) <= bpow radix2 (2 - emax bits) -> Rabs (fR y) <= bpow radix2 (2 - emax bits) ->
    (Rabs (fR y) < Rabs (fR x) -> run bits nan_of std checked lib (S d) "hypot" [VFlt x; VFlt y] = Ok (VFlt x)) /\
    (Rabs (fR x) <= Rabs (fR y) -> run bits nan_of std checked lib (S d) "hypot" [VFlt x; VFlt y] = Ok (VFlt y)).
Proof.
  intros bits sub lib nan_of std checked G d x y Fx Fy Lx Ly. rewrite (lib_run bits sub lib nan_of std checked d x y G). destruct (hypot_tiny bits (proj1 G) nan_of std x y Fx Fy Lx Ly) as [A B].
  split; intros L; [rewrite (A L)|rewrite (B L)]; reflexivity.
Qed.
Print Assumptions C73_tiny.

(** Above MIN_POSITIVE neither the signs nor the order of the arguments matter. *)
Theorem C73_symmetric :
  forall bits sub lib nan_of std checked, generated bits sub lib ["fty"; "MIN_POSITIVE"; "hypot"] ->
  forall d (x y x' y' : flt bits), finite x = true -> finite y = true ->
    bpow radix2 (2 - emax bits) < Rmax (Rabs (fR x)) (Rabs (fR y)) ->
    x' = x \/ x' = fneg bits x -> y' = y \/ y' = fneg bits y ->
    exists z z1 z2, run bits nan_of std checked lib (S d) "hypot" [VFlt x; VFlt y] = Ok (VFlt z) /\
      run bits nan_of std checked lib (S d) "hypot" [VFlt x'; VFlt y'] = Ok (VFlt z1) /\
      run bits nan_of std checked lib (S d) "hypot" [VFlt y'; VFlt x'] = Ok (VFlt z2) /\ same z z1 /\ same z z2.
Proof.
  intros bits sub lib nan_of std checked G d x y x' y' Fx Fy M X Y. do 3 eexists. do 3 (split; [exact (lib_run bits sub lib nan_of std checked d _ _ G)|]).
  exact (hypot_symmetric bits (proj1 G) nan_of std x y x' y' Fx Fy M X Y).
Qed.
Print Assumptions C73_symmetric.

(** One infinite argument and one finite one give plus infinity. *)
Theorem C73_infinite :
  forall bits sub lib nan_of std checked, generated bits sub lib ["fty"; "MIN_POSITIVE"; "hypot"] ->
  forall d s (y : flt bits), finite y = true ->
    run bits nan_of std checked lib (S d) "hypot" [VFlt (Binary.B754_infinity _ _ s); VFlt y] = Ok (VFlt (inf bits)) /\
    run bits nan_of std checked lib (S d) "hypot" [VFlt y; VFlt (Binary.B754_infinity _ _ s)] = Ok (VFlt (inf bits)).
Proof.
  intros bits sub lib nan_of std checked G d s y F. rewrite !(lib_run bits sub lib nan_of std checked d _ _ G). destruct (hypot_infinite bits (proj1 G) nan_of s y F) as [A B]. rewrite A, B. split; reflexivity.
Qed.
Print Assumptions C73_infinite.

(** Two infinite ones give NaN, where C's hypot and Rust's f32::hypot give plus infinity. *)
Theorem C73_infinities :
  forall bits sub lib nan_of std checked, generated bits sub lib ["fty"; "MIN_POSITIVE"; "hypot"] ->
  forall d s t, exists z, run bits nan_of std checked lib (S d) "hypot" [VFlt (Binary.B754_infinity _ _ s); VFlt (Binary.B754_infinity _ _ t)] = Ok (VFlt z) /\
    Binary.is_nan _ _ z = true.
Proof. intros bits sub lib nan_of std checked G d s t. eexists. split; [exact (lib_run bits sub lib nan_of std checked d _ _ G)|]. exact (hypot_infinities bits (proj1 G) nan_of s t). Qed.
Print Assumptions C73_infinities.

(** A second argument that is NaN gives NaN; C's hypot and Rust's give plus infinity if the first is infinite. *)
Theorem C73_nan_second :
  forall bits sub lib nan_of std checked, generated bits sub lib ["fty"; "MIN_POSITIVE"; "hypot"] ->
  forall d (x y : flt bits), Binary.is_nan _ _ y = true ->
  exists z, run bits nan_of std checked lib (S d) "hypot" [VFlt x; VFlt y] = Ok (VFlt z) /\ Binary.is_nan _ _ z = true.
Proof. intros bits sub lib nan_of std checked G d x y N. eexists. split; [exact (lib_run bits sub lib nan_of std checked d _ _ G)|]. exact (hypot_nan_second bits (proj1 G) nan_of x y N). Qed.
Print Assumptions C73_nan_second.

(** A first argument that is NaN gives NaN, unless the second does not exceed MIN_POSITIVE: that one is returned. *)
Theorem C73_nan_first :
  forall bits sub lib nan_of std checked, generated bits sub lib ["fty"; "MIN_POSITIVE"; "hypot"] ->
  forall d (x y : flt bits), Binary.is_nan _ _ x = true ->
  exists z, run bits nan_of std checked lib (S d) "hypot" [VFlt x; VFlt y] = Ok (VFlt z) /\
    (finite y = true /\ Rabs (fR y) <= bpow radix2 (2 - emax bits) -> z = y) /\
    (finite y = false \/ bpow radix2 (2 - emax bits) < Rabs (fR y) -> Binary.is_nan _ _ z = true).
Proof. intros bits sub lib nan_of std checked G d x y N. eexists. split; [exact (lib_run bits sub lib nan_of std checked d _ _ G)|]. exact (hypot_nan_first bits (proj1 G) nan_of std x y N). Qed.
Print Assumptions C73_nan_first.

(** The floats 3, 4, 5 and the smallest positive ones, in a 32-bit library. *)
Definition three : flt 32 := of_decimal 32 (BD 3 0).
Definition four : flt 32 := of_decimal 32 (BD 4 0).
Example C73_three_four_five : forall sub nan_of std checked,
  exists z, run 32 nan_of std checked (hypot_lib sub) 1 "hypot" [VFlt three; VFlt four] = Ok (VFlt z) /\ to_bits z = to_bits (of_decimal 32 (BD 5 0)).
Proof. intros sub nan_of std checked. eexists. split; [exact (lib_run 32 sub _ nan_of std checked 0 three four (hypot_lib_generated sub))|]. vm_compute. reflexivity. Qed.
Lemma three_value : fR three = 3 /\ finite three = true.
Proof. split; [|vm_compute; reflexivity]. rewrite <- Binary.FF2R_B2FF. replace (Binary.B2FF _ _ _) with (Binary.F754_finite false 12582912 (-22)) by (vm_compute; reflexivity). unfold Binary.FF2R, F2R. cbn [cond_Zopp Fnum Fexp]. change (bpow radix2 (-22)) with (/ 4194304). lra. Qed.
Lemma four_value : fR four = 4 /\ finite four = true.
Proof. split; [|vm_compute; reflexivity]. rewrite <- Binary.FF2R_B2FF. replace (Binary.B2FF _ _ _) with (Binary.F754_finite false 8388608 (-21)) by (vm_compute; reflexivity). unfold Binary.FF2R, F2R. cbn [cond_Zopp Fnum Fexp]. change (bpow radix2 (-21)) with (/ 2097152). lra. Qed.
Example C73_accuracy_applies : bpow radix2 (2 - emax 32) < Rmax (Rabs (fR three)) (Rabs (fR four)) /\
  sqrt (fR three * fR three + fR four * fR four) <= (1 - 8 * bpow radix2 (- prec 32)) * bpow radix2 (emax 32).
Proof.
  rewrite (proj1 three_value), (proj1 four_value). split.
  - apply Rlt_le_trans with (Rabs 4); [|apply Rmax_r]. rewrite Rabs_pos_eq by lra. apply Rle_lt_trans with (bpow radix2 0); [apply bpow_le; vm_compute; discriminate|cbn; lra].
  - replace (3 * 3 + 4 * 4) with (5 * 5) by ring. rewrite sqrt_square by lra. assert (A : bpow radix2 (- prec 32) <= bpow radix2 (-4)) by (apply bpow_le; vm_compute; discriminate).
    assert (B : bpow radix2 4 <= bpow radix2 (emax 32)) by (apply bpow_le; vm_compute; discriminate). change (bpow radix2 (-4)) with (/ 16) in A. change (bpow radix2 4) with 16 in B. apply Rle_trans with (/ 2 * 16); [lra|apply Rmult_le_compat; lra].
Qed.
(** The length of (-2^-149, 0) comes out negative. *)
Example C73_tiny_negative : forall sub nan_of std checked,
  run 32 nan_of std checked (hypot_lib sub) 1 "hypot" [VFlt (of_bits 32 (2 ^ 31 + 1)); VFlt (of_bits 32 0)] = Ok (VFlt (of_bits 32 (2 ^ 31 + 1))).
Proof.
  intros sub nan_of std checked. rewrite (lib_run 32 sub _ nan_of std checked 0 _ _ (hypot_lib_generated sub)). do 2 f_equal.
Qed.
(** A request for hypot alone gives a library without MIN_POSITIVE, in which hypot cannot run. *)
Example C73_alone : forall sub nan_of std checked, exists lib, library 32 sub ["hypot"] [] = Some lib /\ map item_name lib = [Some "fty"; Some "hypot"] /\
  forall z, run 32 nan_of std checked lib 1 "hypot" [VFlt three; VFlt four] <> Ok z.
Proof. intros sub nan_of std checked. eexists. split; [vm_compute; reflexivity|]. split; [reflexivity|]. intros z E. vm_compute in E. discriminate E. Qed.
(** hypot(NaN, 0.0) is 0.0. *)
Example C73_nan_lost : forall sub nan_of std checked, exists nan : flt 32, Binary.is_nan _ _ nan = true /\
  run 32 nan_of std checked (hypot_lib sub) 1 "hypot" [VFlt nan; VFlt (of_bits 32 0)] = Ok (VFlt (of_bits 32 0)).
Proof.
  intros sub nan_of std checked. exists (of_bits 32 2143289344). split; [vm_compute; reflexivity|].
  rewrite (lib_run 32 sub _ nan_of std checked 0 _ _ (hypot_lib_generated sub)). do 2 f_equal.
Qed.
