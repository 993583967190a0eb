(** The facts about generated functions, for every library that has them. *)
From Coq Require Import List String Bool ZArith Reals Ascii Lia Lra.
From Flocq Require Import Core IEEE754.BinarySingleNaN IEEE754.Binary IEEE754.Bits.
From Verif Require Import Res Dec DecStr Syntax Item Functions FunctionsFacts GenCode GenCodeFacts GenSem FloatBits GenRun GenFloat GenFloat2 GenFloat3.
Import ListNotations.
Open Scope string_scope.
Open Scope list_scope.
Open Scope Z_scope.

(** the generated library [lib] has items of these names *)
Definition generated (bits : Z) (sub : string -> expr) (lib : list item) (needs : list string) : Prop :=
  (bits = 32 \/ bits = 64) /\ (exists names exclude, library bits sub names exclude = Some lib) /\
  forall n, In n needs -> exists it, In it lib /\ item_name it = Some n.
Lemma generated_has bits sub lib needs : generated bits sub lib needs -> forall n, In n needs -> has bits sub lib n.
Proof. intros (HB & (names & ex & HL) & A) n I. exact (lib_has bits sub names ex lib n HB HL (A n I)). Qed.
Ltac needs H := let h := fresh in pose proof (generated_has _ _ _ _ H) as h.

Theorem lib_nextafter bits sub lib nan_of std checked d (x : flt bits) : generated bits sub lib ["fty"; "nextafter"] ->
  finite x = true -> sign x = false ->
  exists y, run bits nan_of std checked lib (S d) "nextafter" [VFlt x] = Ok (VFlt y) /\ least_above x y.
Proof.
  intros G F S. needs G. destruct G as (HB & _).
  apply (nextafter_ok bits sub lib nan_of std checked d x HB); try (apply H; cbn; tauto); assumption.
Qed.
Theorem lib_negate bits sub lib nan_of std checked d (x y : flt bits) : generated bits sub lib ["fty"; "uty"; "ity"; "negate_on_odd"] ->
  finite x = true -> (Rabs (fR x) < IZR (2 ^ (bits - 1)))%R ->
  exists z, run bits nan_of std checked lib (S d) "negate_on_odd" [VFlt x; VFlt y] = Ok (VFlt z) /\
    if Z.odd (Ztrunc (fR x)) then negated y z else z = y.
Proof.
  intros G F A. needs G. destruct G as (HB & _).
  apply (negate_ok bits sub lib nan_of std checked d x y HB); try (apply H; cbn; tauto); assumption.
Qed.
Theorem lib_round bits sub lib nan_of std checked d (x : flt bits) : generated bits sub lib ["fty"; "ity"; "round"] -> roundable x ->
  exists r k, run bits nan_of std checked lib (S d) "round" [VFlt x] = Ok (VFlt r) /\ finite r = true /\ fR r = IZR k /\ nearest_away (fR x) k.
Proof.
  intros G R. needs G. destruct G as (HB & _).
  apply (round_ok bits sub lib nan_of std checked d x HB); try (apply H; cbn; tauto); assumption.
Qed.

(** runif(i, 0, 1) *)
Lemma fmt_runif nan_of i : generic_format radix2 (fx 64) (fR (runif_unit nan_of i)).
Proof. apply fmt_flt. Qed.
Theorem lib_runif sub lib nan_of std checked d i (a b : flt 64) : generated 64 sub lib runif_needs -> 0 <= i < 2 ^ 64 - 1 ->
  finite a = true -> fR a = 0%R -> finite b = true -> fR b = 1%R ->
  exists r, run 64 nan_of std checked lib (S d) "runif" [VInt USize i; VFlt a; VFlt b] = Ok (VFlt r) /\ finite r = true /\
    fR r = (IZR (splitmix i / 4 mod 2 ^ 52) / IZR (2 ^ 52))%R.
Proof.
  intros G I Fa Va Fb Vb. needs G. eexists. split; [apply (run_runif sub lib nan_of std checked d i a b H I)|].
  destruct (unit_ok nan_of i) as [Fu Vu].
  assert (U : (0 <= fR (runif_unit nan_of i) < 1)%R).
  { rewrite Vu. pose proof (Z.mod_pos_bound (splitmix i / 4) (2 ^ 52) ltac:(reflexivity)) as [L U]. apply IZR_le in L. apply IZR_lt in U.
    assert (P : (0 < IZR (2 ^ 52))%R) by (apply IZR_lt; reflexivity). split.
    - apply Rmult_le_pos; [exact L|left; apply Rinv_0_lt_compat; exact P].
    - apply Rmult_lt_reg_r with (1 := P). unfold Rdiv. rewrite Rmult_assoc, Rinv_l, Rmult_1_r, Rmult_1_l by lra. exact U. }
  destruct (fsub_value 64 nan_of b a Fb Fa) as [V1 F1].
  { rewrite Va, Vb, Rminus_0_r, (RN_int 64 1) by (cbv; discriminate). apply small_lt_emax. rewrite Rabs_R1. lra. }
  rewrite Va, Vb, Rminus_0_r, (RN_int 64 1) in V1 by (cbv; discriminate).
  assert (FU := fmt_runif nan_of i).
  destruct (fmul_value 64 nan_of (runif_unit nan_of i) _ Fu F1) as [V2 F2].
  { rewrite V1, Rmult_1_r, (RN_fmt 64 _ FU). apply small_lt_emax. rewrite Rabs_pos_eq; lra. }
  rewrite V1, Rmult_1_r, (RN_fmt 64 _ FU) in V2.
  destruct (fadd_value 64 nan_of _ a F2 Fa) as [V3 F3].
  { rewrite V2, Va, Rplus_0_r, (RN_fmt 64 _ FU). apply small_lt_emax. rewrite Rabs_pos_eq; lra. }
  rewrite V2, Va, Rplus_0_r, (RN_fmt 64 _ FU) in V3. split; [exact F3|]. rewrite V3. exact Vu.
Qed.
(** never below [min] *)
Theorem lib_runif_min sub lib nan_of std checked d i (a b : flt 64) : generated 64 sub lib runif_needs -> 0 <= i < 2 ^ 64 - 1 ->
  finite a = true -> finite b = true -> (fR a <= fR b)%R -> (Rabs (fR a) <= IZR (2 ^ 53))%R -> (Rabs (fR b) <= IZR (2 ^ 53))%R ->
  exists r, run 64 nan_of std checked lib (S d) "runif" [VInt USize i; VFlt a; VFlt b] = Ok (VFlt r) /\ finite r = true /\ (fR a <= fR r)%R.
Proof.
  intros G I Fa Fb Le Ba Bb. needs G. eexists. split; [apply (run_runif sub lib nan_of std checked d i a b H I)|].
  destruct (unit_ok nan_of i) as [Fu Vu].
  assert (U : (0 <= fR (runif_unit nan_of i) < 1)%R).
  { rewrite Vu. pose proof (Z.mod_pos_bound (splitmix i / 4) (2 ^ 52) ltac:(reflexivity)) as [L U]. apply IZR_le in L. apply IZR_lt in U.
    assert (P : (0 < IZR (2 ^ 52))%R) by (apply IZR_lt; reflexivity). split.
    - apply Rmult_le_pos; [exact L|left; apply Rinv_0_lt_compat; exact P].
    - apply Rmult_lt_reg_r with (1 := P). unfold Rdiv. rewrite Rmult_assoc, Rinv_l, Rmult_1_r, Rmult_1_l by lra. exact U. }
  assert (FI : forall k, 0 <= k <= 60 -> generic_format radix2 (fx 64) (bpow radix2 k)).
  { intros k K. replace (bpow radix2 k) with (IZR 1 * bpow radix2 k)%R by lra. apply fmt; [reflexivity|]. cbv [emin emax ew prec mw Z.eqb Pos.eqb]. lia. }
  assert (RB : forall k x, 0 <= k <= 60 -> (Rabs x <= bpow radix2 k)%R -> (Rabs (RN 64 x) <= bpow radix2 k)%R).
  { intros k x K X. assert (A : (- bpow radix2 k <= x <= bpow radix2 k)%R) by (revert X; unfold Rabs; destruct (Rcase_abs x); lra).
    apply Rabs_le. rewrite <- (RN_fmt 64 _ (FI k K)). rewrite <- round_NE_opp. split; apply RN_le; lra. }
  assert (EX : forall k x, 0 <= k <= 60 -> (Rabs x <= bpow radix2 k)%R -> (Rabs (RN 64 x) < bpow radix2 (emax 64))%R).
  { intros k x K X. apply Rle_lt_trans with (1 := RB k x K X). apply bpow_lt. cbv [emax ew Z.eqb Pos.eqb]. lia. }
  change (IZR (2 ^ 53)) with (bpow radix2 53) in Ba, Bb.
  assert (B54 : (bpow radix2 54 = 2 * bpow radix2 53)%R) by (change (bpow radix2 54) with (bpow radix2 (1 + 53)); rewrite bpow_plus; reflexivity).
  assert (B55 : (bpow radix2 55 = 2 * bpow radix2 54)%R) by (change (bpow radix2 55) with (bpow radix2 (1 + 54)); rewrite bpow_plus; reflexivity).
  assert (B0 : (0 < bpow radix2 53)%R) by apply bpow_gt_0.
  assert (D0 : (Rabs (fR b - fR a) <= bpow radix2 54)%R) by (rewrite B54; revert Ba Bb; unfold Rabs; repeat destruct (Rcase_abs _); lra).
  destruct (fsub_value 64 nan_of b a Fb Fa (EX 54 _ ltac:(lia) D0)) as [V1 F1]. pose proof (RB 54 _ ltac:(lia) D0) as R1. rewrite <- V1 in R1.
  assert (P1 : (0 <= fR (fsub 64 nan_of b a))%R) by (rewrite V1; rewrite <- (RN_int 64 0) by (cbv; discriminate); apply RN_le; lra).
  set (D := fsub 64 nan_of b a) in *. rewrite Rabs_pos_eq in R1 by exact P1.
  assert (D2 : (Rabs (fR (runif_unit nan_of i) * fR D) <= bpow radix2 54)%R) by (rewrite Rabs_pos_eq; nra).
  destruct (fmul_value 64 nan_of (runif_unit nan_of i) D Fu F1 (EX 54 _ ltac:(lia) D2)) as [V2 F2]. pose proof (RB 54 _ ltac:(lia) D2) as R2. rewrite <- V2 in R2.
  assert (P2 : (0 <= fR (fmul 64 nan_of (runif_unit nan_of i) D))%R) by (rewrite V2; rewrite <- (RN_int 64 0) by (cbv; discriminate); apply RN_le; nra).
  set (M := fmul 64 nan_of (runif_unit nan_of i) D) in *.
  assert (D3 : (Rabs (fR M + fR a) <= bpow radix2 55)%R) by (rewrite B55, B54; eapply Rle_trans; [apply Rabs_triang|]; lra).
  destruct (fadd_value 64 nan_of M a F2 Fa (EX 55 _ ltac:(lia) D3)) as [V3 F3]. split; [exact F3|]. rewrite V3.
  rewrite <- (RN_fmt 64 _ (fmt_flt 64 a)) at 1. apply RN_le. lra.
Qed.
