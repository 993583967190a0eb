(** The geometric error analysis for |x| <= 7/10 at 2 to 94 digits. *)
From Coq Require Import ZArith Reals Lra Lia List.
From Verif Require Import Res Dec DecFacts RFacts BdMath GeoFacts.
Open Scope R_scope.

Lemma pow_digits n : (2 <= n)%Z -> (50 * n <= 10 ^ n)%Z.
Proof.
  intros H. replace n with (2 + Z.of_nat (Z.to_nat (n - 2)))%Z by lia. generalize (Z.to_nat (n - 2)) as k.
  induction k as [|k IH]; [vm_compute; discriminate|].
  replace (2 + Z.of_nat (S k))%Z with (Z.succ (2 + Z.of_nat k)) by lia. rewrite Z.pow_succ_r by lia. lia.
Qed.
Lemma digits_small n : (2 <= n)%Z -> IZR n * r10 (- n) <= / 50.
Proof.
  intros H. rewrite r10_opp, r10_IZR by lia. pose proof (pow_digits n H) as D. apply IZR_le in D. rewrite mult_IZR in D.
  assert (0 < IZR (10 ^ n)) by (apply IZR_lt, Zpow10_pos; lia).
  apply Rmult_le_reg_r with (IZR (10 ^ n)); [lra|]. rewrite Rmult_assoc, Rinv_l, Rmult_1_r by lra. lra.
Qed.
Lemma r7_pow n : (0 <= n)%Z -> (7 / 10) ^ Z.to_nat (14 * n) <= r10 (- (2 * n)).
Proof.
  intros H. rewrite r10_opp, r10_IZR by lia. replace (Z.to_nat (14 * n)) with (14 * Z.to_nat n)%nat by lia.
  rewrite pow_mult. replace (10 ^ (2 * n))%Z with (100 ^ n)%Z by (rewrite Z.pow_mul_r by lia; reflexivity).
  rewrite <- (Z2Nat.id n) at 2 by exact H. rewrite <- pow_IZR. generalize (Z.to_nat n) as k. intros k.
  rewrite <- pow_inv. apply pow_incr. split; [apply pow_le; lra|]. lra.
Qed.

Section Inst.
Context {St : Type}.
Variables (x : bd) (nd : Z) (f : Z -> bd -> bd -> bd -> St -> res (option bd * St)) (s0 : St).
Variables (a : nat -> R) (J : nat -> St -> Prop) (F : R).
Hypothesis Hf : geo_closure f a J.
Hypothesis HJ : J O s0.
Hypothesis Hgap : forall i, a i = 0 -> a (S i) <> 0.
Hypothesis Ha0 : Rabs (a O) <= 1.
Hypothesis Ha : forall i, Rabs (a (S i)) <= / INR (S i).
Hypothesis Hmono : forall i j, a i <> 0 -> (i <= j)%nat -> Rabs (a j) <= Rabs (a i).
Hypothesis Hnd : (2 <= nd <= 94)%Z.
Hypothesis HX : Rabs (rval x) <= 7 / 10.
Hypothesis HF : Un_cv (gsum a (rval x)) F.

Lemma geo_ok : exists y, maclaurin x nd f s0 = Ok y /\ Rabs (rval y - F) <= r10 (- nd).
Proof.
  set (N := Z.to_nat (14 * nd)). set (p := r10 (- nd)).
  assert (p0 : 0 < p) by apply r10_pos.
  assert (E2 : r10 (- (2 * nd)) = p * p) by (unfold p; rewrite <- r10_plus; f_equal; lia).
  pose proof (digits_small nd ltac:(lia)) as Dp. fold p in Dp.
  assert (N2 : 2 <= IZR nd <= 94) by (split; apply IZR_le; lia).
  assert (p1 : p <= / 100) by nra.
  assert (K9 : kappa * r10 94 <= / 60000).
  { unfold kappa, delta. change (-99)%Z with (- (5 + 94))%Z. rewrite r10_opp, r10_plus, Rinv_mult.
    rewrite (r10_IZR 5) by lia. change (10 ^ 5)%Z with 100000%Z. pose proof (r10_pos 94).
    replace (3 * (/ 2 * (/ 100000 * / r10 94)) * r10 94) with (3 / 200000) by (field; lra). lra. }
  assert (K : kappa <= / 60000 * p).
  { assert (L : r10 nd <= r10 94) by (apply r10_mono; lia).
    assert (Q : p * r10 nd = 1) by (unfold p; rewrite <- r10_plus; replace (- nd + nd)%Z with 0%Z by lia; reflexivity).
    pose proof kappa_pos. pose proof (r10_pos nd). nra. }
  pose proof kappa_pos as K0.
  destruct (geo_accuracy x nd f s0 a J (7 / 10) F N Hf HJ Hgap) as (y & Y & A).
  - intros [|i]; [exact Ha0|]. eapply Rle_trans; [apply Ha|]. rewrite <- Rinv_1. apply Rinv_le_contravar; [lra|].
    rewrite S_INR. pose proof (pos_INR i). lra.
  - exact Hmono.
  - lia.
  - lra.
  - exact HX.
  - exact HF.
  - unfold N. rewrite Z2Nat.id by lia. lia.
  - intros i Hi. rewrite E2. replace (1 - 7 / 10) with (3 / 10) by field.
    assert (R1 : (7 / 10) ^ i <= p * p).
    { apply Rle_trans with ((7 / 10) ^ N); [|rewrite <- E2; apply r7_pow; lia].
      replace i with (N + (i - N))%nat by lia. rewrite pow_add. rewrite <- (Rmult_1_r ((7 / 10) ^ N)) at 2.
      apply Rmult_le_compat_l; [apply pow_le; lra|]. rewrite <- (pow1 (i - N)). apply pow_incr. lra. }
    assert (Ai : Rabs (a i) <= / 28).
    { destruct i as [|i]; [unfold N in Hi; lia|]. eapply Rle_trans; [apply Ha|]. apply Rinv_le_contravar; [lra|].
      replace 28 with (INR 28) by (cbn; ring). apply le_INR. unfold N in Hi. lia. }
    pose proof (Rabs_pos (a i)) as Ai0. assert (0 <= (7 / 10) ^ i) by (apply pow_le; lra).
    assert (Q : Rabs (a i) * ((7 / 10) ^ i + / 2 * (p * p) * / (3 / 10)) <= / 28 * (p * p + / 2 * (p * p) * / (3 / 10))).
    { apply Rmult_le_compat; try lra. }
    assert (0 < p * p) by nra. pose proof kappa_small.
    assert (0 <= Rabs (a i) * ((7 / 10) ^ i + / 2 * (p * p) * / (3 / 10))) by (apply Rmult_le_pos; lra).
    nra.
  - exists y. split; [exact Y|]. eapply Rle_trans; [exact A|].
    unfold geo_acc, step_err. rewrite E2. replace (1 - 7 / 10) with (3 / 10) by field.
    rewrite plus_INR. unfold N. rewrite INR_IZR_INZ, Z2Nat.id, mult_IZR by lia. cbn [INR].
    replace (- (nd + 1))%Z with (- nd + - (1))%Z by lia. rewrite r10_plus. fold p. rewrite r10_opp, r10_IZR by lia. change (10 ^ 1)%Z with 10%Z.
    set (z := IZR nd) in *.
    assert (T1 : (14 * z + 1) * (/ 2 * (p * p) + / 2 * (p * p) * / (3 / 10) + kappa * (1 + / 2 * (p * p) * / (3 / 10))) <=
                 (14 * z + 1) * (13 / 6 * (p * p) + 2 * kappa)).
    { apply Rmult_le_compat_l; [lra|]. assert (p * p <= / 100) by nra. nra. }
    assert (T2 : (14 * z + 1) * (2 * kappa) <= 1317 * 2 * (/ 60000 * p)) by nra.
    assert (T3 : ((14 * z + 1) * (13 / 6) + 9) * (p * p) <= 36 * z * (p * p)).
    { apply Rmult_le_compat_r; [nra|]. lra. }
    assert (T4 : 36 * z * (p * p) <= 36 / 50 * p) by nra.
    nra.
Qed.
End Inst.
