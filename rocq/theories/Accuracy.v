(** Accuracy of exp, sin and cos over ranges of arguments and digit counts. *)
From Coq Require Import ZArith QArith Reals Lra Lia List Bool ZifyBool ZifyNat.
From Verif Require Import Res Dec DecFacts RFacts BdMath Series MacFacts.
Import ListNotations.
Open Scope R_scope.

(** ** The closures *)
Lemma term_quot power factorial : rval factorial <> 0 -> exists q, ddiv power factorial = Ok q /\
  Rabs (rval q - rval power / rval factorial) <= delta * Rabs (rval power / rval factorial).
Proof. apply ddiv_R. Qed.

Lemma exp_closure : series_closure (pure_term exp_term) c_exp.
Proof.
  intros i tot power factorial H. right. split; [unfold c_exp; rewrite Rabs_R1; lra|].
  destruct (term_quot power factorial H) as (q & Q & E). exists (dadd tot q).
  unfold pure_term, exp_term. rewrite Q. split; [reflexivity|].
  rewrite rval_dadd. unfold c_exp. replace (_ - _ - _) with (rval q - rval power / rval factorial) by ring. exact E.
Qed.

Lemma nat_mod4 i : exists k r, i = (4 * k + r)%nat /\ (r = 0 \/ r = 1 \/ r = 2 \/ r = 3)%nat.
Proof.
  exists (i / 4)%nat, (i mod 4)%nat. split; [apply Nat.div_mod; lia|].
  pose proof (Nat.mod_upper_bound i 4). lia.
Qed.
Lemma land3_mod k r : (r < 4)%nat -> Z.land (Z.of_nat (4 * k + r)) 3 = Z.of_nat r.
Proof.
  intros H. change 3%Z with (Z.ones 2). rewrite Z.land_ones by lia. change (2 ^ 2)%Z with 4%Z.
  replace (Z.of_nat (4 * k + r)) with (Z.of_nat r + Z.of_nat k * 4)%Z by lia.
  rewrite Z.mod_add by lia. apply Z.mod_small. lia.
Qed.
Lemma m1_even k : (-1) ^ (2 * k) = 1.
Proof. rewrite pow_mult. replace ((-1) ^ 2) with 1 by ring. apply pow1. Qed.
Lemma m1_odd k : (-1) ^ S (2 * k) = -1.
Proof. cbn [pow]. rewrite m1_even. ring. Qed.

Lemma c_sin_0 k : c_sin (4 * k + 0) = 0.
Proof. replace (4 * k + 0)%nat with (2 * (2 * k))%nat by lia. unfold c_sin. rewrite odd_double. reflexivity. Qed.
Lemma c_sin_1 k : c_sin (4 * k + 1) = 1.
Proof.
  replace (4 * k + 1)%nat with (S (2 * (2 * k))) by lia. unfold c_sin.
  rewrite odd_succ_double, div2_succ_double'. apply m1_even.
Qed.
Lemma c_sin_2 k : c_sin (4 * k + 2) = 0.
Proof. replace (4 * k + 2)%nat with (2 * (2 * k + 1))%nat by lia. unfold c_sin. rewrite odd_double. reflexivity. Qed.
Lemma c_sin_3 k : c_sin (4 * k + 3) = -1.
Proof.
  replace (4 * k + 3)%nat with (S (2 * S (2 * k))) by lia. unfold c_sin.
  rewrite odd_succ_double, div2_succ_double'. apply m1_odd.
Qed.
Lemma c_cos_0 k : c_cos (4 * k + 0) = 1.
Proof.
  replace (4 * k + 0)%nat with (2 * (2 * k))%nat by lia. unfold c_cos. rewrite odd_double, div2_double'. apply m1_even.
Qed.
Lemma c_cos_1 k : c_cos (4 * k + 1) = 0.
Proof. replace (4 * k + 1)%nat with (S (2 * (2 * k))) by lia. unfold c_cos. rewrite odd_succ_double. reflexivity. Qed.
Lemma c_cos_2 k : c_cos (4 * k + 2) = -1.
Proof.
  replace (4 * k + 2)%nat with (2 * S (2 * k))%nat by lia. unfold c_cos. rewrite odd_double, div2_double'. apply m1_odd.
Qed.
Lemma c_cos_3 k : c_cos (4 * k + 3) = 0.
Proof. replace (4 * k + 3)%nat with (S (2 * (2 * k + 1))) by lia. unfold c_cos. rewrite odd_succ_double. reflexivity. Qed.

Lemma Rabs_m1 : Rabs (-1) = 1.
Proof. rewrite Rabs_left; lra. Qed.

Lemma sin_closure : series_closure (pure_term sin_term) c_sin.
Proof.
  intros i tot power factorial H. destruct (nat_mod4 i) as (k & r & -> & R).
  destruct (term_quot power factorial H) as (q & Q & E).
  unfold pure_term, sin_term. rewrite land3_mod by lia.
  destruct R as [R|[R|[R|R]]]; subst r; cbn [Z.of_nat Pos.of_succ_nat Pos.succ rbind].
  - left. rewrite c_sin_0. auto.
  - right. rewrite c_sin_1. split; [rewrite Rabs_R1; lra|]. exists (dadd tot q). rewrite Q. split; [reflexivity|].
    rewrite rval_dadd. replace (_ - _ - _) with (rval q - rval power / rval factorial) by ring. exact E.
  - left. rewrite c_sin_2. auto.
  - right. rewrite c_sin_3. split; [rewrite Rabs_m1; lra|]. exists (dsub tot q). rewrite Q. split; [reflexivity|].
    rewrite rval_dsub. replace (_ - _ - _) with (- (rval q - rval power / rval factorial)) by ring.
    rewrite Rabs_Ropp. exact E.
Qed.
Lemma cos_closure : series_closure (pure_term cos_term) c_cos.
Proof.
  intros i tot power factorial H. destruct (nat_mod4 i) as (k & r & -> & R).
  destruct (term_quot power factorial H) as (q & Q & E).
  unfold pure_term, cos_term. rewrite land3_mod by lia.
  destruct R as [R|[R|[R|R]]]; subst r; cbn [Z.of_nat Pos.of_succ_nat Pos.succ rbind].
  - right. rewrite c_cos_0. split; [rewrite Rabs_R1; lra|]. exists (dadd tot q). rewrite Q. split; [reflexivity|].
    rewrite rval_dadd. replace (_ - _ - _) with (rval q - rval power / rval factorial) by ring. exact E.
  - left. rewrite c_cos_1. auto.
  - right. rewrite c_cos_2. split; [rewrite Rabs_m1; lra|]. exists (dsub tot q). rewrite Q. split; [reflexivity|].
    rewrite rval_dsub. replace (_ - _ - _) with (- (rval q - rval power / rval factorial)) by ring.
    rewrite Rabs_Ropp. exact E.
  - left. rewrite c_cos_3. auto.
Qed.

Lemma c_exp_next i : c_exp i = 0 -> c_exp (S i) <> 0.
Proof. unfold c_exp. lra. Qed.
Lemma m1_pow_nz n : (-1) ^ n <> 0.
Proof. apply pow_nonzero. lra. Qed.
Lemma c_sin_next i : c_sin i = 0 -> c_sin (S i) <> 0.
Proof.
  unfold c_sin. rewrite Nat.odd_succ, <- Nat.negb_odd. destruct (Nat.odd i); cbn [negb]; intros H.
  - exfalso. apply (m1_pow_nz (Nat.div2 i)). exact H.
  - apply m1_pow_nz.
Qed.
Lemma c_cos_next i : c_cos i = 0 -> c_cos (S i) <> 0.
Proof.
  unfold c_cos. rewrite Nat.odd_succ, <- Nat.negb_odd. destruct (Nat.odd i); cbn [negb]; intros H.
  - apply m1_pow_nz.
  - exfalso. apply (m1_pow_nz (Nat.div2 i)). exact H.
Qed.

(** Coefficients 0, 1 and -1. *)
Definition unit_coef (c : nat -> R) : Prop := forall i, c i = 0 \/ Rabs (c i) = 1.
Lemma unit_mono c : unit_coef c -> forall i j, c i <> 0 -> (i <= j)%nat -> Rabs (c j) <= Rabs (c i).
Proof.
  intros U i j Hi _. destruct (U i) as [E|E]; [contradiction|]. rewrite E.
  destruct (U j) as [Q|Q]; rewrite Q; [rewrite Rabs_R0|]; lra.
Qed.
Lemma unit_min c N : unit_coef c -> forall i : nat, (i <= N)%nat -> c i <> 0 -> 1 <= Rabs (c i).
Proof. intros U i _ Hi. destruct (U i) as [E|E]; [contradiction|]. rewrite E. lra. Qed.
Lemma c_exp_unit : unit_coef c_exp.
Proof. intros i. right. apply Rabs_R1. Qed.
Lemma c_sin_unit : unit_coef c_sin.
Proof. intros i. unfold c_sin. destruct (Nat.odd i); [right; apply pow_1_abs|left; reflexivity]. Qed.
Lemma c_cos_unit : unit_coef c_cos.
Proof. intros i. unfold c_cos. destruct (Nat.odd i); [left; reflexivity|right; apply pow_1_abs]. Qed.

(** ** Bounds on the exponential *)
Lemma psum_exp_le B n : 0 <= B -> psum c_exp B n <= exp B.
Proof.
  intros HB.
  assert (M : forall k, psum c_exp B n <= psum c_exp B (n + k)).
  { induction k as [|k IH]; [rewrite Nat.add_0_r; lra|]. rewrite Nat.add_succ_r. cbn [psum].
    unfold sterm at 1. assert (0 <= B ^ (n + k) / INR (fact (n + k))); [|unfold c_exp in *; lra].
    apply Rmult_le_pos; [apply pow_le; exact HB|]. apply Rlt_le, Rinv_0_lt_compat, fact_pos. }
  apply le_epsilon. intros e He. destruct (exp_limit B e He) as [N HN].
  specialize (HN (n + N)%nat ltac:(lia)). unfold R_dist in HN. apply Rabs_def2 in HN. specialize (M N). lra.
Qed.

Lemma exp_pow3 n : exp (INR n) <= 3 ^ n.
Proof.
  induction n as [|n IH]; [cbn; rewrite exp_0; lra|]. rewrite S_INR, exp_plus. cbn [pow].
  pose proof exp_le_3. pose proof (exp_pos 1). pose proof (exp_pos (INR n)). nra.
Qed.
Lemma exp_Z3 b : (0 <= b)%Z -> exp (IZR b) <= IZR (3 ^ b).
Proof.
  intros H. rewrite <- (Z2Nat.id b H) at 1. rewrite <- INR_IZR_INZ.
  eapply Rle_trans; [apply exp_pow3|]. rewrite pow_IZR, Z2Nat.id by exact H. lra.
Qed.

(** ** The arithmetic condition *)
Fixpoint zfact (n : nat) : Z := match n with O => 1 | S k => Z.of_nat (S k) * zfact k end%Z.
Lemma zfact_INR n : IZR (zfact n) = INR (fact n).
Proof.
  induction n as [|n IH]; [reflexivity|]. cbn [zfact]. rewrite mult_IZR, IH, <- INR_IZR_INZ, fact_simpl, mult_INR. reflexivity.
Qed.

(** [N] terms suffice for |x| <= b at [nd] digits, with a total error below 10^-nd. *)
Definition acc_ok (b nd N : Z) : Prop :=
  (1 <= b)%Z /\ (1 <= nd)%Z /\ (b <= N + 1)%Z /\ (1 <= N)%Z /\ (N < 30000)%Z /\ (N + 1 <= 10 ^ (2 * nd))%Z /\
  (5 * 10 ^ (2 * nd) * b ^ N <= zfact (Z.to_nat N))%Z /\
  ((N + 3) * 10 ^ 99 + 2 * (10 ^ (2 * nd) + 10 ^ 99 + 1) * 3 ^ b + 10 ^ (nd + 98) <= 2 * 10 ^ (nd + 99))%Z.

Section Inst.
Variables (b nd N : Z).
Hypothesis OK : acc_ok b nd N.
Let eps := / 2 * r10 (- (2 * nd)).
Let n := Z.to_nat N.

Lemma ok_facts :
  (1 <= b)%Z /\ (1 <= nd)%Z /\ (b <= N + 1)%Z /\ (1 <= N)%Z /\ (N < 30000)%Z /\ (N + 1 <= 10 ^ (2 * nd))%Z /\
  (5 * 10 ^ (2 * nd) * b ^ N <= zfact n)%Z /\
  ((N + 3) * 10 ^ 99 + 2 * (10 ^ (2 * nd) + 10 ^ 99 + 1) * 3 ^ b + 10 ^ (nd + 98) <= 2 * 10 ^ (nd + 99))%Z.
Proof. exact OK. Qed.

Lemma eps_n : INR (S n) * eps <= / 2.
Proof.
  destruct ok_facts as (_ & Hnd & _ & HN & _ & H & _).
  unfold eps. rewrite r10_opp, r10_IZR by lia. apply IZR_le in H.
  assert (P : 0 < IZR (10 ^ (2 * nd))) by (apply IZR_lt, Zpow10_pos; lia).
  rewrite S_INR. unfold n. rewrite INR_IZR_INZ, Z2Nat.id by lia. rewrite plus_IZR in H.
  apply Rmult_le_reg_r with (IZR (10 ^ (2 * nd))); [exact P|].
  replace ((IZR N + 1) * (/ 2 * / IZR (10 ^ (2 * nd))) * IZR (10 ^ (2 * nd))) with ((IZR N + 1) * / 2) by (field; lra).
  lra.
Qed.

Lemma top_term : IZR b ^ n / INR (fact n) <= 2 / 5 * eps.
Proof.
  destruct ok_facts as (Hb & Hnd & _ & HN & _ & _ & H & _). apply IZR_le in H.
  rewrite !mult_IZR, zfact_INR in H. rewrite <- (Z2Nat.id N) in H at 1 by lia. fold n in H.
  rewrite <- pow_IZR in H. unfold eps. rewrite r10_opp, r10_IZR by lia.
  assert (P : 0 < IZR (10 ^ (2 * nd))) by (apply IZR_lt, Zpow10_pos; lia). pose proof (fact_pos n) as F.
  apply Rmult_le_reg_r with (INR (fact n)); [exact F|].
  unfold Rdiv at 1. rewrite Rmult_assoc, Rinv_l, Rmult_1_r by lra.
  apply Rmult_le_reg_l with (IZR (10 ^ (2 * nd))); [exact P|].
  replace (IZR (10 ^ (2 * nd)) * (2 / 5 * (/ 2 * / IZR (10 ^ (2 * nd))) * INR (fact n))) with (INR (fact n) / 5) by (field; lra).
  lra.
Qed.

Lemma later_terms i : (n <= i <= S n)%nat ->
  (1 + delta) * (IZR b ^ i / INR (fact i) + pe nd (IZR b) i / INR (fact i)) < eps.
Proof.
  intros Hi. destruct ok_facts as (Hb & Hnd & HbN & HN & _). pose proof top_term as T. pose proof eps_n as En.
  assert (Pe : 0 < eps) by (unfold eps; pose proof (r10_pos (- (2 * nd))); lra).
  assert (B1 : 1 <= IZR b) by (apply IZR_le; exact Hb).
  assert (Ti : IZR b ^ i / INR (fact i) <= 2 / 5 * eps).
  { destruct (Nat.eq_dec i n) as [->|Ne]; [exact T|]. assert (i = S n) by lia. subst i.
    rewrite next_term. assert (Q : IZR b / INR (S n) <= 1).
    { apply Rmult_le_reg_r with (INR (S n)); [apply lt_0_INR; lia|].
      unfold Rdiv. rewrite Rmult_assoc, Rinv_l, Rmult_1_r, Rmult_1_l by (apply not_0_INR; lia).
      rewrite S_INR. unfold n. rewrite INR_IZR_INZ, Z2Nat.id by lia. apply IZR_le in HbN. rewrite plus_IZR in HbN. lra. }
    assert (0 <= IZR b ^ n / INR (fact n)).
    { apply Rmult_le_pos; [apply pow_le; lra|]. apply Rlt_le, Rinv_0_lt_compat, fact_pos. }
    nra. }
  assert (Pi : pe nd (IZR b) i / INR (fact i) <= / 2 * (2 / 5 * eps)).
  { destruct i as [|i]; [unfold n in Hi; lia|].
    pose proof (pe_bound nd (IZR b) B1 i) as PB. fold eps in PB.
    assert (F := fact_pos (S i)).
    apply Rle_trans with (eps * INR (S i) * IZR b ^ i / INR (fact (S i))).
    { apply Rmult_le_compat_r; [apply Rlt_le, Rinv_0_lt_compat; exact F|exact PB]. }
    assert (Q : IZR b ^ i <= IZR b ^ S i) by (cbn [pow]; assert (0 < IZR b ^ i) by (apply pow_lt; lra); nra).
    assert (R : INR (S i) * eps <= / 2).
    { destruct (Nat.eq_dec (S i) n) as [Hn|].
      - rewrite Hn. apply Rle_trans with (INR (S n) * eps); [|exact En].
        apply Rmult_le_compat_r; [lra|]. apply le_INR. lia.
      - replace (S i) with (S n) by lia. exact En. }
    apply Rle_trans with (/ 2 * (IZR b ^ S i / INR (fact (S i)))); [|lra].
    replace (eps * INR (S i) * IZR b ^ i / INR (fact (S i))) with ((INR (S i) * eps) * (IZR b ^ i / INR (fact (S i)))) by (unfold Rdiv; ring).
    apply Rmult_le_compat; try lra.
    - apply Rmult_le_pos; [apply pos_INR|lra].
    - apply Rmult_le_pos; [apply pow_le; lra|]. apply Rlt_le, Rinv_0_lt_compat. exact F.
    - apply Rmult_le_compat_r; [apply Rlt_le, Rinv_0_lt_compat; exact F|exact Q]. }
  pose proof delta_small as Ds. pose proof delta_pos.
  assert (D : delta <= / 100). { eapply Rle_trans; [exact Ds|]. change (r10 (-2)) with (r10 (- (2))). rewrite r10_opp, r10_IZR by lia. change (10 ^ 2)%Z with 100%Z. lra. }
  assert (0 <= IZR b ^ i / INR (fact i)).
  { apply Rmult_le_pos; [apply pow_le; lra|]. apply Rlt_le, Rinv_0_lt_compat, fact_pos. }
  assert (0 <= pe nd (IZR b) i / INR (fact i)).
  { apply Rmult_le_pos; [apply pe_nonneg; lra|]. apply Rlt_le, Rinv_0_lt_compat, fact_pos. }
  nra.
Qed.

Lemma acc_total : acc nd (IZR (3 ^ b)) n + / 2 * r10 (- (nd + 1)) <= r10 (- nd).
Proof.
  destruct ok_facts as (Hb & Hnd & _ & HN & _ & _ & _ & H). apply IZR_le in H.
  rewrite !plus_IZR, !mult_IZR, !plus_IZR in H.
  unfold acc. fold eps. unfold delta, eps. rewrite plus_INR. unfold n. rewrite INR_IZR_INZ, Z2Nat.id by lia.
  replace (INR 3) with 3 by (cbn; ring).
  change (r10 (-99)) with (r10 (- (99))).
  replace (2 * nd)%Z with (nd + nd)%Z in * by lia.
  replace (nd + 98)%Z with (nd + 99 - 1)%Z in H by lia.
  rewrite <- (r10_IZR (nd + nd)), <- (r10_IZR 99), <- (r10_IZR (nd + 99)), <- (r10_IZR (nd + 99 - 1)) in H by lia.
  replace (nd + 99 - 1)%Z with (nd + 99 + (- (1)))%Z in H by lia.
  rewrite !r10_opp, !r10_plus, !Rinv_mult. rewrite !r10_plus, r10_opp in H.
  assert (T1 : r10 1 = 10) by (rewrite r10_IZR by lia; reflexivity). rewrite T1 in *.
  pose proof (r10_pos nd) as P. pose proof (r10_pos 99) as D.
  assert (E0 : 0 <= IZR (3 ^ b)) by (apply IZR_le; apply Z.pow_nonneg; lia).
  set (p := r10 nd) in *. set (d := r10 99) in *. set (E := IZR (3 ^ b)) in *. clearbody p d E.
  apply Rmult_le_reg_r with (2 * p * p * d).
  { repeat apply Rmult_lt_0_compat; lra. }
  replace (((IZR N + 3) * (/ 2 * (/ p * / p)) + 2 * (/ 2 * / d + (1 + / 2 * / d) * (/ 2 * (/ p * / p))) * E + / 2 * (/ p * / 10)) * (2 * p * p * d))
    with ((IZR N + 3) * d + 2 * (p * p + d + / 2) * E + p * d * / 10) by (field; lra).
  replace (/ p * (2 * p * p * d)) with (2 * (p * d)) by (field; lra). nra.
Qed.

Lemma hone : eps + (delta + (1 + delta) * eps) * IZR (3 ^ b) < 1.
Proof.
  pose proof acc_total as A. unfold acc in A. fold eps in A. destruct ok_facts as (Hb & Hnd & _ & HN & _).
  assert (Pe : 0 < eps) by (unfold eps; pose proof (r10_pos (- (2 * nd))); lra).
  pose proof delta_pos as Pd. pose proof (r10_pos (- (nd + 1))).
  assert (E0 : 0 <= IZR (3 ^ b)) by (apply IZR_le; apply Z.pow_nonneg; lia).
  assert (L : r10 (- nd) <= r10 0) by (apply r10_mono; lia). rewrite r10_0 in L.
  assert (I1 : 1 <= INR (n + 3)). { change 1 with (INR 1). apply le_INR. lia. }
  assert (0 <= (delta + (1 + delta) * eps) * IZR (3 ^ b)) by (apply Rmult_le_pos; [nra|exact E0]).
  nra.
Qed.

Section Fn.
Variables (f : Z -> bd -> bd -> bd -> res (option bd)) (c : nat -> R) (g : R -> R) (x : bd).
Hypothesis Hf : series_closure (pure_term f) c.
Hypothesis Hc : forall i, c i = 0 -> c (S i) <> 0.
Variable cm : R.
Hypothesis Hmono : forall i j, c i <> 0 -> (i <= j)%nat -> Rabs (c j) <= Rabs (c i).
Hypothesis Hcm : forall i, (i <= S n)%nat -> c i <> 0 -> cm <= Rabs (c i).
Hypothesis Hone : eps + (delta + (1 + delta) * eps) * IZR (3 ^ b) < cm.
Hypothesis HF : Un_cv (psum c (rval x)) (g (rval x)).
Hypothesis HX : Rabs (rval x) <= IZR b.

Lemma fn_accuracy : exists r, maclaurin x nd (pure_term f) tt = Ok r /\ Rabs (rval r - g (rval x)) <= r10 (- nd).
Proof.
  destruct ok_facts as (Hb & Hnd & HbN & HN & HN3 & _).
  destruct (mac_accuracy x nd (pure_term f) c (IZR b) (IZR (3 ^ b)) (g (rval x)) cm n Hf Hc Hmono Hcm) as (r & R & A).
  - lia.
  - apply IZR_le. exact Hb.
  - exact HX.
  - intros k. eapply Rle_trans; [apply psum_exp_le; apply IZR_le; lia|]. apply exp_Z3. lia.
  - exact HF.
  - unfold n. rewrite Z2Nat.id by lia. exact HN3.
  - intros i Hi. apply later_terms. exact Hi.
  - exact Hone.
  - exists r. split; [exact R|]. eapply Rle_trans; [exact A|]. apply acc_total.
Qed.
End Fn.
End Inst.

(** ** The instances *)
Definition within (nd : Z) (r : bd) (y : R) : Prop := Rabs (rval r - y) <= r10 (- nd).

Theorem bexp_ok b nd N x : acc_ok b nd N -> Rabs (rval x) <= IZR b ->
  exists r, bexp x nd = Ok r /\ within nd r (exp (rval x)).
Proof. intros OK HX. apply (fn_accuracy b nd N OK exp_term c_exp exp x exp_closure c_exp_next 1
  (unit_mono _ c_exp_unit) (unit_min _ _ c_exp_unit) (hone b nd N OK) (exp_limit _) HX). Qed.
Theorem bsin_ok b nd N x : acc_ok b nd N -> Rabs (rval x) <= IZR b ->
  exists r, bsin x nd = Ok r /\ within nd r (sin (rval x)).
Proof. intros OK HX. apply (fn_accuracy b nd N OK sin_term c_sin sin x sin_closure c_sin_next 1
  (unit_mono _ c_sin_unit) (unit_min _ _ c_sin_unit) (hone b nd N OK) (sin_limit _) HX). Qed.
Theorem bcos_ok b nd N x : acc_ok b nd N -> Rabs (rval x) <= IZR b ->
  exists r, bcos x nd = Ok r /\ within nd r (cos (rval x)).
Proof. intros OK HX. apply (fn_accuracy b nd N OK cos_term c_cos cos x cos_closure c_cos_next 1
  (unit_mono _ c_cos_unit) (unit_min _ _ c_cos_unit) (hone b nd N OK) (cos_limit _) HX). Qed.

(** ** The range of each digit count *)
(** The largest |x| covered at [nd] digits, and a number of terms. *)
Definition range_at (nd : Z) : Z := if (nd =? 1)%Z then 1 else (2 * Z.min nd (99 - nd))%Z.
Definition terms_for (nd : Z) : Z := if (nd =? 1)%Z then 6 else (12 * nd)%Z.

Lemma exp_inv_pow n : (1 + / INR (S n)) ^ S n <= 3.
Proof.
  apply Rle_trans with (exp (/ INR (S n)) ^ S n).
  - apply pow_incr. assert (0 < / INR (S n)) by (apply Rinv_0_lt_compat, lt_0_INR; lia). split; [lra|].
    apply Rlt_le, exp_ineq1. lra.
  - assert (E : forall k y, exp y ^ k = exp (INR k * y)).
    { induction k as [|k IH]; intros y; [cbn [pow]; rewrite Rmult_0_l, exp_0; reflexivity|].
      cbn [pow]. rewrite IH, <- exp_plus, S_INR. f_equal. ring. }
    rewrite E, Rinv_r by (apply not_0_INR; lia). apply exp_le_3.
Qed.
Lemma pow_fact n : INR n ^ n <= 3 ^ n * INR (fact n).
Proof.
  induction n as [|n IH]; [cbn; lra|]. destruct n as [|n]; [cbn; lra|].
  set (m := S n) in *. assert (M : 0 < INR m) by (apply lt_0_INR; unfold m; lia).
  rewrite fact_simpl, mult_INR. cbn [pow].
  assert (A : INR (S m) ^ m <= 3 * INR m ^ m).
  { replace (INR (S m)) with ((1 + / INR m) * INR m) by (rewrite S_INR; field; lra).
    rewrite Rpow_mult_distr. apply Rmult_le_compat_r; [apply pow_le; lra|]. apply exp_inv_pow. }
  assert (0 < INR (S m)) by (apply lt_0_INR; lia).
  apply Rle_trans with (INR (S m) * (3 * (3 ^ m * INR (fact m)))); [|lra].
  apply Rmult_le_compat_l; [lra|]. lra.
Qed.
Lemma zfact_lower b N : (0 <= b)%Z -> (6 * b <= N)%Z -> (2 ^ N * b ^ N <= zfact (Z.to_nat N))%Z.
Proof.
  intros Hb HN. apply le_IZR. rewrite zfact_INR, <- Z.pow_mul_l.
  set (n := Z.to_nat N). assert (En : N = Z.of_nat n) by (unfold n; lia). rewrite En in *. clearbody n. clear En.
  rewrite <- pow_IZR. apply Rmult_le_reg_l with (3 ^ n); [apply pow_lt; lra|].
  eapply Rle_trans; [|apply pow_fact]. rewrite <- Rpow_mult_distr. apply pow_incr.
  assert (B : 0 <= IZR b) by (apply IZR_le; exact Hb).
  rewrite mult_IZR, INR_IZR_INZ. apply IZR_le in HN. rewrite mult_IZR in HN. lra.
Qed.

(** 120 n + 30 + 23 * 9^n <= 19 * 10^n from n = 3 on. *)
Lemma grow9 n : (3 <= n)%Z -> (120 * n + 30 + 23 * 9 ^ n <= 19 * 10 ^ n)%Z.
Proof.
  intros H. replace n with (3 + Z.of_nat (Z.to_nat (n - 3)))%Z by lia. generalize (Z.to_nat (n - 3)) as k.
  induction k as [|k IH]; [vm_compute; discriminate|].
  replace (3 + Z.of_nat (S k))%Z with (Z.succ (3 + Z.of_nat k)) by lia. rewrite !Z.pow_succ_r by lia.
  assert (9 ^ (3 + Z.of_nat k) > 0)%Z by (apply Z.lt_gt, Z.pow_pos_nonneg; lia). lia.
Qed.
Lemma pow_lin n : (0 <= n)%Z -> (n + 1 <= 10 ^ n)%Z.
Proof.
  intros H. rewrite <- (Z2Nat.id n H). generalize (Z.to_nat n) as k. induction k as [|k IH]; [vm_compute; discriminate|].
  rewrite Nat2Z.inj_succ, Z.pow_succ_r by lia. lia.
Qed.

Lemma acc_range nd : (1 <= nd <= 98)%Z -> acc_ok (range_at nd) nd (terms_for nd).
Proof.
  intros H. unfold range_at, terms_for. destruct (Z.eqb_spec nd 1) as [->|Ne].
  { repeat split; vm_compute; discriminate. }
  set (m := Z.min nd (99 - nd)). assert (Hm : (1 <= m <= nd)%Z) by (unfold m; lia).
  assert (P9 : (0 < 9 ^ m)%Z) by (apply Z.pow_pos_nonneg; lia).
  unfold acc_ok. repeat apply conj; try lia.
  - replace (2 * nd)%Z with (nd + nd)%Z by lia. rewrite Z.pow_add_r by lia.
    pose proof (pow_lin nd ltac:(lia)). assert (100 <= 10 ^ nd)%Z by (change 100%Z with (10 ^ 2)%Z; apply Z.pow_le_mono_r; lia). nia.
  - apply Z.le_trans with (2 ^ (12 * nd) * (2 * m) ^ (12 * nd))%Z; [|apply zfact_lower; lia]. apply Z.mul_le_mono_nonneg_r; [apply Z.pow_nonneg; lia|].
    rewrite !Z.pow_mul_r by lia. change (10 ^ 2)%Z with 100%Z. change (2 ^ 12)%Z with 4096%Z.
    replace nd with (Z.succ (nd - 1))%Z by lia. rewrite !Z.pow_succ_r by lia.
    assert (100 ^ (nd - 1) <= 4096 ^ (nd - 1))%Z by (apply Z.pow_le_mono_l; lia).
    assert (0 < 100 ^ (nd - 1))%Z by (apply Z.pow_pos_nonneg; lia). lia.
  - replace (3 ^ (2 * m))%Z with (9 ^ m)%Z by (rewrite Z.pow_mul_r by lia; reflexivity).
    replace (10 ^ (nd + 98))%Z with (10 ^ (nd - 1) * 10 ^ 99)%Z by (rewrite <- Z.pow_add_r by lia; f_equal; lia).
    replace (10 ^ (nd + 99))%Z with (10 * 10 ^ (nd - 1) * 10 ^ 99)%Z
      by (rewrite <- (Z.pow_succ_r 10) by lia; rewrite <- Z.pow_add_r by lia; f_equal; lia).
    destruct (Z_le_gt_dec nd 49) as [L|L].
    + (* 10^(2nd) <= 10^98 *)
      assert (Em : m = nd) by (unfold m; lia). rewrite Em in *.
      assert (A : (10 * 10 ^ (2 * nd) <= 10 ^ 99)%Z).
      { rewrite <- Z.pow_succ_r by lia. apply Z.pow_le_mono_r; lia. }
      destruct (Z.eq_dec nd 2) as [->|N2]; [vm_compute; discriminate|].
      pose proof (grow9 nd ltac:(lia)) as G. replace (10 ^ nd)%Z with (10 * 10 ^ (nd - 1))%Z in G
        by (rewrite <- Z.pow_succ_r by lia; f_equal; lia).
      assert (D : (100 <= 10 ^ 99)%Z) by (change 100%Z with (10 ^ 2)%Z; apply Z.pow_le_mono_r; lia).
      generalize dependent (10 ^ 99)%Z. generalize dependent (10 ^ (2 * nd))%Z. generalize dependent (10 ^ (nd - 1))%Z.
      generalize dependent (9 ^ nd)%Z. intros p9 P9 p10 G t d A D. clear - P9 G A D.
      apply (Z.mul_le_mono_nonneg_r _ _ p9) in A; [|lia]. apply (Z.mul_le_mono_nonneg_r _ _ d) in G; [|lia].
      apply (Z.mul_le_mono_nonneg_r _ _ p9) in D; [|lia]. lia.
    + assert (Em : m = (99 - nd)%Z) by (unfold m; lia).
      (* 10^(2nd) * 9^m <= 9/10 * 10^nd * 10^99, and the rest is small *)
      assert (A : (10 ^ (2 * nd) * 9 ^ m <= 9 * 10 ^ (nd - 1) * 10 ^ 99)%Z).
      { replace (2 * nd)%Z with (nd + nd)%Z by lia. replace (10 ^ 99)%Z with (10 ^ nd * 10 ^ m)%Z by (rewrite <- Z.pow_add_r by lia; f_equal; lia).
        rewrite Z.pow_add_r by lia. replace nd with (Z.succ (nd - 1)) at 1 by lia. rewrite (Z.pow_succ_r 10 (nd - 1)) by lia.
        replace m with (Z.succ (m - 1)) by lia. rewrite !Z.pow_succ_r by lia.
        assert (9 ^ (m - 1) <= 10 ^ (m - 1))%Z by (apply Z.pow_le_mono_l; lia).
        assert (0 < 10 ^ (nd - 1))%Z by (apply Z.pow_pos_nonneg; lia). assert (0 < 10 ^ nd)%Z by (apply Z.pow_pos_nonneg; lia).
        replace (10 * 10 ^ (nd - 1) * 10 ^ nd * (9 * 9 ^ (m - 1)))%Z with ((90 * 10 ^ (nd - 1) * 10 ^ nd) * 9 ^ (m - 1))%Z by ring.
        replace (9 * 10 ^ (nd - 1) * (10 ^ nd * (10 * 10 ^ (m - 1))))%Z with ((90 * 10 ^ (nd - 1) * 10 ^ nd) * 10 ^ (m - 1))%Z by ring.
        apply Z.mul_le_mono_nonneg_l; [nia|assumption]. }
      assert (B : (12 * nd + 3 + 4 * 9 ^ m <= 10 ^ (nd - 1))%Z).
      { assert (9 ^ m <= 9 ^ 49)%Z by (apply Z.pow_le_mono_r; lia).
        assert (10 ^ 49 <= 10 ^ (nd - 1))%Z by (apply Z.pow_le_mono_r; lia).
        assert (12 * 98 + 3 + 4 * 9 ^ 49 <= 10 ^ 49)%Z by (vm_compute; discriminate). lia. }
      assert (D : (100 <= 10 ^ 99)%Z) by (change 100%Z with (10 ^ 2)%Z; apply Z.pow_le_mono_r; lia).
      generalize dependent (10 ^ 99)%Z. generalize dependent (10 ^ (2 * nd))%Z. generalize dependent (10 ^ (nd - 1))%Z.
      generalize dependent (9 ^ m)%Z. intros p9 P9 p10 B t d A D. clear - P9 B A D.
      apply (Z.mul_le_mono_nonneg_r _ _ d) in B; [|lia]. apply (Z.mul_le_mono_nonneg_r _ _ p9) in D; [|lia]. lia.
Qed.
