(** The power series of the error function. *)
From Coq Require Import Reals Lra Lia Arith.
From Coquelicot Require Import Coquelicot.
From Verif Require Import Series MacFacts Accuracy.
Open Scope R_scope.
Ltac real_eq := match goal with |- @eq _ ?a ?b => change (@eq R a b) end.

(** ** Specification: the Gaussian integrals *)
Definition gauss (x : R) : R := RInt (fun t => exp (- t ^ 2)) 0 x.
Definition erf (x : R) : R := 2 / sqrt PI * gauss x.
(** Density and distribution of the standard normal law. *)
Definition phi (x : R) : R := exp (- x ^ 2 / 2) / sqrt (2 * PI).
Definition Phi (x : R) : R := / 2 + RInt phi 0 x.

(** ** Series *)
Definition c_erf (i : nat) : R := (-1) ^ i / INR (2 * i + 1).
Definition g_erf (i : nat) : R := c_erf i / INR (fact i).

Lemma c_erf_abs i : Rabs (c_erf i) = / INR (2 * i + 1).
Proof.
  unfold c_erf, Rdiv. rewrite Rabs_mult, pow_m1_abs, Rmult_1_l. apply Rabs_pos_eq. apply Rlt_le, Rinv_0_lt_compat, lt_0_INR. lia.
Qed.
Lemma c_erf_1 i : Rabs (c_erf i) <= 1.
Proof.
  rewrite c_erf_abs. rewrite <- Rinv_1. apply Rinv_le_contravar; [lra|]. change 1 with (INR 1). apply le_INR. lia.
Qed.
Lemma c_erf_nz i : c_erf i <> 0.
Proof.
  intros E. pose proof (c_erf_abs i) as A. rewrite E, Rabs_R0 in A.
  assert (0 < / INR (2 * i + 1)) by (apply Rinv_0_lt_compat, lt_0_INR; lia). lra.
Qed.
Lemma c_erf_mono i j : (i <= j)%nat -> Rabs (c_erf j) <= Rabs (c_erf i).
Proof. intros H. rewrite !c_erf_abs. apply Rinv_le_contravar; [apply lt_0_INR; lia|]. apply le_INR. lia. Qed.

(** exp(-z) *)
Definition g_exp (i : nat) : R := (-1) ^ i / INR (fact i).
Lemma g_exp_series z : is_pseries g_exp z (exp (- z)).
Proof.
  pose proof (is_exp_Reals (- z)) as H. apply is_pseries_R in H. apply is_pseries_R. eapply is_series_ext; [|exact H].
  intros n. unfold g_exp. replace (- z) with (-1 * z) by ring. rewrite Rpow_mult_distr. unfold Rdiv. real_eq. ring.
Qed.

Lemma term_exp r n : 0 <= r -> r ^ n / INR (fact n) <= exp r.
Proof.
  intros H. pose proof (psum_exp_le r (S n) H) as P. rewrite psum_exp_S in P.
  assert (0 <= psum c_exp r n); [|lra]. clear P. induction n as [|n IH]; [cbn; lra|]. rewrite psum_exp_S.
  assert (0 <= r ^ n / INR (fact n)); [|lra].
  apply Rmult_le_pos; [apply pow_le; exact H|]. apply Rlt_le, Rinv_0_lt_compat, fact_pos.
Qed.
Lemma fact_radius (g : nat -> R) : (forall n, Rabs (g n) <= / INR (fact n)) -> forall x, Rbar_lt (Rabs x) (CV_radius g).
Proof.
  intros Hg x. destruct (CV_radius_bounded g) as [ub _]. pose proof (Rabs_pos x).
  apply Rbar_lt_le_trans with (Finite (Rabs x + 1)); [cbn; lra|]. apply (ub (Rabs x + 1)). exists (exp (Rabs x + 1)). intros n.
  rewrite Rabs_mult, <- RPow_abs, (Rabs_pos_eq (Rabs x + 1)) by lra.
  eapply Rle_trans; [|apply (term_exp (Rabs x + 1) n); lra]. rewrite Rmult_comm. unfold Rdiv. apply Rmult_le_compat_l; [apply pow_le; lra|apply Hg].
Qed.
Lemma g_erf_abs n : Rabs (g_erf n) <= / INR (fact n).
Proof.
  unfold g_erf, Rdiv. rewrite Rabs_mult. pose proof (Rinv_0_lt_compat _ (fact_pos n)) as P.
  rewrite (Rabs_pos_eq (/ _)) by lra. pose proof (c_erf_1 n). nra.
Qed.
Lemma g_erf_radius x : Rbar_lt (Rabs x) (CV_radius g_erf).
Proof. apply fact_radius, g_erf_abs. Qed.

(** G(z) + 2 z G'(z) = exp(-z) *)
Definition G (z : R) : R := PSeries g_erf z.
Lemma G_equation z : G z + 2 * (z * PSeries (PS_derive g_erf) z) = exp (- z).
Proof.
  assert (D : ex_pseries (PS_derive g_erf) z).
  { apply CV_radius_inside. rewrite CV_radius_derive. apply g_erf_radius. }
  unfold G. rewrite <- PSeries_incr_1, <- PSeries_scal, <- PSeries_plus.
  - rewrite <- (is_pseries_unique _ _ _ (g_exp_series z)). apply PSeries_ext. intros n.
    unfold PS_plus, PS_scal, PS_incr_1, PS_derive, g_exp, g_erf, c_erf. change plus with Rplus. change scal with Rmult. change (@zero R_AbelianGroup) with 0.
    destruct n as [|n].
    + cbn. field.
    + pose proof (fact_pos (S n)). replace (INR (2 * S n + 1)) with (2 * INR (S n) + 1) by (rewrite plus_INR, mult_INR; cbn [INR]; ring).
      pose proof (pos_INR (S n)). field. split; lra.
  - apply CV_radius_inside, g_erf_radius.
  - apply ex_pseries_scal; [apply Rmult_comm|]. apply ex_pseries_incr_1. exact D.
Qed.

Lemma H_derive x : is_derive (fun t => t * G (t ^ 2)) x (exp (- x ^ 2)).
Proof.
  pose proof (is_derive_PSeries g_erf (x ^ 2) (g_erf_radius _)) as D.
  assert (C : is_derive (fun t => G (t ^ 2)) x (2 * x * PSeries (PS_derive g_erf) (x ^ 2))).
  { apply (is_derive_comp (V := R_NormedModule) G (fun t => t ^ 2) x); [exact D|]. auto_derive; [exact I|ring]. }
  rewrite <- G_equation. replace (G (x ^ 2) + 2 * (x ^ 2 * PSeries (PS_derive g_erf) (x ^ 2)))
    with (1 * G (x ^ 2) + x * (2 * x * PSeries (PS_derive g_erf) (x ^ 2))) by ring.
  apply (is_derive_mult (fun t => t) (fun t => G (t ^ 2))); [exact (is_derive_id (K := R_AbsRing) x)|exact C|intros; apply Rmult_comm].
Qed.
Lemma gauss_continuous t : continuous (fun t => exp (- t ^ 2)) t.
Proof.
  apply (ex_derive_continuous (V := R_NormedModule)). auto_derive. exact I.
Qed.
Lemma gauss_G x : gauss x = x * G (x ^ 2).
Proof.
  unfold gauss. apply is_RInt_unique.
  replace (x * G (x ^ 2)) with (minus (x * G (x ^ 2)) (0 * G (0 ^ 2))).
  - apply (is_RInt_derive (V := R_CompleteNormedModule) (fun t => t * G (t ^ 2)) (fun t => exp (- t ^ 2))); intros; [apply H_derive|apply gauss_continuous].
  - unfold minus, plus, opp. cbn. ring.
Qed.

(** The sums of the code's loop converge to G. *)
Lemma erf_limit z : Un_cv (psum c_erf z) (G z).
Proof.
  assert (P : is_pseries g_erf z (G z)) by (apply PSeries_correct, CV_radius_inside, g_erf_radius).
  apply is_pseries_R in P. apply is_lim_seq_Reals, is_lim_seq_incr_1. eapply is_lim_seq_ext; [|exact P].
  intros n. induction n as [|n IH].
  - rewrite sum_O. cbn [psum]. unfold sterm, g_erf, Rdiv. cbn. ring.
  - rewrite sum_Sn, IH. change (psum c_erf z (S (S n))) with (psum c_erf z (S n) + sterm c_erf z (S n)).
    change plus with Rplus. f_equal. unfold sterm, g_erf, Rdiv. ring.
Qed.

Lemma gauss_derive x : is_derive gauss x (exp (- x ^ 2)).
Proof.
  apply (is_derive_ext (fun t => t * G (t ^ 2))); [intros t; symmetry; apply gauss_G|apply H_derive].
Qed.
Lemma gauss_lipschitz x y : Rabs (gauss x - gauss y) <= Rabs (x - y).
Proof.
  destruct (MVT_gen gauss y x (fun t => exp (- t ^ 2))) as (c & _ & E).
  - intros t _. apply gauss_derive.
  - intros t _. apply derivable_continuous_pt. exists (exp (- t ^ 2)). apply is_derive_Reals, gauss_derive.
  - rewrite E, Rabs_mult. pose proof (exp_pos (- c ^ 2)) as P.
    assert (exp (- c ^ 2) <= 1). { rewrite <- exp_0. assert (0 <= c ^ 2) by (cbn; nra). destruct (Rle_lt_or_eq_dec 0 (c ^ 2)) as [L|L]; [assumption| |].
      - left. apply exp_increasing. lra. - rewrite <- L. right. f_equal. ring. }
    rewrite (Rabs_pos_eq (exp _)) by lra. pose proof (Rabs_pos (x - y)). nra.
Qed.
Lemma gauss_0 : gauss 0 = 0.
Proof. rewrite gauss_G. ring. Qed.
Lemma G_1 x : x <> 0 -> Rabs (G (x ^ 2)) <= 1.
Proof.
  intros H. pose proof (gauss_lipschitz x 0) as L. rewrite gauss_0, !Rminus_0_r, gauss_G, Rabs_mult in L.
  pose proof (Rabs_pos_lt x H). nra.
Qed.

(** ** The normal law *)
Lemma sqrt_2PI : sqrt (2 * PI) = sqrt 2 * sqrt PI.
Proof. apply sqrt_mult; [lra|]. pose proof PI_RGT_0. lra. Qed.
Lemma Phi_erf x : Phi x = (erf (x / sqrt 2) + 1) / 2.
Proof.
  assert (S2 : 0 < sqrt 2) by (apply sqrt_lt_R0; lra). assert (SP : 0 < sqrt PI) by (apply sqrt_lt_R0; apply PI_RGT_0).
  unfold Phi, erf. assert (I : RInt phi 0 x = / sqrt PI * gauss (x / sqrt 2)).
  { apply is_RInt_unique. replace (/ sqrt PI * gauss (x / sqrt 2)) with (minus (/ sqrt PI * gauss (x / sqrt 2)) (/ sqrt PI * gauss (0 / sqrt 2))).
    - apply (is_RInt_derive (V := R_CompleteNormedModule) (fun t => / sqrt PI * gauss (t / sqrt 2)) phi); intros t _.
      + assert (C : is_derive (fun t => gauss (t / sqrt 2)) t (/ sqrt 2 * exp (- (t / sqrt 2) ^ 2))).
        { apply (is_derive_comp (V := R_NormedModule) gauss (fun t => t / sqrt 2) t); [apply gauss_derive|]. auto_derive; [exact I|ring]. }
        apply (is_derive_scal _ _ (/ sqrt PI)) in C. unfold phi. rewrite sqrt_2PI.
        replace (- t ^ 2 / 2) with (- (t / sqrt 2) ^ 2).
        * replace (exp (- (t / sqrt 2) ^ 2) / (sqrt 2 * sqrt PI)) with (/ sqrt PI * (/ sqrt 2 * exp (- (t / sqrt 2) ^ 2))) by (field; split; lra).
          exact C.
        * unfold Rdiv. rewrite Rpow_mult_distr, pow_inv. replace (sqrt 2 ^ 2) with 2 by (cbn; rewrite Rmult_1_r, sqrt_sqrt by lra; reflexivity). field.
      + apply (ex_derive_continuous (V := R_NormedModule)). unfold phi. auto_derive. exact I.
    - replace (0 / sqrt 2) with 0 by (field; lra). rewrite gauss_0. unfold minus, plus, opp. cbn [AbelianGroup.plus AbelianGroup.opp]. change (/ sqrt PI * gauss (x / sqrt 2) + - (/ sqrt PI * 0) = / sqrt PI * gauss (x / sqrt 2)). ring. }
  rewrite I. field. lra.
Qed.
