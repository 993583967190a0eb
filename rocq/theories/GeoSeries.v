(** Power series of ln, atan and asin. *)
From Coq Require Import Reals Lra Lia Arith.
From Coquelicot Require Import Coquelicot.
From Verif Require Import Series GeoFacts.
Open Scope R_scope.

Lemma radius1 (a : nat -> R) : (forall n, Rabs (a n) <= 1) -> forall x, Rabs x < 1 -> Rbar_lt (Rabs x) (CV_radius a).
Proof.
  intros Ha x Hx. destruct (CV_radius_bounded a) as [ub _].
  apply Rbar_lt_le_trans with (Finite 1); [exact Hx|]. apply (ub 1). exists 1. intros n.
  rewrite pow1, Rmult_1_r. apply Ha.
Qed.

(** A function with the derivative of the series and its value at 0. *)
Lemma same_derivative (f g : R -> R) (df : R -> R) :
  (forall x, Rabs x < 1 -> is_derive f x (df x)) -> (forall x, Rabs x < 1 -> is_derive g x (df x)) ->
  f 0 = g 0 -> forall x, Rabs x < 1 -> f x = g x.
Proof.
  intros Hf Hg H0 x Hx.
  assert (In : forall y, Rmin 0 x <= y <= Rmax 0 x -> Rabs y < 1).
  { intros y Hy. unfold Rmin, Rmax in Hy. destruct (Rle_dec 0 x).
    - rewrite Rabs_pos_eq in * by lra. lra.
    - rewrite Rabs_left in Hx by lra. rewrite Rabs_left1 by lra. lra. }
  assert (D : forall y, Rabs y < 1 -> is_derive (fun t => f t - g t) y 0).
  { intros y Hy. replace 0 with (df y - df y) by ring. apply (is_derive_minus (V := R_NormedModule) f g); auto. }
  destruct (MVT_gen (fun t => f t - g t) 0 x (fun _ => 0)) as (c & _ & E).
  - intros y Hy. apply D, In. lra.
  - intros y Hy. apply derivable_continuous_pt. exists 0. apply is_derive_Reals. apply D, In. exact Hy.
  - cbn beta in E. lra.
Qed.

Lemma gsum_sum a x n : gsum a x (S n) = sum_n (fun k => a k * x ^ k) n.
Proof.
  induction n as [|n IH]; [rewrite sum_O; cbn [gsum]; apply Rplus_0_l|].
  change (gsum a x (S (S n))) with (gsum a x (S n) + a (S n) * x ^ S n). rewrite IH, sum_Sn. reflexivity.
Qed.
Lemma pseries_cv a x l : is_pseries a x l -> Un_cv (gsum a x) l.
Proof.
  intros H. apply is_pseries_R in H. apply is_lim_seq_Reals.
  apply is_lim_seq_incr_1. eapply is_lim_seq_ext; [|exact H]. intros n. symmetry. apply gsum_sum.
Qed.

Lemma series_of a G :
  (forall n, Rabs (a n) <= 1) ->
  (forall x, Rabs x < 1 -> is_derive G x (PSeries (PS_derive a) x)) -> G 0 = a O ->
  forall x, Rabs x < 1 -> Un_cv (gsum a x) (G x).
Proof.
  intros Ha HG H0 x Hx. apply pseries_cv.
  assert (E : PSeries a x = G x).
  { apply (same_derivative (PSeries a) G (PSeries (PS_derive a))); auto.
    - intros y Hy. apply is_derive_PSeries, radius1; auto.
    - rewrite PSeries_0. symmetry. exact H0. }
  rewrite <- E. apply PSeries_correct, CV_radius_inside, radius1; auto.
Qed.

(** ** ln *)
Definition c_ln (i : nat) : R := match i with O => 0 | S _ => - (-1) ^ i / INR i end.
Definition c_lnd (i : nat) : R := match i with O => 0 | S _ => - / INR i end.

Lemma inv_INR i : 0 < / INR (S i) <= 1.
Proof.
  assert (1 <= INR (S i)) by (rewrite S_INR; pose proof (pos_INR i); lra). split; [apply Rinv_0_lt_compat; lra|].
  rewrite <- Rinv_1. apply Rinv_le_contravar; lra.
Qed.
Lemma c_ln_abs i : Rabs (c_ln (S i)) = / INR (S i).
Proof.
  unfold c_ln, Rdiv. rewrite Rabs_mult, Rabs_Ropp, pow_m1_abs, Rmult_1_l. apply Rabs_pos_eq, Rlt_le, inv_INR.
Qed.
Lemma c_lnd_abs i : Rabs (c_lnd (S i)) = / INR (S i).
Proof. unfold c_lnd. rewrite Rabs_Ropp. apply Rabs_pos_eq, Rlt_le, inv_INR. Qed.
Lemma c_ln_1 i : Rabs (c_ln i) <= 1.
Proof. destruct i; [cbn; rewrite Rabs_R0; lra|]. rewrite c_ln_abs. apply inv_INR. Qed.
Lemma c_lnd_1 i : Rabs (c_lnd i) <= 1.
Proof. destruct i; [cbn; rewrite Rabs_R0; lra|]. rewrite c_lnd_abs. apply inv_INR. Qed.

Lemma geom q x : Rabs (q * x) < 1 -> PSeries (fun n => q ^ n) x = / (1 - q * x).
Proof.
  intros H. apply is_pseries_unique, is_pseries_R. eapply is_series_ext; [|apply is_series_geom; exact H].
  intros n. apply Rpow_mult_distr.
Qed.

Lemma ln_series x : Rabs x < 1 -> Un_cv (gsum c_ln x) (ln (1 + x)).
Proof.
  revert x. apply (series_of c_ln (fun x => ln (1 + x)) c_ln_1).
  - intros x Hx. apply Rabs_def2 in Hx. rewrite (PSeries_ext _ (fun n => (-1) ^ n)).
    + rewrite geom by (apply Rabs_def1; lra). auto_derive; [lra|]. field. lra.
    + intros n. unfold PS_derive, c_ln. cbn [pow]. field. apply not_0_INR. lia.
  - cbn. rewrite Rplus_0_r. apply ln_1.
Qed.
Lemma lnd_series x : Rabs x < 1 -> Un_cv (gsum c_lnd x) (ln (1 - x)).
Proof.
  revert x. apply (series_of c_lnd (fun x => ln (1 - x)) c_lnd_1).
  - intros x Hx. apply Rabs_def2 in Hx. rewrite (PSeries_ext _ (PS_opp (fun n => 1 ^ n))).
    + rewrite PSeries_opp, geom by (apply Rabs_def1; lra). auto_derive; [lra|]. field. lra.
    + intros n. unfold PS_derive, PS_opp, c_lnd. rewrite pow1. change (opp 1) with (- (1)). field. apply not_0_INR. lia.
  - cbn. rewrite Rminus_0_r. apply ln_1.
Qed.

(** ** atan *)
Definition c_atan (i : nat) : R := if Nat.odd i then (-1) ^ Nat.div2 i / INR i else 0.

Lemma odd_pos i : Nat.odd i = true -> exists k, i = S (2 * k).
Proof. intros H. apply Nat.odd_spec in H. destruct H as [k ->]. exists k. lia. Qed.
Lemma even_pos i : Nat.odd i = false -> exists k, i = (2 * k)%nat.
Proof.
  intros H. assert (E : Nat.even i = true) by (rewrite <- Nat.negb_odd, H; reflexivity).
  apply Nat.even_spec in E. destruct E as [k ->]. exists k. lia.
Qed.
Lemma c_atan_abs i : Nat.odd i = true -> Rabs (c_atan i) = / INR i.
Proof.
  intros H. destruct (odd_pos i H) as [k ->]. unfold c_atan. rewrite H. unfold Rdiv. rewrite Rabs_mult, pow_m1_abs, Rmult_1_l.
  apply Rabs_pos_eq, Rlt_le, inv_INR.
Qed.
Lemma c_atan_1 i : Rabs (c_atan i) <= 1.
Proof.
  destruct (Nat.odd i) eqn:E.
  - rewrite c_atan_abs by exact E. destruct (odd_pos i E) as [k ->]. apply inv_INR.
  - unfold c_atan. rewrite E, Rabs_R0. lra.
Qed.

(** A series with even terms only. *)
Lemma even_series (b : nat -> R) x :
  (forall n, Rabs (b n) <= 1) -> Rabs x < 1 ->
  PSeries (fun n => if Nat.odd n then 0 else b (Nat.div2 n)) x = PSeries b (x * x).
Proof.
  intros Hb Hx. apply is_pseries_unique.
  assert (X2 : Rabs (x ^ 2) < 1).
  { rewrite <- RPow_abs. pose proof (Rabs_pos x). cbn. nra. }
  replace (PSeries b (x * x)) with (PSeries b (x ^ 2) + x * 0) by (replace (x * x) with (x ^ 2) by ring; ring).
  apply is_pseries_odd_even.
  - apply is_pseries_R. assert (C : ex_pseries b (x ^ 2)) by (apply CV_radius_inside, radius1; auto).
    apply PSeries_correct, is_pseries_R in C. eapply is_series_ext; [|exact C].
    intros n. cbn beta. rewrite odd_double, div2_double'. reflexivity.
  - apply is_pseries_R. eapply is_series_ext with (fun _ => 0).
    + intros n. rewrite Nat.add_1_r, odd_succ_double. cbn. ring.
    + apply is_series_Reals. intros e He. exists O. intros n _. rewrite sum_cte, Rmult_0_l. unfold R_dist. rewrite Rminus_0_r, Rabs_R0. exact He.
Qed.

Lemma atan_series x : Rabs x < 1 -> Un_cv (gsum c_atan x) (atan x).
Proof.
  revert x. apply (series_of c_atan atan c_atan_1).
  - intros x Hx. rewrite (PSeries_ext _ (fun n => if Nat.odd n then 0 else (-1) ^ Nat.div2 n)).
    + assert (X2 : Rabs (x * x) < 1). { rewrite Rabs_mult. pose proof (Rabs_pos x). nra. }
      rewrite (even_series (fun n => (-1) ^ n)).
      * rewrite geom by (replace (-1 * (x * x)) with (- (x * x)) by ring; rewrite Rabs_Ropp; exact X2).
        replace (/ (1 - -1 * (x * x))) with (/ (1 + x ^ 2)) by (f_equal; ring). apply is_derive_Reals.
        apply derivable_pt_lim_atan.
      * intros n. rewrite pow_m1_abs. lra.
      * exact Hx.
    + intros n. unfold PS_derive, c_atan. rewrite Nat.odd_succ, <- Nat.negb_odd. destruct (Nat.odd n) eqn:E; cbn [negb].
      * ring.
      * destruct (even_pos n E) as [k ->]. rewrite div2_succ_double', div2_double'. field. apply not_0_INR. lia.
  - rewrite atan_0. reflexivity.
Qed.

(** ** asin *)
(** (1 * 3 * ... * (2k-1)) / (2 * 4 * ... * 2k) *)
Fixpoint b_asin (k : nat) : R := match k with O => 1 | S j => b_asin j * (INR (2 * j + 1) / INR (2 * j + 2)) end.
Definition c_asin (i : nat) : R := if Nat.odd i then b_asin (Nat.div2 i) / INR i else 0.

Lemma b_asin_pos k : 0 < b_asin k <= 1.
Proof.
  induction k as [|k IH]; [cbn; lra|]. cbn [b_asin].
  assert (A : 0 < INR (2 * k + 1)) by (apply lt_0_INR; lia).
  assert (B : INR (2 * k + 1) <= INR (2 * k + 2)) by (apply le_INR; lia).
  assert (Q : 0 < INR (2 * k + 1) / INR (2 * k + 2) <= 1).
  { split; [apply Rdiv_lt_0_compat; lra|]. apply Rmult_le_reg_r with (INR (2 * k + 2)); [lra|].
    unfold Rdiv. rewrite Rmult_assoc, Rinv_l; lra. }
  split; [apply Rmult_lt_0_compat; lra|]. nra.
Qed.
Lemma b_asin_mono k j : b_asin (k + j) <= b_asin k.
Proof.
  induction j as [|j IH]; [rewrite Nat.add_0_r; lra|]. rewrite Nat.add_succ_r. cbn [b_asin].
  pose proof (b_asin_pos (k + j)) as P.
  assert (A : 0 < INR (2 * (k + j) + 1)) by (apply lt_0_INR; lia).
  assert (B : INR (2 * (k + j) + 1) <= INR (2 * (k + j) + 2)) by (apply le_INR; lia).
  assert (Q : INR (2 * (k + j) + 1) / INR (2 * (k + j) + 2) <= 1).
  { apply Rmult_le_reg_r with (INR (2 * (k + j) + 2)); [lra|]. unfold Rdiv. rewrite Rmult_assoc, Rinv_l; lra. }
  assert (b_asin (k + j) * (INR (2 * (k + j) + 1) / INR (2 * (k + j) + 2)) <= b_asin (k + j) * 1) by (apply Rmult_le_compat_l; lra).
  lra.
Qed.
Lemma b_asin_abs k : Rabs (b_asin k) <= 1.
Proof. pose proof (b_asin_pos k). rewrite Rabs_pos_eq; lra. Qed.
Lemma c_asin_abs k : Rabs (c_asin (S (2 * k))) = b_asin k / INR (S (2 * k)).
Proof.
  unfold c_asin. rewrite odd_succ_double, div2_succ_double'. apply Rabs_pos_eq.
  pose proof (b_asin_pos k). apply Rmult_le_pos; [lra|]. apply Rlt_le, inv_INR.
Qed.
Lemma c_asin_le i : Rabs (c_asin (S i)) <= / INR (S i).
Proof.
  pose proof (inv_INR i) as I. destruct (Nat.odd (S i)) eqn:E.
  - destruct (odd_pos _ E) as [k K]. rewrite K in *. rewrite c_asin_abs. pose proof (b_asin_pos k). unfold Rdiv. nra.
  - unfold c_asin. rewrite E, Rabs_R0. lra.
Qed.
Lemma c_asin_1 i : Rabs (c_asin i) <= 1.
Proof. destruct i; [cbn; rewrite Rabs_R0; lra|]. eapply Rle_trans; [apply c_asin_le|apply inv_INR]. Qed.

(** The sum of b_k y^k is 1 / sqrt (1 - y). *)
Lemma b_ode y : Rabs y < 1 -> 2 * (1 - y) * PSeries (PS_derive b_asin) y = PSeries b_asin y.
Proof.
  intros Hy.
  assert (Cb : Rbar_lt (Rabs y) (CV_radius b_asin)) by (apply radius1; [apply b_asin_abs|exact Hy]).
  assert (Cd : Rbar_lt (Rabs y) (CV_radius (PS_derive b_asin))) by (rewrite CV_radius_derive; exact Cb).
  set (d := PS_derive b_asin).
  assert (Ed : ex_pseries d y) by (apply CV_radius_inside; exact Cd).
  assert (Ei : ex_pseries (PS_incr_1 d) y) by (apply ex_pseries_incr_1; exact Ed).
  replace (2 * (1 - y) * PSeries d y) with (2 * (PSeries d y - y * PSeries d y)) by ring.
  rewrite <- PSeries_incr_1, <- PSeries_minus by assumption.
  rewrite <- PSeries_scal. apply PSeries_ext. intros n. unfold PS_scal, PS_minus, PS_plus, PS_opp, PS_incr_1, d, PS_derive.
  destruct n as [|n].
  - cbn [b_asin]. change (scal 2 (plus (INR 1 * (1 * (INR (2 * 0 + 1) / INR (2 * 0 + 2)))) (opp 0)) = 1).
    change (2 * (INR 1 * (1 * (INR (2 * 0 + 1) / INR (2 * 0 + 2))) + - 0) = 1). cbn. field.
  - change (2 * (INR (S (S n)) * b_asin (S (S n)) + - (INR (S n) * b_asin (S n))) = b_asin (S n)).
    change (b_asin (S (S n))) with (b_asin (S n) * (INR (2 * S n + 1) / INR (2 * S n + 2))).
    rewrite !plus_INR, !mult_INR, !S_INR. cbn [INR]. pose proof (pos_INR n). field. lra.
Qed.

Lemma b_sum y : Rabs y < 1 -> PSeries b_asin y = / sqrt (1 - y).
Proof.
  intros Hy. assert (Sq : forall t, Rabs t < 1 -> 0 < sqrt (1 - t)).
  { intros t Ht. apply Rabs_def2 in Ht. apply sqrt_lt_R0. lra. }
  assert (E : PSeries b_asin y * sqrt (1 - y) = 1).
  { apply (same_derivative (fun t => PSeries b_asin t * sqrt (1 - t)) (fun _ => 1) (fun _ => 0)); auto.
    - intros t Ht. pose proof (Sq t Ht) as St. pose proof (b_ode t Ht) as O.
      assert (D1 : is_derive (PSeries b_asin) t (PSeries (PS_derive b_asin) t)).
      { apply is_derive_PSeries, radius1; [apply b_asin_abs|exact Ht]. }
      assert (D2 : is_derive (fun t => sqrt (1 - t)) t (- / (2 * sqrt (1 - t)))).
      { apply Rabs_def2 in Ht. auto_derive; [lra|]. replace (1 + - t) with (1 - t) by ring. field. lra. }
      replace 0 with (PSeries (PS_derive b_asin) t * sqrt (1 - t) + PSeries b_asin t * (- / (2 * sqrt (1 - t)))).
      + apply (is_derive_mult (PSeries b_asin) (fun t => sqrt (1 - t))); auto. intros u v. apply Rmult_comm.
      + rewrite <- O. assert (1 - t = sqrt (1 - t) * sqrt (1 - t)) as Q by (apply Rabs_def2 in Ht; rewrite sqrt_sqrt; lra).
        rewrite Q at 2. field. lra.
    - intros t _. auto_derive; auto.
    - rewrite PSeries_0, Rminus_0_r, sqrt_1. cbn. ring. }
  pose proof (Sq y Hy). apply Rmult_eq_reg_r with (sqrt (1 - y)); [|lra]. rewrite E. field. lra.
Qed.

Lemma asin_series x : Rabs x < 1 -> Un_cv (gsum c_asin x) (asin x).
Proof.
  revert x. apply (series_of c_asin asin c_asin_1).
  - intros x Hx. rewrite (PSeries_ext _ (fun n => if Nat.odd n then 0 else b_asin (Nat.div2 n))).
    + assert (X2 : Rabs (x * x) < 1). { rewrite Rabs_mult. pose proof (Rabs_pos x). nra. }
      rewrite (even_series b_asin) by (auto using b_asin_abs). rewrite b_sum by exact X2.
      apply is_derive_Reals. replace (/ sqrt (1 - x * x)) with (1 / sqrt (1 - x²)) by (unfold Rsqr, Rdiv; ring).
      assert (R1 : -1 < x < 1) by (apply Rabs_def2 in Hx; lra).
      rewrite <- (derive_pt_asin x R1). unfold derive_pt. apply proj2_sig.
    + intros n. unfold PS_derive, c_asin. rewrite Nat.odd_succ, <- Nat.negb_odd. destruct (Nat.odd n) eqn:E; cbn [negb].
      * ring.
      * destruct (even_pos n E) as [k ->]. rewrite div2_succ_double', div2_double'. field. apply not_0_INR. lia.
  - rewrite asin_0. reflexivity.
Qed.
