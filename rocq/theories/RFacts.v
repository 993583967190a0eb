(** Real values of BigDecimals. *)
From Coq Require Import ZArith QArith Qabs Qreals Reals Lra Lia.
From Verif Require Import Res Dec DecFacts.
Open Scope R_scope.

Definition rval (x : bd) : R := Q2R (dval x).
(** 10^z *)
Definition r10 (z : Z) : R := powerRZ 10 z.

Lemma r10_pos z : 0 < r10 z.
Proof. apply powerRZ_lt. lra. Qed.
Lemma r10_plus a b : r10 (a + b) = r10 a * r10 b.
Proof. apply powerRZ_add. lra. Qed.
Lemma r10_opp a : r10 (- a) = / r10 a.
Proof. apply powerRZ_neg'. Qed.
Lemma r10_0 : r10 0 = 1.
Proof. reflexivity. Qed.
Lemma r10_IZR z : (0 <= z)%Z -> r10 z = IZR (10 ^ z).
Proof.
  intros H. unfold r10. rewrite <- (Z2Nat.id z H). rewrite <- pow_powerRZ, <- pow_IZR. reflexivity.
Qed.
Lemma r10_mono a b : (a <= b)%Z -> r10 a <= r10 b.
Proof.
  intros H. replace b with (a + (b - a))%Z by lia. rewrite r10_plus.
  rewrite (r10_IZR (b - a)) by lia. assert (1 <= 10 ^ (b - a))%Z by (pose proof (Zpow10_pos (b - a)); lia).
  apply IZR_le in H0. pose proof (r10_pos a). nra.
Qed.

Lemma Q2R_p10 z : Q2R (p10 z) = r10 z.
Proof.
  assert (P : forall n, (0 <= n)%Z -> Q2R (p10 n) = r10 n).
  { intros n H. rewrite (Qeq_eqR _ _ (p10_Z n H)), r10_IZR by exact H.
    unfold Q2R, inject_Z. cbn. field. }
  destruct (Z_le_gt_dec 0 z) as [H|H]; [apply P; exact H|].
  replace z with (- - z)%Z by lia. rewrite r10_opp, (Qeq_eqR _ _ (p10_opp (- z))), Q2R_inv, P by
    (try apply p10_nz; lia). reflexivity.
Qed.
Lemma Q2R_inject z : Q2R (inject_Z z) = IZR z.
Proof. unfold Q2R, inject_Z. cbn. field. Qed.
Lemma Q2R_abs q : Q2R (Qabs q) = Rabs (Q2R q).
Proof.
  apply Qabs_case; intros H; apply Qle_Rle in H; rewrite RMicromega.Q2R_0 in H.
  - rewrite Rabs_pos_eq; auto.
  - rewrite Q2R_opp, Rabs_left1; auto.
Qed.

Lemma rval_eq x : rval x = IZR (mant x) * r10 (- scale x).
Proof. unfold rval, dval. rewrite Q2R_mult, Q2R_p10, Q2R_inject. reflexivity. Qed.
Lemma rval_dadd x y : rval (dadd x y) = rval x + rval y.
Proof. unfold rval. rewrite (Qeq_eqR _ _ (dval_dadd x y)). apply Q2R_plus. Qed.
Lemma rval_dsub x y : rval (dsub x y) = rval x - rval y.
Proof. unfold rval. rewrite (Qeq_eqR _ _ (dval_dsub x y)). apply Q2R_minus. Qed.
Lemma rval_dmul x y : rval (dmul x y) = rval x * rval y.
Proof. unfold rval. rewrite (Qeq_eqR _ _ (dval_dmul x y)). apply Q2R_mult. Qed.
Lemma rval_dneg x : rval (dneg x) = - rval x.
Proof. unfold rval. rewrite (Qeq_eqR _ _ (dval_dneg x)). apply Q2R_opp. Qed.
Lemma rval_dabs x : rval (dabs x) = Rabs (rval x).
Proof. unfold rval. rewrite (Qeq_eqR _ _ (dval_dabs x)). apply Q2R_abs. Qed.
Lemma rval_bigd z : rval (bigd z) = IZR z.
Proof. unfold rval. rewrite (Qeq_eqR _ _ (dval_bigd z)). apply Q2R_inject. Qed.
Lemma rval_normalized x : rval (normalized x) = rval x.
Proof. unfold rval. rewrite (Qeq_eqR _ _ (normalized_val x)). reflexivity. Qed.
Lemma rval_half : rval dhalf = / 2.
Proof. rewrite rval_eq, r10_opp, r10_IZR by (cbn; lia). cbn [mant scale dhalf]. change (10 ^ 7)%Z with 10000000%Z. field. Qed.
Lemma rval_half64 : rval (BD 5000000000000000 16) = / 2.
Proof. rewrite rval_eq, r10_opp, r10_IZR by (cbn; lia). cbn [mant scale]. change (10 ^ 16)%Z with 10000000000000000%Z. field. Qed.

Lemma deqb_R x y : deqb x y = true <-> rval x = rval y.
Proof.
  rewrite deqb_spec. split; [intros H; apply Qeq_eqR; exact H|intros H; apply eqR_Qeq; exact H].
Qed.
Lemma dltb_R x y : dltb x y = true <-> rval x < rval y.
Proof. rewrite dltb_spec. split; [apply Qlt_Rlt|apply Rlt_Qlt]. Qed.
Lemma dleb_R x y : dleb x y = true <-> rval x <= rval y.
Proof. rewrite dleb_spec. split; [apply Qle_Rle|apply Rle_Qle]. Qed.
Lemma dltb_false_R x y : dltb x y = false <-> rval y <= rval x.
Proof.
  pose proof (dltb_R x y) as [A B]. destruct (dltb x y); split; intros L.
  - discriminate.
  - specialize (A eq_refl). lra.
  - destruct (Rle_lt_dec (rval y) (rval x)) as [C|C]; [exact C|]. specialize (B C). discriminate.
  - reflexivity.
Qed.
Lemma dleb_false_R x y : dleb x y = false <-> rval y < rval x.
Proof.
  pose proof (dleb_R x y) as [A B]. destruct (dleb x y); split; intros L.
  - discriminate.
  - specialize (A eq_refl). lra.
  - destruct (Rle_lt_dec (rval x) (rval y)) as [C|C]; [|exact C]. specialize (B C). discriminate.
  - reflexivity.
Qed.

(** Rounding at [n >= 0] digits. *)
Lemma round_err_R x n : (0 <= n)%Z -> Rabs (rval (round x n) - rval x) <= / 2 * r10 (- n).
Proof.
  intros H. destruct (round_spec x n H) as (k & _ & B & _). apply Qle_Rle in B.
  rewrite Q2R_abs, Q2R_minus, Q2R_mult, Q2R_p10 in B.
  replace (Q2R (1 # 2)) with (/ 2) in B by (unfold Q2R; cbn; field). exact B.
Qed.
(** Rounded numbers are multiples of 10^-n. *)
Lemma round_grid_R x n : (0 <= n)%Z -> exists k, rval (round x n) = IZR k * r10 (- n).
Proof.
  intros H. destruct (round_spec x n H) as (k & E & _). exists k. unfold rval.
  rewrite (Qeq_eqR _ _ E), Q2R_mult, Q2R_p10, Q2R_inject. reflexivity.
Qed.
(** A number closer than half a unit to a multiple of 10^-n rounds to it. *)
Lemma round_to_grid x n k : (0 <= n)%Z ->
  Rabs (rval x - IZR k * r10 (- n)) < / 2 * r10 (- n) -> rval (round x n) = IZR k * r10 (- n).
Proof.
  intros H L. destruct (round_grid_R x n H) as [k' E]. pose proof (round_err_R x n H) as B.
  rewrite E in *. assert (D : Rabs (IZR k' * r10 (- n) - IZR k * r10 (- n)) < r10 (- n)).
  { replace (IZR k' * r10 (- n) - IZR k * r10 (- n)) with
      ((IZR k' * r10 (- n) - rval x) + (rval x - IZR k * r10 (- n))) by ring.
    eapply Rle_lt_trans; [apply Rabs_triang|]. lra. }
  replace (IZR k' * r10 (- n) - IZR k * r10 (- n)) with (IZR (k' - k) * r10 (- n)) in D by
    (rewrite minus_IZR; ring).
  pose proof (r10_pos (- n)) as P. rewrite Rabs_mult, (Rabs_pos_eq (r10 (- n))) in D by lra.
  assert (A : Rabs (IZR (k' - k)) < 1).
  { apply Rmult_lt_reg_r with (r10 (- n)); lra. }
  rewrite <- abs_IZR in A. apply lt_IZR in A. replace k' with k by lia. reflexivity.
Qed.

(** Division: a relative error of half of 10^-99. *)
Definition delta : R := / 2 * r10 (-99).
Lemma delta_pos : 0 < delta.
Proof. unfold delta. pose proof (r10_pos (-99)). lra. Qed.
Lemma delta_small : delta <= / 2 * r10 (-2).
Proof. unfold delta. assert (r10 (-99) <= r10 (-2)) by (apply r10_mono; lia). lra. Qed.

Lemma ddiv_R x y : rval y <> 0 -> exists z, ddiv x y = Ok z /\
  Rabs (rval z - rval x / rval y) <= delta * Rabs (rval x / rval y).
Proof.
  intros H. assert (N : ~ (dval y == 0)%Q).
  { intros E. apply H. unfold rval. rewrite (Qeq_eqR _ _ E). apply RMicromega.Q2R_0. }
  destruct (ddiv_ok x y N) as [z D]. exists z. split; [exact D|].
  pose proof (ddiv_err x y z D) as E. apply Qle_Rle in E.
  rewrite Q2R_abs, Q2R_minus, !Q2R_mult, Q2R_abs, Q2R_div, Q2R_p10 in E by exact N.
  replace (Q2R (1 # 2)) with (/ 2) in E by (unfold Q2R; cbn; field). exact E.
Qed.
