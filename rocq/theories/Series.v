(** Partial sums of exponential-like series and their tails. *)
From Coq Require Import Reals Lra Lia Arith.
Open Scope R_scope.

(** Sum of the first [n] terms c_j x^j / j!. *)
Definition sterm (c : nat -> R) (x : R) (j : nat) : R := c j * (x ^ j / INR (fact j)).
Fixpoint psum (c : nat -> R) (x : R) (n : nat) : R :=
  match n with O => 0 | S k => psum c x k + sterm c x k end.

Lemma fact_pos n : 0 < INR (fact n).
Proof. apply lt_0_INR, lt_O_fact. Qed.

Lemma bernoulli2 n : 2 * INR (S n) ^ S n <= INR (S (S n)) ^ S n.
Proof.
  rewrite (S_INR (S n)). set (m := INR (S n)). assert (M : 0 < m) by (apply lt_0_INR; lia).
  replace (m + 1) with (m * (1 + / m)) by (field; lra). rewrite Rpow_mult_distr.
  assert (B : 1 + INR (S n) * / m <= (1 + / m) ^ S n) by (apply poly; apply Rinv_0_lt_compat; exact M).
  fold m in B. rewrite Rinv_r in B by lra. assert (0 < m ^ S n) by (apply pow_lt; exact M). nra.
Qed.

Lemma amgm n : 2 ^ n * INR (fact n) <= INR (S n) ^ n.
Proof.
  induction n as [|n IH]; [cbn; lra|].
  pose proof (bernoulli2 n) as B. rewrite fact_simpl, mult_INR.
  change (2 ^ S n) with (2 * 2 ^ n). change (INR (S n) ^ S n) with (INR (S n) * INR (S n) ^ n) in B.
  assert (P : 0 < INR (S n)) by (apply lt_0_INR; lia). nra.
Qed.

(** A power term below one: the remaining ratios are at most a half. *)
Lemma small_term_ratio (x : R) n : 0 <= x -> x ^ n / INR (fact n) < 1 -> 2 * x < INR (S n) .
Proof.
  intros X H. destruct (Rlt_le_dec (2 * x) (INR (S n))) as [L|L]; [exact L|exfalso].
  assert (A : INR (S n) ^ n <= (2 * x) ^ n).
  { apply pow_incr. split; [apply pos_INR|exact L]. }
  rewrite Rpow_mult_distr in A. pose proof (amgm n) as G. pose proof (fact_pos n) as F.
  assert (P : 0 < 2 ^ n) by (apply pow_lt; lra).
  assert (K : INR (fact n) <= x ^ n).
  { apply Rmult_le_reg_l with (2 ^ n); lra. }
  apply Rmult_lt_compat_r with (r := INR (fact n)) in H; [|exact F].
  unfold Rdiv in H. rewrite Rmult_assoc, Rinv_l, Rmult_1_r, Rmult_1_l in H by lra. lra.
Qed.

Lemma next_term x n : x ^ S n / INR (fact (S n)) = x ^ n / INR (fact n) * (x / INR (S n)).
Proof.
  rewrite fact_simpl, mult_INR. cbn [pow]. pose proof (fact_pos n).
  assert (0 < INR (S n)) by (apply lt_0_INR; lia). field. split; lra.
Qed.

Lemma later_term x n k : 0 <= x -> 2 * x <= INR (S n) ->
  0 <= x ^ (n + k) / INR (fact (n + k)) <= x ^ n / INR (fact n) * (/ 2) ^ k.
Proof.
  intros X L. induction k as [|k IH].
  - rewrite Nat.add_0_r. cbn. split; [|lra].
    apply Rmult_le_pos; [apply pow_le; exact X|]. apply Rlt_le, Rinv_0_lt_compat, fact_pos.
  - rewrite Nat.add_succ_r, next_term. cbn [pow].
    assert (I : INR (S n) <= INR (S (n + k))) by (apply le_INR; lia).
    assert (P : 0 < INR (S (n + k))) by (apply lt_0_INR; lia).
    assert (R : 0 <= x / INR (S (n + k)) <= / 2).
    { split.
      - apply Rmult_le_pos; [exact X|apply Rlt_le, Rinv_0_lt_compat; exact P].
      - apply Rmult_le_reg_r with (INR (S (n + k))); [exact P|].
        unfold Rdiv. rewrite Rmult_assoc, Rinv_l, Rmult_1_r by lra. lra. }
    destruct IH as [I0 I1]. split; [apply Rmult_le_pos; tauto|].
    rewrite (Rmult_comm (/ 2)), <- Rmult_assoc. apply Rmult_le_compat; tauto.
Qed.

(** The tail from [n] on, where the coefficients are at most [C]. *)
Section Tail.
Variables (c : nat -> R) (x C : R) (n : nat).
Hypothesis Hc : forall j, (n <= j)%nat -> Rabs (c j) <= C.

Lemma sterm_abs j : (n <= j)%nat -> Rabs (sterm c x j) <= C * (Rabs x ^ j / INR (fact j)).
Proof.
  intros Hj. unfold sterm, Rdiv. rewrite !Rabs_mult, RPow_abs.
  rewrite (Rabs_pos_eq (/ INR (fact j))) by (apply Rlt_le, Rinv_0_lt_compat, fact_pos).
  apply Rmult_le_compat_r; [|apply Hc; exact Hj].
  apply Rmult_le_pos; [apply Rabs_pos|]. apply Rlt_le, Rinv_0_lt_compat, fact_pos.
Qed.

Lemma psum_block k : 2 * Rabs x <= INR (S n) ->
  Rabs (psum c x (n + k) - psum c x n) <= C * (Rabs x ^ n / INR (fact n) * (2 - 2 * (/ 2) ^ k)).
Proof.
  intros L. assert (C0 : 0 <= C) by (eapply Rle_trans; [apply Rabs_pos|apply (Hc n); lia]). induction k as [|k IH].
  - rewrite Nat.add_0_r. replace (psum c x n - psum c x n) with 0 by ring. rewrite Rabs_R0. cbn. lra.
  - rewrite Nat.add_succ_r. cbn [psum].
    replace (psum c x (n + k) + sterm c x (n + k) - psum c x n)
      with ((psum c x (n + k) - psum c x n) + sterm c x (n + k)) by ring.
    eapply Rle_trans; [apply Rabs_triang|].
    pose proof (sterm_abs (n + k) ltac:(lia)) as S. pose proof (later_term (Rabs x) n k (Rabs_pos x) L) as [_ T].
    apply (Rmult_le_compat_l C) in T; [|exact C0]. cbn [pow]. lra.
Qed.

Lemma limit_tail_C l : Un_cv (psum c x) l -> 2 * Rabs x <= INR (S n) ->
  Rabs (l - psum c x n) <= 2 * (C * (Rabs x ^ n / INR (fact n))).
Proof.
  intros Cv L. assert (C0 : 0 <= C) by (eapply Rle_trans; [apply Rabs_pos|apply (Hc n); lia]).
  apply le_epsilon. intros eps E. destruct (Cv eps E) as [N HN].
  specialize (HN (n + N)%nat ltac:(lia)). unfold R_dist in HN.
  pose proof (psum_block N L) as B.
  assert (P : 0 <= C * (Rabs x ^ n / INR (fact n))).
  { apply Rmult_le_pos; [exact C0|]. apply Rmult_le_pos; [apply pow_le, Rabs_pos|]. apply Rlt_le, Rinv_0_lt_compat, fact_pos. }
  assert (Q : 0 <= (/ 2) ^ N) by (apply pow_le; lra).
  replace (l - psum c x n) with (- (psum c x (n + N) - l) + (psum c x (n + N) - psum c x n)) by ring.
  eapply Rle_trans; [apply Rabs_triang|]. rewrite Rabs_Ropp.
  set (w := C * (Rabs x ^ n / INR (fact n))) in *.
  replace (C * (Rabs x ^ n / INR (fact n) * (2 - 2 * (/ 2) ^ N))) with (w * (2 - 2 * (/ 2) ^ N)) in B by (unfold w; ring). nra.
Qed.
End Tail.
Lemma limit_tail c x (Hc : forall j, Rabs (c j) <= 1) l n : Un_cv (psum c x) l -> 2 * Rabs x <= INR (S n) ->
  Rabs (l - psum c x n) <= 2 * (Rabs x ^ n / INR (fact n)).
Proof. intros Cv L. rewrite <- (Rmult_1_l (_ / _)). apply limit_tail_C; auto. Qed.

(** ** exp *)
Definition c_exp (_ : nat) : R := 1.

Lemma psum_exp x n : psum c_exp x (S n) = sum_f_R0 (fun i => / INR (fact i) * x ^ i) n.
Proof.
  induction n as [|n IH].
  - cbn. unfold sterm, c_exp. cbn. field.
  - change (psum c_exp x (S (S n))) with (psum c_exp x (S n) + sterm c_exp x (S n)).
    rewrite IH, tech5. f_equal. unfold sterm, c_exp, Rdiv. ring.
Qed.
Lemma exp_limit x : Un_cv (psum c_exp x) (exp x).
Proof.
  unfold exp. destruct (exist_exp x) as [l H]. cbn. intros eps E. destruct (H eps E) as [N HN].
  exists (S N). intros n Hn. destruct n as [|n]; [lia|]. rewrite psum_exp. apply HN. lia.
Qed.

(** ** sin, cos *)
Definition c_sin (j : nat) : R := if Nat.odd j then (-1) ^ Nat.div2 j else 0.
Definition c_cos (j : nat) : R := if Nat.odd j then 0 else (-1) ^ Nat.div2 j.

Lemma div2_double' n : Nat.div2 (2 * n) = n.
Proof. apply Nat.div2_double. Qed.
Lemma div2_succ_double' n : Nat.div2 (S (2 * n)) = n.
Proof. apply Nat.div2_succ_double. Qed.
Lemma odd_double n : Nat.odd (2 * n) = false.
Proof. rewrite Nat.odd_mul. reflexivity. Qed.
Lemma odd_succ_double n : Nat.odd (S (2 * n)) = true.
Proof. rewrite Nat.odd_succ. rewrite <- Nat.negb_odd, odd_double. reflexivity. Qed.

Lemma pow_m1_abs n : Rabs ((-1) ^ n) = 1.
Proof. apply pow_1_abs. Qed.
Lemma c_exp_abs j : Rabs (c_exp j) <= 1.
Proof. unfold c_exp. rewrite Rabs_R1. lra. Qed.
Lemma c_sin_abs j : Rabs (c_sin j) <= 1.
Proof. unfold c_sin. destruct (Nat.odd j); [rewrite pow_m1_abs|rewrite Rabs_R0]; lra. Qed.
Lemma c_cos_abs j : Rabs (c_cos j) <= 1.
Proof. unfold c_cos. destruct (Nat.odd j); [rewrite Rabs_R0|rewrite pow_m1_abs]; lra. Qed.

Lemma psum_sin x n : psum c_sin x (2 * S n) = x * sum_f_R0 (fun i => sin_n i * Rsqr x ^ i) n.
Proof.
  induction n as [|n IH].
  - cbn. unfold sterm, c_sin, sin_n. cbn. field.
  - replace (2 * S (S n))%nat with (S (S (2 * S n))) by lia. cbn [psum]. rewrite IH, tech5.
    unfold sterm, c_sin. rewrite odd_double, odd_succ_double, div2_succ_double'.
    unfold sin_n, Rdiv. replace (2 * S n + 1)%nat with (S (2 * S n)) by lia.
    change (x ^ S (2 * S n)) with (x * x ^ (2 * S n)). rewrite pow_mult.
    replace (x ^ 2) with (Rsqr x) by (unfold Rsqr; ring). ring.
Qed.
Lemma psum_cos x n : psum c_cos x (2 * S n) = sum_f_R0 (fun i => cos_n i * Rsqr x ^ i) n.
Proof.
  induction n as [|n IH].
  - cbn. unfold sterm, c_cos, cos_n. cbn. field.
  - replace (2 * S (S n))%nat with (S (S (2 * S n))) by lia. cbn [psum]. rewrite IH, tech5.
    unfold sterm, c_cos. rewrite odd_double, odd_succ_double, div2_double'.
    unfold cos_n, Rdiv. rewrite pow_mult.
    replace (x ^ 2) with (Rsqr x) by (unfold Rsqr; ring). ring.
Qed.

Lemma psum_step_bound c x n : (forall j, Rabs (c j) <= 1) ->
  Rabs (psum c x (S n) - psum c x n) <= Rabs x ^ n / INR (fact n).
Proof.
  intros H. cbn [psum]. replace (_ + _ - _) with (sterm c x n) by ring.
  rewrite <- (Rmult_1_l (Rabs x ^ n / _)). apply (sterm_abs c x 1 n); auto.
Qed.

(** Convergence along the even indices is convergence. *)
Lemma even_limit c x l : (forall j, Rabs (c j) <= 1) ->
  Un_cv (fun n => psum c x (2 * S n)) l -> Un_cv (psum c x) l.
Proof.
  intros Hc C eps E. destruct (C (eps / 2) ltac:(lra)) as [N HN].
  destruct (cv_speed_pow_fact (Rabs x) (eps / 2) ltac:(lra)) as [M HM].
  exists (S (S (2 * N + M))). intros m Hm. unfold R_dist.
  destruct (Nat.Even_or_Odd m) as [[k K]|[k K]].
  - destruct k as [|k]; [lia|]. specialize (HN k ltac:(lia)). unfold R_dist in HN. rewrite K. lra.
  - destruct k as [|k]; [lia|]. specialize (HN k ltac:(lia)). unfold R_dist in HN.
    replace m with (S (2 * S k)) by lia.
    pose proof (psum_step_bound c x (2 * S k) Hc) as B.
    specialize (HM (2 * S k)%nat ltac:(lia)). unfold R_dist in HM. rewrite Rminus_0_r in HM.
    apply Rabs_def2 in HM. 
    replace (psum c x (S (2 * S k)) - l) with ((psum c x (S (2 * S k)) - psum c x (2 * S k)) + (psum c x (2 * S k) - l)) by ring.
    eapply Rle_lt_trans; [apply Rabs_triang|]. lra.
Qed.

Lemma sin_limit x : Un_cv (psum c_sin x) (sin x).
Proof.
  apply even_limit; [apply c_sin_abs|].
  unfold sin. destruct (exist_sin (Rsqr x)) as [l H].
  apply Un_cv_ext with (fun n => x * sum_f_R0 (fun i => sin_n i * Rsqr x ^ i) n).
  { intros n. symmetry. apply psum_sin. }
  apply (CV_mult (fun _ => x) _ x l); [|exact H].
  intros eps E. exists O. intros n _. unfold R_dist. replace (x - x) with 0 by ring. rewrite Rabs_R0. exact E.
Qed.
Lemma cos_limit x : Un_cv (psum c_cos x) (cos x).
Proof.
  apply even_limit; [apply c_cos_abs|].
  unfold cos. destruct (exist_cos (Rsqr x)) as [l H].
  apply Un_cv_ext with (fun n => sum_f_R0 (fun i => cos_n i * Rsqr x ^ i) n).
  { intros n. symmetry. apply psum_cos. }
  exact H.
Qed.
