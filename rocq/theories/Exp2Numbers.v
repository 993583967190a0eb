(** The two calls of [gen_exp2], in numbers. *)
From Coq Require Import ZArith QArith Reals Lra Lia List Bool Arith String.
From Verif Require Import Res Dec DecFacts RFacts Syntax Trans BdMath Eval Poly PolyFacts MulAddFacts ApproxFacts Interp ApproxErr DivDiff PolyExplicit ApproxExplicit Exp2Approx.
Import ListNotations.
Open Scope R_scope.

Ltac cases_to i H n :=
  match n with
  | O => exfalso; lia
  | S ?m => destruct i as [|i]; [|cases_to i H m]
  end.

(** 8 terms, 20 digits: f32 *)
Definition g8 (i : nat) : R := IZR (nth i [0; 494; 1879; 3869; 6034; 7856; 8827; 8556]%Z 0%Z) / 10000.
Definition E8 (i : nat) : R := IZR (nth i [5; 205; 2194; 11399; 37973; 97157; 221238; 519740]%Z 0%Z).
(** in units of 10^-8 *)
Definition c8 (i : nat) : R := IZR (nth i [189; 1512; 5292; 10584; 13230; 10584; 5292; 1512]%Z 0%Z) / 100000000.
Lemma u20 : r10 (- (20)) = / 100000000000000000000.
Proof. rewrite r10_num by lia. reflexivity. Qed.

Lemma spacing8 i : (1 <= i <= 7)%nat -> 0 < g8 i <= spacing_q 7 i - 2 * r10 (- (20)).
Proof.
  intros H. rewrite u20. destruct i as [|i]; [lia|]. cases_to i H 7%nat; unfold g8, spacing_q; cbn [nth]; cbv zeta; rewrite !INR_IZR_INZ; cbn [Z.of_nat Pos.of_succ_nat Pos.succ pow]; lra.
Qed.
Lemma growth8 i : (i < 7)%nat -> 2 * E8 i / g8 (S i) * (1 + / 200) + 0.6 <= E8 (S i).
Proof. intros H. cases_to i H 7%nat; unfold g8, E8; cbn [nth]; lra. Qed.

Ltac expand := unfold two_error, chebyshev_bound, F_two; cbn [rsum Nat.sub]; numerals; rewrite !INR_IZR_INZ;
  cbn [Z.of_nat Pos.of_succ_nat Pos.succ pow].
Definition coef_sum (n : nat) (u : R) (E : nat -> R) : R :=
  rsum n (fun i => (F_two i / INR (fact i) + E i * u) * (INR i * (3 / 2 + u) ^ i) + E i * (3 / 2 + u) ^ i + 1) * u.
Lemma error8 : two_error 7 20 E8 <= 1.16 / 10000000000.
Proof. expand. rewrite u20. unfold E8. cbn [nth]. lra. Qed.
Lemma coef_sum8 : coef_sum 8 (/ 100000000000000000000) E8 <= 2 / 10000000000000.
Proof. unfold coef_sum. expand. unfold E8. cbn [nth]. lra. Qed.
Lemma coef8 j : (j <= 7)%nat -> two_coef_error 7 20 E8 j <= c8 j.
Proof.
  intros H. unfold two_coef_error. rewrite u20. fold (coef_sum 8 (/ 100000000000000000000) E8). pose proof coef_sum8 as C.
  set (s := coef_sum _ _ _) in *. clearbody s. unfold F_two. cases_to j H 8%nat; cbn [Nat.sub]; numerals; unfold c8; cbn [nth pow]; lra.
Qed.

(** 12 terms, 40 digits: f64 *)
Definition g12 (i : nat) : R := IZR (nth i [0; 202; 792; 1723; 2914; 4264; 5650; 6936; 7987; 8672; 8886; 8556]%Z 0%Z) / 10000.
Definition E12 (i : nat) : R := IZR (nth i [5; 499; 12665; 147747; 1019121; 4804019; 17090405; 49526694; 124638357; 288887337; 653458866; 1535124266]%Z 0%Z).
(** in units of 10^-12 *)
Definition c12 (i : nat) : R := IZR (nth i [37; 441; 2424; 8079; 18178; 29084; 33932; 29084; 18178; 8079; 2424; 441]%Z 0%Z) / 1000000000000.
Lemma u40 : r10 (- (40)) = / 10000000000000000000000000000000000000000.
Proof. rewrite r10_num by lia. reflexivity. Qed.
Lemma spacing12 i : (1 <= i <= 11)%nat -> 0 < g12 i <= spacing_q 11 i - 2 * r10 (- (40)).
Proof.
  intros H. rewrite u40. destruct i as [|i]; [lia|]. cases_to i H 11%nat; unfold g12, spacing_q; cbn [nth]; cbv zeta; rewrite !INR_IZR_INZ; cbn [Z.of_nat Pos.of_succ_nat Pos.succ pow]; lra.
Qed.
Lemma growth12 i : (i < 11)%nat -> 2 * E12 i / g12 (S i) * (1 + / 200) + 0.6 <= E12 (S i).
Proof. intros H. cases_to i H 11%nat; unfold g12, E12; cbn [nth]; lra. Qed.
Lemma sum_cut n u lam K : 0 <= u -> 0 <= lam <= K -> (forall i, 0 <= E12 i) ->
  rsum n (fun i => (F_two i / INR (fact i) + E12 i * u) * (INR i * lam ^ i) + E12 i * lam ^ i + 1) <=
  rsum n (fun i => (F_two i / INR (fact i) + E12 i * u) * (INR i * K ^ i) + E12 i * K ^ i + 1).
Proof.
  intros U L HE. apply rsum_le. intros i _. assert (P : lam ^ i <= K ^ i) by (apply pow_incr; exact L). pose proof (pos_INR i). specialize (HE i).
  assert (0 <= F_two i / INR (fact i)).
  { apply Rmult_le_pos; [unfold F_two; apply Rmult_le_pos; [lra|apply pow_le; lra]|left; apply Rinv_0_lt_compat, INR_fact_lt_0]. }
  assert (A : 0 <= F_two i / INR (fact i) + E12 i * u) by (assert (0 <= E12 i * u) by (apply Rmult_le_pos; lra); lra).
  apply Rplus_le_compat_r, Rplus_le_compat; [apply Rmult_le_compat_l; [exact A|]|]; apply Rmult_le_compat_l; lra.
Qed.
Lemma E12_pos i : 0 <= E12 i.
Proof. unfold E12. apply IZR_le. do 12 (destruct i as [|i]; [discriminate|]). destruct i; discriminate. Qed.
Lemma error12 : two_error 11 40 E12 <= 8.8 / 1000000000000000000.
Proof.
  unfold two_error. rewrite u40. set (u := / _). assert (Hu : 0 <= u <= / 1000000000000) by (unfold u; lra).
  pose proof (sum_cut 12 u (1 + u) 1.1 ltac:(lra) ltac:(lra) E12_pos) as C.
  apply Rmult_le_compat_r with (r := u) in C; [|lra].
  assert (P : (1 + u) ^ 12 <= 1.1 ^ 12) by (apply pow_incr; lra).
  apply Rle_trans with (chebyshev_bound 12 1 (F_two 12) + F_two 12 / INR (fact 12) * (INR 12 * 1.1 ^ 12 * u) +
    rsum 12 (fun i => (F_two i / INR (fact i) + E12 i * u) * (INR i * 1.1 ^ i) + E12 i * 1.1 ^ i + 1) * u).
  - apply Rplus_le_compat; [|exact C]. apply Rplus_le_compat_l, Rmult_le_compat_l.
    + unfold F_two. numerals. apply Rmult_le_pos; [apply Rmult_le_pos; [lra|apply pow_le; lra]|lra].
    + apply Rmult_le_compat_r; [lra|]. apply Rmult_le_compat_l; [apply pos_INR|exact P].
  - clear C P. expand. unfold E12. cbn [nth]. unfold u. lra.
Qed.
Lemma coef_sum12 : coef_sum 12 (/ 10000000000000000000000000000000000000000) E12 <= 2 / 10000000000000000000.
Proof.
  unfold coef_sum. set (u := / _). assert (Hu : 0 <= u <= / 1000000000000) by (unfold u; lra).
  apply Rle_trans with (rsum 12 (fun i => (F_two i / INR (fact i) + E12 i * u) * (INR i * 1.6 ^ i) + E12 i * 1.6 ^ i + 1) * u).
  - apply Rmult_le_compat_r; [lra|]. apply sum_cut; [lra|lra|exact E12_pos].
  - expand. unfold E12. cbn [nth]. unfold u. lra.
Qed.
Lemma coef12 j : (j <= 11)%nat -> two_coef_error 11 40 E12 j <= c12 j.
Proof.
  intros H. unfold two_coef_error. rewrite u40. fold (coef_sum 12 (/ 10000000000000000000000000000000000000000) E12). pose proof coef_sum12 as C.
  set (s := coef_sum _ _ _) in *. clearbody s. unfold F_two. cases_to j H 12%nat; cbn [Nat.sub]; numerals; unfold c12; cbn [nth pow]; lra.
Qed.

Theorem exp2_poly_32 o x xmin xmax : rval xmin = - / 2 -> rval xmax = / 2 -> exists F, forall fuel, (F <= fuel)%nat ->
  exists r ts, approx o fuel (two_pow x) 8 xmin xmax x PNeither 20 = Ok r /\
    List.length ts = 8%nat /\ mul_add_polynomial ts x PNeither = Ok r /\ Forall (fun c => (0 <= scale c <= 20)%Z) ts /\
    (forall t, - / 2 <= t <= / 2 -> Rabs (rpoly ts t - Rpower 2 t) <= 1.16 / 10000000000) /\
    (forall j, (j <= 7)%nat -> Rabs (rval (nth j ts dzero) - ln 2 ^ j / INR (fact j)) <= c8 j).
Proof.
  intros Ea Eb. destruct (two_pow_approx 7 ltac:(lia) 20 ltac:(lia) ltac:(apply Z.leb_le; reflexivity) g8 E8 spacing8 eq_refl growth8 o x xmin xmax Ea Eb) as (F & H).
  exists F. intros fuel Hf. destruct (H fuel Hf) as (r & ts & A & B & C & D & V & W). exists r, ts. repeat (split; [assumption|]). split.
  - intros t Ht. apply Rle_trans with (1 := V t Ht), error8.
  - intros j Hj. apply Rle_trans with (1 := W j Hj), coef8, Hj.
Qed.
Theorem exp2_poly_64 o x xmin xmax : rval xmin = - / 2 -> rval xmax = / 2 -> exists F, forall fuel, (F <= fuel)%nat ->
  exists r ts, approx o fuel (two_pow x) 12 xmin xmax x PNeither 40 = Ok r /\
    List.length ts = 12%nat /\ mul_add_polynomial ts x PNeither = Ok r /\ Forall (fun c => (0 <= scale c <= 40)%Z) ts /\
    (forall t, - / 2 <= t <= / 2 -> Rabs (rpoly ts t - Rpower 2 t) <= 8.8 / 1000000000000000000) /\
    (forall j, (j <= 11)%nat -> Rabs (rval (nth j ts dzero) - ln 2 ^ j / INR (fact j)) <= c12 j).
Proof.
  intros Ea Eb. destruct (two_pow_approx 11 ltac:(lia) 40 ltac:(lia) ltac:(apply Z.leb_le; reflexivity) g12 E12 spacing12 eq_refl growth12 o x xmin xmax Ea Eb) as (F & H).
  exists F. intros fuel Hf. destruct (H fuel Hf) as (r & ts & A & B & C & D & V & W). exists r, ts. repeat (split; [assumption|]). split.
  - intros t Ht. apply Rle_trans with (1 := V t Ht), error12.
  - intros j Hj. apply Rle_trans with (1 := W j Hj), coef12, Hj.
Qed.

Lemma exp2_value_32 o x xmin xmax : rval xmin = - / 2 -> rval xmax = / 2 -> exists F, forall fuel, (F <= fuel)%nat ->
  exists r, approx o fuel (two_pow x) 8 xmin xmax x PNeither 20 = Ok r /\
    forall I, real_interp I -> - / 2 <= i_path I x <= / 2 -> Rabs (den I r - Rpower 2 (i_path I x)) <= 1.16 / 10000000000.
Proof.
  intros Ea Eb. destruct (exp2_poly_32 o x xmin xmax Ea Eb) as (F & H). exists F. intros fuel Hf.
  destruct (H fuel Hf) as (r & ts & A & L & Mp & _ & V & _). exists r. split; [exact A|]. intros I HI Hx.
  rewrite (emitted_value ts x PNeither r I eq_refl Mp HI). apply V. exact Hx.
Qed.
Lemma exp2_value_64 o x xmin xmax : rval xmin = - / 2 -> rval xmax = / 2 -> exists F, forall fuel, (F <= fuel)%nat ->
  exists r, approx o fuel (two_pow x) 12 xmin xmax x PNeither 40 = Ok r /\
    forall I, real_interp I -> - / 2 <= i_path I x <= / 2 -> Rabs (den I r - Rpower 2 (i_path I x)) <= 8.8 / 1000000000000000000.
Proof.
  intros Ea Eb. destruct (exp2_poly_64 o x xmin xmax Ea Eb) as (F & H). exists F. intros fuel Hf.
  destruct (H fuel Hf) as (r & ts & A & L & Mp & _ & V & _). exists r. split; [exact A|]. intros I HI Hx.
  rewrite (emitted_value ts x PNeither r I eq_refl Mp HI). apply V. exact Hx.
Qed.
