(** Concrete computations of the BigDecimal functions used as witnesses. *)
From Coq Require Import ZArith QArith Qreals Reals Lra Lia List Bool.
From Verif Require Import Res Dec DecFacts RFacts BdMath Accuracy DecFast.
Import ListNotations.
Open Scope R_scope.

Lemma rval_le_abs x b : (Z.abs (mant x) <= b * 10 ^ scale x)%Z -> (0 <= scale x)%Z -> Rabs (rval x) <= IZR b.
Proof.
  intros H S. rewrite rval_eq, Rabs_mult, (Rabs_right (r10 _)) by (apply Rle_ge, Rlt_le, r10_pos).
  rewrite r10_opp, r10_IZR, <- abs_IZR by exact S.
  assert (P : 0 < IZR (10 ^ scale x)) by (apply IZR_lt, Zpow10_pos; exact S).
  apply Rmult_le_reg_r with (IZR (10 ^ scale x)); [exact P|]. rewrite Rmult_assoc, Rinv_l, Rmult_1_r by lra.
  rewrite <- mult_IZR. apply IZR_le. exact H.
Qed.

Definition x12 : bd := BD 1234567 5.
Definition e12_2 : bd := BD 229962649 3.
Definition e12_10 : bd := BD 22996214789685817 11.
Lemma exp12_2 : bexp x12 2 = Ok e12_2.
Proof. rewrite bexp_fast_ok. vm_compute. reflexivity. Qed.
Lemma exp12_10 : bexp x12 10 = Ok e12_10.
Proof. rewrite bexp_fast_ok. vm_compute. reflexivity. Qed.

(** exp(12.34567) at 2 digits is off by about a half. *)
Theorem bexp_large_bad : exists r, bexp x12 2 = Ok r /\ Rabs (rval r - exp (rval x12)) > r10 (-2).
Proof.
  exists e12_2. split; [apply exp12_2|].
  destruct (bexp_ok (range_at 10) 10 (terms_for 10) x12) as (r & R & W).
  { apply acc_range. lia. }
  { apply rval_le_abs; [vm_compute; discriminate|cbn; lia]. }
  rewrite exp12_10 in R. inversion R. subst r. unfold within in W.
  assert (D : rval e12_2 - rval e12_10 = 50110314183 * r10 (-11)).
  { rewrite !rval_eq. unfold e12_2, e12_10. cbn [mant scale].
    replace (r10 (- (3))) with (IZR (10 ^ 8) * r10 (-11)) by (rewrite <- r10_IZR, <- r10_plus by lia; reflexivity).
    change (r10 (- (11))) with (r10 (-11)). change (10 ^ 8)%Z with 100000000%Z. ring. }
  replace (r10 (-2)) with (1000000000 * r10 (-11)).
  2:{ change 1000000000 with (IZR (10 ^ 9)). rewrite <- r10_IZR, <- r10_plus by lia. reflexivity. }
  replace (r10 (- (10))) with (10 * r10 (-11)) in W.
  2:{ change 10 with (IZR (10 ^ 1)). rewrite <- r10_IZR, <- r10_plus by lia. reflexivity. }
  pose proof (r10_pos (-11)) as P. set (u := r10 (-11)) in *. clearbody u.
  unfold Rabs in *. destruct (Rcase_abs _) in W; destruct (Rcase_abs _); lra.
Qed.
Theorem exp_everywhere_bad :
  exists x n r, (1 <= n <= 98)%Z /\ bexp x n = Ok r /\ (Rabs (rval r - exp (rval x)) > r10 (- n))%R.
Proof.
  destruct bexp_large_bad as (r & R & B). exists x12, 2%Z, r. split; [lia|]. split; [exact R|exact B].
Qed.
