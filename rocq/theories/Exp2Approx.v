(** The polynomial libmgen asks [approx] for in [gen_exp2]: 2.0.powf(x) on [-1/2, 1/2]. *)
From Coq Require Import ZArith QArith Qabs Qreals Reals Lra Lia List Bool Arith String.
From Verif Require Import Res Dec DecFacts RFacts Syntax Trans TransParse BdMath Eval EvalFacts EvalFunctions EvalSafe Accuracy PiFacts Series LnAcc AccEval Poly PolyFacts PolyErr MulAddFacts ApproxFacts Interp ApproxErr DivDiff PolyExplicit ApproxExplicit.
Import ListNotations.
Open Scope R_scope.

(** log_exp.rs:8 [expr!(2.0.powf(x))] *)
Definition two_pow (x : list string) : expr := EMethodCall (ELit (LFloat "2.0" "")) "powf" None [EPath x].

(** ** Constants *)
Lemma fact_next n v : INR (fact n) = v -> INR (fact (S n)) = INR (S n) * v.
Proof. intros <-. rewrite fact_simpl, mult_INR. reflexivity. Qed.
Fixpoint zf (n : nat) : Z := match n with O => 1%Z | S n' => (Z.of_nat n * zf n')%Z end.
(** Factorials as numerals. *)
Lemma fact_num n : INR (fact n) = IZR (zf n).
Proof. induction n as [|n IH]; [reflexivity|]. rewrite (fact_next n _ IH), INR_IZR_INZ, <- mult_IZR. reflexivity. Qed.
Ltac numerals := rewrite ?fact_num in *; repeat match goal with
  | |- context [zf ?n] => let v := eval compute in (zf n) in change (zf n) with v
  | H : context [zf ?n] |- _ => let v := eval compute in (zf n) in change (zf n) with v in H
  end.

Lemma ln2_tight : 0.69314 <= ln 2 <= 0.69315.
Proof.
  split.
  - destruct (Rle_lt_dec 0.69314 (ln 2)) as [|L]; [assumption|exfalso].
    apply exp_increasing in L. rewrite exp_ln in L by lra.
    destruct (bexp_ok _ _ _ (BD 69314 5) (acc_range 7 ltac:(lia))) as (r & R & A).
    { rewrite rval_eq. cbn [mant scale]. rewrite r10_opp, r10_IZR by lia. change (10 ^ 5)%Z with 100000%Z. change (range_at 7) with 14%Z.
      apply Rabs_le. lra. }
    assert (Er : r = BD 199998564 8).
    { assert (V : bexp (BD 69314 5) 7 = Ok (BD 199998564 8)) by (vm_compute; reflexivity). rewrite V in R. inversion R. reflexivity. }
    unfold within in A. rewrite Er, !rval_eq in A. cbn [mant scale] in A. rewrite !r10_opp, !r10_IZR in A by lia.
    change (10 ^ 5)%Z with 100000%Z in A. change (10 ^ 8)%Z with 100000000%Z in A. change (10 ^ 7)%Z with 10000000%Z in A.
    replace (69314 * / 100000) with 0.69314 in A by lra. apply Rabs_inv_le in A. lra.
  - destruct (Rle_lt_dec (ln 2) 0.69315) as [|L]; [assumption|exfalso].
    apply exp_increasing in L. rewrite exp_ln in L by lra.
    pose proof (psum_exp_le 0.69315 9 ltac:(lra)) as P. rewrite psum_exp in P. cbn [sum_f_R0] in P. numerals. cbn [pow] in P. lra.
Qed.

Lemma r10_num nd : (0 <= nd)%Z -> r10 (- nd) = / IZR (10 ^ nd).
Proof. intros H. rewrite r10_opp, r10_IZR by exact H. reflexivity. Qed.

Lemma sin_cubic y : 0 <= y <= PI -> y - y ^ 3 / 6 <= sin y.
Proof.
  intros H. destruct (sin_bound y 0 (proj1 H) (proj2 H)) as (L & _). apply Rle_trans with (2 := L).
  unfold sin_approx, Rtrigo_alt.sin_term. cbn [sum_f_R0 Nat.add Nat.mul]. numerals. cbn [pow].
  lra.
Qed.
Lemma PI_157 : 1.57 <= PI / 2.
Proof.
  destruct pi_enclosure as (L & _). change (-105)%Z with (- (105))%Z in L. rewrite r10_num in L by lia.
  assert (T0 : 0 < IZR (10 ^ 105)) by (apply (IZR_lt 0); reflexivity).
  assert (P : 314 * IZR (10 ^ 105) <= 100 * IZR pi_lo) by (rewrite <- !mult_IZR; apply IZR_le, Z.leb_le; reflexivity).
  set (p := IZR pi_lo) in *. set (T := IZR (10 ^ 105)) in *. clearbody p T.
  assert (3.14 <= p * / T); [|lra]. apply Rmult_le_reg_r with T; [exact T0|]. rewrite Rmult_assoc, Rinv_l, Rmult_1_r by lra. lra.
Qed.
(** A rational lower bound for the distances of the nodes. *)
Definition spacing_q (m d : nat) : R := let y := 157 / 100 * INR d / INR m in (y - y ^ 3 / 6) ^ 2.
Lemma spacing_cubic w m d : 0 <= w -> (d <= m)%nat -> (1 <= m)%nat -> w * spacing_q m d <= spacing w m d.
Proof.
  intros W D M. unfold spacing, spacing_q. set (y := 157 / 100 * INR d / INR m). pose proof PI_157 as PB. pose proof PI_RGT_0.
  assert (m1 : 1 <= INR m) by (change 1 with (INR 1); apply le_INR; exact M). assert (d0 : 0 <= INR d) by apply pos_INR.
  assert (dm : INR d <= INR m) by (apply le_INR; exact D).
  assert (Q0 : 0 <= INR d / INR m) by (apply Rmult_le_pos; [exact d0|left; apply Rinv_0_lt_compat; lra]).
  assert (Q1 : INR d / INR m <= 1). { apply Rmult_le_reg_r with (INR m); [lra|]. unfold Rdiv. rewrite Rmult_assoc, Rinv_l; lra. }
  assert (Ey : y = 157 / 100 * (INR d / INR m)) by (unfold y; field; lra).
  assert (Ez : INR d * PI / (2 * INR m) = PI / 2 * (INR d / INR m)) by (field; lra).
  rewrite Ez. set (r := INR d / INR m) in *. clearbody r. rewrite Ey. clear Ey y.
  set (y := 157 / 100 * r). assert (Y : 0 <= y <= 1.57) by (unfold y; lra).
  apply Rmult_le_compat_l; [exact W|]. apply pow_incr. split.
  - assert (y ^ 3 / 6 = y * (y * y / 6)) by (cbn [pow]; field). assert (y * y <= 2.5) by nra. nra.
  - apply Rle_trans with (sin y); [apply sin_cubic; lra|]. apply sin_incr_1; unfold y; nra.
Qed.

(** ** The samples *)

Lemma exp_small y : 0 <= y < 1 -> exp y - 1 <= y / (1 - y).
Proof.
  intros H. pose proof (exp_ineq1_le (- y)) as L. rewrite exp_Ropp in L. pose proof (exp_pos y) as P.
  apply Rmult_le_reg_r with (1 - y); [lra|]. replace (y / (1 - y) * (1 - y)) with y by (field; lra).
  assert (exp y * (1 - y) <= 1). { apply Rmult_le_compat_l with (r := exp y) in L; [|lra]. rewrite Rinv_r in L by lra. lra. }
  lra.
Qed.
Lemma Rpower_half_bound t : t <= / 2 + / 100 -> Rpower 2 t <= 1.43.
Proof.
  intros H. apply Rle_trans with (Rpower 2 (/ 2 + / 100)); [apply Rle_Rpower; lra|].
  rewrite Rpower_plus, Rpower_sqrt by lra. destruct ln2_tight as (L1 & L2).
  assert (S : sqrt 2 <= 1.415). { rewrite <- (sqrt_Rsqr 1.415) by lra. apply sqrt_le_1; unfold Rsqr; lra. }
  pose proof (sqrt_pos 2). assert (E : Rpower 2 (/ 100) <= 1.01).
  { unfold Rpower. pose proof (exp_small (/ 100 * ln 2) ltac:(lra)) as X.
    assert (/ 100 * ln 2 / (1 - / 100 * ln 2) <= 0.01); [|lra]. apply Rmult_le_reg_r with (1 - / 100 * ln 2); [lra|].
    unfold Rdiv. rewrite Rmult_assoc, Rinv_l by lra. lra. }
  pose proof (exp_pos (/ 100 * ln 2)). fold (Rpower 2 (/ 100)) in *.
  apply Rle_trans with (1.415 * 1.01); [apply Rmult_le_compat|]; lra.
Qed.

Lemma two_pow_samples o nd x : (2 <= nd <= 94)%Z -> exists F, forall fuel, (F <= fuel)%nat ->
  forall xv, Rabs (rval xv) <= / 2 + r10 (- nd) ->
  exists y, value_at o fuel nd (two_pow x) x xv y /\ Rabs (rval y - Rpower 2 (rval xv)) <= 5 * r10 (- nd).
Proof.
  intros Hn. assert (E2 : rval (BD 20 1) = 2). { rewrite rval_eq. cbn [mant scale]. rewrite r10_num by lia. change (10 ^ 1)%Z with 10%Z. lra. }
  destruct (bln_accurate nd (BD 20 1) Hn) as (F & B); [lra|]. rewrite E2 in B. exists F. intros fuel Hf xv Hx.
  destruct (B fuel Hf) as (l & El & Al). pose proof (r10_cent nd ltac:(lia)) as U. destruct ln2_tight as (L1 & L2).
  set (u := r10 (- nd)) in *. unfold ln_err in Al. rewrite (Rabs_pos_eq (ln 2)) in Al by lra. fold u in Al.
  assert (Al' : Rabs (rval l - ln 2) <= 4.466 * u) by (apply Rle_trans with (1 := Al); apply Rmult_le_compat_r; lra).
  destruct (TransParse.expr_of_bd_ok xv) as (xe & v & E & Bv & V).
  assert (Lx : is_lit xe = true) by (apply expr_of_bd_lit in E; exact E).
  assert (Rv : rval v = rval xv) by (unfold rval; apply Qeq_eqR; exact V). rewrite <- Rv in *. clear V.
  assert (Ex : evals o fuel nd xe v) by (exists xe; split; [destruct xe; try discriminate Lx; reflexivity|exact Bv]).
  assert (Et : evals o fuel nd (ELit (LFloat "2.0" "")) (BD 20 1)) by (exists (ELit (LFloat "2.0" "")); split; reflexivity).
  assert (Dl : Rabs (rval v * (rval l - ln 2)) <= 0.51 * (4.466 * u)).
  { apply Rabs_mult_le; [apply Rle_trans with (1 := Hx); lra|exact Al']. }
  assert (Al2 := Al'). apply Rabs_inv_le in Al2. pose proof (Rabs_inv_le _ _ Hx) as Hx2.
  destruct (bexp_ok _ _ _ (dmul v l) (acc_range nd ltac:(lia))) as (r & R & W).
  { rewrite rval_dmul. apply Rle_trans with 1; [|apply IZR_le; unfold range_at; destruct (Z.eqb_spec nd 1); lia].
    apply Rle_trans with (0.51 * 1); [|lra]. apply Rabs_mult_le; [lra|apply Rabs_le; lra]. }
  unfold within in W. rewrite rval_dmul in W. fold u in W.
  assert (Wr : Rabs (rval r - Rpower 2 (rval v)) <= 5 * u).
  { pose proof (exp_gap (rval v * rval l) (rval v * ln 2)) as G. fold (Rpower 2 (rval v)) in G.
    replace (rval v * rval l - rval v * ln 2) with (rval v * (rval l - ln 2)) in G by ring.
    set (z := Rabs (rval v * (rval l - ln 2))) in *. assert (Z0 : 0 <= z) by apply Rabs_pos.
    assert (Gz : exp z - 1 <= 2.4 * u).
    { apply Rle_trans with (1 := exp_small z ltac:(lra)). apply Rmult_le_reg_r with (1 - z); [lra|]. unfold Rdiv. rewrite Rmult_assoc, Rinv_l by lra. nra. }
    assert (P : Rpower 2 (rval v) <= 1.43) by (apply Rpower_half_bound; lra). assert (0 < Rpower 2 (rval v)) by apply exp_pos.
    assert (G2 : Rpower 2 (rval v) * (exp z - 1) <= 1.43 * (2.4 * u)).
    { apply Rmult_le_compat; try lra. pose proof (exp_ineq1_le z). lra. }
    pose proof (Rabs_tri3 _ _ _ _ _ W G). lra. }
  destruct (evals_of_bd o fuel nd r (EMethodCall (ELit (LFloat "2.0" "")) "powf" None [xe])) as (z & (rz & Z1 & Z2) & Zv).
  { rewrite (eval_method1 o fuel nd _ (BD 20 1) xe v "powf" None Et Ex).
    change (eval_call o fuel nd "powf" (BD 20 1) [v]) with (let? w := bpow fuel (BD 20 1) v nd in ok_or CouldNotEvaluate w).
    unfold bpow. rewrite El. cbn [rbind]. rewrite R. reflexivity. }
  exists z. split; [|rewrite (rval_wd z r Zv); exact Wr].
  exists xe, (EMethodCall (ELit (LFloat "2.0" "")) "powf" None [xe]), rz. split; [exact E|]. split; [|auto].
  unfold two_pow. cbn. unfold find_var. cbn. assert (Px : path_eqb x x = true). { clear. unfold path_eqb. induction x; cbn; [reflexivity|]. rewrite String.eqb_refl. exact IHx. }
  rewrite Px. destruct xe; try discriminate Lx. reflexivity.
Qed.

(** ** The derivatives *)
Definition d_two (i : nat) (t : R) : R := ln 2 ^ i * Rpower 2 t.
Definition F_two (i : nat) : R := 1.43 * 0.69315 ^ i.
Lemma d_two_ok n lo hi : derivatives (Rpower 2) d_two n lo hi.
Proof.
  split.
  - intros t _. unfold d_two. cbn [pow]. ring.
  - intros j t _ _. unfold d_two, Rpower.
    assert (A : derivable_pt_lim (fun t => t * ln 2) t (ln 2)).
    { pose proof (derivable_pt_lim_scal id (ln 2) t 1 (derivable_pt_lim_id t)) as D. rewrite Rmult_1_r in D.
      apply (derivable_pt_lim_ext _ (fun t => t * ln 2) _ _) in D; [exact D|]. intros z. unfold mult_real_fct, id. ring. }
    pose proof (derivable_pt_lim_comp _ _ _ _ _ A (derivable_pt_lim_exp (t * ln 2))) as C.
    apply (derivable_pt_lim_scal _ (ln 2 ^ j)) in C. unfold mult_real_fct, comp in C.
    replace (ln 2 ^ S j * exp (t * ln 2)) with (ln 2 ^ j * (exp (t * ln 2) * ln 2)) by (cbn [pow]; ring). exact C.
Qed.
Lemma d_two_bound i t : t <= / 2 + / 100 -> Rabs (d_two i t) <= F_two i.
Proof.
  intros H. unfold d_two, F_two. destruct ln2_tight as (L1 & L2). assert (P : 0 < Rpower 2 t) by apply exp_pos.
  pose proof (pow_lt (ln 2) i ltac:(lra)) as Q. rewrite Rabs_pos_eq by (apply Rmult_le_pos; lra). rewrite Rmult_comm.
  apply Rmult_le_compat; [lra|lra|apply Rpower_half_bound; exact H|]. apply pow_incr. lra.
Qed.

(** ** The polynomial *)
Section Poly.
  Variable k' : nat.
  Hypothesis k_pos : (1 <= k')%nat.
  Variable nd : Z.
  Hypothesis nd_ok : (2 <= nd <= 94)%Z.
  Hypothesis nd_big : (8 * Z.of_nat k' ^ 2 <= 10 ^ nd)%Z.
  Variables g E : nat -> R.
  Notation u := (r10 (- nd)).
  Hypothesis Bg : forall i, (1 <= i <= k')%nat -> 0 < g i <= spacing_q k' i - 2 * u.
  Hypothesis E0 : E O = 5.
  Hypothesis Gr : forall i, (i < k')%nat -> 2 * E i / g (S i) * (1 + / 200) + 0.6 <= E (S i).

  Definition two_error : R :=
    chebyshev_bound (S k') 1 (F_two (S k')) + F_two (S k') / INR (fact (S k')) * (INR (S k') * (1 + u) ^ S k' * u) +
    rsum (S k') (fun i => (F_two i / INR (fact i) + E i * u) * (INR i * (1 + u) ^ i) + E i * (1 + u) ^ i + 1) * u.
  Definition two_coef_error (j : nat) : R :=
    F_two (S k') / INR (fact (S k' - j)) * (1 + 2 * u) ^ (S k' - j) / INR (fact j) +
    rsum (S k') (fun i => (F_two i / INR (fact i) + E i * u) * (INR i * (3 / 2 + u) ^ i) + E i * (3 / 2 + u) ^ i + 1) * u.

  Theorem two_pow_approx o x xmin xmax : rval xmin = - / 2 -> rval xmax = / 2 -> exists F, forall fuel, (F <= fuel)%nat ->
    exists r ts, approx o fuel (two_pow x) (S k') xmin xmax x PNeither nd = Ok r /\
      List.length ts = S k' /\ mul_add_polynomial ts x PNeither = Ok r /\ Forall (fun c => (0 <= scale c <= nd)%Z) ts /\
      (forall t, - / 2 <= t <= / 2 -> Rabs (rpoly ts t - Rpower 2 t) <= two_error) /\
      (forall j, (j <= k')%nat -> Rabs (rval (nth j ts dzero) - ln 2 ^ j / INR (fact j)) <= two_coef_error j).
  Proof.
    intros Ea Eb. destruct (two_pow_samples o nd x nd_ok) as (F & HF). exists F. intros fuel Hf. specialize (HF fuel Hf).
    pose proof (r10_cent nd ltac:(lia)) as U.
    assert (Ew : rval xmax - rval xmin = 1) by lra.
    destruct (approx_succeeds o fuel (two_pow x) (S k') xmin xmax x PNeither nd) as (r & R); try lia; try reflexivity.
    { apply Rlt_Qlt. unfold rval in *. lra. }
    { rewrite Ew, Ea, Eb, Rmult_1_l. intros xv Hx. destruct (HF xv) as (y & Va & _); [apply Rabs_le; lra|]. eauto. }
    assert (F0 : forall i, 0 <= F_two i) by (intros i; unfold F_two; apply Rmult_le_pos; [lra|apply pow_le; lra]).
    assert (Rp : rprod 0 (fun _ : nat => 1 + u) = 1) by reflexivity.
    assert (Rq : forall i, rprod i (fun _ : nat => 1 + u) = (1 + u) ^ i).
    { induction i as [|i IH]; [reflexivity|]. cbn [rprod pow]. rewrite IH. ring. }
    destruct (approx_explicit k' k_pos nd xmin xmax ltac:(lia) ltac:(lra) ltac:(lra) ltac:(lra) (Rpower 2) d_two F_two g E (fun _ => 1 + u)) with
      (o := o) (fuel := fuel) (e := two_pow x) (x := x) (p := PNeither) (r := r) as (ts & Lts & Mp & Sc & Val & Co).
    - apply d_two_ok.
    - rewrite Ew, Ea, Eb, Rmult_1_l. intros i t _ Ht. apply d_two_bound. lra.
    - rewrite Ew, Rmult_1_l. intros i Hi. pose proof (Bg i Hi). pose proof (spacing_cubic 1 k' i ltac:(lra) ltac:(lia) k_pos). lra.
    - intros i Hi. apply Rle_trans with (2 := Gr i Hi). assert (F_two (S i) / INR (fact (S i)) <= 1); [|lra].
      assert (F_two (S i) <= 1).
      { unfold F_two. cbn [pow]. assert (0.69315 ^ i <= 1 ^ i) by (apply pow_incr; lra). rewrite pow1 in *. lra. }
      assert (1 <= INR (fact (S i))) by (change 1 with (INR 1); apply le_INR, lt_O_fact).
      apply Rmult_le_reg_r with (INR (fact (S i))); [lra|]. unfold Rdiv. rewrite Rmult_assoc, Rinv_l by lra. lra.
    - rewrite Ew, Rmult_1_l. intros i Hi.
      assert (Bn : rval xmin <= node (rval xmin) (rval xmax) (S k') i <= rval xmax).
      { unfold node. set (c := cos _). assert (Cb : -1 <= c <= 1) by apply COS_bound. clearbody c. rewrite Ea, Eb. lra. }
      lra.
    - reflexivity.
    - exact R.
    - rewrite Ew, Ea, Eb, Rmult_1_l, E0. intros xv y Hx Va. destruct (HF xv) as (y' & Va' & B); [apply Rabs_le; lra|].
      rewrite (value_at_fun _ _ _ _ _ _ _ _ Va Va'). exact B.
    - exists r, ts. split; [exact R|]. split; [exact Lts|]. split; [exact Mp|]. split; [exact Sc|]. split.
      + intros t Ht. rewrite Ea, Eb in Val. specialize (Val t Ht). apply Rle_trans with (1 := Val). right.
        unfold two_error, nodes_error, digits_error. replace (/ 2 - - / 2) with 1 by lra. f_equal. f_equal. apply rsum_ext. intros i Hi. rewrite Rq. reflexivity.
      + intros j Hj. specialize (Co ltac:(lra) j Hj). unfold d_two in Co. rewrite Rpower_O in Co by lra. rewrite Rmult_1_r in Co. exact Co.
  Qed.
End Poly.
