(** Domains of ln, log and pow; non-termination of ln at zero digits. *)
From Coq Require Import ZArith QArith Reals Lra Lia List Bool.
From Verif Require Import Res Dec DecFacts RFacts BdMath.
Import ListNotations.

Lemma nonpos_dec x : dis_zero x || dis_negative x = true <-> (dval x <= 0)%Q.
Proof.
  unfold dis_zero, dis_negative. rewrite orb_true_iff, Z.eqb_eq, Z.ltb_lt. split; intros H.
  - apply Qnot_lt_le. intros L. apply dval_pos in L. lia.
  - apply Qle_not_lt in H. rewrite <- dval_pos in H. lia.
Qed.

Lemma bln_nonpos fuel x nd : (dval x <= 0)%Q -> bln fuel x nd = Ok None.
Proof. intros H. apply nonpos_dec in H. unfold bln. rewrite H. reflexivity. Qed.
Lemma bln_pos fuel x nd : (0 < dval x)%Q -> bln fuel x nd <> Ok None.
Proof.
  intros H E. assert (N : dis_zero x || dis_negative x = false).
  { apply not_true_iff_false. intros T. apply nonpos_dec in T. exact (Qlt_not_le _ _ H T). }
  unfold bln in E. rewrite N in E. destruct (dleb done x).
  - destruct (bexp dhalf nd); try discriminate E. cbn [rbind] in E. destruct (bexp (dneg dhalf) nd); try discriminate E. cbn [rbind] in E.
    destruct (ln_up _ _ _ _ _); try discriminate E. cbn [rbind] in E. destruct (maclaurin _ _ _ _); discriminate E.
  - destruct (bexp (dneg dhalf) nd); try discriminate E. cbn [rbind] in E. destruct (bexp dhalf nd); try discriminate E. cbn [rbind] in E.
    destruct (ln_down _ _ _ _ _); try discriminate E. cbn [rbind] in E. destruct (maclaurin _ _ _ _); discriminate E.
Qed.
Theorem bln_domain fuel x nd : bln fuel x nd = Ok None <-> (dval x <= 0)%Q.
Proof.
  split; [|apply bln_nonpos]. intros H. destruct (Qlt_le_dec 0 (dval x)) as [L|L]; [|exact L].
  exfalso. exact (bln_pos fuel x nd L H).
Qed.
Theorem bpow_domain fuel x y nd : bpow fuel x y nd = Ok None <-> (dval x <= 0)%Q.
Proof.
  rewrite <- (bln_domain fuel x nd). unfold bpow. split; intros H.
  - destruct (bln fuel x nd) as [[l|]| |]; cbn [rbind] in H; try discriminate; [|reflexivity].
    destruct (bexp (dmul y l) nd); discriminate.
  - rewrite H. reflexivity.
Qed.
Theorem blog_domain fuel x b nd r : blog fuel x b nd = Ok r -> (r = None <-> (dval x <= 0 \/ dval b <= 0)%Q).
Proof.
  unfold blog. intros H. destruct (bln fuel x nd) as [a| |] eqn:A; cbn [rbind] in H; try discriminate.
  destruct (bln fuel b nd) as [c| |] eqn:C; cbn [rbind] in H; try discriminate.
  pose proof (bln_domain fuel x nd) as DA. pose proof (bln_domain fuel b nd) as DC. rewrite A in DA. rewrite C in DC.
  destruct a as [la|].
  - assert (NA : ~ (dval x <= 0)%Q) by (intros N; apply DA in N; discriminate).
    destruct c as [lc|].
    + assert (NC : ~ (dval b <= 0)%Q) by (intros N; apply DC in N; discriminate).
      destruct (ddiv la lc); try discriminate. inversion H. split; [discriminate|tauto].
    + inversion H. split; [intros _; right; apply DC; reflexivity|reflexivity].
  - inversion H. split; [intros _; left; apply DA; reflexivity|reflexivity].
Qed.

(** ** Zero digits *)
Lemma half_exp_0 : bexp dhalf 0 = Ok (BD 3 0) /\ bexp (dneg dhalf) 0 = Ok (BD 1 0).
Proof. split; vm_compute; reflexivity. Qed.
Lemma ln_up_stuck fuel x e : (3 <= dval x)%Q -> ln_up fuel (BD 3 0) (BD 1 0) x e = Err OutOfFuel.
Proof.
  revert x e. induction fuel as [|k IH]; intros x e H; [reflexivity|]. cbn [ln_up].
  assert (L : dleb (BD 3 0) x = true).
  { apply dleb_R. unfold rval. apply Qreals.Qle_Rle. change (dval (BD 3 0)) with (inject_Z 3 * p10 0)%Q.
    change (p10 0) with 1%Q. rewrite Qmult_1_r. exact H. }
  rewrite L. apply IH. rewrite dval_dmul. change (dval (BD 1 0)) with (inject_Z 1 * p10 0)%Q. change (p10 0) with 1%Q.
  rewrite Qmult_1_r, Qmult_1_r. exact H.
Qed.
Theorem bln_zero_digits fuel x : (3 <= dval x)%Q -> bln fuel x 0 = Err OutOfFuel.
Proof.
  intros H. unfold bln. assert (N : dis_zero x || dis_negative x = false).
  { apply not_true_iff_false. intros T. apply nonpos_dec in T. apply (Qle_trans _ _ _ H) in T. compute in T. apply T. reflexivity. }
  assert (L : dleb done x = true).
  { apply dleb_R. unfold rval. apply Qreals.Qle_Rle. change (dval done) with (inject_Z 1 * p10 0)%Q.
    change (p10 0) with 1%Q. rewrite Qmult_1_r. change (inject_Z 1) with 1%Q. apply (Qle_trans _ 3); [compute; discriminate|exact H]. }
  rewrite N, L. destruct half_exp_0 as [A B]. rewrite A, B. cbn [rbind]. rewrite ln_up_stuck by exact H. reflexivity.
Qed.

(** ** Panics outside the domain *)
Lemma basin_panic o x nd : (nd < 100)%Z -> (forall y, (dval y < 0)%Q -> o_sqrt o y = None) ->
  (1 < Rabs (rval x))%R -> basin o x nd = Panic.
Proof.
  intros Hn Ho Hx. unfold basin. assert (A : dltb dhalf (dabs x) = true).
  { apply dltb_R. rewrite rval_dabs, rval_half. lra. }
  rewrite A. unfold bpi. rewrite (proj2 (Z.ltb_lt nd 100) Hn). cbn [rbind]. rewrite Ho; [reflexivity|].
  apply Qreals.Rlt_Qlt. change (Rdefinitions.Q2R (dval (dsub done (dmul x x)))) with (rval (dsub done (dmul x x))).
  rewrite rval_dsub, rval_dmul. unfold done. rewrite rval_bigd, RMicromega.Q2R_0.
  assert (1 < rval x * rval x)%R; [|lra].
  rewrite <- (Rabs_pos_eq (rval x * rval x)) by nra. rewrite Rabs_mult. nra.
Qed.
Lemma bdnorm_panic o x mean sd nd : (dval sd == 0)%Q -> bdnorm o x mean sd nd = Panic.
Proof. intros H. unfold bdnorm. rewrite (proj2 (ddiv_panic (dsub x mean) sd)) by exact H. reflexivity. Qed.
Lemma bqnorm_panic o fuel x mean sd nd : (dval x == 1)%Q -> bqnorm o fuel x mean sd nd = Panic.
Proof.
  intros H. unfold bqnorm. rewrite (proj2 (ddiv_panic x (dsub done x))); [reflexivity|].
  rewrite dval_dsub, H. reflexivity.
Qed.
Theorem ln_diverges : exists x n, (0 <= n)%Z /\ (0 < dval x)%Q /\ forall fuel, bln fuel x n = Err OutOfFuel.
Proof.
  exists (BD 3 0), 0%Z. split; [lia|]. split; [reflexivity|]. intros fuel. apply bln_zero_digits. vm_compute. discriminate.
Qed.
