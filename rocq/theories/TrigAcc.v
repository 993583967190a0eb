(** Accuracy of atan, asin, acos and tan. *)
From Coq Require Import ZArith QArith Reals Lra Lia List Bool.
From Verif Require Import Res Dec DecFacts RFacts BdMath Series MacFacts Accuracy PiFacts GeoFacts GeoInst GeoSeries LnAcc.
Import ListNotations.
Open Scope R_scope.

(** ** Specification: a square root with about 96 correct digits (the crate's
    [sqrt] works with 100). *)
Definition sqrt_good (o : oracles) : Prop :=
  forall y, 0 <= rval y -> exists r, o_sqrt o y = Some r /\ Rabs (rval r - sqrt (rval y)) <= r10 (-96) * sqrt (rval y).

(** ** The closures *)
Lemma land2 k : Z.land (Z.of_nat (S (2 * k))) 2 = if Nat.odd k then 2%Z else 0%Z.
Proof.
  destruct (nat_mod4 (S (2 * k))) as (q & r & E & R).
  assert (Z.land (Z.of_nat (S (2 * k))) 2 = Z.land (Z.land (Z.of_nat (S (2 * k))) 3) 2) as ->.
  { rewrite <- Z.land_assoc. reflexivity. }
  rewrite E, land3_mod by lia. destruct (Nat.odd k) eqn:O.
  - apply odd_pos in O. destruct O as [j ->]. assert (r = 3)%nat by lia. subst. reflexivity.
  - apply even_pos in O. destruct O as [j ->]. assert (r = 1)%nat by lia. subst. reflexivity.
Qed.

Lemma atan_closure : geo_closure (pure_term atan_term) c_atan no_state.
Proof.
  intros i tot power factorial s _. destruct s. unfold pure_term, atan_term. rewrite land1. destruct (Nat.odd i) eqn:O.
  - right. change (1 =? 0)%Z with false. cbv iota. destruct (odd_pos i O) as [k ->]. rewrite land2.
    set (z := bigd _). pose proof (INR_nz (2 * k)) as Nz.
    assert (Cn : c_atan (S (2 * k)) <> 0).
    { intros E. pose proof (c_atan_abs _ O) as A. rewrite E, Rabs_R0 in A. pose proof (inv_INR (2 * k)). lra. }
    assert (Ez : rval z = / c_atan (S (2 * k))).
    { unfold z, c_atan. rewrite O, div2_succ_double', rval_bigd. destruct (Nat.odd k) eqn:Ok.
      - assert (Em : (-1) ^ k = -1) by (destruct (odd_pos k Ok) as [j ->]; apply m1_odd). rewrite Em. cbn [Z.eqb]. rewrite opp_IZR, <- INR_IZR_INZ. field. exact Nz.
      - assert (Em : (-1) ^ k = 1) by (destruct (even_pos k Ok) as [j ->]; apply m1_even). rewrite Em. cbn [Z.eqb]. rewrite <- INR_IZR_INZ. field. exact Nz. }
    split; [exact Cn|].
    destruct (div_kappa power z (/ c_atan (S (2 * k)))) as (q & Q & A); [apply Rinv_neq_0_compat; exact Cn|exact Ez|].
    rewrite Rinv_inv in A. exists (dadd tot q), tt. rewrite Q. split; [reflexivity|]. split; [exact I|].
    rewrite rval_dadd. replace (rval tot + rval q - rval tot - c_atan (S (2 * k)) * rval power) with (rval q - c_atan (S (2 * k)) * rval power) by ring. exact A.
  - left. split; [unfold c_atan; rewrite O; reflexivity|]. exists tt. split; [reflexivity|exact I].
Qed.

(** numer / denom is b_k. *)
Definition asin_state (i : nat) (s : bd * bd) : Prop :=
  0 < rval (snd s) /\ rval (fst s) = b_asin (Nat.div2 i) * rval (snd s).

Lemma asin_closure : geo_closure asin_term c_asin asin_state.
Proof.
  intros i tot power factorial [nu de] (Hd & Hn). cbn [fst snd] in Hd, Hn. unfold asin_term. rewrite land1. destruct (Nat.odd i) eqn:O.
  - right. change (1 =? 0)%Z with false. cbv iota. destruct (odd_pos i O) as [k ->]. rewrite div2_succ_double' in Hn.
    pose proof (INR_nz (2 * k)) as Nz. pose proof (b_asin_pos k) as Bk. pose proof (inv_INR (2 * k)) as Iv.
    set (n := INR (S (2 * k))) in *.
    assert (Cv : c_asin (S (2 * k)) = b_asin k / n) by (unfold c_asin; rewrite O, div2_succ_double'; reflexivity).
    assert (Cn : c_asin (S (2 * k)) <> 0).
    { rewrite Cv. apply Rgt_not_eq. apply Rmult_lt_0_compat; lra. }
    split; [exact Cn|].
    destruct (ddiv_R (dmul power nu) de ltac:(lra)) as (q1 & Q1 & A1). rewrite Q1. cbn [rbind].
    assert (Ez : rval (bigd (Z.of_nat (S (2 * k)))) = n) by (rewrite rval_bigd, <- INR_IZR_INZ; reflexivity).
    destruct (ddiv_R q1 (bigd (Z.of_nat (S (2 * k))))) as (q2 & Q2 & A2); [rewrite Ez; exact Nz|]. rewrite Q2. cbn [rbind].
    exists (dadd tot q2), (dmul nu (bigd (Z.of_nat (S (2 * k)))), dmul de (bigd (Z.of_nat (S (2 * k)) + 1))).
    split; [reflexivity|]. split.
    + split; cbn [fst snd]; rewrite !rval_dmul, !rval_bigd, plus_IZR, <- INR_IZR_INZ; fold n.
      * apply Rmult_lt_0_compat; [exact Hd|]. pose proof (pos_INR (S (2 * k))) as Pn0; fold n in Pn0; lra.
      * replace (S (S (2 * k))) with (2 * S k)%nat by lia. rewrite div2_double'. cbn [b_asin].
        replace (2 * k + 1)%nat with (S (2 * k)) by lia. fold n. replace (INR (2 * k + 2)) with (n + 1).
        -- rewrite Hn. field. pose proof (pos_INR (S (2 * k))) as Pn0; fold n in Pn0; lra.
        -- unfold n. replace (2 * k + 2)%nat with (S (S (2 * k))) by lia. rewrite (S_INR (S (2 * k))). reflexivity.
    + rewrite rval_dadd. replace (rval tot + rval q2 - rval tot - c_asin (S (2 * k)) * rval power) with (rval q2 - c_asin (S (2 * k)) * rval power) by ring.
      rewrite rval_dmul, Hn in A1. rewrite Ez in A2.
      replace (rval power * (b_asin k * rval de) / rval de) with (b_asin k * rval power) in A1 by (field; lra).
      rewrite Cv. set (v := b_asin k * rval power) in *.
      replace (b_asin k / n * rval power) with (v / n) by (unfold v, Rdiv; ring).
      assert (Pn : 0 < / n) by lra.
      assert (B1 : Rabs (rval q1 / n - v / n) <= delta * Rabs (v / n)).
      { replace (rval q1 / n - v / n) with ((rval q1 - v) * / n) by (unfold Rdiv; ring). unfold Rdiv. rewrite !Rabs_mult, (Rabs_pos_eq (/ n)) by lra.
        rewrite <- Rmult_assoc. apply Rmult_le_compat_r; lra. }
      assert (B2 : Rabs (rval q1 / n) <= (1 + delta) * Rabs (v / n)).
      { replace (rval q1 / n) with (v / n + (rval q1 / n - v / n)) by ring. eapply Rle_trans; [apply Rabs_triang|]. lra. }
      replace (rval q2 - v / n) with ((rval q2 - rval q1 / n) + (rval q1 / n - v / n)) by ring.
      eapply Rle_trans; [apply Rabs_triang|]. unfold kappa. pose proof delta_pos as D0. pose proof delta_small as Ds.
      assert (D1 : delta <= 1). { eapply Rle_trans; [exact Ds|]. assert (r10 (-2) <= r10 0) by (apply r10_mono; lia). rewrite r10_0 in *. lra. }
      pose proof (Rabs_pos (v / n)). assert (delta * Rabs (rval q1 / n) <= delta * ((1 + delta) * Rabs (v / n))) by (apply Rmult_le_compat_l; lra).
      assert (W0 : 0 <= delta * Rabs (v / n)) by (apply Rmult_le_pos; lra).
      assert (delta * (delta * Rabs (v / n)) <= 1 * (delta * Rabs (v / n))) by (apply Rmult_le_compat_r; lra).
      lra.
  - left. split; [unfold c_asin; rewrite O; reflexivity|]. exists (nu, de). split; [reflexivity|].
    split; cbn [fst snd]; [exact Hd|]. destruct (even_pos i O) as [k ->]. rewrite div2_succ_double'. rewrite div2_double' in Hn. exact Hn.
Qed.

Lemma atan_base x nd : (2 <= nd <= 94)%Z -> Rabs (rval x) <= 7 / 10 ->
  exists y, maclaurin x nd (pure_term atan_term) tt = Ok y /\ Rabs (rval y - atan (rval x)) <= r10 (- nd).
Proof.
  intros Hn Hx. apply (geo_ok x nd _ tt c_atan no_state); auto.
  - apply atan_closure.
  - exact I.
  - intros i E. unfold c_atan. destruct (Nat.odd (S i)) eqn:O.
    + destruct (odd_pos _ O) as [k K]. rewrite K. intros Z. assert (A := c_atan_abs (S (2 * k)) ltac:(rewrite <- K; exact O)).
      unfold c_atan in A. rewrite <- K, O, K, Z, Rabs_R0 in A. pose proof (inv_INR (2 * k)). lra.
    + intros _. rewrite Nat.odd_succ, <- Nat.negb_odd in O. destruct (Nat.odd i) eqn:Oi; [|discriminate].
      pose proof (c_atan_abs i Oi) as A. rewrite E, Rabs_R0 in A. destruct (odd_pos i Oi) as [k ->]. pose proof (inv_INR (2 * k)). lra.
  - apply c_atan_1.
  - intros i. pose proof (inv_INR i). destruct (Nat.odd (S i)) eqn:O; [rewrite c_atan_abs by exact O; lra|].
    unfold c_atan. rewrite O, Rabs_R0. lra.
  - intros i j Hi Hj. destruct (Nat.odd i) eqn:Oi; [|exfalso; apply Hi; unfold c_atan; rewrite Oi; reflexivity].
    rewrite (c_atan_abs i Oi). destruct (odd_pos i Oi) as [k ->]. destruct (Nat.odd j) eqn:Oj.
    + rewrite (c_atan_abs j Oj). destruct j as [|j]; [lia|]. apply inv_mono. lia.
    + unfold c_atan. rewrite Oj, Rabs_R0. pose proof (inv_INR (2 * k)). lra.
  - apply atan_series. lra.
Qed.

Lemma asin_base x nd : (2 <= nd <= 94)%Z -> Rabs (rval x) <= 7 / 10 ->
  exists y, maclaurin x nd asin_term (done, done) = Ok y /\ Rabs (rval y - asin (rval x)) <= r10 (- nd).
Proof.
  intros Hn Hx.
  assert (Pos : forall k, 0 < Rabs (c_asin (S (2 * k)))).
  { intros k. rewrite c_asin_abs. pose proof (b_asin_pos k). apply Rdiv_lt_0_compat; [lra|]. apply lt_0_INR. lia. }
  apply (geo_ok x nd _ (done, done) c_asin asin_state); auto.
  - apply asin_closure.
  - split; cbn [fst snd]; unfold done; rewrite !rval_bigd; cbn; lra.
  - intros i E Z. destruct (Nat.odd i) eqn:O.
    + destruct (odd_pos i O) as [k ->]. pose proof (Pos k) as P. rewrite E, Rabs_R0 in P. lra.
    + destruct (even_pos i O) as [k ->]. pose proof (Pos k) as P. rewrite Z, Rabs_R0 in P. lra.
  - apply c_asin_1.
  - apply c_asin_le.
  - intros i j Hi Hj. destruct (Nat.odd i) eqn:Oi; [|exfalso; apply Hi; unfold c_asin; rewrite Oi; reflexivity].
    destruct (odd_pos i Oi) as [k ->]. destruct (Nat.odd j) eqn:Oj.
    + destruct (odd_pos j Oj) as [m ->]. rewrite !c_asin_abs. unfold Rdiv.
      replace m with (k + (m - k))%nat by lia. pose proof (b_asin_mono k (m - k)). pose proof (b_asin_pos (k + (m - k))).
      apply Rmult_le_compat; try lra; [apply Rlt_le, inv_INR|apply inv_mono; lia].
    + unfold c_asin at 1. rewrite Oj, Rabs_R0. apply Rabs_pos.
  - apply asin_series. lra.
Qed.

(** ** Halving the angle *)
Lemma half_angle x : atan x = 2 * atan (x / (1 + sqrt (1 + x²))).
Proof.
  set (t := atan x / 2). pose proof (atan_bound x) as B.
  assert (S0 : 0 < sqrt (1 + x²)) by (apply sqrt_lt_R0; pose proof (Rle_0_sqr x); lra).
  assert (Ct : 0 < cos t) by (apply cos_gt_0; unfold t; lra).
  assert (E2 : 2 * t = atan x) by (unfold t; field).
  assert (T : x / (1 + sqrt (1 + x²)) = tan t).
  { assert (S2 : sin (2 * t) = x / sqrt (1 + x²)) by (rewrite E2; apply sin_atan).
    assert (C2 : cos (2 * t) = 1 / sqrt (1 + x²)) by (rewrite E2; apply cos_atan).
    rewrite sin_2a in S2. rewrite cos_2a_cos in C2. unfold tan.
    set (s := sqrt (1 + x²)) in *.
    assert (H1 : 2 * sin t * cos t * s = x) by (rewrite S2; field; lra).
    assert (H2 : 2 * cos t * cos t * s = 1 + s). { assert ((2 * cos t * cos t - 1) * s = 1) by (rewrite C2; field; lra). lra. }
    rewrite <- H1, <- H2. field. lra. }
  rewrite T, atan_tan by (unfold t; lra). unfold t. field.
Qed.
Lemma atan_lipschitz a b : Rabs (atan a - atan b) <= Rabs (a - b).
Proof.
  destruct (Coquelicot.Derive.MVT_gen atan b a (fun x => / (1 + x ^ 2))) as (c & _ & E).
  - intros y _. apply Coquelicot.Derive.is_derive_Reals. apply derivable_pt_lim_atan.
  - intros y _. apply derivable_continuous_pt. apply derivable_pt_atan.
  - rewrite E, Rabs_mult. assert (P : 0 < / (1 + c ^ 2) <= 1).
    { assert (0 <= c ^ 2) by (cbn; nra). split; [apply Rinv_0_lt_compat; lra|]. rewrite <- Rinv_1. apply Rinv_le_contravar; lra. }
    rewrite (Rabs_pos_eq (/ (1 + c ^ 2))) by lra. pose proof (Rabs_pos (a - b)). nra.
Qed.

Definition eta : R := r10 (-96).
Lemma eta_small nd : (nd <= 94)%Z -> 0 < eta /\ 100 * eta <= r10 (- nd) /\ delta <= eta /\ eta <= / 1000.
Proof.
  intros H. unfold eta. split; [apply r10_pos|]. split; [|split].
  - change (-96)%Z with (- (94) + - (2))%Z. rewrite r10_plus, (r10_opp 2), (r10_IZR 2) by lia. change (10 ^ 2)%Z with 100%Z.
    assert (r10 (- (94)) <= r10 (- nd)) by (apply r10_mono; lia). lra.
  - unfold delta. assert (r10 (-99) <= r10 (-96)) by (apply r10_mono; lia). pose proof (r10_pos (-99)). lra.
  - apply Rle_trans with (r10 (- (3))); [apply r10_mono; lia|]. rewrite r10_opp, r10_IZR by lia. change (10 ^ 3)%Z with 1000%Z. lra.
Qed.

Definition halved (x : R) : R := x / (1 + sqrt (1 + x²)).
Lemma sqrt1 x : 1 <= sqrt (1 + x²).
Proof. rewrite <- sqrt_1 at 1. apply sqrt_le_1_alt. pose proof (Rle_0_sqr x). lra. Qed.
Lemma halved_1 x : Rabs (halved x) <= 1.
Proof.
  unfold halved. pose proof (sqrt1 x) as S. unfold Rdiv. rewrite Rabs_mult, Rabs_inv, (Rabs_pos_eq (1 + _)) by lra.
  apply Rmult_le_reg_r with (1 + sqrt (1 + x²)); [lra|]. rewrite Rmult_assoc, Rinv_l, Rmult_1_r, Rmult_1_l by lra.
  assert (Rabs x <= sqrt (1 + x²)). { rewrite <- sqrt_Rsqr_abs. apply sqrt_le_1_alt. lra. } lra.
Qed.
Lemma halved_2 x : Rabs x <= 1.1 -> Rabs (halved x) <= 0.49.
Proof.
  intros H. unfold halved. pose proof (sqrt1 x) as S. unfold Rdiv. rewrite Rabs_mult, Rabs_inv, (Rabs_pos_eq (1 + _)) by lra.
  apply Rmult_le_reg_r with (1 + sqrt (1 + x²)); [lra|]. rewrite Rmult_assoc, Rinv_l, Rmult_1_r by lra.
  destruct (Rle_lt_dec (Rabs x) 0.9) as [L|L]; [lra|].
  assert (sqrt (1 + x²) >= 1.345).
  { apply Rle_ge. rewrite <- (sqrt_Rsqr 1.345) by lra. apply sqrt_le_1_alt. rewrite (Rsqr_abs x). unfold Rsqr. nra. }
  lra.
Qed.

Lemma halve_step o x : sqrt_good o -> exists r y,
  o_sqrt o (dadd done (dmul x x)) = Some r /\ ddiv x (dadd done r) = Ok y /\
  Rabs (rval y - halved (rval x)) <= 3 * eta * Rabs (halved (rval x)).
Proof.
  intros G. destruct (eta_small 94 ltac:(lia)) as (E0 & _ & De & E1).
  set (X := rval x). assert (V : rval (dadd done (dmul x x)) = 1 + X²).
  { rewrite rval_dadd, rval_dmul. unfold done. rewrite rval_bigd. reflexivity. }
  destruct (G (dadd done (dmul x x))) as (r & R & A). { rewrite V. pose proof (Rle_0_sqr X). lra. }
  rewrite V in A. fold eta in A. pose proof (sqrt1 X) as S. set (s := sqrt (1 + X²)) in *.
  assert (V2 : rval (dadd done r) = 1 + rval r) by (rewrite rval_dadd; unfold done; rewrite rval_bigd; reflexivity).
  apply abs_le_inv in A. assert (Pr : 0 < rval r) by nra.
  destruct (ddiv_R x (dadd done r)) as (y & Y & Ay). { rewrite V2. lra. }
  exists r, y. split; [exact R|]. split; [exact Y|]. rewrite V2 in Ay. fold X in Ay. unfold halved. fold s.
  set (h := X / (1 + s)).
  assert (Eq : X / (1 + rval r) - h = h * ((s - rval r) / (1 + rval r))) by (unfold h; field; lra).
  assert (B : Rabs ((s - rval r) / (1 + rval r)) <= 1.01 * eta).
  { unfold Rdiv. rewrite Rabs_mult, Rabs_inv, (Rabs_pos_eq (1 + rval r)) by lra.
    apply Rmult_le_reg_r with (1 + rval r); [lra|]. rewrite Rmult_assoc, Rinv_l, Rmult_1_r by lra.
    apply Rabs_le. split; nra. }
  assert (B1 : Rabs (X / (1 + rval r) - h) <= 1.01 * eta * Rabs h).
  { rewrite Eq, Rabs_mult. pose proof (Rabs_pos h). nra. }
  assert (B2 : Rabs (X / (1 + rval r)) <= 1.5 * Rabs h).
  { replace (X / (1 + rval r)) with (h + (X / (1 + rval r) - h)) by ring. eapply Rle_trans; [apply Rabs_triang|]. pose proof (Rabs_pos h). nra. }
  replace (rval y - h) with ((rval y - X / (1 + rval r)) + (X / (1 + rval r) - h)) by ring.
  eapply Rle_trans; [apply Rabs_triang|]. pose proof (Rabs_pos h). pose proof delta_pos.
  assert (delta * Rabs (X / (1 + rval r)) <= eta * (1.5 * Rabs h)) by (apply Rmult_le_compat; try lra; apply Rabs_pos).
  assert (0 <= eta * Rabs h) by (apply Rmult_le_pos; lra). lra.
Qed.

Section Atan.
Variables (o : oracles) (nd : Z).
Hypothesis G : sqrt_good o.
Hypothesis Hn : (2 <= nd <= 94)%Z.
Let u := r10 (- nd).

Lemma atan_level0 k x : Rabs (rval x) <= / 2 ->
  exists y, batan_rec o (S k) x nd = Ok y /\ Rabs (rval y - atan (rval x)) <= u.
Proof.
  intros H. cbn [batan_rec].
  assert (E : dltb dhalf (dabs x) = false) by (apply dltb_false_R; rewrite rval_dabs, rval_half; exact H).
  rewrite E. apply atan_base; [exact Hn|]. lra.
Qed.
(** One halving of the angle. *)
Lemma atan_level k x e : / 2 < Rabs (rval x) -> 0 <= e ->
  (forall y, Rabs (rval y - halved (rval x)) <= 3 * eta -> exists z, batan_rec o k y nd = Ok z /\ Rabs (rval z - atan (rval y)) <= e) ->
  exists y, batan_rec o (S k) x nd = Ok y /\ Rabs (rval y - atan (rval x)) <= 2 * e + 6 * eta.
Proof.
  intros H He IH. cbn [batan_rec]. destruct (eta_small nd ltac:(lia)) as (E0 & _).
  assert (E : dltb dhalf (dabs x) = true) by (apply dltb_R; rewrite rval_dabs, rval_half; exact H).
  rewrite E. destruct (halve_step o x G) as (r & y & R & Y & A). rewrite R. cbn [expect rbind]. rewrite Y. cbn [rbind].
  assert (A3 : Rabs (rval y - halved (rval x)) <= 3 * eta).
  { eapply Rle_trans; [exact A|]. pose proof (halved_1 (rval x)). pose proof (Rabs_pos (halved (rval x))). nra. }
  destruct (IH y A3) as (z & Z & Az). rewrite Z. cbn [rbind]. exists (dmul z dtwo). split; [reflexivity|].
  rewrite rval_dmul. unfold dtwo. rewrite rval_bigd. rewrite (half_angle (rval x)). fold (halved (rval x)).
  pose proof (atan_lipschitz (rval y) (halved (rval x))) as L.
  replace (rval z * 2 - 2 * atan (halved (rval x))) with (2 * ((rval z - atan (rval y)) + (atan (rval y) - atan (halved (rval x))))) by ring.
  rewrite Rabs_mult, (Rabs_pos_eq 2) by lra.
  pose proof (Rabs_triang (rval z - atan (rval y)) (atan (rval y) - atan (halved (rval x)))). lra.
Qed.
Lemma atan_level1 k x : Rabs (rval x) <= 1.1 ->
  exists y, batan_rec o (S (S k)) x nd = Ok y /\ Rabs (rval y - atan (rval x)) <= 2 * u + 6 * eta.
Proof.
  intros H. destruct (eta_small nd ltac:(lia)) as (E0 & _ & _ & E1). assert (u0 : 0 < u) by apply r10_pos.
  destruct (Rle_lt_dec (Rabs (rval x)) (/ 2)) as [L|L].
  - destruct (atan_level0 (S k) x L) as (y & Y & A). exists y. split; [exact Y|]. lra.
  - apply atan_level; [exact L|lra|]. intros y Hy. apply atan_level0.
    pose proof (halved_2 (rval x) H) as B. pose proof (Rabs_triang (halved (rval x)) (rval y - halved (rval x))) as T.
    replace (halved (rval x) + (rval y - halved (rval x))) with (rval y) in T by ring. lra.
Qed.
Theorem batan_accurate x : exists y, batan o x nd = Ok y /\ Rabs (rval y - atan (rval x)) <= 5 * u.
Proof.
  destruct (eta_small nd ltac:(lia)) as (E0 & E100 & _ & E1). fold u in E100.
  change (batan o x nd) with (batan_rec o 16 x nd).
  destruct (Rle_lt_dec (Rabs (rval x)) (/ 2)) as [L|L].
  - destruct (atan_level0 15 x L) as (y & Y & A). exists y. split; [exact Y|]. assert (0 < u) by apply r10_pos. lra.
  - destruct (atan_level 15 x (2 * u + 6 * eta) L) as (y & Y & A).
    + lra.
    + intros y Hy. apply atan_level1.
      pose proof (halved_1 (rval x)) as B. pose proof (Rabs_triang (halved (rval x)) (rval y - halved (rval x))) as T.
      replace (halved (rval x) + (rval y - halved (rval x))) with (rval y) in T by ring. lra.
    + exists y. split; [exact Y|]. lra.
Qed.

(** ** asin, acos *)
Lemma asin_complement x : 0 < x <= 1 -> asin x = PI / 2 - atan (sqrt (1 - x²) / x).
Proof.
  intros H. destruct (Req_dec x 1) as [->|N].
  - rewrite asin_1. replace (1 - 1²) with 0 by (unfold Rsqr; ring). rewrite sqrt_0. unfold Rdiv at 3. rewrite Rmult_0_l, atan_0. ring.
  - rewrite asin_atan by lra. assert (S : 0 < sqrt (1 - x²)) by (apply sqrt_lt_R0; unfold Rsqr; nra).
    replace (sqrt (1 - x²) / x) with (/ (x / sqrt (1 - x²))) by (field; lra).
    rewrite Ratan.atan_inv by (apply Rdiv_lt_0_compat; lra). ring.
Qed.

Lemma dsignum_R x : rval x <> 0 -> rval (dsignum x) = if Rlt_dec 0 (rval x) then 1 else -1.
Proof.
  intros H. assert (P := r10_pos (- scale x)). assert (V := rval_eq x).
  assert (M : mant x <> 0%Z) by (intros E; apply H; rewrite V, E; ring).
  unfold dsignum. destruct (Rlt_dec 0 (rval x)) as [L|L].
  - assert (M0 : 0 < IZR (mant x)) by nra. apply lt_IZR in M0. rewrite Z.sgn_pos by exact M0. apply rval_bigd.
  - assert (M0 : (mant x < 0)%Z).
    { destruct (Z.lt_trichotomy (mant x) 0) as [Q|[Q|Q]]; [exact Q|contradiction|]. exfalso. apply L. rewrite V.
      apply Rmult_lt_0_compat; [apply IZR_lt; exact Q|exact P]. }
    rewrite Z.sgn_neg by exact M0. apply rval_bigd.
Qed.

Theorem basin_accurate x : Rabs (rval x) <= 1 -> exists y, basin o x nd = Ok y /\ Rabs (rval y - asin (rval x)) <= 6 * u.
Proof.
  intros H. assert (u0 : 0 < u) by apply r10_pos. unfold basin.
  destruct (dltb dhalf (dabs x)) eqn:E.
  - apply dltb_R in E. rewrite rval_dabs, rval_half in E.
    destruct (bpi_ok o nd ltac:(lia)) as (p & Pp & Ap). rewrite Pp. cbn [rbind]. fold u in Ap.
    set (X := Rabs (rval x)) in *.
    assert (V : rval (dsub done (dmul x x)) = 1 - X²).
    { rewrite rval_dsub, rval_dmul. unfold done. rewrite rval_bigd. unfold X. rewrite <- Rsqr_abs. reflexivity. }
    assert (V0 : 0 <= 1 - X²) by (unfold Rsqr; nra).
    destruct (G (dsub done (dmul x x))) as (r & R & A). { rewrite V. exact V0. }
    rewrite R. cbn [expect rbind]. rewrite V in A. fold eta in A. destruct (eta_small nd ltac:(lia)) as (E0 & E100 & De & E1). fold u in E100.
    set (s := sqrt (1 - X²)) in *.
    assert (S1 : 0 <= s <= 1). { split; [apply sqrt_pos|]. rewrite <- sqrt_1. apply sqrt_le_1_alt. pose proof (Rle_0_sqr X). lra. }
    destruct (ddiv_R r (dabs x)) as (y & Y & Ay). { rewrite rval_dabs. fold X. lra. }
    rewrite Y. cbn [rbind]. rewrite rval_dabs in Ay. fold X in Ay.
    destruct (batan_accurate y) as (a & Aa & Ba). rewrite Aa. cbn [rbind].
    exists (dmul (dsub (dmul p dhalf64) a) (dsignum x)). split; [reflexivity|].
    rewrite rval_dmul, rval_dsub, rval_dmul. unfold dhalf64. rewrite rval_half64.
    assert (Nz : rval x <> 0) by (intros Q; unfold X in E; rewrite Q, Rabs_R0 in E; lra).
    assert (I2 : 0 < / X <= 2). { split; [apply Rinv_0_lt_compat; lra|]. rewrite <- (Rinv_inv 2). apply Rinv_le_contravar; lra. }
    assert (C1 : Rabs (rval r / X - s / X) <= 2 * eta).
    { replace (rval r / X - s / X) with ((rval r - s) * / X) by (unfold Rdiv; ring). rewrite Rabs_mult, (Rabs_pos_eq (/ X)) by lra.
      pose proof (Rabs_pos (rval r - s)). assert (Rabs (rval r - s) <= eta) by nra. nra. }
    assert (C2 : Rabs (rval r / X) <= 3).
    { replace (rval r / X) with (s / X + (rval r / X - s / X)) by ring. eapply Rle_trans; [apply Rabs_triang|].
      assert (Rabs (s / X) <= 2). { unfold Rdiv. rewrite Rabs_mult, (Rabs_pos_eq (/ X)), (Rabs_pos_eq s) by lra. nra. } lra. }
    assert (C3 : Rabs (rval y - s / X) <= 5 * eta).
    { replace (rval y - s / X) with ((rval y - rval r / X) + (rval r / X - s / X)) by ring. eapply Rle_trans; [apply Rabs_triang|].
      pose proof delta_pos. pose proof (Rabs_pos (rval r / X)).
      assert (delta * Rabs (rval r / X) <= eta * 3) by (apply Rmult_le_compat; lra). lra. }
    pose proof (atan_lipschitz (rval y) (s / X)) as L.
    assert (Main : Rabs (rval p * / 2 - rval a - asin X) <= 6 * u).
    { rewrite (asin_complement X) by lra. fold s.
      replace (rval p * / 2 - rval a - (PI / 2 - atan (s / X))) with
        ((rval p - PI) * / 2 + - ((rval a - atan (rval y)) + (atan (rval y) - atan (s / X)))) by field.
      eapply Rle_trans; [apply Rabs_triang|]. rewrite Rabs_mult, (Rabs_pos_eq (/ 2)), Rabs_Ropp by lra.
      pose proof (Rabs_triang (rval a - atan (rval y)) (atan (rval y) - atan (s / X))). lra. }
    rewrite dsignum_R by exact Nz. destruct (Rlt_dec 0 (rval x)) as [P|P].
    + unfold X in Main. rewrite (Rabs_pos_eq (rval x)) in Main by lra. rewrite Rmult_1_r. exact Main.
    + unfold X in Main. rewrite (Rabs_left (rval x)) in Main by lra. rewrite asin_opp in Main.
      replace ((rval p * / 2 - rval a) * -1 - asin (rval x)) with (- (rval p * / 2 - rval a - - asin (rval x))) by ring.
      rewrite Rabs_Ropp. exact Main.
  - apply dltb_false_R in E. rewrite rval_dabs, rval_half in E.
    destruct (asin_base x nd Hn ltac:(lra)) as (y & Y & A). exists y. split; [exact Y|]. fold u in A. lra.
Qed.

Theorem bacos_accurate x : Rabs (rval x) <= 1 -> exists y, bacos o x nd = Ok y /\ Rabs (rval y - acos (rval x)) <= 7 * u.
Proof.
  intros H. unfold bacos. destruct (bpi_ok o nd ltac:(lia)) as (p & Pp & Ap). rewrite Pp. cbn [rbind]. fold u in Ap.
  destruct (ddiv_R p dtwo) as (h & Hh & Ah). { unfold dtwo. rewrite rval_bigd. lra. }
  rewrite Hh. cbn [rbind]. destruct (basin_accurate x H) as (a & Aa & Ba). rewrite Aa. cbn [rbind].
  exists (dsub h a). split; [reflexivity|]. rewrite rval_dsub. unfold dtwo in Ah. rewrite rval_bigd in Ah.
  rewrite acos_asin by (apply abs_le_inv in H; lra). destruct (eta_small nd ltac:(lia)) as (E0 & E100 & De & E1). fold u in E100.
  assert (u1 : u <= / 100) by (apply r10_cent; lia). assert (P4 : PI <= 4) by apply PI_4. pose proof PI_RGT_0 as P0.
  assert (Bp : Rabs (rval p / 2) <= 3).
  { apply abs_le_inv in Ap. apply Rabs_le. lra. }
  replace (rval h - rval a - (PI / 2 - asin (rval x))) with ((rval h - rval p / 2) + ((rval p - PI) / 2 + - (rval a - asin (rval x)))) by field.
  eapply Rle_trans; [apply Rabs_triang|]. pose proof (Rabs_triang ((rval p - PI) / 2) (- (rval a - asin (rval x)))) as T.
  rewrite Rabs_Ropp in T. unfold Rdiv in T at 2. rewrite Rabs_mult, (Rabs_pos_eq (/ 2)) in T by lra.
  pose proof delta_pos. pose proof (Rabs_pos (rval p / 2)).
  assert (delta * Rabs (rval p / 2) <= eta * 3) by (apply Rmult_le_compat; lra). lra.
Qed.
End Atan.

(** ** tan *)
Definition tan_err (x : R) (nd : Z) : R := 3 * ((r10 (- nd) + Rabs (tan x) * r10 (- nd)) / Rabs (cos x)).

Theorem btan_accurate nd x : (1 <= nd <= 98)%Z -> Rabs (rval x) <= IZR (range_at nd) ->
  2 * r10 (- nd) <= Rabs (cos (rval x)) ->
  exists r, btan x nd = Ok r /\ Rabs (rval r - tan (rval x)) <= tan_err (rval x) nd.
Proof.
  intros Hn Hx Hc. set (u := r10 (- nd)) in *. assert (u0 : 0 < u) by apply r10_pos.
  destruct (bsin_ok _ _ _ x (acc_range nd Hn) Hx) as (s & S & As). destruct (bcos_ok _ _ _ x (acc_range nd Hn) Hx) as (c & C & Ac).
  unfold within in As, Ac. fold u in As, Ac. unfold btan. rewrite S, C. cbn [rbind].
  assert (NC : cos (rval x) <> 0) by (intros E; rewrite E, Rabs_R0 in Hc; lra).
  destruct (quotient_error _ _ _ _ _ _ NC As Ac ltac:(lra)) as [Nz Q].
  destruct (ddiv_R s c Nz) as (q & D & Eq). exists q. split; [exact D|]. unfold tan_err. fold u. fold (tan (rval x)) in Q.
  set (W := (u + Rabs (tan (rval x)) * u) / Rabs (cos (rval x))) in *.
  assert (C1 : 0 < Rabs (cos (rval x)) <= 1).
  { split; [apply Rabs_pos_lt; exact NC|]. apply Rabs_le. apply COS_bound. }
  assert (W1 : u + Rabs (tan (rval x)) * u <= W).
  { unfold W. apply Rmult_le_reg_r with (Rabs (cos (rval x))); [lra|]. unfold Rdiv. rewrite (Rmult_assoc _ (/ _)), Rinv_l, Rmult_1_r by lra.
    pose proof (Rabs_pos (tan (rval x))). assert (0 <= u + Rabs (tan (rval x)) * u) by nra.
    rewrite <- (Rmult_1_r (u + _)) at 2. apply Rmult_le_compat_l; lra. }
  assert (Dd : 10 * delta <= u).
  { unfold delta, u. assert (r10 (- (98)) <= r10 (- nd)) by (apply r10_mono; lia).
    change (-99)%Z with (- (98) + - (1))%Z. rewrite r10_plus, (r10_opp 1), (r10_IZR 1) by lia. change (10 ^ 1)%Z with 10%Z. pose proof (r10_pos (- (98))). lra. }
  pose proof delta_pos as D0. pose proof (Rabs_pos (tan (rval x))) as T0.
  assert (L10 : u <= / 10). { unfold u. apply Rle_trans with (r10 (- (1))); [apply r10_mono; lia|]. rewrite r10_opp, r10_IZR by lia. change (10 ^ 1)%Z with 10%Z. lra. }
  assert (T : Rabs (rval s / rval c) <= Rabs (tan (rval x)) + 2 * W).
  { replace (rval s / rval c) with (tan (rval x) + (rval s / rval c - tan (rval x))) by ring. eapply Rle_trans; [apply Rabs_triang|]. lra. }
  replace (rval q - tan (rval x)) with ((rval q - rval s / rval c) + (rval s / rval c - tan (rval x))) by ring.
  eapply Rle_trans; [apply Rabs_triang|].
  assert (delta * Rabs (rval s / rval c) <= delta * (Rabs (tan (rval x)) + 2 * W)) by (apply Rmult_le_compat_l; lra).
  assert (W0 : 0 <= W) by nra.
  assert (delta * Rabs (tan (rval x)) <= u / 10 * Rabs (tan (rval x))) by (apply Rmult_le_compat_r; lra).
  assert (delta * W <= / 100 * W) by (apply Rmult_le_compat_r; lra).
  lra.
Qed.
