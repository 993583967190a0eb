(** Accuracy of ln, log and pow. *)
From Coq Require Import ZArith QArith Reals Lra Lia List Bool.
From Verif Require Import Res Dec DecFacts RFacts BdMath Series MacFacts Accuracy GeoFacts GeoInst GeoSeries LnFacts.
Import ListNotations.
Open Scope R_scope.

Lemma abs_le_inv a b : Rabs a <= b -> - b <= a <= b.
Proof. intros H. pose proof (Rle_abs a). pose proof (Rle_abs (- a)) as B. rewrite Rabs_Ropp in B. lra. Qed.

(** ** The closures *)
Definition no_state (_ : nat) (_ : unit) : Prop := True.

Lemma div_kappa power z w : w <> 0 -> rval z = w -> exists q, ddiv power z = Ok q /\
  Rabs (rval q - / w * rval power) <= kappa * Rabs (/ w * rval power).
Proof.
  intros H E. destruct (ddiv_R power z) as (q & Q & A); [rewrite E; exact H|]. exists q. split; [exact Q|].
  rewrite E in A. replace (/ w * rval power) with (rval power / w) by (unfold Rdiv; ring).
  unfold kappa. pose proof delta_pos. pose proof (Rabs_pos (rval power / w)). nra.
Qed.

Lemma INR_nz i : INR (S i) <> 0.
Proof. apply not_0_INR. lia. Qed.
Lemma land1 i : Z.land (Z.of_nat i) 1 = if Nat.odd i then 1%Z else 0%Z.
Proof.
  change 1%Z with (Z.ones 1) at 1. rewrite Z.land_ones by lia. change (2 ^ 1)%Z with 2%Z.
  destruct (Nat.odd i) eqn:E.
  - destruct (odd_pos i E) as [k ->]. replace (Z.of_nat (S (2 * k))) with (1 + Z.of_nat k * 2)%Z by lia. rewrite Z.mod_add by lia. reflexivity.
  - destruct (even_pos i E) as [k ->]. replace (Z.of_nat (2 * k)) with (0 + Z.of_nat k * 2)%Z by lia. rewrite Z.mod_add by lia. reflexivity.
Qed.

Lemma ln_up_closure : geo_closure (pure_term ln_up_term) c_ln no_state.
Proof.
  intros i tot power factorial s _. destruct s. unfold pure_term, ln_up_term. destruct i as [|i].
  - left. split; [reflexivity|]. exists tt. split; [reflexivity|exact I].
  - right. change (Z.of_nat (S i) =? 0)%Z with false. cbv iota. rewrite land1.
    set (z := bigd _). pose proof (INR_nz i) as Nz.
    assert (Ez : rval z = / c_ln (S i)).
    { unfold z, c_ln. rewrite rval_bigd. destruct (Nat.odd (S i)) eqn:E.
      - destruct (odd_pos _ E) as [k K]. rewrite K. rewrite m1_odd. cbn [Z.eqb].
        rewrite <- INR_IZR_INZ. field. apply INR_nz.
      - destruct (even_pos _ E) as [k K]. rewrite K in *. rewrite m1_even. cbn [Z.eqb].
        rewrite opp_IZR, <- INR_IZR_INZ. field. exact Nz. }
    assert (Cn : c_ln (S i) <> 0).
    { intros E. pose proof (c_ln_abs i) as A. rewrite E, Rabs_R0 in A. pose proof (inv_INR i). lra. }
    split; [exact Cn|].
    destruct (div_kappa power z (/ c_ln (S i))) as (q & Q & A); [apply Rinv_neq_0_compat; exact Cn|exact Ez|].
    rewrite Rinv_inv in A. exists (dadd tot q), tt. rewrite Q. split; [reflexivity|]. split; [exact I|].
    rewrite rval_dadd. replace (rval tot + rval q - rval tot - c_ln (S i) * rval power) with (rval q - c_ln (S i) * rval power) by ring. exact A.
Qed.

Lemma ln_down_closure : geo_closure (pure_term ln_down_term) c_lnd no_state.
Proof.
  intros i tot power factorial s _. destruct s. unfold pure_term, ln_down_term. destruct i as [|i].
  - left. split; [reflexivity|]. exists tt. split; [reflexivity|exact I].
  - right. change (Z.of_nat (S i) =? 0)%Z with false. cbv iota.
    set (z := bigd _). pose proof (INR_nz i) as Nz.
    assert (Ez : rval z = / c_lnd (S i)).
    { unfold z, c_lnd. rewrite rval_bigd, opp_IZR, <- INR_IZR_INZ. field. exact Nz. }
    assert (Cn : c_lnd (S i) <> 0).
    { intros E. pose proof (c_lnd_abs i) as A. rewrite E, Rabs_R0 in A. pose proof (inv_INR i). lra. }
    split; [exact Cn|].
    destruct (div_kappa power z (/ c_lnd (S i))) as (q & Q & A); [apply Rinv_neq_0_compat; exact Cn|exact Ez|].
    rewrite Rinv_inv in A. exists (dadd tot q), tt. rewrite Q. split; [reflexivity|]. split; [exact I|].
    rewrite rval_dadd. replace (rval tot + rval q - rval tot - c_lnd (S i) * rval power) with (rval q - c_lnd (S i) * rval power) by ring. exact A.
Qed.

(** Both series for |x| <= 7/10. *)
Lemma inv_mono i j : (i <= j)%nat -> / INR (S j) <= / INR (S i).
Proof. intros H. apply Rinv_le_contravar; [apply lt_0_INR; lia|]. apply le_INR. lia. Qed.

Lemma ln_up_series x nd : (2 <= nd <= 94)%Z -> Rabs (rval x) <= 7 / 10 ->
  exists y, maclaurin x nd (pure_term ln_up_term) tt = Ok y /\ Rabs (rval y - ln (1 + rval x)) <= r10 (- nd).
Proof.
  intros Hn Hx. apply (geo_ok x nd _ tt c_ln no_state); auto.
  - apply ln_up_closure.
  - exact I.
  - intros [|i] _ E.
    + pose proof (c_ln_abs 0) as A. rewrite E, Rabs_R0 in A. pose proof (inv_INR 0). lra.
    + pose proof (c_ln_abs (S i)) as A. rewrite E, Rabs_R0 in A. pose proof (inv_INR (S i)). lra.
  - apply c_ln_1.
  - intros i. rewrite c_ln_abs. lra.
  - intros [|i] [|j] Hi Hj; try lia; [exfalso; apply Hi; reflexivity..|]. rewrite !c_ln_abs. apply inv_mono. lia.
  - apply ln_series. lra.
Qed.
Lemma ln_down_series x nd : (2 <= nd <= 94)%Z -> Rabs (rval x) <= 7 / 10 ->
  exists y, maclaurin x nd (pure_term ln_down_term) tt = Ok y /\ Rabs (rval y - ln (1 - rval x)) <= r10 (- nd).
Proof.
  intros Hn Hx. apply (geo_ok x nd _ tt c_lnd no_state); auto.
  - apply ln_down_closure.
  - exact I.
  - intros [|i] _ E.
    + pose proof (c_lnd_abs 0) as A. rewrite E, Rabs_R0 in A. pose proof (inv_INR 0). lra.
    + pose proof (c_lnd_abs (S i)) as A. rewrite E, Rabs_R0 in A. pose proof (inv_INR (S i)). lra.
  - apply c_lnd_1.
  - intros i. rewrite c_lnd_abs. lra.
  - intros [|i] [|j] Hi Hj; try lia; [exfalso; apply Hi; reflexivity..|]. rewrite !c_lnd_abs. apply inv_mono. lia.
  - apply lnd_series. lra.
Qed.

(** ** exp(1/2), and the logarithm near it *)
Lemma exp1_bounds : 2.58 <= exp 1 <= 2.75.
Proof.
  pose proof (limit_tail c_exp 1 c_exp_abs (exp 1) 4 (exp_limit 1)) as T.
  rewrite Rabs_R1 in T. specialize (T ltac:(cbn; lra)).
  replace (psum c_exp 1 4) with (8 / 3) in T by (unfold psum, sterm, c_exp; cbn; field).
  replace (2 * (1 ^ 4 / INR (fact 4))) with (/ 12) in T by (cbn; field).
  apply abs_le_inv in T. lra.
Qed.
Lemma exp_half : 1.6 <= exp (/ 2) <= 1.66.
Proof.
  pose proof exp1_bounds as B. assert (E : exp (/ 2) * exp (/ 2) = exp 1) by (rewrite <- exp_plus; f_equal; field).
  pose proof (exp_pos (/ 2)). split; nra.
Qed.
Lemma exp_mhalf : exp (- / 2) * exp (/ 2) = 1.
Proof. rewrite <- exp_plus. replace (- / 2 + / 2) with 0 by ring. apply exp_0. Qed.
Lemma exp_mhalf_bounds : 0.6 <= exp (- / 2) <= 0.625.
Proof. pose proof exp_half. pose proof exp_mhalf. split; nra. Qed.

Lemma ln_le_sub y : 0 < y -> ln y <= y - 1.
Proof. intros H. pose proof (exp_ineq1_le (ln y)) as E. rewrite exp_ln in E by exact H. lra. Qed.
Lemma ln_near t y u : u <= / 100 -> t = / 2 \/ t = - / 2 -> Rabs (y - exp t) <= u -> Rabs (ln y - t) <= 2 * u.
Proof.
  intros Hu Ht Hy. assert (u0 : 0 <= u) by (eapply Rle_trans; [apply Rabs_pos|exact Hy]).
  assert (B : 0.6 <= exp t <= 1.66).
  { pose proof exp_half. pose proof exp_mhalf_bounds. destruct Ht; subst; lra. }
  apply abs_le_inv in Hy. assert (Y : 0 < y) by lra.
  assert (E1 : ln y - t = ln (y * exp (- t))) by (rewrite ln_mult, ln_exp by (auto using exp_pos); ring).
  assert (E2 : t - ln y = ln (exp t * / y)).
  { rewrite ln_mult, ln_exp, ln_Rinv by (auto using exp_pos, Rinv_0_lt_compat). ring. }
  assert (M : exp t * exp (- t) = 1) by (rewrite exp_Ropp; apply Rinv_r; lra).
  assert (B' : exp (- t) <= 5 / 3) by (pose proof (exp_pos (- t)); nra).
  apply Rabs_le. split.
  - enough (t - ln y <= 2 * u) by lra. rewrite E2. eapply Rle_trans; [apply ln_le_sub; apply Rmult_lt_0_compat; [apply exp_pos|apply Rinv_0_lt_compat; exact Y]|].
    apply Rmult_le_reg_r with y; [exact Y|]. replace ((exp t * / y - 1) * y) with (exp t - y) by (field; lra). nra.
  - rewrite E1. eapply Rle_trans; [apply ln_le_sub; apply Rmult_lt_0_compat; [exact Y|apply exp_pos]|].
    pose proof (exp_pos (- t)). nra.
Qed.

(** ** The reduction loops *)
Section Loops.
Variables (lim scl : bd).
Let L := rval lim.
Let Sc := rval scl.

Lemma ln_up_ok (S0 : 0 < Sc) : forall m fuel x extra, 0 < rval x -> rval x * Sc ^ m < L -> (m < fuel)%nat ->
  exists k x' extra', ln_up fuel lim scl x extra = Ok (x', extra') /\ (k <= m)%nat /\
    rval x' = rval x * Sc ^ k /\ rval extra' = rval extra + INR k * / 2 /\ rval x' < L /\
    (k = O \/ exists j, k = S j /\ L <= rval x * Sc ^ j).
Proof.
  induction m as [|m IH]; intros fuel x extra Hx Hm Hf; (destruct fuel as [|fuel]; [lia|]); cbn [ln_up].
  - destruct (dleb lim x) eqn:E; [apply dleb_R in E; fold L in E; cbn in Hm; lra|].
    apply dleb_false_R in E. exists O, x, extra. cbn [pow INR]. repeat split; try lia; try lra; auto.
  - destruct (dleb lim x) eqn:E.
    + apply dleb_R in E. fold L in E.
      destruct (IH fuel (dmul x scl) (dadd extra dhalf)) as (k & x' & e' & R & Hk & Ex & Ee & Lt & C).
      { rewrite rval_dmul. apply Rmult_lt_0_compat; assumption. }
      { rewrite rval_dmul. fold Sc. cbn [pow] in Hm. lra. }
      { lia. }
      rewrite rval_dmul in Ex. setoid_rewrite rval_dmul in C. fold Sc in Ex, C. rewrite rval_dadd, rval_half in Ee.
      exists (S k), x', e'. split; [exact R|]. split; [lia|]. split; [rewrite Ex; cbn [pow]; ring|].
      split; [rewrite Ee, S_INR; ring|]. split; [exact Lt|]. right. exists k. split; [reflexivity|].
      destruct C as [->|(j & -> & C)]; [cbn; lra|]. cbn [pow]. lra.
    + apply dleb_false_R in E. exists O, x, extra. cbn [pow INR]. repeat split; try lia; try lra; auto.
Qed.

Lemma ln_down_ok (S0 : 0 < Sc) : forall m fuel x extra, 0 < rval x -> L < rval x * Sc ^ m -> (m < fuel)%nat ->
  exists k x' extra', ln_down fuel lim scl x extra = Ok (x', extra') /\ (k <= m)%nat /\
    rval x' = rval x * Sc ^ k /\ rval extra' = rval extra - INR k * / 2 /\ L < rval x' /\
    (k = O \/ exists j, k = S j /\ rval x * Sc ^ j <= L).
Proof.
  induction m as [|m IH]; intros fuel x extra Hx Hm Hf; (destruct fuel as [|fuel]; [lia|]); cbn [ln_down].
  - destruct (dleb x lim) eqn:E; [apply dleb_R in E; fold L in E; cbn in Hm; lra|].
    apply dleb_false_R in E. exists O, x, extra. cbn [pow INR]. repeat split; try lia; try lra; auto.
  - destruct (dleb x lim) eqn:E.
    + apply dleb_R in E. fold L in E.
      destruct (IH fuel (dmul x scl) (dsub extra dhalf)) as (k & x' & e' & R & Hk & Ex & Ee & Lt & C).
      { rewrite rval_dmul. apply Rmult_lt_0_compat; assumption. }
      { rewrite rval_dmul. fold Sc. cbn [pow] in Hm. lra. }
      { lia. }
      rewrite rval_dmul in Ex. setoid_rewrite rval_dmul in C. fold Sc in Ex, C. rewrite rval_dsub, rval_half in Ee.
      exists (S k), x', e'. split; [exact R|]. split; [lia|]. split; [rewrite Ex; cbn [pow]; ring|].
      split; [rewrite Ee, S_INR; ring|]. split; [exact Lt|]. right. exists k. split; [reflexivity|].
      destruct C as [->|(j & -> & C)]; [cbn; lra|]. cbn [pow]. lra.
    + apply dleb_false_R in E. exists O, x, extra. cbn [pow INR]. repeat split; try lia; try lra; auto.
Qed.
End Loops.

Lemma pow_below q y : 0 < q < 1 -> 0 < y -> exists m, q ^ m < y.
Proof.
  intros Q Y. destruct (pow_lt_1_zero q ltac:(rewrite Rabs_pos_eq; lra) y Y) as [m M]. exists m.
  specialize (M m ltac:(lia)). rewrite Rabs_pos_eq in M; [exact M|apply pow_le; lra].
Qed.

Lemma ln_pow_mult x q k : 0 < x -> 0 < q -> ln (x * q ^ k) = ln x + INR k * ln q.
Proof. intros X Q. rewrite ln_mult by (auto using pow_lt). rewrite ln_pow by exact Q. ring. Qed.

Lemma half_digits nd : (2 <= nd <= 94)%Z -> forall t x, (t = / 2 \/ t = - / 2) -> rval x = t ->
  exists r, bexp x nd = Ok r /\ Rabs (rval r - exp t) <= r10 (- nd).
Proof.
  intros Hn t x Ht Ex. destruct (bexp_ok _ _ _ x (acc_range nd ltac:(lia))) as (r & R & A).
  - rewrite Ex. apply Rle_trans with 1; [destruct Ht; subst; apply Rabs_le; lra|]. apply IZR_le. unfold range_at.
    destruct (Z.eqb_spec nd 1); lia.
  - exists r. split; [exact R|]. unfold within in A. rewrite Ex in A. exact A.
Qed.

(** The error after [k] reductions. *)
Definition ln_err (x : R) (nd : Z) : R := (1 + 5 * Rabs (ln x)) * r10 (- nd).

Lemma r10_cent nd : (2 <= nd)%Z -> 0 < r10 (- nd) <= / 100.
Proof.
  intros H. split; [apply r10_pos|]. apply Rle_trans with (r10 (- (2))); [apply r10_mono; lia|].
  rewrite r10_opp, r10_IZR by lia. change (10 ^ 2)%Z with 100%Z. lra.
Qed.

Theorem bln_accurate nd x : (2 <= nd <= 94)%Z -> 0 < rval x ->
  exists F, forall fuel, (F <= fuel)%nat ->
  exists r, bln fuel x nd = Ok (Some r) /\ Rabs (rval r - ln (rval x)) <= ln_err (rval x) nd.
Proof.
  intros Hn Hx. set (u := r10 (- nd)). assert (U : 0 < u <= / 100) by (apply r10_cent; lia).
  destruct (half_digits nd Hn (/ 2) dhalf (or_introl eq_refl) rval_half) as (ep & Ep & Ap).
  destruct (half_digits nd Hn (- / 2) (dneg dhalf) (or_intror eq_refl)) as (em & Em & Am).
  { rewrite rval_dneg, rval_half. reflexivity. }
  fold u in Ap, Am.
  pose proof (ln_near (/ 2) (rval ep) u ltac:(lra) (or_introl eq_refl) Ap) as Lp.
  pose proof (ln_near (- / 2) (rval em) u ltac:(lra) (or_intror eq_refl) Am) as Lm.
  apply abs_le_inv in Lp, Lm. pose proof exp_half as Hh. pose proof exp_mhalf_bounds as Hm. pose proof exp_mhalf as Hhm.
  apply abs_le_inv in Ap, Am.
  assert (Pp : 0 < rval ep) by lra. assert (Pm : 0 < rval em) by lra.
  assert (Pm1 : rval em < 1) by lra.
  unfold bln, ln_err. fold u.
  assert (Nn : dis_zero x || dis_negative x = false).
  { destruct (dis_zero x || dis_negative x) eqn:E; [|reflexivity]. apply nonpos_dec in E.
    apply Qreals.Qle_Rle in E. rewrite RMicromega.Q2R_0 in E. unfold rval in Hx. lra. }
  rewrite Nn. destruct (dleb done x) eqn:E1.
  - (* x >= 1 *)
    apply dleb_R in E1. unfold done in E1. rewrite rval_bigd in E1.
    assert (Lx : 0 <= ln (rval x)).
    { destruct (Rle_lt_or_eq_dec 1 (rval x) E1) as [A|A]; [rewrite <- ln_1; apply Rlt_le, ln_increasing; lra|]. rewrite <- A, ln_1. lra. }
    destruct (pow_below (rval em) (rval ep / rval x) ltac:(lra) ltac:(apply Rdiv_lt_0_compat; lra)) as [m M].
    exists (S m). intros fuel Hf. rewrite Ep, Em. cbn [rbind].
    destruct (ln_up_ok ep em Pm m fuel x dzero Hx) as (k & x' & e' & R & Hk & Ex & Ee & Lt & C).
    { apply Rmult_lt_compat_r with (r := rval x) in M; [|exact Hx]. unfold Rdiv in M. rewrite Rmult_assoc, Rinv_l, Rmult_1_r in M by lra. lra. }
    { lia. }
    rewrite R. cbn [rbind fst snd].
    assert (Lo : 1 - 3 * u <= rval x').
    { destruct C as [->|(j & -> & C)]; [cbn in Ex; lra|]. cbn [pow] in Ex.
      assert (rval ep * rval em <= rval x') by (rewrite Ex; nra). nra. }
    destruct (ln_up_series (dsub x' done) nd Hn) as (y & Y & A).
    { rewrite rval_dsub. unfold done. rewrite rval_bigd. apply Rabs_le. lra. }
    rewrite Y. cbn [rbind]. exists (dadd y e'). split; [reflexivity|].
    rewrite rval_dadd, Ee. unfold dzero. rewrite rval_bigd. rewrite rval_dsub in A. unfold done in A. rewrite rval_bigd in A.
    replace (1 + (rval x' - 1)) with (rval x') in A by ring. rewrite Ex, (ln_pow_mult (rval x) (rval em) k Hx Pm) in A. fold u in A.
    assert (Kb : INR k * 0.48 <= ln (rval x)).
    { destruct C as [->|(j & -> & C)]; [cbn; lra|]. rewrite S_INR.
      assert (G : ln (rval ep) <= ln (rval x) + INR j * ln (rval em)).
      { rewrite <- (ln_pow_mult (rval x) (rval em) j Hx Pm).
        destruct (Rle_lt_or_eq_dec _ _ C) as [C'|C']; [apply Rlt_le, ln_increasing; assumption|rewrite C'; lra]. }
      pose proof (pos_INR j). nra. }
    pose proof (pos_INR k) as Kn. rewrite (Rabs_pos_eq (ln (rval x))) by exact Lx.
    apply abs_le_inv in A. apply Rabs_le. split; nra.
  - (* x < 1 *)
    apply dleb_false_R in E1. unfold done in E1. rewrite rval_bigd in E1.
    assert (Lx : ln (rval x) < 0) by (rewrite <- ln_1; apply ln_increasing; lra).
    destruct (pow_below (/ rval ep) (rval x / rval em)) as [m M].
    { split; [apply Rinv_0_lt_compat; lra|]. rewrite <- Rinv_1. apply Rinv_lt_contravar; lra. }
    { apply Rdiv_lt_0_compat; lra. }
    exists (S m). intros fuel Hf. rewrite Ep, Em. cbn [rbind].
    destruct (ln_down_ok em ep Pp m fuel x dzero Hx) as (k & x' & e' & R & Hk & Ex & Ee & Lt & C).
    { rewrite pow_inv in M. assert (Q : 0 < rval ep ^ m) by (apply pow_lt; lra).
      apply Rmult_lt_compat_r with (r := rval ep ^ m * rval em) in M; [|nra].
      replace (/ rval ep ^ m * (rval ep ^ m * rval em)) with (rval em) in M by (field; lra).
      replace (rval x / rval em * (rval ep ^ m * rval em)) with (rval x * rval ep ^ m) in M by (field; lra). exact M. }
    { lia. }
    rewrite R. cbn [rbind fst snd].
    assert (Hi : rval x' <= 1 + 3 * u).
    { destruct C as [->|(j & -> & C)]; [cbn in Ex; lra|]. cbn [pow] in Ex.
      assert (rval x' <= rval em * rval ep) by (rewrite Ex; nra). nra. }
    destruct (ln_down_series (dsub done x') nd Hn) as (y & Y & A).
    { rewrite rval_dsub. unfold done. rewrite rval_bigd. apply Rabs_le. lra. }
    rewrite Y. cbn [rbind]. exists (dadd y e'). split; [reflexivity|].
    rewrite rval_dadd, Ee. unfold dzero. rewrite rval_bigd. rewrite rval_dsub in A. unfold done in A. rewrite rval_bigd in A.
    replace (1 - (1 - rval x')) with (rval x') in A by ring. rewrite Ex, (ln_pow_mult (rval x) (rval ep) k Hx Pp) in A. fold u in A.
    assert (Kb : INR k * 0.48 <= - ln (rval x)).
    { destruct C as [->|(j & -> & C)]; [cbn; lra|]. rewrite S_INR.
      assert (G : ln (rval x) + INR j * ln (rval ep) <= ln (rval em)).
      { rewrite <- (ln_pow_mult (rval x) (rval ep) j Hx Pp).
        assert (0 < rval x * rval ep ^ j) by (apply Rmult_lt_0_compat; auto using pow_lt).
        destruct (Rle_lt_or_eq_dec _ _ C) as [C'|C']; [apply Rlt_le, ln_increasing; assumption|rewrite C'; lra]. }
      pose proof (pos_INR j). nra. }
    pose proof (pos_INR k) as Kn. rewrite (Rabs_left (ln (rval x))) by exact Lx.
    apply abs_le_inv in A. apply Rabs_le. split; nra.
Qed.

(** ** log *)
Lemma delta_digits nd : (nd <= 94)%Z -> delta <= r10 (- nd).
Proof.
  intros H. unfold delta. assert (r10 (-99) <= r10 (- nd)) by (apply r10_mono; lia). pose proof (r10_pos (-99)). lra.
Qed.
Lemma quotient_error A B lx lb ea eb : B <> 0 -> Rabs (lx - A) <= ea -> Rabs (lb - B) <= eb -> eb <= Rabs B / 2 ->
  lb <> 0 /\ Rabs (lx / lb - A / B) <= 2 * ((ea + Rabs (A / B) * eb) / Rabs B).
Proof.
  intros HB Ha Hb Hs. assert (PB : 0 < Rabs B) by (apply Rabs_pos_lt; exact HB).
  assert (Lb : Rabs B / 2 <= Rabs lb).
  { pose proof (Rabs_triang lb (B - lb)) as T. replace (lb + (B - lb)) with B in T by ring.
    rewrite (Rabs_minus_sym B lb) in T. lra. }
  assert (Nz : lb <> 0) by (intros ->; rewrite Rabs_R0 in Lb; lra). split; [exact Nz|].
  replace (lx / lb - A / B) with (((lx - A) - (A / B) * (lb - B)) * / lb) by (field; auto).
  rewrite Rabs_mult, Rabs_inv.
  assert (I : / Rabs lb <= 2 * / Rabs B).
  { replace (2 * / Rabs B) with (/ (Rabs B / 2)) by (field; lra). apply Rinv_le_contravar; lra. }
  assert (T : Rabs (lx - A - A / B * (lb - B)) <= ea + Rabs (A / B) * eb).
  { eapply Rle_trans; [apply Rabs_triang|]. rewrite Rabs_Ropp, (Rabs_mult (A / B)). apply Rplus_le_compat; [exact Ha|].
    apply Rmult_le_compat_l; [apply Rabs_pos|exact Hb]. }
  replace (2 * ((ea + Rabs (A / B) * eb) / Rabs B)) with ((ea + Rabs (A / B) * eb) * (2 * / Rabs B)) by (unfold Rdiv; ring).
  apply Rmult_le_compat; [apply Rabs_pos| |exact T|exact I]. apply Rlt_le, Rinv_0_lt_compat. lra.
Qed.

Definition log_err (x b : R) (nd : Z) : R :=
  3 * ((ln_err x nd + Rabs (ln x / ln b) * ln_err b nd) / Rabs (ln b)).

Theorem blog_accurate nd x b : (2 <= nd <= 94)%Z -> 0 < rval x -> 0 < rval b ->
  ln_err (rval b) nd <= Rabs (ln (rval b)) / 2 ->
  exists F, forall fuel, (F <= fuel)%nat ->
  exists r, blog fuel x b nd = Ok (Some r) /\ Rabs (rval r - ln (rval x) / ln (rval b)) <= log_err (rval x) (rval b) nd.
Proof.
  intros Hn Hx Hb Hs. destruct (bln_accurate nd x Hn Hx) as [F1 A1]. destruct (bln_accurate nd b Hn Hb) as [F2 A2].
  exists (Nat.max F1 F2). intros fuel Hf. destruct (A1 fuel ltac:(lia)) as (lx & Ex & Ax). destruct (A2 fuel ltac:(lia)) as (lb & Eb & Ab).
  assert (U := r10_cent nd ltac:(lia)).
  assert (PB : 0 < Rabs (ln (rval b))).
  { unfold ln_err in Hs. pose proof (Rabs_pos (ln (rval b))) as P. destruct (Rle_lt_or_eq_dec _ _ P) as [Q|Q]; [exact Q|].
    rewrite <- Q in Hs. lra. }
  assert (NB : ln (rval b) <> 0) by (intros E; rewrite E, Rabs_R0 in PB; lra).
  destruct (quotient_error _ _ _ _ _ _ NB Ax Ab Hs) as [Nz Q].
  unfold blog. rewrite Ex, Eb. cbn [rbind]. destruct (ddiv_R lx lb Nz) as (q & D & Eq). rewrite D. cbn [rbind].
  exists q. split; [reflexivity|]. unfold log_err.
  set (W := (ln_err (rval x) nd + Rabs (ln (rval x) / ln (rval b)) * ln_err (rval b) nd) / Rabs (ln (rval b))) in *.
  set (q0 := ln (rval x) / ln (rval b)) in *.
  assert (W5 : 5 * r10 (- nd) * Rabs q0 <= W).
  { unfold W. apply Rmult_le_reg_r with (Rabs (ln (rval b))); [exact PB|].
    unfold Rdiv. rewrite (Rmult_assoc _ (/ _)), Rinv_l, Rmult_1_r by lra. unfold ln_err.
    pose proof (Rabs_pos q0). pose proof (Rabs_pos (ln (rval x))). nra. }
  pose proof (delta_digits nd ltac:(lia)) as Dd. pose proof delta_pos as D0. pose proof (Rabs_pos q0) as Q0.
  assert (T : Rabs (rval lx / rval lb) <= Rabs q0 + 2 * W).
  { replace (rval lx / rval lb) with (q0 + (rval lx / rval lb - q0)) by ring. eapply Rle_trans; [apply Rabs_triang|]. lra. }
  assert (W0 : 0 <= W) by nra.
  replace (rval q - q0) with ((rval q - rval lx / rval lb) + (rval lx / rval lb - q0)) by ring.
  eapply Rle_trans; [apply Rabs_triang|].
  assert (delta * Rabs (rval lx / rval lb) <= delta * (Rabs q0 + 2 * W)) by (apply Rmult_le_compat_l; lra).
  nra.
Qed.

(** ** pow *)
Lemma exp_gap a b : Rabs (exp a - exp b) <= exp b * (exp (Rabs (a - b)) - 1).
Proof.
  assert (E : exp a = exp b * exp (a - b)) by (rewrite <- exp_plus; f_equal; ring).
  rewrite E. replace (exp b * exp (a - b) - exp b) with (exp b * (exp (a - b) - 1)) by ring.
  rewrite Rabs_mult, (Rabs_pos_eq (exp b)) by (apply Rlt_le, exp_pos).
  apply Rmult_le_compat_l; [apply Rlt_le, exp_pos|]. set (t := a - b).
  destruct (Rle_lt_dec 0 t) as [T|T].
  - rewrite (Rabs_pos_eq t) by exact T. rewrite Rabs_pos_eq; [lra|]. pose proof (exp_ineq1_le t). lra.
  - rewrite (Rabs_left t) by exact T. assert (exp t < 1) by (rewrite <- exp_0; apply exp_increasing; exact T).
    rewrite Rabs_left by lra.
    assert (M : exp t * exp (- t) = 1) by (rewrite <- exp_plus; replace (t + - t) with 0 by ring; apply exp_0).
    pose proof (exp_pos t). pose proof (exp_pos (- t)). nra.
Qed.

Definition pow_err (x y : R) (nd : Z) : R :=
  r10 (- nd) + Rpower x y * (exp (Rabs y * ln_err x nd) - 1).

Theorem bpow_accurate nd x y : (2 <= nd <= 94)%Z -> 0 < rval x ->
  Rabs (rval y) * (Rabs (ln (rval x)) + ln_err (rval x) nd) <= IZR (range_at nd) ->
  exists F, forall fuel, (F <= fuel)%nat ->
  exists r, bpow fuel x y nd = Ok (Some r) /\ Rabs (rval r - Rpower (rval x) (rval y)) <= pow_err (rval x) (rval y) nd.
Proof.
  intros Hn Hx Hr. destruct (bln_accurate nd x Hn Hx) as [F A]. exists F. intros fuel Hf.
  destruct (A fuel Hf) as (l & E & Al). unfold bpow. rewrite E. cbn [rbind].
  destruct (bexp_ok _ _ _ (dmul y l) (acc_range nd ltac:(lia))) as (r & R & W).
  - rewrite rval_dmul, Rabs_mult. eapply Rle_trans; [|exact Hr]. apply Rmult_le_compat_l; [apply Rabs_pos|].
    replace (rval l) with (ln (rval x) + (rval l - ln (rval x))) by ring. eapply Rle_trans; [apply Rabs_triang|]. lra.
  - rewrite R. cbn [rbind]. exists r. split; [reflexivity|]. unfold within in W. rewrite rval_dmul in W. unfold pow_err, Rpower.
    pose proof (exp_gap (rval y * rval l) (rval y * ln (rval x))) as G.
    replace (rval y * rval l - rval y * ln (rval x)) with (rval y * (rval l - ln (rval x))) in G by ring.
    rewrite Rabs_mult in G.
    assert (M : exp (Rabs (rval y) * Rabs (rval l - ln (rval x))) <= exp (Rabs (rval y) * ln_err (rval x) nd)).
    { assert (Le : Rabs (rval y) * Rabs (rval l - ln (rval x)) <= Rabs (rval y) * ln_err (rval x) nd) by (apply Rmult_le_compat_l; [apply Rabs_pos|exact Al]).
      destruct (Rle_lt_or_eq_dec _ _ Le) as [L|L]; [apply Rlt_le, exp_increasing; exact L|rewrite L; lra]. }
    replace (rval r - exp (rval y * ln (rval x))) with ((rval r - exp (rval y * rval l)) + (exp (rval y * rval l) - exp (rval y * ln (rval x)))) by ring.
    eapply Rle_trans; [apply Rabs_triang|]. apply Rplus_le_compat; [exact W|].
    eapply Rle_trans; [exact G|]. apply Rmult_le_compat_l; [apply Rlt_le, exp_pos|]. lra.
Qed.
