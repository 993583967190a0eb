(** The Newton iteration of qnorm ends for probabilities near one half. *)
From Coq Require Import ZArith Reals Lra Lia List Bool String.
From Coquelicot Require Import Coquelicot.
From Verif Require Import Res Dec DecFacts RFacts BdMath Accuracy PiFacts LnAcc TrigAcc ErfSeries ErfAcc
  Syntax Trans ExprOps TransParse Eval EvalFacts EvalSafe EvalFunctions AccEval.
Import ListNotations.
Open Scope string_scope.
Open Scope list_scope.
Open Scope R_scope.

(** ** The density and the distribution near 0 *)
Lemma PI_314 : 3.14 <= PI <= 3.15.
Proof.
  destruct (bpi_ok no_oracles 4 ltac:(lia)) as (r & R & A).
  assert (r = BD 31416 4) by (assert (H : bpi no_oracles 4 = Ok (BD 31416 4)) by (vm_compute; reflexivity); congruence). subst r.
  rewrite rval_eq in A. cbn [mant scale] in A. rewrite r10_opp, r10_IZR in A by lia. change (10 ^ 4)%Z with 10000%Z in A.
  apply abs_le_inv in A. lra.
Qed.
Lemma phi_near t : Rabs t <= / 5 -> 0.39 <= phi t <= 0.4.
Proof.
  intros H. apply abs_le_inv in H. destruct PI_314 as [P1 P2]. unfold phi.
  destruct (sqrt_bounds (2 * PI) 2.502 2.51) as [S1 S2]; [lra|lra|lra|].
  assert (T : 0 <= t ^ 2 <= 0.04) by (split; nra).
  assert (E1 : 0.98 <= exp (- t ^ 2 / 2)) by (pose proof (exp_ineq1_le (- t ^ 2 / 2)); lra).
  assert (E2 : exp (- t ^ 2 / 2) <= 1).
  { rewrite <- exp_0. destruct (Req_dec (- t ^ 2 / 2) 0) as [-> |N]; [apply Rle_refl|apply Rlt_le, exp_increasing; lra]. }
  set (s := sqrt (2 * PI)) in *. set (e := exp _) in *. split.
  - apply Rmult_le_reg_r with s; [lra|]. unfold Rdiv. rewrite Rmult_assoc, Rinv_l, Rmult_1_r by lra. nra.
  - apply Rmult_le_reg_r with s; [lra|]. unfold Rdiv. rewrite Rmult_assoc, Rinv_l, Rmult_1_r by lra. nra.
Qed.
Lemma phi_continuous t : continuous phi t.
Proof. apply (ex_derive_continuous (V := R_NormedModule)). unfold phi. auto_derive. exact I. Qed.
Lemma Phi_derive x : is_derive Phi x (phi x).
Proof.
  unfold Phi. replace (phi x) with (plus (zero : R_NormedModule) (phi x)) by (change (0 + phi x = phi x); ring).
  apply (is_derive_plus (V := R_NormedModule) (fun _ => / 2) (fun x => RInt phi 0 x)); [exact (is_derive_const (K := R_AbsRing) (V := R_NormedModule) (/ 2) x)|].
  apply (is_derive_RInt phi (fun x => RInt phi 0 x) 0); [|apply phi_continuous].
  exists (mkposreal 1 Rlt_0_1). intros y _. apply (RInt_correct (V := R_CompleteNormedModule)).
  apply (ex_RInt_continuous (V := R_CompleteNormedModule)). intros z _. apply phi_continuous.
Qed.
Lemma Phi_step a b : Rabs a <= / 5 -> Rabs b <= / 5 -> exists s, 0.39 <= s <= 0.4 /\ Phi b - Phi a = s * (b - a).
Proof.
  intros A B. destruct (MVT_gen Phi a b phi) as (c & C & E).
  - intros t _. apply Phi_derive.
  - intros t _. apply derivable_continuous_pt. exists (phi t). apply is_derive_Reals, Phi_derive.
  - exists (phi c). split; [|exact E]. apply phi_near. apply abs_le_inv in A. apply abs_le_inv in B.
    apply Rabs_le. unfold Rmin, Rmax in C. destruct (Rle_dec a b); lra.
Qed.
Lemma Phi_0 : Phi 0 = / 2.
Proof. unfold Phi. rewrite RInt_point. change (/ 2 + 0 = / 2). lra. Qed.

(** One Newton step in real numbers: [e] the error at [y], [ee] the error as computed,
    [a] the density as computed, [k] the relative error of the division. *)
Lemma newton_step y y' x u e ee a k : 0 < u <= / 100 -> Rabs y <= / 5 ->
  e = Phi y - x -> Rabs (ee - e) <= Rabs y * u -> Rabs (a - phi y) <= u -> Rabs k <= / 1000 ->
  y' = y - ee / a * (1 + k) -> Rabs y' <= / 5 ->
  Rabs (Phi y' - x) <= 0.06 * Rabs e + 0.212 * u.
Proof.
  intros U Y E Ee A K Y' B. destruct (phi_near y Y) as [F1 F2]. destruct (Phi_step y y' Y B) as (s & S & St).
  apply abs_le_inv in A. apply abs_le_inv in K.
  assert (Pa : 0.38 <= a <= 0.41) by lra.
  set (w := s * (1 + k) / a). 
  assert (W : 0.94 <= w <= 1.06).
  { assert (N : 0.3896 <= s * (1 + k) <= 0.4004) by (split; nra). unfold w. split.
    - apply Rmult_le_reg_r with a; [lra|]. unfold Rdiv. rewrite Rmult_assoc, Rinv_l, Rmult_1_r by lra. nra.
    - apply Rmult_le_reg_r with a; [lra|]. unfold Rdiv. rewrite Rmult_assoc, Rinv_l, Rmult_1_r by lra. nra. }
  replace (Phi y' - x) with ((1 - w) * e + - (w * (ee - e))).
  2: { replace (Phi y') with (Phi y + s * (y' - y)) by lra. rewrite Y', E. unfold w. field. lra. }
  eapply Rle_trans; [apply Rabs_triang|]. rewrite Rabs_Ropp, !Rabs_mult.
  assert (W1 : Rabs (1 - w) <= 0.06) by (apply Rabs_le; lra). rewrite (Rabs_pos_eq w) by lra.
  pose proof (Rabs_pos e). pose proof (Rabs_pos y). pose proof (Rabs_pos (ee - e)).
  assert (Rabs (1 - w) * Rabs e <= 0.06 * Rabs e) by (apply Rmult_le_compat_r; lra).
  assert (Rabs y * u <= / 5 * u) by (apply Rmult_le_compat_r; lra).
  assert (w * Rabs (ee - e) <= 1.06 * (/ 5 * u)) by (apply Rmult_le_compat; lra). lra.
Qed.
Lemma newton_move y y' u e ee a k : 0 < u <= / 100 -> Rabs y <= / 5 ->
  Rabs (ee - e) <= Rabs y * u -> Rabs (a - phi y) <= u -> Rabs k <= / 1000 ->
  y' = y - ee / a * (1 + k) -> Rabs (y' - y) <= 2.65 * Rabs e + 0.53 * u.
Proof.
  intros U Y Ee A K Y'. destruct (phi_near y Y) as [F1 F2]. apply abs_le_inv in A. apply abs_le_inv in K.
  rewrite Y'. replace (y - ee / a * (1 + k) - y) with (- (ee * (1 + k) / a)) by (field; lra). rewrite Rabs_Ropp.
  apply div_bound; [lra|]. rewrite Rabs_mult, (Rabs_pos_eq (1 + k)) by lra.
  assert (Rabs ee <= Rabs e + / 5 * u).
  { replace ee with (e + (ee - e)) by ring. eapply Rle_trans; [apply Rabs_triang|].
    assert (Rabs y * u <= / 5 * u) by (apply Rmult_le_compat_r; lra). lra. }
  pose proof (Rabs_pos ee). pose proof (Rabs_pos e). nra.
Qed.

Lemma round_scale z nd : (0 <= nd)%Z -> (scale (round z nd) <= nd)%Z.
Proof.
  intros H. unfold round. destruct (Z.ltb_spec nd 0); [lia|]. cbn [orb]. destruct (Z.leb_spec (scale z) nd); [assumption|].
  unfold with_scale. set (y := dadd _ _). destruct (mant y =? 0)%Z; [cbn; lia|]. destruct (Z.ltb_spec (scale y) nd); [cbn; lia|].
  destruct (Z.ltb_spec nd (scale y)); [cbn; lia|lia].
Qed.
Lemma small_rounds_to_zero z nd : (0 <= nd)%Z -> Rabs (rval z) < / 2 * r10 (- nd) -> dis_zero (round z nd) = true.
Proof.
  intros H Z. pose proof (round_err_R z nd H) as R. pose proof (round_scale z nd H) as S. pose proof (r10_pos (- nd)) as P.
  set (w := round z nd) in *. assert (W : Rabs (rval w) < r10 (- nd)).
  { replace (rval w) with ((rval w - rval z) + rval z) by ring. eapply Rle_lt_trans; [apply Rabs_triang|]. lra. }
  unfold dis_zero. apply Z.eqb_eq. rewrite rval_eq, Rabs_mult, (Rabs_pos_eq (r10 _)) in W by (apply Rlt_le, r10_pos).
  pose proof (r10_mono (- nd) (- scale w) ltac:(lia)) as M. rewrite <- abs_IZR in W.
  destruct (Z.eq_dec (mant w) 0) as [|N]; [assumption|exfalso].
  assert (1 <= IZR (Z.abs (mant w))) by (apply IZR_le; lia). pose proof (r10_pos (- scale w)). nra.
Qed.

(** ** The loop *)
Section Loop.
Variables (o : oracles) (nd : Z).
Hypothesis Good : sqrt_good o.
Hypothesis Hn : (2 <= nd <= 94)%Z.
Variables (mean sd x : bd).
Hypothesis Hs : rval sd <> 0.
Hypothesis Hx : 0.46 <= rval x <= 0.54.
Let u := r10 (- nd).
Let std (g : bd) : R := standard mean sd (rval g).
Let err (g : bd) : R := Phi (std g) - rval x.

Lemma in_range g : Rabs (std g) <= / 5 -> standard mean sd (rval g) ^ 2 <= IZR (range_at nd).
Proof.
  intros H. fold (std g). assert (R : 1 <= IZR (range_at nd)). { apply IZR_le. unfold range_at. destruct (nd =? 1)%Z; lia. }
  apply abs_le_inv in H. nra.
Qed.

(** The guess is accepted, or replaced by a Newton step. *)
Lemma one_turn g : Rabs (std g) <= / 5 -> exists p, bpnorm o g mean sd nd = Ok p /\ Rabs ((rval p - rval x) - err g) <= Rabs (std g) * u /\
  forall k, (dis_zero (round (dabs (dsub p x)) nd) = true /\ qnorm_loop o (S k) x mean sd nd g = Ok g) \/
  (Rabs (rval p - rval x) >= / 2 * u /\ exists g' a w, qnorm_loop o (S k) x mean sd nd g = qnorm_loop o k x mean sd nd g' /\
     Rabs (a - phi (std g)) <= u /\ Rabs w <= / 1000 /\ std g' = std g - (rval p - rval x) / a * (1 + w)).
Proof.
  intros Y. destruct (u_facts nd Hn) as (U & E0 & E100 & (D0 & De) & E1). fold u in U, E100.
  destruct (bpnorm_accurate o nd Good Hn mean sd Hs g (in_range g Y)) as (p & P & Ap). exists p. split; [exact P|]. fold (std g) in Ap. fold u in Ap.
  split. { unfold err. replace (rval p - rval x - (Phi (std g) - rval x)) with (rval p - Phi (std g)) by ring. exact Ap. }
  intros k. cbn [qnorm_loop]. rewrite P; cbn [rbind]. destruct (dis_zero (round (dabs (dsub p x)) nd)) eqn:Z; [left; auto|right]. split.
  { apply Rle_ge. destruct (Rle_lt_dec (/ 2 * u) (Rabs (rval p - rval x))) as [|L]; [assumption|exfalso].
    rewrite (small_rounds_to_zero (dabs (dsub p x)) nd ltac:(lia)) in Z; [discriminate|].
    rewrite rval_dabs, rval_dsub, Rabs_Rabsolu. exact L. }
  destruct (bdnorm_accurate o nd Good Hn mean sd Hs g (in_range g Y)) as (d & D & Ad). fold (std g) in Ad. fold u in Ad.
  rewrite D; cbn [rbind]. set (a := rval d * rval sd).
  assert (Aa : Rabs (a - phi (std g)) <= u).
  { unfold a. replace (rval d * rval sd - phi (std g)) with ((rval d - phi (std g) / rval sd) * rval sd) by (field; exact Hs).
    rewrite Rabs_mult. assert (S0 : 0 < Rabs (rval sd)) by (apply Rabs_pos_lt; exact Hs).
    apply Rle_trans with (u / Rabs (rval sd) * Rabs (rval sd)); [apply Rmult_le_compat_r; lra|]. right. field. lra. }
  destruct (phi_near _ Y) as [F1 F2]. assert (Pa : 0.38 <= a) by (apply abs_le_inv in Aa; lra).
  assert (Dz : rval d <> 0). { intros Z0. unfold a in Pa. rewrite Z0 in Pa. lra. }
  destruct (ddiv_R (dsub p x) d Dz) as (q & Q & Aq). rewrite Q; cbn [rbind]. rewrite rval_dsub in Aq.
  set (ee := rval p - rval x) in *.
  assert (exists w, Rabs w <= / 1000 /\ rval q = ee / rval d * (1 + w)) as (w & W & Eq).
  { destruct (Req_dec (ee / rval d) 0) as [E|E].
    - exists 0. rewrite Rabs_R0. split; [lra|]. rewrite E, Rabs_R0, Rmult_0_r in Aq.
      pose proof (Rabs_pos (rval q - 0)). assert (rval q - 0 = 0); [|rewrite E; lra]. destruct (Req_dec (rval q - 0) 0) as [|N]; [assumption|].
      pose proof (Rabs_pos_lt _ N). lra.
    - exists ((rval q - ee / rval d) / (ee / rval d)). split; [|field; split; [exact Dz|intros Z0; apply E; rewrite Z0; unfold Rdiv; ring]].
      unfold Rdiv at 1. rewrite Rabs_mult, Rabs_inv. pose proof (Rabs_pos_lt _ E) as Ep. apply Rle_trans with delta; [|lra].
      apply Rmult_le_reg_r with (Rabs (ee / rval d)); [exact Ep|]. rewrite Rmult_assoc, Rinv_l, Rmult_1_r by lra. exact Aq. }
  exists (dsub g q), a, w. split; [reflexivity|]. split; [exact Aa|]. split; [exact W|].
  unfold std, standard. rewrite rval_dsub, Eq. unfold a. field. split; assumption.
Qed.

Definition close (g : bd) : Prop := Rabs (std g) <= / 5 /\ Rabs (err g) <= 0.0062.
Lemma close_std g : close g -> Rabs (std g) <= 0.12.
Proof.
  intros [A B]. destruct (Phi_step 0 (std g) ltac:(rewrite Rabs_R0; lra) A) as (s & S & E). rewrite Phi_0, Rminus_0_r in E.
  unfold err in B. apply abs_le_inv in B. apply Rabs_le. 
  assert (- 0.0463 <= s * std g <= 0.0463) by lra. nra.
Qed.

Lemma close_step g g' p a w : close g -> Rabs ((rval p - rval x) - err g) <= Rabs (std g) * u ->
  Rabs (a - phi (std g)) <= u -> Rabs w <= / 1000 -> std g' = std g - (rval p - rval x) / a * (1 + w) ->
  close g' /\ Rabs (err g') <= 0.06 * Rabs (err g) + 0.212 * u.
Proof.
  intros C P A W G. pose proof (close_std g C) as S. destruct C as [C1 C2]. destruct (u_facts nd Hn) as (U & _). fold u in U.
  pose proof (newton_move (std g) (std g') u (err g) _ a w U C1 P A W G) as M.
  assert (C' : Rabs (std g') <= / 5). { apply abs_le_inv in S. apply abs_le_inv in M. apply Rabs_le. lra. }
  pose proof (newton_step (std g) (std g') (rval x) u (err g) _ a w U C1 eq_refl P A W G C') as N.
  fold (err g') in N. split; [split; [exact C'|]|exact N]. lra.
Qed.

(** What the loop returns. *)
Definition found (g : bd) : Prop := Rabs (std g) <= / 5 /\ Rabs (err g) <= 0.7 * u.
Lemma accepted g p : Rabs (std g) <= / 5 -> Rabs ((rval p - rval x) - err g) <= Rabs (std g) * u ->
  dis_zero (round (dabs (dsub p x)) nd) = true -> found g.
Proof.
  intros A P Z. split; [exact A|]. destruct (u_facts nd Hn) as (U & _). fold u in U.
  apply dis_zero_R in Z. pose proof (round_err_R (dabs (dsub p x)) nd ltac:(lia)) as R. rewrite Z, rval_dabs, rval_dsub in R. fold u in R.
  replace (0 - Rabs (rval p - rval x)) with (- Rabs (rval p - rval x)) in R by ring. rewrite Rabs_Ropp, Rabs_Rabsolu in R.
  replace (err g) with ((rval p - rval x) + - ((rval p - rval x) - err g)) by ring. eapply Rle_trans; [apply Rabs_triang|]. rewrite Rabs_Ropp.
  assert (Rabs (std g) * u <= / 5 * u) by (apply Rmult_le_compat_r; lra). lra.
Qed.

Lemma loop_close k : forall g, close g -> Rabs (err g) <= 5 ^ k * u -> forall fuel, (k + 2 <= fuel)%nat ->
  exists r, qnorm_loop o fuel x mean sd nd g = Ok r /\ found r.
Proof.
  destruct (u_facts nd Hn) as (U & _). fold u in U.
  induction k as [|k IH]; intros g C B fuel F.
  - destruct fuel as [|[|fuel]]; [lia|lia|]. destruct (one_turn g (proj1 C)) as (p & P & Ap & T).
    destruct (T (S fuel)) as [[Z L]|(_ & g' & a & w & L & A & W & G)].
    + exists g. split; [exact L|]. exact (accepted g p (proj1 C) Ap Z).
    + destruct (close_step g g' p a w C Ap A W G) as [C' B']. destruct (one_turn g' (proj1 C')) as (p' & P' & Ap' & T').
      destruct (T' fuel) as [[Z' L']|(N & _)].
      * exists g'. split; [congruence|]. exact (accepted g' p' (proj1 C') Ap' Z').
      * exfalso. pose proof (close_std g' C') as S'. cbn [pow] in B.
        assert (Rabs (rval p' - rval x) <= Rabs (err g') + Rabs (std g') * u).
        { replace (rval p' - rval x) with (err g' + ((rval p' - rval x) - err g')) by ring. eapply Rle_trans; [apply Rabs_triang|]. lra. }
        assert (Rabs (std g') * u <= / 5 * u) by (apply Rmult_le_compat_r; [lra|exact (proj1 C')]). lra.
  - destruct fuel as [|fuel]; [lia|]. destruct (one_turn g (proj1 C)) as (p & P & Ap & T).
    destruct (T fuel) as [[Z L]|(_ & g' & a & w & L & A & W & G)].
    + exists g. split; [exact L|]. exact (accepted g p (proj1 C) Ap Z).
    + destruct (close_step g g' p a w C Ap A W G) as [C' B']. rewrite L. apply IH; [exact C'| |lia].
      assert (1 <= 5 ^ k) by (apply pow_R1_Rle; lra). cbn [pow] in B. assert (u <= 5 ^ k * u) by nra. lra.
Qed.

Hypothesis Hm : Rabs (rval mean / rval sd) <= 0.04.
Lemma start_std : Rabs (std dzero64) <= 0.04.
Proof.
  unfold std, standard. replace (rval dzero64) with 0 by (rewrite rval_eq; cbn [mant dzero64]; ring).
  replace ((0 - rval mean) / rval sd) with (- (rval mean / rval sd)) by (field; exact Hs). rewrite Rabs_Ropp. exact Hm.
Qed.
Lemma start_err : Rabs (err dzero64) <= 0.056.
Proof.
  pose proof start_std as S. destruct (Phi_step 0 (std dzero64) ltac:(rewrite Rabs_R0; lra) ltac:(lra)) as (s & Sb & E). rewrite Phi_0, Rminus_0_r in E.
  apply abs_le_inv in S. unfold err. apply Rabs_le. assert (- 0.016 <= s * std dzero64 <= 0.016) by (split; nra). lra.
Qed.
Lemma enough_turns : 0.0062 <= 5 ^ (2 * Z.to_nat nd) * u.
Proof.
  unfold u. rewrite r10_opp, r10_IZR by lia. rewrite <- (Z2Nat.id nd) at 2 by lia. rewrite pow_mult.
  replace (5 ^ 2) with 25 by ring. rewrite <- (Z2Nat.id nd) in Hn by lia. set (n := Z.to_nat nd).
  rewrite <- pow_IZR. assert (0 < 10 ^ n) by (apply pow_lt; lra). assert (10 ^ n <= 25 ^ n) by (apply pow_incr; lra).
  apply Rmult_le_reg_r with (10 ^ n); [assumption|]. rewrite Rmult_assoc, Rinv_l, Rmult_1_r by lra. lra.
Qed.

Theorem qnorm_loop_ends fuel : (2 * Z.to_nat nd + 3 <= fuel)%nat -> exists r, qnorm_loop o fuel x mean sd nd dzero64 = Ok r /\ found r.
Proof.
  intros F. destruct fuel as [|fuel]; [lia|]. pose proof start_std as S. pose proof start_err as Se. destruct (u_facts nd Hn) as (U & _). fold u in U.
  assert (C1 : Rabs (std dzero64) <= / 5) by lra.
  destruct (one_turn dzero64 C1) as (p & P & Ap & T).
  destruct (T fuel) as [[Z L]|(_ & g' & a & w & L & A & W & G)].
  - exists dzero64. split; [exact L|]. exact (accepted _ p C1 Ap Z).
  - rewrite L. pose proof (newton_move (std dzero64) (std g') u (err dzero64) _ a w U C1 Ap A W G) as M.
    assert (C' : Rabs (std g') <= / 5). { apply abs_le_inv in S. apply abs_le_inv in M. apply Rabs_le. lra. }
    pose proof (newton_step (std dzero64) (std g') (rval x) u (err dzero64) _ a w U C1 eq_refl Ap A W G C') as N. fold (err g') in N.
    assert (E : Rabs (err g') <= 0.0062) by lra.
    apply (loop_close (2 * Z.to_nat nd)); [split; assumption| |lia]. pose proof enough_turns. lra.
Qed.

Theorem bqnorm_ends : exists F, forall fuel, (F <= fuel)%nat -> exists r, bqnorm o fuel x mean sd nd = Ok (Some r) /\
  Rabs (Phi ((rval r - rval mean) / rval sd) - rval x) <= (0.7 + 0.22 / Rabs (rval sd)) * r10 (- nd).
Proof.
  assert (D1 : rval (dsub done x) = 1 - rval x) by (rewrite rval_dsub; f_equal; apply rval_bigd).
  destruct (ddiv_R x (dsub done x) ltac:(rewrite D1; lra)) as (q & Q & Aq). rewrite D1 in Aq.
  assert (Qp : 0 < rval q).
  { assert (0 < rval x / (1 - rval x)) by (apply Rdiv_lt_0_compat; lra). rewrite (Rabs_pos_eq (_ / _)) in Aq by lra.
    destruct (u_facts nd Hn) as (_ & _ & _ & (D0 & De) & E1). apply abs_le_inv in Aq. nra. }
  destruct (bln_accurate nd q Hn Qp) as [F L]. exists (Nat.max F (2 * Z.to_nat nd + 3)). intros fuel Hf.
  destruct (L fuel ltac:(lia)) as (l & El & _). destruct (qnorm_loop_ends fuel ltac:(lia)) as (g & G & Fs & Fe).
  exists (round g nd). split. { unfold bqnorm. rewrite Q; cbn [rbind]. rewrite El; cbn [rbind]. rewrite G. reflexivity. }
  pose proof (round_err_R g nd ltac:(lia)) as Rg. fold u in Rg. fold u. set (r := rval (round g nd)) in *.
  assert (S0 : 0 < Rabs (rval sd)) by (apply Rabs_pos_lt; exact Hs).
  replace (Phi ((r - rval mean) / rval sd) - rval x) with ((Phi ((r - rval mean) / rval sd) - Phi (std g)) + err g) by (unfold err; ring).
  eapply Rle_trans; [apply Rabs_triang|]. pose proof (Phi_lipschitz ((r - rval mean) / rval sd) (std g)) as PL.
  assert (Sd : Rabs ((r - rval mean) / rval sd - std g) <= / 2 * u / Rabs (rval sd)).
  { unfold std, standard. replace ((r - rval mean) / rval sd - (rval g - rval mean) / rval sd) with ((r - rval g) / rval sd) by (field; exact Hs).
    unfold Rdiv. rewrite Rabs_mult, Rabs_inv. apply Rmult_le_compat_r; [apply Rlt_le, Rinv_0_lt_compat; exact S0|exact Rg]. }
  replace ((0.7 + 0.22 / Rabs (rval sd)) * u) with (0.44 * (/ 2 * u / Rabs (rval sd)) + 0.7 * u) by (unfold Rdiv; lra).
  pose proof (Rabs_pos ((r - rval mean) / rval sd - std g)). lra.
Qed.
End Loop.

(** Through the evaluator *)
Lemma eval_qnorm_ends o n : (2 <= n <= 94)%Z -> sqrt_good o -> forall a x b m c s t,
  always o n a x -> always o n b m -> always o n c s -> rval s <> 0 -> 0.46 <= rval x <= 0.54 -> Rabs (rval m / rval s) <= 0.04 ->
  eval_value o n (EMethodCall a "qnorm" t [b; c])
    (fun z => Rabs (Phi ((z - rval m) / rval s) - rval x) <= (0.7 + 0.22 / Rabs (rval s)) * r10 (- n)).
Proof.
  intros Hn G a x b m c s t A B C S X M. apply (some_value2 o n _ a x b m c s); [exact A|exact B|exact C|].
  destruct (bqnorm_ends o n G Hn m s x S X M) as (F & E). exists F. intros fuel Hf. destruct (E fuel Hf) as (r & R & V).
  exists r. split; [|exact V].
  change (eval_call o fuel n "qnorm" x [m; s]) with (let? v := bqnorm o fuel x m s n in ok_or CouldNotEvaluate v). rewrite R. reflexivity.
Qed.
