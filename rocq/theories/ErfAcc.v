(** Accuracy of erf, erfc, dnorm and pnorm; the result of qnorm. *)
From Coq Require Import ZArith QArith Reals Lra Lia List Bool String.
From Verif Require Import Res Dec DecFacts RFacts BdMath Series MacFacts Accuracy PiFacts GeoInst GeoSeries LnAcc TrigAcc ErfSeries
  DecFast Syntax Trans ExprOps TransParse Eval EvalFacts EvalSafe EvalFunctions AccEval.
Import ListNotations.
Open Scope string_scope.
Open Scope list_scope.
Open Scope R_scope.

Lemma erf_closure : series_closure (pure_term erf_term) c_erf.
Proof.
  intros i tot power factorial H. right. pose proof (c_erf_abs i) as Ca. pose proof (c_erf_1 i) as C1.
  assert (I0 : 0 < INR (2 * i + 1)) by (apply lt_0_INR; lia).
  split; [rewrite Ca in *; split; [apply Rinv_0_lt_compat; exact I0|exact C1]|].
  assert (E : rval (dmul (bigd (2 * Z.of_nat i + 1)) factorial) = INR (2 * i + 1) * rval factorial).
  { rewrite rval_dmul, rval_bigd. f_equal. replace (2 * Z.of_nat i + 1)%Z with (Z.of_nat (2 * i + 1)) by lia. symmetry. apply INR_IZR_INZ. }
  destruct (ddiv_R power (dmul (bigd (2 * Z.of_nat i + 1)) factorial)) as (q & Q & A).
  { rewrite E. apply Rmult_integral_contrapositive_currified; [lra|exact H]. }
  rewrite E in A. set (v := rval power / rval factorial) in *.
  replace (rval power / (INR (2 * i + 1) * rval factorial)) with (/ INR (2 * i + 1) * v) in A by (unfold v; field; split; [exact H|lra]).
  assert (B : Rabs (rval q - / INR (2 * i + 1) * v) <= delta * Rabs v).
  { eapply Rle_trans; [exact A|]. apply Rmult_le_compat_l; [pose proof delta_pos; lra|]. rewrite Rabs_mult.
    rewrite Ca in C1. rewrite (Rabs_pos_eq (/ _)) by (apply Rlt_le, Rinv_0_lt_compat; exact I0). pose proof (Rabs_pos v). nra. }
  unfold pure_term, erf_term. rewrite Q. cbn [rbind]. rewrite land1. unfold c_erf. destruct (Nat.odd i) eqn:O.
  - exists (dsub tot q). split; [reflexivity|]. assert (M : (-1) ^ i = -1) by (destruct (odd_pos i O) as [j ->]; apply m1_odd).
    rewrite M, rval_dsub. replace (rval tot - rval q - rval tot - -1 / INR (2 * i + 1) * v) with (- (rval q - / INR (2 * i + 1) * v)) by (field; lra).
    rewrite Rabs_Ropp. exact B.
  - exists (dadd tot q). split; [reflexivity|]. assert (M : (-1) ^ i = 1) by (destruct (even_pos i O) as [j ->]; apply m1_even).
    rewrite M, rval_dadd. replace (rval tot + rval q - rval tot - 1 / INR (2 * i + 1) * v) with (rval q - / INR (2 * i + 1) * v) by (field; lra).
    exact B.
Qed.

Lemma one_unit nd : (2 <= nd <= 98)%Z ->
  / 2 * r10 (- (2 * nd)) + (delta + (1 + delta) * (/ 2 * r10 (- (2 * nd)))) * IZR (3 ^ range_at nd) <= r10 (- nd).
Proof.
  intros H. pose proof (acc_total _ _ _ (acc_range nd ltac:(lia))) as A. unfold acc in A.
  set (eps := / 2 * r10 (- (2 * nd))) in *. assert (Pe : 0 < eps) by (unfold eps; pose proof (r10_pos (- (2 * nd))); lra).
  pose proof delta_pos as Pd. pose proof (r10_pos (- (nd + 1))).
  assert (E0 : 0 <= IZR (3 ^ range_at nd)) by (apply IZR_le; apply Z.pow_nonneg; lia).
  assert (I1 : 1 <= INR (Z.to_nat (terms_for nd) + 3)). { change 1 with (INR 1). apply le_INR. lia. }
  assert (0 <= (delta + (1 + delta) * eps) * IZR (3 ^ range_at nd)) by (apply Rmult_le_pos; [nra|exact E0]).
  nra.
Qed.

Lemma erf_mac z nd : (2 <= nd <= 98)%Z -> Rabs (rval z) <= IZR (range_at nd) ->
  exists m, maclaurin z nd (pure_term erf_term) tt = Ok m /\ Rabs (rval m - G (rval z)) <= r10 (- nd).
Proof.
  intros Hn Hz. assert (T : terms_for nd = (12 * nd)%Z) by (unfold terms_for; destruct (Z.eqb_spec nd 1); [lia|reflexivity]).
  apply (fn_accuracy _ _ _ (acc_range nd ltac:(lia)) erf_term c_erf G z erf_closure) with (cm := / INR (2 * S (Z.to_nat (12 * nd)) + 1)).
  - intros i E. exfalso. exact (c_erf_nz i E).
  - intros i j _. apply c_erf_mono.
  - rewrite T. intros i Hi _. rewrite c_erf_abs. apply Rinv_le_contravar; [apply lt_0_INR; lia|]. apply le_INR. lia.
  - eapply Rle_lt_trans; [apply one_unit; exact Hn|].
    pose proof (pow_digits nd ltac:(lia)) as D. rewrite r10_opp, r10_IZR by lia.
    apply Rinv_lt_contravar.
    + apply Rmult_lt_0_compat; [apply lt_0_INR; lia|apply IZR_lt, Zpow10_pos; lia].
    + rewrite INR_IZR_INZ. apply IZR_lt. lia.
  - apply erf_limit.
  - exact Hz.
Qed.

(** ** Constants *)
Lemma PI_3 : 3 < PI.
Proof. pose proof PI2_3_2. lra. Qed.
Lemma sqrt_near a b : 0 < b -> 0 <= a -> Rabs (sqrt a - sqrt b) * sqrt b <= Rabs (a - b).
Proof.
  intros Hb Ha. assert (S : 0 < sqrt b) by (apply sqrt_lt_R0; exact Hb). pose proof (sqrt_pos a).
  replace (a - b) with ((sqrt a - sqrt b) * (sqrt a + sqrt b)).
  - rewrite Rabs_mult, (Rabs_pos_eq (sqrt a + sqrt b)) by lra. apply Rmult_le_compat_l; [apply Rabs_pos|lra].
  - replace ((sqrt a - sqrt b) * (sqrt a + sqrt b)) with (sqrt a * sqrt a - sqrt b * sqrt b) by ring. rewrite !sqrt_sqrt by lra. reflexivity.
Qed.
Lemma sqrt_bounds a lo hi : 0 <= lo -> 0 <= hi -> lo * lo <= a <= hi * hi -> lo <= sqrt a <= hi.
Proof.
  intros Hl Hh [A B]. split.
  - rewrite <- (sqrt_square lo) by exact Hl. apply sqrt_le_1_alt. exact A.
  - rewrite <- (sqrt_square hi) by exact Hh. apply sqrt_le_1_alt. exact B.
Qed.
Lemma div_bound a b e : 0 < b -> Rabs a <= e * b -> Rabs (a / b) <= e.
Proof.
  intros Hb H. unfold Rdiv. rewrite Rabs_mult, Rabs_inv, (Rabs_pos_eq b) by lra.
  apply Rmult_le_reg_r with b; [exact Hb|]. rewrite Rmult_assoc, Rinv_l, Rmult_1_r by lra. exact H.
Qed.

Section Erf.
Variables (o : oracles) (nd : Z).
Hypothesis Good : sqrt_good o.
Hypothesis Hn : (2 <= nd <= 94)%Z.
Let u := r10 (- nd).

Lemma u_facts : 0 < u <= / 100 /\ 0 < eta /\ 100 * eta <= u /\ 0 < delta <= eta /\ eta <= / 1000.
Proof.
  destruct (eta_small nd ltac:(lia)) as (E0 & E100 & De & E1). pose proof delta_pos. split; [apply r10_cent; lia|]. auto.
Qed.

(** 2 / sqrt(pi) *)
Lemma erf_factor : exists p r k, bpi o nd = Ok p /\ o_sqrt o p = Some r /\ ddiv dtwo r = Ok k /\
  Rabs (rval k - 2 / sqrt PI) <= u / 4 /\ Rabs (rval k) <= 1.25.
Proof.
  destruct u_facts as ((u0 & u1) & E0 & E100 & (D0 & De) & E1). pose proof PI_3 as P3. pose proof PI_4 as P4.
  destruct (bpi_ok o nd ltac:(lia)) as (p & Pp & Ap). fold u in Ap. exists p.
  apply abs_le_inv in Ap. assert (Pb : 2.9 <= rval p <= 4.1) by lra.
  destruct (Good p ltac:(lra)) as (r & R & Ar). fold eta in Ar. exists r.
  destruct (sqrt_bounds (rval p) 1.7 2.03) as [Sp1 Sp2]; [lra|lra|lra|].
  destruct (sqrt_bounds PI 1.7 2) as [Sq1 Sq2]; [lra|lra|lra|].
  assert (N : Rabs (sqrt (rval p) - sqrt PI) * 1.7 <= / 2 * u).
  { pose proof (sqrt_near (rval p) PI ltac:(lra) ltac:(lra)) as Q. pose proof (Rabs_pos (sqrt (rval p) - sqrt PI)).
    assert (Rabs (rval p - PI) <= / 2 * u) by (apply Rabs_le; lra). nra. }
  assert (Rd : Rabs (rval r - sqrt PI) <= 0.32 * u).
  { replace (rval r - sqrt PI) with ((rval r - sqrt (rval p)) + (sqrt (rval p) - sqrt PI)) by ring.
    eapply Rle_trans; [apply Rabs_triang|]. assert (eta * sqrt (rval p) <= eta * 2.03) by (apply Rmult_le_compat_l; lra). lra. }
  apply abs_le_inv in Rd. assert (Rb : 1.69 <= rval r) by lra.
  destruct (ddiv_R dtwo r ltac:(lra)) as (k & K & Ak). exists k.
  assert (T2 : rval dtwo = 2) by apply rval_bigd. rewrite T2 in Ak.
  split; [exact Pp|]. split; [exact R|]. split; [exact K|].
  assert (B1 : Rabs (2 / rval r) <= 1.2). { apply div_bound; [lra|]. rewrite Rabs_pos_eq by lra. lra. }
  assert (B2 : Rabs (2 / sqrt PI) <= 1.2). { apply div_bound; [lra|]. rewrite Rabs_pos_eq by lra. lra. }
  assert (Q : Rabs (2 / rval r - 2 / sqrt PI) <= 0.19 * u * 1.2).
  { replace (2 / rval r - 2 / sqrt PI) with ((sqrt PI - rval r) / rval r * (2 / sqrt PI)) by (field; lra).
    rewrite Rabs_mult. apply Rmult_le_compat; try apply Rabs_pos; [|exact B2].
    apply div_bound; [lra|]. assert (0.19 * u * 1.69 <= 0.19 * u * rval r) by (apply Rmult_le_compat_l; lra). apply Rabs_le. lra. }
  assert (Dk : delta * Rabs (2 / rval r) <= 0.012 * u) by nra.
  split.
  - replace (rval k - 2 / sqrt PI) with ((rval k - 2 / rval r) + (2 / rval r - 2 / sqrt PI)) by ring.
    eapply Rle_trans; [apply Rabs_triang|]. lra.
  - replace (rval k) with ((rval k - 2 / rval r) + 2 / rval r) by ring. eapply Rle_trans; [apply Rabs_triang|]. lra.
Qed.

Theorem berf_accurate x : rval x * rval x <= IZR (range_at nd) ->
  exists v, berf o x nd = Ok v /\ Rabs (rval v - erf (rval x)) <= 2 * Rabs (rval x) * u.
Proof.
  intros Hx. destruct u_facts as ((u0 & u1) & E0 & E100 & (D0 & De) & E1).
  destruct erf_factor as (p & r & k & Pp & R & K & Ak & Bk).
  assert (Z : rval (dmul x x) = rval x ^ 2) by (rewrite rval_dmul; ring).
  destruct (erf_mac (dmul x x) nd ltac:(lia)) as (m & M & Am).
  { rewrite rval_dmul, Rabs_pos_eq by nra. exact Hx. }
  rewrite Z in Am. fold u in Am.
  exists (dmul (dmul k x) m). split. { unfold berf, bsqrt. rewrite Pp; cbn [rbind]. rewrite R; cbn [expect rbind]. rewrite K; cbn [rbind]. rewrite M; cbn [rbind]. reflexivity. }
  rewrite !rval_dmul. unfold erf. rewrite gauss_G.
  destruct (Req_dec (rval x) 0) as [X0|X0]. { rewrite X0, Rabs_R0. replace (rval k * 0 * rval m - 2 / sqrt PI * (0 * G (0 ^ 2))) with 0 by ring. rewrite Rabs_R0. lra. }
  pose proof (G_1 _ X0) as G1.
  replace (rval k * rval x * rval m - 2 / sqrt PI * (rval x * G (rval x ^ 2)))
    with (rval x * ((rval k - 2 / sqrt PI) * G (rval x ^ 2) + rval k * (rval m - G (rval x ^ 2)))) by ring.
  rewrite Rabs_mult. replace (2 * Rabs (rval x) * u) with (Rabs (rval x) * (2 * u)) by ring.
  apply Rmult_le_compat_l; [apply Rabs_pos|]. eapply Rle_trans; [apply Rabs_triang|]. rewrite !Rabs_mult.
  assert (Rabs (rval k - 2 / sqrt PI) * Rabs (G (rval x ^ 2)) <= u / 4 * 1) by (apply Rmult_le_compat; try apply Rabs_pos; assumption).
  assert (Rabs (rval k) * Rabs (rval m - G (rval x ^ 2)) <= 1.25 * u) by (apply Rmult_le_compat; try apply Rabs_pos; assumption).
  lra.
Qed.

Theorem berfc_accurate x : rval x * rval x <= IZR (range_at nd) ->
  exists v, berfc o x nd = Ok v /\ Rabs (rval v - (1 - erf (rval x))) <= 2 * Rabs (rval x) * u.
Proof.
  intros Hx. destruct (berf_accurate x Hx) as (v & V & A). unfold berfc. rewrite V; cbn [rbind]. eexists. split; [reflexivity|].
  rewrite rval_dsub. replace (rval done) with 1 by (symmetry; apply rval_bigd).
  replace (1 - rval v - (1 - erf (rval x))) with (- (rval v - erf (rval x))) by ring. rewrite Rabs_Ropp. exact A.
Qed.

(** 1 / sqrt(2 pi) *)
Lemma phi_factor : exists k, one_over_root_two_pi o nd = Ok k /\ Rabs (rval k - / sqrt (2 * PI)) <= u / 10 /\ Rabs (rval k) <= 0.42.
Proof.
  destruct u_facts as ((u0 & u1) & E0 & E100 & (D0 & De) & E1). pose proof PI_3 as P3. pose proof PI_4 as P4.
  destruct (bpi_ok o nd ltac:(lia)) as (p & Pp & Ap). fold u in Ap.
  apply abs_le_inv in Ap. assert (T2 : rval (dmul dtwo p) = 2 * rval p) by (rewrite rval_dmul; f_equal; apply rval_bigd).
  destruct (ddiv_R done (dmul dtwo p) ltac:(rewrite T2; lra)) as (q & Q & Aq). rewrite T2 in Aq. replace (rval done) with 1 in Aq by (symmetry; apply rval_bigd).
  set (w := / (2 * PI)). assert (W : 0 < w) by (unfold w; apply Rinv_0_lt_compat; lra).
  assert (W1 : w * (2 * PI) = 1) by (unfold w; apply Rinv_l; lra). assert (Wb : 0.124 <= w <= 0.17) by (split; nra).
  set (w' := 1 / (2 * rval p)) in *. assert (W1' : w' * (2 * rval p) = 1) by (unfold w'; field; lra).
  assert (Wb' : 0.12 <= w' <= 0.18) by (split; nra).
  assert (Wd : Rabs (w' - w) <= 0.0306 * u).
  { replace (w' - w) with (2 * (w * w') * (PI - rval p)).
    - rewrite Rabs_mult, (Rabs_pos_eq (2 * (w * w'))) by (apply Rmult_le_pos; [lra|apply Rmult_le_pos; lra]).
      assert (w * w' <= 0.17 * 0.18) by (apply Rmult_le_compat; lra).
      replace (0.0306 * u) with (2 * 0.0306 * (/ 2 * u)) by lra. apply Rmult_le_compat; [apply Rmult_le_pos; [lra|apply Rmult_le_pos; lra]|apply Rabs_pos|lra|]. apply Rabs_le. lra.
    - replace (2 * (w * w') * (PI - rval p)) with (w' * (w * (2 * PI)) - w * (w' * (2 * rval p))) by ring. rewrite W1, W1'. ring. }
  assert (Qw : Rabs (rval q - w) <= 0.033 * u).
  { replace (rval q - w) with ((rval q - w') + (w' - w)) by ring. eapply Rle_trans; [apply Rabs_triang|].
    rewrite (Rabs_pos_eq w') in Aq by lra. assert (delta * w' <= delta * 0.18) by (apply Rmult_le_compat_l; lra). lra. }
  assert (Qb := Qw). apply abs_le_inv in Qb.
  destruct (Good q ltac:(lra)) as (k & K & Ak). fold eta in Ak. exists k.
  split. { unfold one_over_root_two_pi, bsqrt. rewrite Pp; cbn [rbind]. rewrite Q; cbn [rbind]. rewrite K. reflexivity. }
  assert (Sw : sqrt w = / sqrt (2 * PI)). { unfold w. apply sqrt_inv. }
  rewrite <- Sw.
  destruct (sqrt_bounds w 0.35 0.413) as [S1 S2]; [lra|lra|nra|].
  assert (N : Rabs (sqrt (rval q) - sqrt w) * 0.35 <= 0.033 * u).
  { pose proof (sqrt_near (rval q) w ltac:(lra) ltac:(lra)) as X. pose proof (Rabs_pos (sqrt (rval q) - sqrt w)).
    assert (Rabs (sqrt (rval q) - sqrt w) * 0.35 <= Rabs (sqrt (rval q) - sqrt w) * sqrt w) by (apply Rmult_le_compat_l; lra). lra. }
  destruct (sqrt_bounds (rval q) 0.3 0.415) as [S3 S4]; [lra|lra|nra|].
  assert (eta * sqrt (rval q) <= eta * 0.415) by (apply Rmult_le_compat_l; lra).
  assert (F : Rabs (rval k - sqrt w) <= u / 10).
  { replace (rval k - sqrt w) with ((rval k - sqrt (rval q)) + (sqrt (rval q) - sqrt w)) by ring.
    eapply Rle_trans; [apply Rabs_triang|]. lra. }
  split; [exact F|]. replace (rval k) with ((rval k - sqrt (rval q)) + sqrt (rval q)) by ring. eapply Rle_trans; [apply Rabs_triang|].
  rewrite (Rabs_pos_eq (sqrt (rval q))) by lra. lra.
Qed.

Lemma delta_eta : 2000 * delta = eta.
Proof. unfold delta, eta. change (-96)%Z with (-99 + 3)%Z. rewrite r10_plus, (r10_IZR 3) by lia. change (10 ^ 3)%Z with 1000%Z. lra. Qed.
Lemma range_98 : 0 <= IZR (range_at nd) <= 98.
Proof. split; [|]; apply IZR_le; unfold range_at; destruct (nd =? 1)%Z eqn:E; lia. Qed.
Lemma exp_lip a b : a <= 0 -> b <= 0 -> Rabs (a - b) <= / 2 -> Rabs (exp a - exp b) <= 2 * Rabs (a - b).
Proof.
  intros Ha Hb H. eapply Rle_trans; [apply exp_gap|]. set (d := Rabs (a - b)) in *. pose proof (Rabs_pos (a - b)) as D0. fold d in D0.
  assert (Eb : exp b <= 1). { rewrite <- exp_0. destruct Hb as [Hb| ->]; [apply Rlt_le, exp_increasing; exact Hb|apply Rle_refl]. }
  assert (Ed : exp d - 1 <= 2 * d).
  { pose proof (exp_ineq1_le (- d)) as I. assert (M : exp d * exp (- d) = 1) by (rewrite <- exp_plus; replace (d + - d) with 0 by ring; apply exp_0).
    pose proof (exp_pos d). assert (exp d * (1 - d) <= 1) by nra. nra. }
  pose proof (exp_ineq1_le d). pose proof (exp_pos b). nra.
Qed.

(** ** Normal law *)
Section Norm.
Variables (mean sd : bd).
Hypothesis Hs : rval sd <> 0.
Definition standard (x : R) : R := (x - rval mean) / rval sd.

Lemma standardise x : exists y, ddiv (dsub x mean) sd = Ok y /\ Rabs (rval y - standard (rval x)) <= delta * Rabs (standard (rval x)).
Proof. destruct (ddiv_R (dsub x mean) sd Hs) as (y & Y & A). rewrite rval_dsub in A. exists y. split; [exact Y|exact A]. Qed.

Theorem bdnorm_accurate x : standard (rval x) ^ 2 <= IZR (range_at nd) ->
  exists v, bdnorm o x mean sd nd = Ok v /\ Rabs (rval v - phi (standard (rval x)) / rval sd) <= u / Rabs (rval sd).
Proof.
  intros Hx. destruct u_facts as ((u0 & u1) & E0 & E100 & (D0 & De) & E1). pose proof range_98 as R98. pose proof delta_eta as DE.
  destruct (standardise x) as (y & Y & Ay). set (t := standard (rval x)) in *.
  destruct phi_factor as (k & K & Ak & Bk).
  pose proof (Rabs_pos t) as T0. assert (Tt : Rabs t * Rabs t = t ^ 2) by (rewrite <- Rabs_mult, Rabs_pos_eq by nra; ring).
  assert (Yb : Rabs (rval y) <= (1 + delta) * Rabs t). { replace (rval y) with ((rval y - t) + t) by ring. eapply Rle_trans; [apply Rabs_triang|]. lra. }
  assert (Yd : Rabs (rval y ^ 2 - t ^ 2) <= 3 * delta * t ^ 2).
  { replace (rval y ^ 2 - t ^ 2) with ((rval y - t) * (rval y + t)) by ring. rewrite Rabs_mult, <- Tt.
    assert (Rabs (rval y + t) <= 3 * Rabs t) by (eapply Rle_trans; [apply Rabs_triang|]; nra).
    replace (3 * delta * (Rabs t * Rabs t)) with ((delta * Rabs t) * (3 * Rabs t)) by ring. apply Rmult_le_compat; try apply Rabs_pos; assumption. }
  assert (Yd2 : Rabs (rval y ^ 2 - t ^ 2) <= u / 500). { eapply Rle_trans; [exact Yd|]. assert (delta * t ^ 2 <= delta * 98) by (apply Rmult_le_compat_l; lra). lra. }
  assert (Wv : rval (dmul (dmul (dneg y) y) dhalf) = - rval y ^ 2 / 2) by (rewrite !rval_dmul, rval_dneg, rval_half; field).
  assert (Y2 : 0 <= rval y ^ 2) by nra. assert (T2 : 0 <= t ^ 2) by nra.
  assert (Rn : 1 <= IZR (range_at nd)). { apply IZR_le. unfold range_at. destruct (nd =? 1)%Z; lia. }
  destruct (bexp_ok _ _ _ (dmul (dmul (dneg y) y) dhalf) (acc_range nd ltac:(lia))) as (e & Ee & Ae).
  { rewrite Wv. apply abs_le_inv in Yd2. apply Rabs_le. lra. }
  unfold within in Ae. rewrite Wv in Ae. fold u in Ae.
  assert (Xe : Rabs (exp (- rval y ^ 2 / 2) - exp (- t ^ 2 / 2)) <= u / 500).
  { eapply Rle_trans; [apply exp_lip; [lra|lra|]|].
    - apply abs_le_inv in Yd2. apply Rabs_le. lra.
    - replace (- rval y ^ 2 / 2 - - t ^ 2 / 2) with (- (/ 2) * (rval y ^ 2 - t ^ 2)) by field. rewrite Rabs_mult, Rabs_Ropp, Rabs_pos_eq by lra. lra. }
  assert (Ge : Rabs (rval e - exp (- t ^ 2 / 2)) <= 1.002 * u).
  { replace (rval e - exp (- t ^ 2 / 2)) with ((rval e - exp (- rval y ^ 2 / 2)) + (exp (- rval y ^ 2 / 2) - exp (- t ^ 2 / 2))) by ring.
    eapply Rle_trans; [apply Rabs_triang|]. lra. }
  assert (Et : 0 < exp (- t ^ 2 / 2) <= 1).
  { split; [apply exp_pos|]. rewrite <- exp_0. destruct (Req_dec (- t ^ 2 / 2) 0) as [-> |N]; [apply Rle_refl|apply Rlt_le, exp_increasing; lra]. }
  destruct (ddiv_R (dmul k e) sd Hs) as (v & V & Av). exists v.
  split. { unfold bdnorm. rewrite Y; cbn [rbind]. rewrite K; cbn [rbind]. rewrite Ee; cbn [rbind]. exact V. }
  rewrite rval_dmul in Av. set (ke := rval k * rval e) in *.
  assert (Kd : Rabs (ke - phi t) <= 0.6 * u).
  { unfold ke, phi. replace (rval k * rval e - exp (- t ^ 2 / 2) / sqrt (2 * PI)) with
      (rval k * (rval e - exp (- t ^ 2 / 2)) + (rval k - / sqrt (2 * PI)) * exp (- t ^ 2 / 2)) by (unfold Rdiv; ring).
    eapply Rle_trans; [apply Rabs_triang|]. rewrite !Rabs_mult, (Rabs_pos_eq (exp _)) by lra.
    assert (Rabs (rval k) * Rabs (rval e - exp (- t ^ 2 / 2)) <= 0.42 * (1.002 * u)) by (apply Rmult_le_compat; try apply Rabs_pos; assumption).
    assert (Rabs (rval k - / sqrt (2 * PI)) * exp (- t ^ 2 / 2) <= u / 10 * 1) by (apply Rmult_le_compat; try apply Rabs_pos; lra). lra. }
  assert (Kb : Rabs ke <= 0.5).
  { unfold ke. rewrite Rabs_mult. assert (Rabs (rval e) <= 1.02). { apply abs_le_inv in Ge. apply Rabs_le. lra. }
    assert (Rabs (rval k) * Rabs (rval e) <= 0.42 * 1.02) by (apply Rmult_le_compat; try apply Rabs_pos; assumption). lra. }
  assert (Sd : 0 < / Rabs (rval sd)) by (apply Rinv_0_lt_compat, Rabs_pos_lt; exact Hs).
  replace (rval v - phi t / rval sd) with ((rval v - ke / rval sd) + (ke - phi t) * / rval sd) by (unfold Rdiv; ring).
  eapply Rle_trans; [apply Rabs_triang|].
  unfold Rdiv in Av. rewrite Rabs_mult, Rabs_inv in Av. rewrite Rabs_mult, Rabs_inv. unfold Rdiv at 1 2.
  assert (delta * (Rabs ke * / Rabs (rval sd)) <= (delta * 0.5) * / Rabs (rval sd)).
  { rewrite <- Rmult_assoc. apply Rmult_le_compat_r; [lra|]. apply Rmult_le_compat_l; lra. }
  assert (Rabs (ke - phi t) * / Rabs (rval sd) <= 0.6 * u * / Rabs (rval sd)) by (apply Rmult_le_compat_r; lra).
  assert (delta * 0.5 * / Rabs (rval sd) <= 0.1 * u * / Rabs (rval sd)) by (apply Rmult_le_compat_r; lra).
  assert (0 < u * / Rabs (rval sd)) by (apply Rmult_lt_0_compat; assumption).
  lra.
Qed.

Theorem bpnorm_accurate x : standard (rval x) ^ 2 <= IZR (range_at nd) ->
  exists v, bpnorm o x mean sd nd = Ok v /\ Rabs (rval v - Phi (standard (rval x))) <= Rabs (standard (rval x)) * u.
Proof.
  intros Hx. destruct u_facts as ((u0 & u1) & E0 & E100 & (D0 & De) & E1). pose proof range_98 as R98.
  destruct (standardise x) as (y & Y & Ay). set (t := standard (rval x)) in *. pose proof (Rabs_pos t) as T0.
  assert (T2 : rval dtwo = 2) by apply rval_bigd.
  destruct (Good dtwo ltac:(lra)) as (r & R & Ar). fold eta in Ar. rewrite T2 in Ar.
  destruct (sqrt_bounds 2 1.41 1.42) as [S1 S2]; [lra|lra|lra|].
  assert (eta * sqrt 2 <= eta * 1.42) by (apply Rmult_le_compat_l; lra).
  assert (Rb := Ar). apply abs_le_inv in Rb.
  destruct (ddiv_R y r ltac:(lra)) as (z & Zq & Az).
  set (w := t / sqrt 2). assert (Wt : w * sqrt 2 = t) by (unfold w; field; lra).
  assert (Ww : Rabs w * sqrt 2 = Rabs t) by (rewrite <- Wt, Rabs_mult, (Rabs_pos_eq (sqrt 2)) by lra; reflexivity).
  pose proof (Rabs_pos w) as W0.
  assert (Wb : Rabs w <= 0.71 * Rabs t) by nra.
  assert (Tw : Rabs t <= 1.42 * Rabs w) by nra.
  assert (Z1 : Rabs (rval y / rval r - w) <= 3 * eta * Rabs w).
  { replace (rval y / rval r - w) with (((rval y - t) + w * (sqrt 2 - rval r)) / rval r) by (rewrite <- Wt; field; lra).
    apply div_bound; [lra|]. eapply Rle_trans; [apply Rabs_triang|]. rewrite Rabs_mult, (Rabs_minus_sym (sqrt 2)).
    assert (Rabs w * Rabs (rval r - sqrt 2) <= Rabs w * (eta * 1.42)) by (apply Rmult_le_compat_l; lra).
    assert (delta * Rabs t <= eta * (1.42 * Rabs w)) by (apply Rmult_le_compat; lra).
    assert (0 <= eta * Rabs w) by (apply Rmult_le_pos; lra).
    assert (3 * eta * Rabs w * 1.4 <= 3 * eta * Rabs w * rval r) by (apply Rmult_le_compat_l; lra). lra. }
  assert (Zb : Rabs (rval y / rval r) <= 1.01 * Rabs w).
  { replace (rval y / rval r) with ((rval y / rval r - w) + w) by ring. eapply Rle_trans; [apply Rabs_triang|].
    assert (eta * Rabs w <= / 1000 * Rabs w) by (apply Rmult_le_compat_r; lra). lra. }
  assert (Zd : Rabs (rval z - w) <= 5 * eta * Rabs w).
  { replace (rval z - w) with ((rval z - rval y / rval r) + (rval y / rval r - w)) by ring. eapply Rle_trans; [apply Rabs_triang|].
    assert (delta * Rabs (rval y / rval r) <= eta * (1.01 * Rabs w)) by (apply Rmult_le_compat; try apply Rabs_pos; lra).
    assert (0 <= eta * Rabs w) by (apply Rmult_le_pos; lra). lra. }
  assert (Zr : Rabs (rval z) <= 1.01 * Rabs w).
  { replace (rval z) with ((rval z - w) + w) by ring. eapply Rle_trans; [apply Rabs_triang|].
    assert (eta * Rabs w <= / 1000 * Rabs w) by (apply Rmult_le_compat_r; lra). lra. }
  destruct (berf_accurate z) as (e & Ee & Ae).
  { replace (rval z * rval z) with (Rabs (rval z) * Rabs (rval z)) by (rewrite <- Rabs_mult, Rabs_pos_eq by nra; reflexivity).
    assert (Tt : Rabs t * Rabs t = t ^ 2) by (rewrite <- Rabs_mult, Rabs_pos_eq by nra; ring).
    assert (Rabs (rval z) * Rabs (rval z) <= (0.8 * Rabs t) * (0.8 * Rabs t)) by (apply Rmult_le_compat; try apply Rabs_pos; lra).
    nra. }
  exists (dmul (dadd e done) dhalf). split. { unfold bpnorm. rewrite Y; cbn [rbind]. rewrite R; cbn [expect rbind]. rewrite Zq; cbn [rbind]. rewrite Ee. reflexivity. }
  rewrite rval_dmul, rval_dadd, rval_half. replace (rval done) with 1 by (symmetry; apply rval_bigd). rewrite Phi_erf. fold w.
  replace ((rval e + 1) * / 2 - (erf w + 1) / 2) with (/ 2 * ((rval e - erf (rval z)) + (erf (rval z) - erf w))) by field.
  rewrite Rabs_mult, (Rabs_pos_eq (/ 2)) by lra. pose proof (Rabs_triang (rval e - erf (rval z)) (erf (rval z) - erf w)) as Tr.
  assert (Eg : Rabs (erf (rval z) - erf w) <= 1.2 * (5 * eta * Rabs w)).
  { unfold erf. replace (2 / sqrt PI * gauss (rval z) - 2 / sqrt PI * gauss w) with (2 / sqrt PI * (gauss (rval z) - gauss w)) by ring.
    rewrite Rabs_mult. apply Rmult_le_compat; try apply Rabs_pos.
    - pose proof PI_3. pose proof PI_4. destruct (sqrt_bounds PI 1.7 2) as [Q1 Q2]; [lra|lra|lra|]. apply div_bound; [lra|]. rewrite Rabs_pos_eq by lra. lra.
    - eapply Rle_trans; [apply gauss_lipschitz|exact Zd]. }
  assert (Rabs (rval z) * u <= 1.01 * Rabs w * u) by (apply Rmult_le_compat_r; lra).
  assert (eta * Rabs w <= u / 100 * Rabs w) by (apply Rmult_le_compat_r; lra).
  assert (Rabs w * u <= 0.71 * Rabs t * u) by (apply Rmult_le_compat_r; lra).
  assert (0 <= Rabs t * u) by (apply Rmult_le_pos; lra). lra.
Qed.

(** ** qnorm: whatever it returns solves the equation *)
Lemma dis_zero_R d : dis_zero d = true -> rval d = 0.
Proof. unfold dis_zero. intros E. apply Z.eqb_eq in E. rewrite rval_eq, E. ring. Qed.
Lemma qnorm_stops fuel : forall x g0 g, qnorm_loop o fuel x mean sd nd g0 = Ok g ->
  exists p, bpnorm o g mean sd nd = Ok p /\ Rabs (rval p - rval x) <= / 2 * u.
Proof.
  induction fuel as [|fuel IH]; intros x g0 g; cbn [qnorm_loop]; [discriminate|].
  destruct (bpnorm o g0 mean sd nd) as [p| |] eqn:P; cbn [rbind]; [|discriminate|discriminate].
  destruct (dis_zero (round (dabs (dsub p x)) nd)) eqn:Z.
  - intros [= <-]. exists p. split; [exact P|].
    apply dis_zero_R in Z. pose proof (round_err_R (dabs (dsub p x)) nd ltac:(lia)) as R. rewrite Z, rval_dabs, rval_dsub in R. fold u in R.
    replace (0 - Rabs (rval p - rval x)) with (- Rabs (rval p - rval x)) in R by ring. rewrite Rabs_Ropp, Rabs_Rabsolu in R. exact R.
  - destruct (bdnorm o g0 mean sd nd) as [d|e|]; cbn [rbind]; [|discriminate|discriminate].
    destruct (ddiv (dsub p x) d) as [q|e|]; cbn [rbind]; [|discriminate|discriminate].
    apply IH.
Qed.
Lemma Phi_lipschitz a b : Rabs (Phi a - Phi b) <= 0.43 * Rabs (a - b).
Proof.
  rewrite !Phi_erf. unfold erf. pose proof PI_3. pose proof PI_4. destruct (sqrt_bounds PI 1.7 2) as [Q1 Q2]; [lra|lra|lra|].
  destruct (sqrt_bounds 2 1.41 1.42) as [S1 S2]; [lra|lra|lra|].
  replace ((2 / sqrt PI * gauss (a / sqrt 2) + 1) / 2 - (2 / sqrt PI * gauss (b / sqrt 2) + 1) / 2)
    with (1 / sqrt PI * (gauss (a / sqrt 2) - gauss (b / sqrt 2))) by (field; lra).
  rewrite Rabs_mult. replace (0.43 * Rabs (a - b)) with (0.6 * (0.43 / 0.6 * Rabs (a - b))) by lra.
  apply Rmult_le_compat; try apply Rabs_pos.
  - apply div_bound; [lra|]. rewrite Rabs_pos_eq by lra. lra.
  - eapply Rle_trans; [apply gauss_lipschitz|]. replace (a / sqrt 2 - b / sqrt 2) with ((a - b) / sqrt 2) by (field; lra).
    apply div_bound; [lra|]. pose proof (Rabs_pos (a - b)). nra.
Qed.
Theorem bqnorm_solves fuel x r : bqnorm o fuel x mean sd nd = Ok (Some r) ->
  (Rabs (rval r - rval mean) + 1) ^ 2 <= IZR (range_at nd) * rval sd ^ 2 ->
  Rabs (Phi (standard (rval r)) - rval x) <= (1 / 2 + (Rabs (rval r - rval mean) + / 4) / Rabs (rval sd)) * u.
Proof.
  intros H Hr. destruct u_facts as ((u0 & u1) & E0 & E100 & (D0 & De) & E1).
  unfold bqnorm in H. destruct (ddiv x (dsub done x)) as [q|e|]; cbn [rbind] in H; [|discriminate|discriminate].
  destruct (bln fuel q nd) as [[l|]|e|]; cbn [rbind] in H; try discriminate.
  destruct (qnorm_loop o fuel x mean sd nd dzero64) as [g|e|] eqn:Q; cbn [rbind] in H; [|discriminate|discriminate].
  assert (Er : r = round g nd) by congruence. subst r. clear H.
  destruct (qnorm_stops _ _ _ _ Q) as (p & P & Ap).
  pose proof (round_err_R g nd ltac:(lia)) as Rg. fold u in Rg. set (R := rval (round g nd)) in *.
  assert (S0 : 0 < Rabs (rval sd)) by (apply Rabs_pos_lt; exact Hs). set (s := Rabs (rval sd)) in *.
  assert (Gm : Rabs (rval g - rval mean) <= Rabs (R - rval mean) + / 2 * u).
  { replace (rval g - rval mean) with ((R - rval mean) + - (R - rval g)) by ring. eapply Rle_trans; [apply Rabs_triang|]. rewrite Rabs_Ropp. lra. }
  assert (Sg : Rabs (standard (rval g)) * s = Rabs (rval g - rval mean)).
  { unfold standard, Rdiv. rewrite Rabs_mult, Rabs_inv. fold s. field. lra. }
  assert (Sd : Rabs (standard R - standard (rval g)) * s <= / 2 * u).
  { unfold standard. replace ((R - rval mean) / rval sd - (rval g - rval mean) / rval sd) with ((R - rval g) / rval sd) by (field; exact Hs).
    unfold Rdiv. rewrite Rabs_mult, Rabs_inv. fold s. rewrite Rmult_assoc, Rinv_l, Rmult_1_r by lra. exact Rg. }
  destruct (bpnorm_accurate g) as (p' & P' & Ap').
  { pose proof (Rabs_pos (rval g - rval mean)) as G0. pose proof (Rabs_pos (R - rval mean)).
    assert (B : Rabs (rval g - rval mean) ^ 2 <= (Rabs (R - rval mean) + 1) ^ 2) by (apply pow_incr; lra).
    assert (S2 : rval sd ^ 2 = s ^ 2) by (unfold s; rewrite RPow_abs, Rabs_pos_eq by nra; reflexivity).
    rewrite S2 in Hr. rewrite <- Sg in B.
    apply Rmult_le_reg_r with (s ^ 2); [apply pow_lt; exact S0|]. 
    replace (standard (rval g) ^ 2 * s ^ 2) with ((Rabs (standard (rval g)) * s) ^ 2) by (rewrite Rpow_mult_distr, RPow_abs, (Rabs_pos_eq (_ ^ 2)) by nra; reflexivity).
    lra. }
  assert (p' = p) by congruence. subst p'.
  replace (Phi (standard R) - rval x) with ((Phi (standard R) - Phi (standard (rval g))) + (- (rval p - Phi (standard (rval g))) + (rval p - rval x))) by ring.
  eapply Rle_trans; [apply Rabs_triang|]. pose proof (Rabs_triang (- (rval p - Phi (standard (rval g)))) (rval p - rval x)) as Tr. rewrite Rabs_Ropp in Tr.
  pose proof (Phi_lipschitz (standard R) (standard (rval g))) as PL.
  set (a := Rabs (standard R - standard (rval g))) in *. set (b := Rabs (standard (rval g))) in *. set (m := Rabs (R - rval mean)) in *.
  assert (Fa : a <= / 2 * u / s) by (apply Rmult_le_reg_r with s; [exact S0|]; unfold Rdiv; rewrite Rmult_assoc, Rinv_l, Rmult_1_r by lra; exact Sd).
  assert (Fb : b <= (m + / 2 * u) / s) by (apply Rmult_le_reg_r with s; [exact S0|]; unfold Rdiv; rewrite Rmult_assoc, Rinv_l, Rmult_1_r by lra; lra).
  unfold Rdiv in *. pose proof (Rinv_0_lt_compat _ S0) as I0. set (i := / s) in *.
  assert (b * u <= (m + / 2 * u) * i * u) by (apply Rmult_le_compat_r; lra).
  assert (u * (i * u) <= / 100 * (i * u)) by (apply Rmult_le_compat_r; [apply Rmult_le_pos; lra|lra]).
  assert (0 <= i * u) by (apply Rmult_le_pos; lra). lra.
Qed.
End Norm.
End Erf.

(** ** Through the evaluator *)
Section V.
Variables (o : oracles) (n : Z).
Hypothesis Hn : (2 <= n <= 94)%Z.
Hypothesis G : sqrt_good o.
Lemma some_value2 (P : R -> Prop) a x b y c z m t : always o n a x -> always o n b y -> always o n c z ->
  (exists F, forall fuel, (F <= fuel)%nat -> exists r, eval_call o fuel n m x [y; z] = Ok r /\ P (rval r)) ->
  eval_value o n (EMethodCall a m t [b; c]) P.
Proof.
  intros [F1 A] [F3 A3] [F4 A4] [F2 B]. exists (Nat.max F4 (Nat.max F3 (Nat.max F1 F2))). intros fuel Hf. destruct (B fuel ltac:(lia)) as (r & R & W).
  destruct (evals_of_bd o fuel n r (EMethodCall a m t [b; c])) as (v & Z & V).
  { rewrite (eval_method2 o fuel n a x b y c z m t (A fuel ltac:(lia)) (A3 fuel ltac:(lia)) (A4 fuel ltac:(lia))), R. reflexivity. }
  exists v. split; [exact Z|]. rewrite (rval_wd v r V). exact W.
Qed.
Lemma eval_erf_value a x t : always o n a x -> rval x * rval x <= IZR (range_at n) ->
  eval_value o n (EMethodCall a "erf" t []) (fun z => Rabs (z - erf (rval x)) <= 2 * Rabs (rval x) * r10 (- n)).
Proof. intros A X. apply (some_value _ _ _ a x); [exact A|]. exists O. intros fuel _. apply (berf_accurate o n G Hn x X). Qed.
Lemma eval_erfc_value a x t : always o n a x -> rval x * rval x <= IZR (range_at n) ->
  eval_value o n (EMethodCall a "erfc" t []) (fun z => Rabs (z - (1 - erf (rval x))) <= 2 * Rabs (rval x) * r10 (- n)).
Proof. intros A X. apply (some_value _ _ _ a x); [exact A|]. exists O. intros fuel _. apply (berfc_accurate o n G Hn x X). Qed.
Lemma eval_dnorm_value a x b m c s t : always o n a x -> always o n b m -> always o n c s -> rval s <> 0 ->
  ((rval x - rval m) / rval s) ^ 2 <= IZR (range_at n) ->
  eval_value o n (EMethodCall a "dnorm" t [b; c])
    (fun z => Rabs (z - phi ((rval x - rval m) / rval s) / rval s) <= r10 (- n) / Rabs (rval s)).
Proof.
  intros A B C S X. apply (some_value2 _ a x b m c s); [exact A|exact B|exact C|]. exists O. intros fuel _. apply (bdnorm_accurate o n G Hn m s S x X).
Qed.
Lemma eval_pnorm_value a x b m c s t : always o n a x -> always o n b m -> always o n c s -> rval s <> 0 ->
  ((rval x - rval m) / rval s) ^ 2 <= IZR (range_at n) ->
  eval_value o n (EMethodCall a "pnorm" t [b; c])
    (fun z => Rabs (z - Phi ((rval x - rval m) / rval s)) <= Rabs ((rval x - rval m) / rval s) * r10 (- n)).
Proof.
  intros A B C S X. apply (some_value2 _ a x b m c s); [exact A|exact B|exact C|]. exists O. intros fuel _. apply (bpnorm_accurate o n G Hn m s S x X).
Qed.
Lemma eval_qnorm_value fuel a x b m c s t y : evals o fuel n a x -> evals o fuel n b m -> evals o fuel n c s -> rval s <> 0 ->
  evals o fuel n (EMethodCall a "qnorm" t [b; c]) y ->
  (Rabs (rval y - rval m) + 1) ^ 2 <= IZR (range_at n) * rval s ^ 2 ->
  Rabs (Phi ((rval y - rval m) / rval s) - rval x) <= (1 / 2 + (Rabs (rval y - rval m) + / 4) / Rabs (rval s)) * r10 (- n).
Proof.
  intros A B C S (r & E & Y) X. rewrite (eval_method2 o fuel n a x b m c s _ t A B C) in E.
  change (eval_call o fuel n "qnorm" x [m; s]) with (let? v := bqnorm o fuel x m s n in ok_or CouldNotEvaluate v) in E.
  destruct (bqnorm o fuel x m s n) as [[w|]|e|] eqn:Q; cbn [rbind ok_or] in E; try discriminate.
  assert (Yw : rval y = rval w).
  { destruct (expr_of_bd_ok w) as (r' & z & R & Z & V). assert (r' = r) by congruence. subst r'.
    assert (z = y) by congruence. subst z. exact (rval_wd y w V). }
  rewrite Yw in *. exact (bqnorm_solves o n G Hn m s S fuel x w Q X).
Qed.
End V.

(** ** Cases, with [sqrt_oracles] at two digits *)
Definition root_pi : bd := Eval vm_compute in match sqrt_down (BD 314 2) with Some r => r | None => dzero end.
Definition two_over_root_pi : bd := Eval vm_compute in match ddiv dtwo root_pi with Ok k => k | _ => dzero end.
Lemma root_pi_ok : bpi sqrt_oracles 2 = Ok (BD 314 2) /\ o_sqrt sqrt_oracles (BD 314 2) = Some root_pi /\ ddiv dtwo root_pi = Ok two_over_root_pi.
Proof. split; [vm_compute; reflexivity|]. split; [vm_compute; reflexivity|]. rewrite ddiv_fast_ok. vm_compute. reflexivity. Qed.
Lemma berf_case x m : maclaurin (dmul x x) 2 (pure_term erf_term) tt = Ok m -> berf sqrt_oracles x 2 = Ok (dmul (dmul two_over_root_pi x) m).
Proof.
  intros M. destruct root_pi_ok as (P & R & K). unfold berf, bsqrt. rewrite P; cbn [rbind]. rewrite R; cbn [expect rbind]. rewrite K; cbn [rbind]. rewrite M. reflexivity.
Qed.
Lemma erf_half : berf sqrt_oracles (BD 5 1) 2 = Ok (dmul (dmul two_over_root_pi (BD 5 1)) (BD 923 3)).
Proof. apply berf_case. vm_compute. reflexivity. Qed.
(** The answer is inexact: the distribution at 0 is 1/2. *)
Definition odds_504 : bd := Eval vm_compute in match ddiv (BD 504 3) (dsub done (BD 504 3)) with Ok k => k | _ => dzero end.
Definition root_2 : bd := Eval vm_compute in match sqrt_down dtwo with Some r => r | None => dzero end.
Lemma qnorm_504 : bqnorm sqrt_oracles 40 (BD 504 3) dzero done 2 = Ok (Some (BD 0 2)).
Proof.
  assert (D : ddiv (BD 504 3) (dsub done (BD 504 3)) = Ok odds_504) by (rewrite ddiv_fast_ok; vm_compute; reflexivity).
  assert (L : bln 40 odds_504 2 = Ok (Some (BD 16 3))) by (rewrite bln_fast_ok; vm_compute; reflexivity).
  assert (Y : ddiv (dsub dzero64 dzero) done = Ok dzero64) by reflexivity.
  assert (R : o_sqrt sqrt_oracles dtwo = Some root_2) by (vm_compute; reflexivity).
  assert (Z : ddiv dzero64 root_2 = Ok dzero64) by reflexivity.
  assert (P : bpnorm sqrt_oracles dzero64 dzero done 2 = Ok (dmul (dadd (dmul (dmul two_over_root_pi dzero64) (BD 1 0)) done) dhalf)).
  { unfold bpnorm. rewrite Y; cbn [rbind]. rewrite R; cbn [expect rbind]. rewrite Z; cbn [rbind].
    rewrite (berf_case dzero64 (BD 1 0)); [reflexivity|]. vm_compute. reflexivity. }
  unfold bqnorm. rewrite D; cbn [rbind]. rewrite L; cbn [rbind]. cbn [qnorm_loop]. rewrite P; cbn [rbind].
  match goal with |- context[dis_zero ?e] => replace (dis_zero e) with true by (vm_compute; reflexivity) end. reflexivity.
Qed.
