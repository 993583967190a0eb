(** [approx]: the distance of the result from the function on the whole interval. *)
From Coq Require Import ZArith QArith Qabs Qreals Reals Lra Lia List Bool Arith String.
From Verif Require Import Res Dec DecFacts RFacts Syntax Trans BdMath Eval EvalFacts EvalFunctions Accuracy PiFacts Poly PolyFacts PolyErr MulAddFacts ApproxFacts Interp.
Import ListNotations.
Open Scope R_scope.

Lemma Rabs_inv_le a b : Rabs a <= b -> - b <= a <= b.
Proof. intros H. unfold Rabs in H. destruct (Rcase_abs a); lra. Qed.

Lemma rpoly_degree ts : degree (length ts) 0 (rpoly ts).
Proof.
  induction ts as [|c ts IH]; [exact (degree_const 0)|].
  apply (degree_ext _ _ (fun x => rval c + (x - 0) * rpoly ts x)); [intros x; cbn [rpoly]; ring|]. cbn [length].
  replace 0 with (0 + INR (S (length ts)) * 0) at 1 by ring. apply degree_plus; [|apply degree_lin; exact IH].
  apply degree_le with O (rval c); [lia|apply degree_const].
Qed.

Lemma diffs_close t e w : 0 <= e -> 1 <= w -> forall l l', length l = length l' ->
  (forall i a b, nth_error l i = Some a -> nth_error l' i = Some b -> Rabs (a - b) <= e /\ Rabs (t - a) <= w /\ Rabs (t - b) <= w) ->
  Rabs (diffs l t - diffs l' t) <= INR (length l) * w ^ length l * e /\ Rabs (diffs l t) <= w ^ length l.
Proof.
  intros He Hw l. induction l as [|a l IH]; intros [|b l'] L H; try discriminate L.
  - cbn. rewrite Rminus_eq_0, Rabs_R0, Rabs_R1. lra.
  - destruct (H O a b eq_refl eq_refl) as (E & A & B).
    destruct (IH l') as (I1 & I2). { cbn in L. lia. } { intros i. apply (H (S i)). }
    cbn [diffs fold_right]. change (fold_right _ _ l) with (diffs l t). change (fold_right _ _ l') with (diffs l' t).
    set (D := diffs l t) in *. set (D' := diffs l' t) in *. cbn [length]. set (k := length l) in *. cbn [pow]. rewrite S_INR.
    assert (P : 1 <= w ^ k) by (apply pow_R1_Rle; exact Hw). set (q := w ^ k) in *. pose proof (pos_INR k) as K.
    split.
    + replace ((t - a) * D - (t - b) * D') with (- (a - b) * D + (t - b) * (D - D')) by ring.
      eapply Rle_trans; [apply Rabs_triang|]. rewrite !Rabs_mult, Rabs_Ropp.
      pose proof (Rabs_pos (a - b)). pose proof (Rabs_pos D). pose proof (Rabs_pos (t - b)). pose proof (Rabs_pos (D - D')).
      assert (X1 : Rabs (a - b) * Rabs D <= e * q) by (apply Rmult_le_compat; assumption).
      assert (X2 : Rabs (t - b) * Rabs (D - D') <= w * (INR k * q * e)) by (apply Rmult_le_compat; assumption).
      assert (0 <= q * e) by (apply Rmult_le_pos; lra). assert (e * q <= w * (q * e)) by nra. lra.
    + rewrite Rabs_mult. apply Rmult_le_compat; try apply Rabs_pos; assumption.
Qed.

(** The product of the distances to the nodes. *)
Lemma nodes_product lo hi n : (2 <= n)%nat -> lo <= hi ->
  forall t, lo <= t <= hi -> Rabs (diffs (map (node lo hi n) (seq 0 n)) t) <= ((hi - lo) / 2) ^ n * / 2 ^ (n - 2).
Proof.
  intros N H t Ht. destruct (Req_dec lo hi) as [E|E].
  - subst hi. assert (t = lo) by lra. subst t. rewrite diffs_in.
    + rewrite Rabs_R0. apply Rmult_le_pos; [apply pow_le; lra|]. left. apply Rinv_0_lt_compat. apply pow_lt. lra.
    + apply in_map_iff. exists O. split; [unfold node; field|apply in_seq; lia].
  - set (s := ((hi + lo) / 2 - t) / ((hi - lo) / 2)).
    assert (Hs : -1 <= s <= 1).
    { assert (P : 0 < (hi - lo) / 2) by lra.
      assert (Es : s * ((hi - lo) / 2) = (hi + lo) / 2 - t) by (unfold s; field; lra). clearbody s.
      split; apply Rmult_le_reg_r with ((hi - lo) / 2); try exact P; rewrite Es; lra. }
    assert (G : forall l, Rabs (diffs (map (node lo hi n) l) t) = ((hi - lo) / 2) ^ length l * Rabs (diffs (map (fun i => cos (INR i * PI / INR (n - 1))) l) s)).
    { intros l. induction l as [|i l IH]; [cbn; rewrite Rabs_R1; ring|].
      cbn [map diffs fold_right length pow]. change (fold_right _ _ (map (node lo hi n) l)) with (diffs (map (node lo hi n) l) t).
      change (fold_right _ _ (map (fun i => cos (INR i * PI / INR (n - 1))) l)) with (diffs (map (fun i => cos (INR i * PI / INR (n - 1))) l) s).
      rewrite !Rabs_mult, IH. unfold node.
      replace (t - ((hi + lo) / 2 - (hi - lo) / 2 * cos (INR i * PI / INR (n - 1)))) with (- ((hi - lo) / 2 * (s - cos (INR i * PI / INR (n - 1)))))
        by (unfold s; field; lra).
      rewrite Rabs_Ropp, Rabs_mult, (Rabs_right ((hi - lo) / 2)) by lra. ring. }
    rewrite G, seq_length. apply Rmult_le_compat_l; [apply pow_le; lra|].
    replace (n - 2)%nat with (n - 1 - 1)%nat by lia. replace (seq 0 n) with (seq 0 (S (n - 1))) by (f_equal; lia).
    apply cheb_product; [lia| |exact Hs].
    apply (NoDup_nth_error). intros i j Hi Eq. rewrite map_length, seq_length in Hi.
    destruct (Nat.eq_dec i j) as [|Ne]; [assumption|exfalso].
    assert (Hj : (j < S (n - 1))%nat).
    { rewrite <- (seq_length (S (n - 1)) 0), <- (map_length (fun i => cos (INR i * PI / INR (n - 1)))). apply nth_error_Some. rewrite <- Eq.
      apply nth_error_Some. rewrite map_length, seq_length. exact Hi. }
    assert (Nth : forall k, (k < S (n - 1))%nat -> nth_error (map (fun i => cos (INR i * PI / INR (n - 1))) (seq 0 (S (n - 1)))) k = Some (cos (INR k * PI / INR (n - 1)))).
    { intros k Hk. apply (map_nth_error (fun i => cos (INR i * PI / INR (n - 1)))). 
      rewrite (nth_error_nth' _ O) by (rewrite seq_length; exact Hk). rewrite seq_nth by exact Hk. reflexivity. }
    rewrite (Nth i Hi), (Nth j Hj) in Eq. inversion Eq as [Eq'].
    pose proof (cos_gap n i j N ltac:(lia) ltac:(lia) Ne) as Gp. rewrite Eq', Rminus_eq_0, Rabs_R0 in Gp. lra.
Qed.

(** The bound of Chebyshev interpolation with [n] points on an interval of width [w], for a function whose [n]-th derivative is at most [F]. *)
Definition chebyshev_bound (n : nat) (w F : R) : R := F / INR (fact n) * ((w / 2) ^ n / 2 ^ (n - 2)).

(** [f] has parity [p] and the interval is symmetric if that matters. *)
Definition has_parity (p : parity) (f : R -> R) (a b : R) : Prop :=
  match p with
  | PNeither => True
  | PEven => a = - b /\ forall t, a <= t <= b -> f (- t) = f t
  | POdd => a = - b /\ forall t, a <= t <= b -> f (- t) = - f t
  end.

Theorem approx_interval (n : nat) (W M Y0 : Q) : (2 <= n)%nat -> (0 < W)%Q ->
  exists L C : R, 0 <= L /\ 0 <= C /\ forall o fuel e xmin xmax x p nd r f d F eps, right_parity p n = true ->
    (2 <= nd <= 97)%Z -> (8 * Z.of_nat (n - 1) ^ 2 <= 10 ^ nd)%Z ->
    (W <= dval xmax - dval xmin)%Q -> (Qabs (dval xmin) <= M)%Q -> (Qabs (dval xmax) <= M)%Q ->
    approx o fuel e n xmin xmax x p nd = Ok r ->
    let w := rval xmax - rval xmin in
    let lo := rval xmin - w * r10 (- nd) in
    let hi := rval xmax + w * r10 (- nd) in
    has_parity p f (rval xmin) (rval xmax) -> derivatives f d n lo hi -> (forall t, lo <= t <= hi -> Rabs (f t) + eps <= Q2R Y0 /\ Rabs (d n t) <= F) ->
    (forall xv y, lo <= rval xv <= hi -> value_at o fuel nd e x xv y -> Rabs (rval y - f (rval xv)) <= eps) ->
    forall I, real_interp I -> rval xmin <= i_path I x <= rval xmax ->
      Rabs (den I r - f (i_path I x)) <= chebyshev_bound n w F + L * eps + C * (1 + F) * r10 (- nd).
Proof.
  intros N HW. destruct (approx_full n W M Y0 N HW) as (C0 & HC).
  set (m := (n - 1)%nat) in *. set (m2 := INR m * INR m).
  assert (mR : 1 <= INR m) by (change 1 with (INR 1); apply le_INR; unfold m; lia).
  assert (m2p : 1 <= m2) by (unfold m2; nra).
  assert (w0 : 0 < Q2R W) by (apply Qlt_Rlt in HW; unfold Q2R at 1 in HW; cbn in HW; lra).
  set (h := Q2R W / (4 * m2)). assert (Hh : 0 < h) by (unfold h; apply Rdiv_lt_0_compat; lra).
  set (MM := 4 * Rabs (Q2R M) + 1). assert (Mp : 1 <= MM) by (unfold MM; pose proof (Rabs_pos (Q2R M)); lra).
  set (La := INR n * (Rmax h MM / h) ^ n).
  assert (Lap : 0 <= La).
  { apply Rmult_le_pos; [apply pos_INR|]. apply pow_le. apply Rmult_le_pos; [|left; apply Rinv_0_lt_compat; exact Hh].
    pose proof (Rmax_l h MM). lra. }
  set (C1 := INR n * MM ^ n * MM).
  assert (C1p : 0 <= C1). { apply Rmult_le_pos; [apply Rmult_le_pos; [apply pos_INR|apply pow_le; lra]|lra]. }
  exists La, (La * Rabs C0 + C1). split; [exact Lap|]. split; [pose proof (Rabs_pos C0); nra|].
  intros o fuel e xmin xmax x p nd r f d F eps RP D D2 HWw H1 H2 Ap w lo hi Par Df Bf Ev I HI Hx.
  assert (HWa : (W <= Qabs (dval xmax - dval xmin))%Q) by (apply Qle_trans with (1 := HWw); apply Qle_Qabs).
  destruct (HC o fuel e xmin xmax x p nd r RP D D2 HWa H1 H2 Ap) as (xs & ys & L1 & L2 & V & Sep & R).
  pose proof (small_unit nd ltac:(lia)) as U. set (u := r10 (- nd)) in *.
  assert (Rw : rval xmax - rval xmin = w) by reflexivity.
  assert (Ww : Q2R W <= w).
  { unfold w. rewrite <- rval_dsub. apply Qle_Rle. rewrite dval_dsub. exact HWw. }
  assert (M1 : Rabs (rval xmin) <= Q2R M) by (rewrite Rabs_rval; apply Qle_Rle; exact H1).
  assert (M2 : Rabs (rval xmax) <= Q2R M) by (rewrite Rabs_rval; apply Qle_Rle; exact H2).
  assert (w2 : w <= 2 * Q2R M).
  { apply Rle_trans with (Rabs w); [apply Rle_abs|]. unfold w, Rminus. eapply Rle_trans; [apply Rabs_triang|]. rewrite Rabs_Ropp. lra. }
  assert (M0 : Rabs (Q2R M) = Q2R M) by (apply Rabs_right; pose proof (Rabs_pos (rval xmin)); lra).
  assert (MMe : MM = 4 * Q2R M + 1) by (unfold MM; rewrite M0; reflexivity).
  assert (Rw' : Rabs (rval xmax - rval xmin) = w) by (rewrite Rw; apply Rabs_right; lra). rewrite Rw' in V.
  set (a := rval xmin) in *. set (b := rval xmax) in *.
  assert (wu : 0 <= w * u <= w / 100) by (split; [apply Rmult_le_pos; lra|unfold Rdiv; apply Rmult_le_compat_l; lra]).
  (* the samples *)
  assert (In1 : forall i xv, nth_error xs i = Some xv -> exists y, nth_error ys i = Some y /\
    Rabs (rval xv - node a b n i) <= w * u /\ lo <= rval xv <= hi /\ Rabs (rval y - f (rval xv)) <= eps).
  { intros i xv Hi. assert (Li : (i < n)%nat) by (rewrite <- L1; apply nth_error_Some; congruence).
    destruct (V i Li) as (xv' & y & E1 & E2 & B & Va). rewrite E1 in Hi. inversion Hi. subst xv'. exists y. split; [exact E2|]. split; [exact B|].
    assert (Bn : a <= node a b n i <= b).
    { unfold node. set (c := cos _). assert (Cb : -1 <= c <= 1) by apply COS_bound. fold m in c. clearbody c. rewrite Rw. nra. }
    apply Rabs_inv_le in B. assert (BB : lo <= rval xv <= hi) by (unfold lo, hi; lra). split; [exact BB|].
    apply Ev; assumption. }
  assert (Eps : 0 <= eps).
  { destruct xs as [|xv xs']; [cbn in L1; lia|]. destruct (In1 O xv eq_refl) as (y & _ & _ & _ & B).
    pose proof (Rabs_pos (rval y - f (rval xv))). lra. }
  assert (HF0 : 0 <= F).
  { destruct (Bf a) as (_ & B); [unfold lo, hi; lra|]. pose proof (Rabs_pos (d n a)). lra. }
  destruct R as (ts & Lt & De & E).
  { intros y Hy. apply In_nth_error in Hy. destruct Hy as (i & Hi).
    assert (Li : (i < n)%nat) by (rewrite <- L2; apply nth_error_Some; congruence).
    destruct (V i Li) as (xv & y' & E1 & E2 & _). rewrite E2 in Hi. inversion Hi. subst y'.
    destruct (In1 i xv E1) as (y' & E3 & _ & B & Bv). rewrite E2 in E3. inversion E3. subst y'.
    apply Rle_Qle. rewrite <- Rabs_rval. destruct (Bf _ B) as (Bf1 & _).
    replace (rval y) with ((rval y - f (rval xv)) + f (rval xv)) by ring. eapply Rle_trans; [apply Rabs_triang|]. lra. }
  set (l := map rval xs). assert (Ll : length l = n) by (unfold l; rewrite map_length; exact L1).
  assert (Nl : forall i z, nth_error l i = Some z -> exists xv, nth_error xs i = Some xv /\ z = rval xv).
  { intros i z Hi. unfold l in Hi. rewrite nth_error_map in Hi. destruct (nth_error xs i) as [xv|]; [|discriminate Hi].
    exists xv. cbn in Hi. inversion Hi. auto. }
  assert (Il : forall z, In z l -> exists i xv, nth_error xs i = Some xv /\ z = rval xv).
  { intros z Hz. apply In_nth_error in Hz. destruct Hz as (i & Hi). exists i. apply Nl. exact Hi. }
  fold m2 in Sep. fold h in Sep.
  assert (ND : NoDup l).
  { apply NoDup_nth_error. intros i j Hi Eq. destruct (Nat.eq_dec i j) as [|Ne]; [assumption|exfalso].
    destruct (nth_error l i) as [z|] eqn:Ei; [|apply nth_error_Some in Hi; contradiction]. symmetry in Eq.
    destruct (Nl _ _ Ei) as (p1 & Ep & ->). destruct (Nl _ _ Eq) as (q & Eq' & Epq).
    pose proof (Sep i j p1 q Ep Eq' Ne) as S. rewrite Epq, Rminus_eq_0, Rabs_R0 in S. lra. }
  assert (Main : forall t, a <= t <= b -> Rabs (rpoly ts t - f t) <= chebyshev_bound n w F + La * eps + (La * Rabs C0 + C1) * (1 + F) * u).
  { clear Hx. intros t Hx. assert (ht : lo <= t <= hi) by (unfold lo, hi; lra).
  assert (Key : Rabs (rpoly ts t - f t) <= F / INR (fact (length l)) * Rabs (diffs l t) +
     INR (length l) * (Rmax h MM / h) ^ length l * (Rabs C0 * u + eps)).
  { apply (near_interp_error f d (rpoly ts) lo hi l F (Rmax h MM) h).
    - exact ND.
    - intros z Hz. destruct (Il z Hz) as (i & xv & Hi & ->). destruct (In1 i xv Hi) as (y & _ & _ & B & _). exact B.
    - rewrite Ll. exact Df.
    - rewrite Ll. intros z Hz. apply (Bf z Hz).
    - rewrite Ll, <- Lt. apply rpoly_degree.
    - exact Hh.
    - apply Rmax_l.
    - apply Rle_trans with MM; [|apply Rmax_r]. unfold lo, hi. lra.
    - intros y z Hy Hz Ne. destruct (Il y Hy) as (i & p1 & Hi & ->). destruct (Il z Hz) as (j & q & Hj & ->).
      apply (Sep i j p1 q Hi Hj). intros ->. rewrite Hi in Hj. inversion Hj. subst. apply Ne. reflexivity.
    - intros z Hz. destruct (Il z Hz) as (i & xv & Hi & ->). destruct (In1 i xv Hi) as (y & Hy & _ & B & By).
      pose proof (E i xv y Hi Hy) as Ei. replace (rpoly ts (rval xv) - f (rval xv)) with ((rpoly ts (rval xv) - rval y) + (rval y - f (rval xv))) by ring.
      eapply Rle_trans; [apply Rabs_triang|]. pose proof (Rle_abs C0). nra.
    - pose proof (Rabs_pos C0). nra.
    - exact ht. }
  rewrite Ll in Key. fold La in Key.
  (* the product of the distances *)
  set (ln := map (node a b n) (seq 0 n)).
  assert (Lln : length ln = n) by (unfold ln; rewrite map_length, seq_length; reflexivity).
  destruct (diffs_close t (w * u) MM (proj1 wu) Mp l ln) as (Dc & _).
  { lia. }
  { intros i y z Hy Hz. destruct (Nl _ _ Hy) as (xv & Hi & ->). destruct (In1 i xv Hi) as (yv & _ & B1 & B2 & _).
    assert (Li : (i < n)%nat) by (rewrite <- L1; apply nth_error_Some; congruence).
    unfold ln in Hz. rewrite nth_error_map, (nth_error_nth' _ O) in Hz by (rewrite seq_length; exact Li).
    rewrite seq_nth in Hz by exact Li. cbn in Hz. inversion Hz. subst z. split; [exact B1|].
    apply Rabs_inv_le in B1. unfold lo, hi in B2, ht. split; apply Rabs_le; lra. }
  rewrite Ll in Dc.
  pose proof (nodes_product a b n N ltac:(lra) t Hx) as Np. fold ln in Np. rewrite Rw in Np.
  assert (Dl : Rabs (diffs l t) <= (w / 2) ^ n * / 2 ^ (n - 2) + C1 * u).
  { replace (diffs l t) with (diffs ln t + (diffs l t - diffs ln t)) by ring. eapply Rle_trans; [apply Rabs_triang|].
    apply Rplus_le_compat; [exact Np|]. apply Rle_trans with (1 := Dc). unfold C1. rewrite Rmult_assoc with (r3 := u).
    apply Rmult_le_compat_l; [apply Rmult_le_pos; [apply pos_INR|apply pow_le; lra]|]. apply Rmult_le_compat_r; lra. }
  assert (Ff : 1 <= INR (fact n)) by (change 1 with (INR 1); apply le_INR; apply lt_O_fact).
  assert (FF : 0 <= F / INR (fact n) <= F).
  { split; [apply Rmult_le_pos; [exact HF0|left; apply Rinv_0_lt_compat; lra]|].
    apply Rmult_le_reg_r with (INR (fact n)); [lra|]. unfold Rdiv. rewrite Rmult_assoc, Rinv_l by lra. nra. }
  apply Rle_trans with (1 := Key). unfold chebyshev_bound, Rdiv at 3.
  assert (X1 : F / INR (fact n) * Rabs (diffs l t) <= F / INR (fact n) * ((w / 2) ^ n * / 2 ^ (n - 2)) + F * (C1 * u)).
  { apply Rle_trans with (F / INR (fact n) * ((w / 2) ^ n * / 2 ^ (n - 2) + C1 * u)); [apply Rmult_le_compat_l; [apply FF|exact Dl]|].
    rewrite Rmult_plus_distr_l. apply Rplus_le_compat_l. apply Rmult_le_compat_r; [apply Rmult_le_pos; lra|apply FF]. }
  assert (X2 : 0 <= La * Rabs C0 * F * u).
  { apply Rmult_le_pos; [|lra]. apply Rmult_le_pos; [|exact HF0]. apply Rmult_le_pos; [exact Lap|apply Rabs_pos]. }
  assert (X3 : 0 <= C1 * u) by (apply Rmult_le_pos; lra).
  replace (F * / INR (fact n)) with (F / INR (fact n)) by reflexivity. fold (w / 2). nra. }
  rewrite (De I HI). set (t := i_path I x) in *. clearbody t. unfold parity_part. destruct p; cbn [has_parity] in Par.
  1, 2: destruct Par as (Ab & Pf); pose proof (Main t Hx) as Ma; pose proof (Main (- t) ltac:(lra)) as Mb; rewrite (Pf t Hx) in Mb;
    set (Bd := chebyshev_bound n w F + La * eps + (La * Rabs C0 + C1) * (1 + F) * u) in *; clearbody Bd;
    apply Rabs_inv_le in Ma; apply Rabs_inv_le in Mb; apply Rabs_le; lra.
  apply Main. exact Hx.
Qed.

(** ** Success *)
Lemma value_at_fun o fuel nd e x xv y y' : value_at o fuel nd e x xv y -> value_at o fuel nd e x xv y' -> y = y'.
Proof. intros (xe & s & v & A & B & C & D) (xe' & s' & v' & A' & B' & C' & D'). congruence. Qed.

Lemma samples_ok o fuel e x nd a b c is :
  (forall i, In i is -> exists cs y, bcos (dmul (bigd (Z.of_nat i)) b) nd = Ok cs /\ value_at o fuel nd e x (dsub a (dmul c cs)) y) ->
  exists xs ys, samples o fuel e x nd a b c is = Ok (xs, ys).
Proof.
  induction is as [|i is IH]; intros H; [exists [], []; reflexivity|].
  destruct (H i ltac:(left; reflexivity)) as (cs & y & C & xe & s & v & E1 & E2 & E3 & E4).
  destruct IH as (xs & ys & E). { intros j Hj. apply H. right. exact Hj. }
  cbn [samples]. rewrite C. cbn [rbind]. rewrite E1. cbn [rbind]. rewrite E2. cbn [rbind]. rewrite E3. cbn [rbind]. rewrite E4. cbn [rbind].
  rewrite E. cbn [rbind fst snd]. eauto.
Qed.

Lemma bounded_list (l : list bd) : exists B, forall y, In y l -> (Qabs (dval y) <= B)%Q.
Proof.
  induction l as [|a l (B & H)]; [exists 0%Q; intros y []|]. exists (Qabs (dval a) + Qabs B)%Q. intros y [<-|Hy].
  - rewrite <- (Qplus_0_r (Qabs (dval a))) at 1. apply Qplus_le_compat; [apply Qle_refl|apply Qabs_nonneg].
  - apply Qle_trans with (0 + Qabs B)%Q.
    + rewrite Qplus_0_l. apply Qle_trans with (1 := H y Hy). apply Qle_Qabs.
    + apply Qplus_le_compat; [apply Qabs_nonneg|apply Qle_refl].
Qed.

Lemma approx_succeeds o fuel e n xmin xmax x p nd :
  (2 <= n)%nat -> (2 <= nd <= 97)%Z -> (8 * Z.of_nat (n - 1) ^ 2 <= 10 ^ nd)%Z -> (dval xmin < dval xmax)%Q -> right_parity p n = true ->
  let w := rval xmax - rval xmin in
  (forall xv, rval xmin - w * r10 (- nd) <= rval xv <= rval xmax + w * r10 (- nd) -> exists y, value_at o fuel nd e x xv y) ->
  exists r, approx o fuel e n xmin xmax x p nd = Ok r.
Proof.
  intros N D D2 Lt RP w Ev. assert (Wp : 0 < w). { apply Qlt_Rlt in Lt. unfold w, rval. lra. }
  assert (Rw : rval xmax - rval xmin = w) by reflexivity. assert (Rw' : Rabs w = w) by (apply Rabs_right; lra).
  destruct n as [|n']; [lia|]. unfold approx.
  destruct (bpi_ok o nd ltac:(lia)) as (pi & P & _). rewrite P. cbn [rbind].
  destruct (ddiv_R pi (bigd (Z.of_nat n'))) as (b & B & _). { rewrite rval_bigd. apply not_0_IZR. lia. }
  rewrite B. cbn [rbind].
  assert (Nd : forall i, (i <= n')%nat -> exists cs y, bcos (dmul (bigd (Z.of_nat i)) b) nd = Ok cs /\
     value_at o fuel nd e x (dsub (dmul (dadd xmax xmin) dhalf) (dmul (dmul (dsub xmax xmin) dhalf) cs)) y /\
     Rabs (rval (dsub (dmul (dadd xmax xmin) dhalf) (dmul (dmul (dsub xmax xmin) dhalf) cs)) - node (rval xmin) (rval xmax) (S n') i) <= w * r10 (- nd)).
  { intros i Hi. destruct (node_ok o nd pi b n' i xmin xmax D Hi ltac:(lia) P B) as (cs & C & E & _).
    rewrite Rw, Rw' in E. set (xv := dsub _ _) in *.
    assert (Bn : rval xmin <= node (rval xmin) (rval xmax) (S n') i <= rval xmax).
    { unfold node. set (c := cos _). assert (Cb : -1 <= c <= 1) by apply COS_bound. clearbody c. rewrite Rw. clear - Rw Wp Cb. nra. }
    destruct (Ev xv) as (y & Va). { apply Rabs_inv_le in E. lra. }
    exists cs, y. auto. }
  destruct (samples_ok o fuel e x nd (dmul (dadd xmax xmin) dhalf) b (dmul (dsub xmax xmin) dhalf) (range 0 (S n'))) as (xs & ys & S).
  { intros i Hi. unfold range in Hi. apply in_seq in Hi. destruct (Nd i ltac:(lia)) as (cs & y & C & Va & _). eauto. }
  rewrite S. cbn [rbind fst snd]. destruct (samples_inv _ _ _ _ _ _ _ _ _ _ _ S) as (L1 & L2 & V).
  unfold range in *. rewrite seq_length in *. replace (Datatypes.S n' - 0)%nat with (Datatypes.S n') in * by lia.
  assert (V' : forall i, (i < Datatypes.S n')%nat -> exists xv, nth_error xs i = Some xv /\
     Rabs (rval xv - node (rval xmin) (rval xmax) (Datatypes.S n') i) <= Rabs (rval xmax - rval xmin) * r10 (- nd)).
  { intros i Hi. destruct (V i i) as (cs & y & C & Nx & _).
    { rewrite (nth_error_nth' _ 0%nat) by (rewrite seq_length; exact Hi). rewrite seq_nth by exact Hi. reflexivity. }
    destruct (Nd i ltac:(lia)) as (cs' & y' & C' & _ & E). rewrite C in C'. inversion C'. subst cs'.
    rewrite Rw, Rw'. eauto. }
  set (m := (Datatypes.S n' - 1)%nat) in *.
  assert (mR : 1 <= INR m) by (change 1 with (INR 1); apply le_INR; unfold m; lia).
  pose (W := (dval xmax - dval xmin)%Q). assert (HW : (0 < W)%Q) by (unfold W; apply Qlt_minus_iff in Lt; exact Lt).
  assert (WR : Q2R W = w) by (unfold W, w, rval; apply Q2R_minus).
  pose (h := (W * (1 # Z.to_pos (4 * Z.of_nat m ^ 2)))%Q).
  assert (Hh : (0 < h)%Q) by (apply Qmult_lt_0_compat; [exact HW|reflexivity]).
  assert (hR : Q2R h = w / (4 * (INR m * INR m))).
  { unfold h. rewrite Q2R_mult, WR. unfold Q2R. cbn [Qnum Qden]. assert (1 <= m)%nat by (unfold m; lia). rewrite Z2Pos.id by nia.
    rewrite mult_IZR, Z.pow_2_r, mult_IZR, <- INR_Z. field. lra. }
  destruct (bounded_list xs) as (MX & BX). destruct (bounded_list ys) as (MY & BY).
  destruct (interpolation_error (Datatypes.S n') h MX MY ltac:(lia) Hh) as (C & HC).
  destruct (HC nd xs ys ltac:(lia) L1 L2 BX BY) as (ts & F & Lts & _).
  { intros i j p1 q1 Hp Hq Ne. apply Rle_Qle. rewrite hR, <- (Qeq_eqR _ _ (Qabs_wd _ _ (dval_dsub p1 q1))), <- Rabs_rval, rval_dsub.
    apply (samples_apart (Datatypes.S n') w xmin xmax nd xs N ltac:(lia) D2 Wp) with (i := i) (j := j); try assumption.
    rewrite Rw, Rw'. lra. }
  rewrite F. cbn [rbind]. destruct (mul_add_value ts x p) as (r & R & _).
  - intros ->. discriminate Lts.
  - change (num (bd_arith nd)) with bd in *. rewrite Lts. exact RP.
  - eauto.
Qed.

Theorem approx_total (n : nat) (W M Y0 : Q) : (2 <= n)%nat -> (0 < W)%Q ->
  exists L C : R, 0 <= L /\ 0 <= C /\ forall o fuel e xmin xmax x p nd f d F eps, right_parity p n = true ->
    (2 <= nd <= 97)%Z -> (8 * Z.of_nat (n - 1) ^ 2 <= 10 ^ nd)%Z ->
    (W <= dval xmax - dval xmin)%Q -> (Qabs (dval xmin) <= M)%Q -> (Qabs (dval xmax) <= M)%Q ->
    let w := rval xmax - rval xmin in
    let lo := rval xmin - w * r10 (- nd) in
    let hi := rval xmax + w * r10 (- nd) in
    has_parity p f (rval xmin) (rval xmax) -> derivatives f d n lo hi -> (forall t, lo <= t <= hi -> Rabs (f t) + eps <= Q2R Y0 /\ Rabs (d n t) <= F) ->
    (forall xv, lo <= rval xv <= hi -> exists y, value_at o fuel nd e x xv y /\ Rabs (rval y - f (rval xv)) <= eps) ->
    exists r, approx o fuel e n xmin xmax x p nd = Ok r /\
    forall I, real_interp I -> rval xmin <= i_path I x <= rval xmax ->
      Rabs (den I r - f (i_path I x)) <= chebyshev_bound n w F + L * eps + C * (1 + F) * r10 (- nd).
Proof.
  intros N HW. destruct (approx_interval n W M Y0 N HW) as (L & C & HL & HC & H). exists L, C. split; [exact HL|]. split; [exact HC|].
  intros o fuel e xmin xmax x p nd f d F eps RP D D2 HWw H1 H2 w lo hi Par Df Bf Ev.
  destruct (approx_succeeds o fuel e n xmin xmax x p nd N D D2) as (r & R).
  - apply Qlt_minus_iff. apply Qlt_le_trans with (1 := HW). exact HWw.
  - exact RP.
  - intros xv Hx. destruct (Ev xv Hx) as (y & Va & _). eauto.
  - exists r. split; [exact R|]. apply (H o fuel e xmin xmax x p nd r f d F eps); try assumption.
    intros xv y Hx Va. destruct (Ev xv Hx) as (y' & Va' & B). rewrite (value_at_fun _ _ _ _ _ _ _ _ Va Va'). exact B.
Qed.

(** ** exp, sin and cos *)

(** If a method without arguments is accurate on decimals, its samples are. *)
Lemma value_at_method o fuel nd m x xv (f : R -> R) eps :
  (forall a v, evals o fuel nd a v -> rval v = rval xv -> exists y, evals o fuel nd (EMethodCall a m None []) y /\ Rabs (rval y - f (rval v)) <= eps) ->
  exists y, value_at o fuel nd (EMethodCall (EPath x) m None []) x xv y /\ Rabs (rval y - f (rval xv)) <= eps.
Proof.
  intros H. destruct (TransParse.expr_of_bd_ok xv) as (xe & v & E & B & V).
  assert (Lx : is_lit xe = true) by (apply expr_of_bd_lit in E; exact E).
  assert (Rv : rval v = rval xv) by (unfold rval; apply Qeq_eqR; exact V).
  destruct (H xe v) as (y & (r & Er & Br) & Hy).
  - exists xe. split; [|exact B]. destruct xe; try discriminate Lx. reflexivity.
  - exact Rv.
  - exists y. split; [|rewrite <- Rv; exact Hy]. exists xe, (EMethodCall xe m None []), r. split; [exact E|]. split; [|auto].
    cbn. unfold find_var. cbn. assert (Px : path_eqb x x = true). { clear. unfold path_eqb. induction x; cbn; [reflexivity|]. rewrite String.eqb_refl. exact IHx. }
    rewrite Px. destruct xe; try discriminate Lx. reflexivity.
Qed.

Definition call (m : string) (x : list string) : expr := EMethodCall (EPath x) m None [].

Lemma range_98 nd : (1 <= nd <= 98)%Z -> (range_at nd <= 98)%Z.
Proof. intros H. unfold range_at. destruct (Z.eqb_spec nd 1); lia. Qed.

(** A function whose derivatives are bounded by [K] on the working range, computed to one unit. *)
Lemma approx_method m f d (K : Q -> R) (n : nat) (W M : Q) : (2 <= n)%nat -> (0 < W)%Q ->
  (forall o fuel nd a v, (1 <= nd <= 98)%Z -> evals o fuel nd a v -> Rabs (rval v) <= IZR (range_at nd) ->
     exists y, evals o fuel nd (EMethodCall a m None []) y /\ Rabs (rval y - f (rval v)) <= r10 (- nd)) ->
  (forall x, d O x = f x) -> (forall j x, derivable_pt_lim (d j) x (d (S j) x)) ->
  (forall x, Rabs x <= Q2R M + 2 -> Rabs (f x) <= K M) ->
  exists C : R, forall o fuel xmin xmax x p nd F, right_parity p n = true -> has_parity p f (rval xmin) (rval xmax) ->
    (2 <= nd <= 97)%Z -> (8 * Z.of_nat (n - 1) ^ 2 <= 10 ^ nd)%Z ->
    (W <= dval xmax - dval xmin)%Q -> (Qabs (dval xmin) <= M)%Q -> (Qabs (dval xmax) <= M)%Q ->
    Q2R M + 2 <= IZR (range_at nd) ->
    let w := rval xmax - rval xmin in
    (forall t, rval xmin - w * r10 (- nd) <= t <= rval xmax + w * r10 (- nd) -> Rabs (d n t) <= F) -> F <= K M ->
    exists r, approx o fuel (call m x) n xmin xmax x p nd = Ok r /\
    forall I, real_interp I -> rval xmin <= i_path I x <= rval xmax ->
      Rabs (den I r - f (i_path I x)) <= chebyshev_bound n w F + C * r10 (- nd).
Proof.
  intros N HW Acc D0 D KB. set (Y0 := inject_Z (up (K M + 1))).
  assert (Y1 : K M + 1 <= Q2R Y0).
  { unfold Y0, Q2R. cbn [inject_Z Qnum Qden]. rewrite Rinv_1, Rmult_1_r. left. apply archimed. }
  destruct (approx_total n W M Y0 N HW) as (L & C & HL & HC & H).
  exists (L + C * (1 + K M)). intros o fuel xmin xmax x p nd F RP Par Hn H8 HWw H1 H2 HR w HF FK.
  pose proof (small_unit nd ltac:(lia)) as U. pose proof (range_98 nd ltac:(lia)) as R98. apply IZR_le in R98.
  assert (M1 : Rabs (rval xmin) <= Q2R M) by (rewrite Rabs_rval; apply Qle_Rle; exact H1).
  assert (M2 : Rabs (rval xmax) <= Q2R M) by (rewrite Rabs_rval; apply Qle_Rle; exact H2).
  apply Rabs_inv_le in M1. apply Rabs_inv_le in M2. assert (Rw : rval xmax - rval xmin = w) by reflexivity.
  assert (Wp : 0 <= w). { unfold w. rewrite <- rval_dsub. apply Qle_Rle in HWw. rewrite <- (Qeq_eqR _ _ (dval_dsub xmax xmin)) in HWw.
    apply Qlt_Rlt in HW. unfold Q2R at 1 in HW. cbn in HW. unfold rval at 1. lra. }
  assert (wu : 0 <= w * r10 (- nd) <= 2).
  { split; [apply Rmult_le_pos; lra|]. apply Rle_trans with (w * / 100); [apply Rmult_le_compat_l; lra|]. lra. }
  assert (In : forall t, rval xmin - w * r10 (- nd) <= t <= rval xmax + w * r10 (- nd) -> Rabs t <= Q2R M + 2) by (intros t Ht; apply Rabs_le; lra).
  destruct (H o fuel (call m x) xmin xmax x p nd f d F (r10 (- nd)) RP Hn H8 HWw H1 H2) as (r & R & B).
  - exact Par.
  - split; [intros t _; apply D0|]. intros j t _ _. apply D.
  - intros t Ht. split; [|apply HF; exact Ht]. pose proof (KB t (In t Ht)). lra.
  - intros xv Hx. apply value_at_method. intros a v Ev Ex. rewrite <- Ex in Hx. apply Acc; [lia|exact Ev|].
    apply Rle_trans with (2 := HR). apply In. exact Hx.
  - exists r. split; [exact R|]. intros I HI Ht. eapply Rle_trans; [apply (B I HI Ht)|]. fold w.
    assert (C * (1 + F) * r10 (- nd) <= C * (1 + K M) * r10 (- nd)).
    { apply Rmult_le_compat_r; [lra|]. apply Rmult_le_compat_l; lra. }
    lra.
Qed.

Theorem approx_exp (n : nat) (W M : Q) : (2 <= n)%nat -> (0 < W)%Q ->
  exists C : R, forall o fuel xmin xmax x nd,
    (2 <= nd <= 97)%Z -> (8 * Z.of_nat (n - 1) ^ 2 <= 10 ^ nd)%Z ->
    (W <= dval xmax - dval xmin)%Q -> (Qabs (dval xmin) <= M)%Q -> (Qabs (dval xmax) <= M)%Q ->
    Q2R M + 2 <= IZR (range_at nd) ->
    let w := rval xmax - rval xmin in
    exists r, approx o fuel (call "exp" x) n xmin xmax x PNeither nd = Ok r /\
    forall I, real_interp I -> rval xmin <= i_path I x <= rval xmax ->
      Rabs (den I r - exp (i_path I x)) <= chebyshev_bound n w (exp (rval xmax + w * r10 (- nd))) + C * r10 (- nd).
Proof.
  intros N HW.
  assert (Mono : forall a b, a <= b -> exp a <= exp b) by (intros a b [H| ->]; [left; apply exp_increasing; exact H|lra]).
  destruct (approx_method "exp" exp (fun _ => exp) (fun M => exp (Q2R M + 2)) n W M N HW) as (C & H).
  - exact eval_exp_ok.
  - reflexivity.
  - intros _ x. apply derivable_pt_lim_exp.
  - intros x Hx. rewrite Rabs_right by (left; apply exp_pos). apply Mono. apply Rle_trans with (2 := Hx). apply Rle_abs.
  - exists C. intros o fuel xmin xmax x nd Hn H8 HWw H1 H2 HR w. apply H; try assumption; try reflexivity.
    + intros t Ht. rewrite Rabs_right by (left; apply exp_pos). apply Mono. apply Ht.
    + apply Mono. 
      pose proof (small_unit nd ltac:(lia)) as U. pose proof (range_98 nd ltac:(lia)) as R98. apply IZR_le in R98.
      assert (M1 : Rabs (rval xmin) <= Q2R M) by (rewrite Rabs_rval; apply Qle_Rle; exact H1).
      assert (M2 : Rabs (rval xmax) <= Q2R M) by (rewrite Rabs_rval; apply Qle_Rle; exact H2).
      apply Rabs_inv_le in M1. apply Rabs_inv_le in M2. assert (Rw : rval xmax - rval xmin = w) by reflexivity.
      destruct (Rle_lt_dec 0 w) as [P|P]; [|assert (w * r10 (- nd) <= 0) by nra; lra].
      assert (w * r10 (- nd) <= w * / 100) by (apply Rmult_le_compat_l; lra). lra.
Qed.

Lemma shifted_sin a : (forall x, sin (x + INR 0 * (PI / 2) + a) = sin (x + a)) /\
  forall j x, derivable_pt_lim (fun x => sin (x + INR j * (PI / 2) + a)) x (sin (x + INR (S j) * (PI / 2) + a)).
Proof.
  split; [intros x; cbn [INR]; f_equal; ring|]. intros j x.
  replace (sin (x + INR (S j) * (PI / 2) + a)) with (cos (x + INR j * (PI / 2) + a) * (1 + 0 + 0)).
  - apply (derivable_pt_lim_comp (fun x => x + INR j * (PI / 2) + a) sin).
    + apply (derivable_pt_lim_plus (fun x => x + INR j * (PI / 2)) (fct_cte a)); [|apply derivable_pt_lim_const].
      apply (derivable_pt_lim_plus id (fct_cte (INR j * (PI / 2)))); [apply derivable_pt_lim_id|apply derivable_pt_lim_const].
    + apply derivable_pt_lim_sin.
  - rewrite S_INR. replace (x + (INR j + 1) * (PI / 2) + a) with ((PI / 2) + (x + INR j * (PI / 2) + a)) by field. rewrite <- cos_sin. ring.
Qed.

Lemma approx_wave m f a (n : nat) (W M : Q) : (2 <= n)%nat -> (0 < W)%Q ->
  (forall o fuel nd a v, (1 <= nd <= 98)%Z -> evals o fuel nd a v -> Rabs (rval v) <= IZR (range_at nd) ->
     exists y, evals o fuel nd (EMethodCall a m None []) y /\ Rabs (rval y - f (rval v)) <= r10 (- nd)) ->
  (forall x, sin (x + a) = f x) ->
  exists C : R, forall o fuel xmin xmax x p nd, right_parity p n = true -> has_parity p f (rval xmin) (rval xmax) ->
    (2 <= nd <= 97)%Z -> (8 * Z.of_nat (n - 1) ^ 2 <= 10 ^ nd)%Z ->
    (W <= dval xmax - dval xmin)%Q -> (Qabs (dval xmin) <= M)%Q -> (Qabs (dval xmax) <= M)%Q ->
    Q2R M + 2 <= IZR (range_at nd) ->
    exists r, approx o fuel (call m x) n xmin xmax x p nd = Ok r /\
    forall I, real_interp I -> rval xmin <= i_path I x <= rval xmax ->
      Rabs (den I r - f (i_path I x)) <= chebyshev_bound n (rval xmax - rval xmin) 1 + C * r10 (- nd).
Proof.
  intros N HW Acc E. destruct (shifted_sin a) as (D0 & D).
  destruct (approx_method m f (fun j x => sin (x + INR j * (PI / 2) + a)) (fun _ => 1) n W M N HW) as (C & H).
  - exact Acc.
  - intros x. rewrite <- E. apply D0.
  - exact D.
  - intros x _. rewrite <- E. apply Rabs_le. apply SIN_bound.
  - exists C. intros o fuel xmin xmax x p nd RP Par Hn H8 HWw H1 H2 HR. apply H; try assumption; [|lra].
    intros t _. apply Rabs_le. apply SIN_bound.
Qed.
