(** [approx] with explicit constants: the values and the coefficients of its polynomial. *)
From Coq Require Import ZArith QArith Qabs Qreals Reals Lra Lia List Bool Arith String.
From Verif Require Import Res Dec DecFacts RFacts Syntax Trans BdMath Eval EvalFacts EvalFunctions Accuracy PiFacts Poly PolyFacts PolyErr MulAddFacts ApproxFacts Interp ApproxErr DivDiff PolyExplicit.
Import ListNotations.
Open Scope R_scope.

Lemma sin_above t x : 0 <= t -> t <= x -> x <= PI - t -> t <= PI / 2 -> sin t <= sin x.
Proof.
  intros T L U H. pose proof PI_bound. destruct (Rle_lt_dec x (PI / 2)) as [X|X].
  - apply sin_incr_1; lra.
  - rewrite <- (sin_PI_x x). apply sin_incr_1; lra.
Qed.

(** Nodes whose indices differ by d are at least this far apart. *)
Definition spacing (w : R) (m d : nat) : R := w * (sin (INR d * PI / (2 * INR m))) ^ 2.

Lemma node_gap lo hi n i j : (2 <= n)%nat -> lo <= hi -> (i < j < n)%nat ->
  spacing (hi - lo) (n - 1) (j - i) <= node lo hi n j - node lo hi n i.
Proof.
  intros N Hw H. unfold spacing, node. set (m := (n - 1)%nat).
  assert (m1 : 1 <= INR m) by (change 1 with (INR 1); apply le_INR; unfold m; lia).
  assert (jm : INR j <= INR m) by (apply le_INR; unfold m; lia). rewrite minus_INR by lia.
  assert (ij : INR i <= INR j) by (apply le_INR; lia). pose proof (pos_INR i) as i0. pose proof PI_bound as PB.
  replace ((lo + hi) / 2 - (hi - lo) / 2 * cos (INR j * PI / INR m) - ((lo + hi) / 2 - (hi - lo) / 2 * cos (INR i * PI / INR m)))
    with ((hi - lo) / 2 * (cos (INR i * PI / INR m) - cos (INR j * PI / INR m))) by field.
  replace ((hi + lo) / 2 - (hi - lo) / 2 * cos (INR j * PI / INR m) - ((hi + lo) / 2 - (hi - lo) / 2 * cos (INR i * PI / INR m)))
    with ((hi - lo) / 2 * (cos (INR i * PI / INR m) - cos (INR j * PI / INR m))) by field.
  rewrite form2.
  replace ((INR i * PI / INR m - INR j * PI / INR m) / 2) with (- ((INR j - INR i) * PI / (2 * INR m))) by (field; lra).
  replace ((INR i * PI / INR m + INR j * PI / INR m) / 2) with ((INR j + INR i) * PI / (2 * INR m)) by (field; lra).
  rewrite sin_neg. set (th := PI / (2 * INR m)).
  assert (thp : 0 < th) by (unfold th; apply Rdiv_lt_0_compat; lra).
  assert (thm : INR m * th = PI / 2) by (unfold th; field; lra).
  replace ((INR j - INR i) * PI / (2 * INR m)) with ((INR j - INR i) * th) by (unfold th; field; lra).
  replace ((INR j + INR i) * PI / (2 * INR m)) with ((INR j + INR i) * th) by (unfold th; field; lra).
  set (a := INR i) in *. set (b := INR j) in *. set (M := INR m) in *. clearbody a b M th.
  assert (S1 : sin ((b - a) * th) <= sin ((b + a) * th)).
  { apply sin_above.
    - apply Rmult_le_pos; lra.
    - apply Rmult_le_compat_r; lra.
    - assert ((b + a) * th + (b - a) * th = 2 * (b * th)) by ring. assert (b * th <= M * th) by (apply Rmult_le_compat_r; lra). lra.
    - apply Rle_trans with (M * th); [apply Rmult_le_compat_r; lra|lra]. }
  assert (S0 : 0 <= sin ((b - a) * th)).
  { apply sin_ge_0; [apply Rmult_le_pos; lra|]. apply Rle_trans with (M * th); [apply Rmult_le_compat_r; lra|lra]. }
  set (s := sin ((b - a) * th)) in *. set (s' := sin ((b + a) * th)) in *. clearbody s s'.
  replace ((hi - lo) / 2 * (-2 * - s * s')) with ((hi - lo) * (s * s')) by field. apply Rmult_le_compat_l; [lra|]. cbn [pow]. nra.
Qed.

Fixpoint rprod (n : nat) (q : nat -> R) : R := match n with O => 1 | S n' => rprod n' q * q n' end.
Lemma rprod_le x q t n : (forall i, (i < n)%nat -> Rabs (t - x i) <= q i) -> Rabs (wprod x n t) <= rprod n q.
Proof.
  induction n as [|n IH]; intros H; [cbn; rewrite Rabs_R1; lra|]. cbn [wprod rprod].
  apply Rabs_mult_le; [apply IH; intros; apply H; lia|apply H; lia].
Qed.

Lemma rpoly_sum ts t : rpoly ts t = rsum (List.length ts) (fun j => rval (nth j ts dzero) * t ^ j).
Proof.
  induction ts as [|c ts IH]; [reflexivity|]. cbn [rpoly List.length]. rewrite rsum_shift, IH, <- rsum_scal. cbn [nth pow]. f_equal; [ring|].
  apply rsum_ext. intros; ring.
Qed.

(** The coefficients have at most [nd] digits after the point. *)
Lemma dadd_scale x y : scale (dadd x y) = Z.max (scale x) (scale y).
Proof. unfold dadd. destruct (Z.eqb_spec (scale x) (scale y)); [cbn; lia|]. destruct (Z.ltb_spec (scale x) (scale y)); cbn; lia. Qed.
Lemma round_scale z nd : (0 <= nd)%Z -> (scale (round z nd) <= nd)%Z.
Proof.
  intros H. unfold round. destruct (Z.ltb_spec nd 0); [lia|]. cbn [orb]. destruct (Z.leb_spec (scale z) nd); [assumption|].
  unfold with_scale. set (y := dadd _ _). destruct (mant y =? 0)%Z; [cbn; lia|]. destruct (Z.ltb_spec (scale y) nd); [cbn; lia|].
  destruct (Z.ltb_spec nd (scale y)); [cbn; lia|lia].
Qed.
Lemma terms_scale nd X D i j : (0 <= nd)%Z -> (0 <= scale (terms_at (bd_arith nd) X D i j) <= nd)%Z.
Proof.
  intros H. induction i as [|i IH]; [cbn; lia|]. cbn [terms_at n_add n_round n_mul bd_arith]. rewrite dadd_scale.
  pose proof (round_scale (dmul (newton_at (bd_arith nd) X i j) (D i)) nd H). lia.
Qed.

(** The value of the expression emitted for the coefficients [ts]. *)
Lemma emitted_value ts x p r I : right_parity p (List.length ts) = true -> mul_add_polynomial ts x p = Ok r -> real_interp I ->
  den I r = parity_part p (rpoly ts) (i_path I x).
Proof.
  intros RP Mp HI. assert (Ne : ts <> []) by (intros ->; destruct p; discriminate).
  destruct (mul_add_value ts x p Ne RP) as (r' & R' & V). rewrite Mp in R'. inversion R'. subst r'.
  rewrite (V R I 0 1 rval (real_number I HI)). apply vsum_parity. exact HI.
Qed.

(** ** The polynomial of [approx] *)
Section Approx.
  Variable k' : nat.
  Hypothesis k_pos : (1 <= k')%nat.
  Variables (nd : Z) (xmin xmax : bd).
  Hypothesis nd_ok : (2 <= nd <= 97)%Z.
  Notation u := (r10 (- nd)).
  Notation a := (rval xmin).
  Notation b := (rval xmax).
  Notation w := (rval xmax - rval xmin).
  Notation lo := (rval xmin - (rval xmax - rval xmin) * r10 (- nd)).
  Notation hi := (rval xmax + (rval xmax - rval xmin) * r10 (- nd)).
  Hypothesis a_half : - / 2 <= a.
  Hypothesis ab : a < b.
  Hypothesis b_half : b <= / 2.
  Variable f : R -> R.
  Variable d : nat -> R -> R.
  Variables F g E q : nat -> R.
  Hypothesis Df : derivatives f d (S k') lo hi.
  Hypothesis Bf : forall i t, (i <= S k')%nat -> lo <= t <= hi -> Rabs (d i t) <= F i.
  Hypothesis Bg : forall i, (1 <= i <= k')%nat -> 0 < g i <= spacing w k' i - 2 * (w * u).
  Notation G := (fun i => F i / INR (fact i)).
  Hypothesis Gr : forall i, (i < k')%nat -> 2 * E i / g (S i) * (1 + / 200) + F (S i) / INR (fact (S i)) / 200 + / 2 <= E (S i).
  (** q i bounds the distance from the node i to the ends of the interval *)
  Hypothesis Bq : forall i, (i <= k')%nat -> node a b (S k') i - a + w * u <= q i /\ b - node a b (S k') i + w * u <= q i.

  (** The error of the computed values, in the last digit of the working precision: the growth of the divided differences. *)
  Definition digits_error : R := rsum (S k') (fun i => (F i / INR (fact i) + E i * u) * (INR i * (1 + u) ^ i) + E i * rprod i q + 1) * u.
  (** The nodes are rounded as well. *)
  Definition nodes_error : R := F (S k') / INR (fact (S k')) * (INR (S k') * (1 + u) ^ S k' * u).
  Definition coefs_error : R :=
    rsum (S k') (fun i => (F i / INR (fact i) + E i * u) * (INR i * (3 / 2 + u) ^ i) + E i * (3 / 2 + u) ^ i + 1) * u.

  Theorem approx_explicit o fuel e x p r : right_parity p (S k') = true -> approx o fuel e (S k') xmin xmax x p nd = Ok r ->
    (forall xv y, lo <= rval xv <= hi -> value_at o fuel nd e x xv y -> Rabs (rval y - f (rval xv)) <= E O * u) ->
    exists ts, List.length ts = S k' /\ mul_add_polynomial ts x p = Ok r /\ Forall (fun c => (0 <= scale c <= nd)%Z) ts /\
      (forall t, a <= t <= b -> Rabs (rpoly ts t - f t) <= chebyshev_bound (S k') w (F (S k')) + nodes_error + digits_error) /\
      (a <= 0 <= b -> forall j, (j <= k')%nat -> Rabs (rval (nth j ts dzero) - d j 0 / INR (fact j)) <=
         F (S k') / INR (fact (S k' - j)) * (1 + 2 * u) ^ (S k' - j) / INR (fact j) + coefs_error).
  Proof.
    intros RP Ap Ev. destruct (approx_nodes o fuel e (S k') xmin xmax x p nd r ltac:(lia) nd_ok Ap) as (xs & ys & ts & L1 & L2 & V & FP & R).
    change (num (bd_arith nd)) with bd in *. pose proof (small_unit nd ltac:(lia)) as U. assert (Aw : Rabs w = w) by (apply Rabs_right; lra). rewrite Aw in V.
    assert (wu : 0 <= w * u <= u) by nra.
    pose (X := fun i => nth i xs dzero). pose (Y := fun i => nth i ys dzero).
    assert (EX : xs = tab X (S k')) by (rewrite <- L1; apply list_tab).
    assert (EY : ys = tab Y (S k')) by (rewrite <- L2; apply list_tab).
    assert (Pt : forall i, (i <= k')%nat -> Rabs (rval (X i) - node a b (S k') i) <= w * u /\ value_at o fuel nd e x (X i) (Y i)).
    { intros i Hi. destruct (V i ltac:(lia)) as (xv & y & E1 & E2 & B & Va). unfold X, Y.
      rewrite (nth_error_nth _ _ _ E1), (nth_error_nth _ _ _ E2). auto. }
    assert (Bn : forall i, a <= node a b (S k') i <= b).
    { intros i. unfold node. set (c := cos _). assert (Cb : -1 <= c <= 1) by apply COS_bound. clearbody c. nra. }
    assert (Bx : forall i, (i <= k')%nat -> lo <= rval (X i) <= hi).
    { intros i Hi. destruct (Pt i Hi) as (P & _). pose proof (Bn i). apply Rabs_inv_le in P. lra. }
    assert (Gp : forall i, (1 <= i <= k')%nat -> 0 < g i) by (intros i Hi; apply Bg; exact Hi).
    assert (Gap : forall i j, (i < j <= k')%nat -> g (j - i)%nat <= Rabs (rval (X j) - rval (X i))).
    { intros i j H. destruct (Bg (j - i)%nat ltac:(lia)) as (_ & B). destruct (Pt i ltac:(lia)) as (Pi & _). destruct (Pt j ltac:(lia)) as (Pj & _).
      pose proof (node_gap a b (S k') i j ltac:(lia) ltac:(lra) ltac:(lia)) as Ng. replace (S k' - 1)%nat with k' in Ng by lia.
      apply Rabs_inv_le in Pi. apply Rabs_inv_le in Pj. apply Rle_trans with (2 := Rle_abs _). lra. }
    assert (St : forall i, (i <= k')%nat -> Rabs (rval (Y i) - f (rval (X i))) <= E O * u).
    { intros i Hi. apply Ev; [apply Bx; exact Hi|apply Pt; exact Hi]. }
    assert (Dx : forall i j, (i <= k')%nat -> (j <= k')%nat -> i <> j -> rval (X i) <> rval (X j)).
    { intros i j Hi Hj Ne. exact (gap_nz k' X g Gp Gap i j Hi Hj Ne). }
    assert (Sz : forall i m, (i <= m <= k')%nat -> Rabs (rdd (fun i => rval (X i)) f i m) <= G i).
    { intros i m H. apply (rdd_bound (fun i => rval (X i)) f k' d i m lo hi (F i) Dx H Bx).
      - destruct Df as (D0 & D1). split; [exact D0|]. intros j t Hj. apply D1. lia.
      - intros t Ht. apply Bf; [lia|exact Ht]. }
    assert (Ets : ts = tab (terms_at (bd_arith nd) X (dd_bd nd X Y k') (S k')) (S k')).
    { assert (FO : from_points (bd_arith nd) xs ys = Ok (tab (terms_at (bd_arith nd) X (dd_bd nd X Y k') (S k')) (S k'))).
      { rewrite EX, EY. apply (from_points_ok (bd_arith nd) X (dd_bd nd X Y) k'). intros i Hi. exact (dd_pass_ok k' nd X Y g Gp Gap i Hi). }
      rewrite FP in FO. inversion FO. reflexivity. }
    assert (Lts : List.length ts = S k') by (rewrite Ets; apply tab_length).
    assert (Nts : forall j, (j <= k')%nat -> nth j ts dzero = terms_at (bd_arith nd) X (dd_bd nd X Y k') (S k') j).
    { intros j Hj. apply nth_error_nth. rewrite Ets. apply tab_nth_error. lia. }
    set (rx := fun i => rval (X i)) in *.
    assert (NDp : NoDup (pts rx k' k')) by (apply (pts_nodup rx k'); [exact Dx|lia]).
    assert (Lp : List.length (pts rx k' k') = S k') by (unfold pts; rewrite map_length, seq_length; reflexivity).
    assert (Ip : forall y, In y (pts rx k' k') -> lo <= y <= hi /\ nform rx f (S k') y = f y).
    { intros y Hy. destruct (pts_in rx k' k' y Hy) as (j & Hj & ->). split; [apply Bx; lia|].
      rewrite (nform_nev rx f k' Dx k' (le_n _)). apply (nev_interp rx f k' Dx k' k' j); lia. }
    assert (Fn : 0 <= F (S k')).
    { pose proof (Bf (S k') a (le_n _) ltac:(lra)) as B. pose proof (Rabs_pos (d (S k') a)). lra. }
    exists ts. split; [exact Lts|]. split; [exact R|]. split; [|split].
    - rewrite Ets. unfold tab. apply Forall_map, Forall_forall. intros j _. apply terms_scale. lia.
    - intros t Ht. rewrite rpoly_sum, Lts.
      assert (Rs : rsum (S k') (fun j => rval (nth j ts dzero) * t ^ j) =
        rsum (S k') (fun j => rval (terms_at (bd_arith nd) X (dd_bd nd X Y k') (S k') j) * t ^ j)).
      { apply rsum_ext. intros j Hj. rewrite Nts by lia. reflexivity. }
      rewrite Rs. clear Rs.
      assert (T2 : Rabs t <= / 2) by (apply Rabs_le; lra).
      assert (Ds : forall i, (i <= k')%nat -> Rabs (t - rval (X i)) <= 1 + u).
      { intros i Hi. pose proof (Bx i Hi). apply Rabs_le. lra. }
      assert (Pq : forall i, (i <= k')%nat -> Rabs (wprod rx i t) <= rprod i q).
      { intros i Hi. apply rprod_le. intros j Hj. destruct (Bq j ltac:(lia)) as (B1 & B2). destruct (Pt j ltac:(lia)) as (Pj & _).
        apply Rabs_inv_le in Pj. unfold rx. apply Rabs_le. lra. }
      pose proof (value_explicit k' nd nd_ok X Y f G g E Gp Gap St Sz Gr t T2 (1 + u) ltac:(lra) Ds (fun i => rprod i q) Pq) as VE.
      change (value_error k' nd G E (1 + u) (fun i => rprod i q)) with digits_error in VE. fold rx in VE.
      pose proof (interp_error f d (nform rx f (S k')) lo hi (pts rx k' k') (F (S k')) NDp) as IE.
      rewrite Lp in IE. specialize (IE (fun y Hy => proj1 (Ip y Hy)) Df (fun y Hy => Bf (S k') y (le_n _) Hy)).
      assert (Dg : degree (S k') 0 (nform rx f (S k'))).
      { apply degree_ext with (nev rx f k' k'); [intros y; symmetry; apply (nform_nev rx f k' Dx k' (le_n _))|].
        apply degree_le with k' (INR (fact k') * rdd rx f k' k'); [lia|apply nev_degree]. }
      specialize (IE Dg (fun y Hy => proj2 (Ip y Hy)) t ltac:(lra)).
      set (ln := map (node a b (S k')) (seq 0 (S k'))).
      destruct (diffs_close t (w * u) (1 + u) (proj1 wu) ltac:(lra) (pts rx k' k') ln) as (Dc & _).
      { unfold pts, ln. rewrite !map_length, !seq_length. reflexivity. }
      { intros i y z Hy Hz. unfold pts, ln in *. rewrite Nat.sub_diag in Hy.
        assert (Li : (i < S k')%nat). { assert (Hl : (i < List.length (map rx (seq 0 (S k'))))%nat) by (apply nth_error_Some; congruence). rewrite map_length, seq_length in Hl. exact Hl. }
        rewrite nth_error_map, (nth_error_nth' _ O), seq_nth in Hy, Hz by (rewrite ?seq_length; exact Li). cbn in Hy, Hz. inversion Hy. inversion Hz.
        destruct (Pt i ltac:(lia)) as (Pi & _). split; [exact Pi|]. pose proof (Bn i). pose proof (Bx i ltac:(lia)). unfold rx. split; apply Rabs_le; lra. }
      rewrite Lp in Dc.
      pose proof (nodes_product a b (S k') ltac:(lia) ltac:(lra) t Ht) as Np. fold ln in Np.
      set (W := diffs (pts rx k' k') t) in *. set (W' := diffs ln t) in *.
      assert (HW : Rabs W <= (w / 2) ^ S k' * / 2 ^ (S k' - 2) + INR (S k') * (1 + u) ^ S k' * u).
      { replace W with (W' + (W - W')) by ring. eapply Rle_trans; [apply Rabs_triang|]. apply Rplus_le_compat; [exact Np|].
        apply Rle_trans with (1 := Dc). apply Rmult_le_compat_l; [apply Rmult_le_pos; [apply pos_INR|apply pow_le; lra]|]. lra. }
      assert (F0 : 0 <= F (S k') / INR (fact (S k'))).
      { apply Rmult_le_pos; [exact Fn|]. left. apply Rinv_0_lt_compat. apply INR_fact_lt_0. }
      assert (IE' : Rabs (nform rx f (S k') t - f t) <= chebyshev_bound (S k') w (F (S k')) + nodes_error).
      { apply Rle_trans with (1 := IE). apply Rle_trans with (F (S k') / INR (fact (S k')) * ((w / 2) ^ S k' * / 2 ^ (S k' - 2) + INR (S k') * (1 + u) ^ S k' * u)).
        - apply Rmult_le_compat_l; [exact F0|exact HW].
        - unfold chebyshev_bound, nodes_error. rewrite Rmult_plus_distr_l. unfold Rdiv at 4. lra. }
      pose proof (Rabs_tri3 _ _ _ _ _ VE IE'). lra.
    - intros H0 j Hj. rewrite Nts by exact Hj.
      assert (Rx : forall i, (i <= k')%nat -> Rabs (rval (X i)) <= / 2 + u).
      { intros i Hi. pose proof (Bx i Hi). apply Rabs_le. lra. }
      pose proof (coef_explicit k' nd nd_ok X Y f G g E Gp Gap St Sz Gr (/ 2 + u) ltac:(lra) Rx j) as CE.
      unfold coef_error in CE. replace (1 + (/ 2 + u)) with (3 / 2 + u) in CE by lra. fold coefs_error in CE. fold rx in CE.
      destruct (coef_chain (ncoef rx f (S k')) (S k')) as (qq & Q0 & Q1 & Q2 & Q3).
      assert (ID : Rabs (qq j 0 - d j 0) <= F (S k') / INR (fact (S k' - j)) * (hi - lo) ^ (S k' - j)).
      { apply (interp_derivative f d qq lo hi (pts rx k' k') (S k') j (F (S k')) NDp Lp); try assumption.
        - intros y Hy. apply (Ip y Hy).
        - intros y Hy. apply Bf; [lia|exact Hy].
        - intros y Hy. rewrite Q0, ncoef_val. apply (Ip y Hy).
        - lia.
        - lra. }
      rewrite Q3 in ID by lia. pose proof (INR_fact_lt_0 j) as Fj.
      assert (ID' : Rabs (ncoef rx f (S k') j - d j 0 / INR (fact j)) <= F (S k') / INR (fact (S k' - j)) * (1 + 2 * u) ^ (S k' - j) / INR (fact j)).
      { apply Rmult_le_reg_l with (INR (fact j)); [exact Fj|].
        rewrite <- (Rabs_right (INR (fact j))) at 1 by lra. rewrite <- Rabs_mult.
        replace (INR (fact j) * (ncoef rx f (S k') j - d j 0 / INR (fact j))) with (INR (fact j) * ncoef rx f (S k') j - d j 0) by (field; lra).
        apply Rle_trans with (1 := ID).
        replace (INR (fact j) * (F (S k') / INR (fact (S k' - j)) * (1 + 2 * u) ^ (S k' - j) / INR (fact j)))
          with (F (S k') / INR (fact (S k' - j)) * (1 + 2 * u) ^ (S k' - j)) by (field; repeat split; apply INR_fact_neq_0).
        apply Rmult_le_compat_l; [apply Rmult_le_pos; [exact Fn|left; apply Rinv_0_lt_compat; apply INR_fact_lt_0]|].
        apply pow_incr. lra. }
      pose proof (Rabs_tri3 _ _ _ _ _ CE ID'). lra.
  Qed.

  Theorem approx_bound o fuel e x p r : right_parity p (S k') = true -> has_parity p f a b -> approx o fuel e (S k') xmin xmax x p nd = Ok r ->
    (forall xv y, lo <= rval xv <= hi -> value_at o fuel nd e x xv y -> Rabs (rval y - f (rval xv)) <= E O * u) ->
    forall I, real_interp I -> a <= i_path I x <= b ->
      Rabs (den I r - f (i_path I x)) <= chebyshev_bound (S k') w (F (S k')) + nodes_error + digits_error.
  Proof.
    intros RP Par Ap Ev I HI Hx. destruct (approx_explicit o fuel e x p r RP Ap Ev) as (ts & L & Mp & _ & Main & _).
    rewrite (emitted_value ts x p r I ltac:(rewrite L; exact RP) Mp HI).
    set (t := i_path I x) in *. clearbody t. unfold parity_part. destruct p; cbn [has_parity] in Par.
    1, 2: destruct Par as (Ab & Pf); pose proof (Main t Hx) as Ma; pose proof (Main (- t) ltac:(lra)) as Mb; rewrite (Pf t Hx) in Mb;
      set (Bd := chebyshev_bound _ _ _ + nodes_error + digits_error) in *; clearbody Bd;
      apply Rabs_inv_le in Ma; apply Rabs_inv_le in Mb; apply Rabs_le; lra.
    apply Main. exact Hx.
  Qed.
End Approx.
