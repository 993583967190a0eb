(** Interpolation at a finite number of digits: the error at the points. *)
From Coq Require Import ZArith QArith Qabs Qfield List Bool Arith Lia Lqa Setoid.
From Verif Require Import Res Dec DecFacts Poly PolyFacts EvalFacts.
Import ListNotations.
Open Scope Q_scope.

Lemma Qmult_le_l_compat a b c : 0 <= a -> b <= c -> a * b <= a * c.
Proof. intros H K. rewrite !(Qmult_comm a). apply Qmult_le_compat_r; assumption. Qed.
Definition near (e a b : Q) : Prop := Qabs (a - b) <= e.
Lemma near_iff e a b : near e a b <-> - e <= a - b /\ a - b <= e.
Proof. unfold near. apply Qabs_Qle_condition. Qed.
Lemma near_le e e' a b : near e a b -> e <= e' -> near e' a b.
Proof. rewrite !near_iff. lra. Qed.
Lemma near_refl a : near 0 a a.
Proof. rewrite near_iff. lra. Qed.
Lemma near_eq e a a' b b' : near e a b -> a == a' -> b == b' -> near e a' b'.
Proof. rewrite !near_iff. lra. Qed.
Lemma near_trans e f a b c : near e a b -> near f b c -> near (e + f) a c.
Proof. rewrite !near_iff. lra. Qed.
Lemma near_add e f a b c d : near e a b -> near f c d -> near (e + f) (a + c) (b + d).
Proof. rewrite !near_iff. lra. Qed.
Lemma near_sub e f a b c d : near e a b -> near f c d -> near (e + f) (a - c) (b - d).
Proof. rewrite !near_iff. lra. Qed.
Lemma abs_mul_le a b A B : Qabs a <= A -> Qabs b <= B -> Qabs (a * b) <= A * B.
Proof. intros H K. rewrite Qabs_Qmult. apply Qmult_le_compat_nonneg; split; auto using Qabs_nonneg. Qed.
Lemma near_mul e f a b c d B D : near e a b -> near f c d -> Qabs b <= B -> Qabs d <= D ->
  near (e * (D + f) + B * f) (a * c) (b * d).
Proof.
  intros H K Hb Hd. unfold near in *.
  setoid_replace (a * c - b * d) with ((a - b) * c + b * (c - d)) by ring.
  assert (C : Qabs c <= D + f).
  { setoid_replace c with (d + (c - d)) by ring. eapply Qle_trans; [apply Qabs_triangle|]. lra. }
  eapply Qle_trans; [apply Qabs_triangle|].
  pose proof (abs_mul_le _ _ _ _ H C). pose proof (abs_mul_le _ _ _ _ Hb K). lra.
Qed.
Lemma near_abs e a b B : near e a b -> Qabs b <= B -> Qabs a <= B + e.
Proof.
  intros H Hb. setoid_replace a with (b + (a - b)) by ring. eapply Qle_trans; [apply Qabs_triangle|]. unfold near in H. lra.
Qed.
Lemma abs_le_iff a b : Qabs a <= b <-> - b <= a /\ a <= b.
Proof. apply Qabs_Qle_condition. Qed.
Lemma abs_div_le a b A h : Qabs a <= A -> 0 < h -> h <= Qabs b -> Qabs (a / b) <= A / h.
Proof.
  intros Ha Hh Hb. unfold Qdiv. rewrite Qabs_Qmult, Qabs_Qinv.
  apply Qmult_le_compat_nonneg; split; auto using Qabs_nonneg.
  - apply Qinv_le_0_compat. apply Qabs_nonneg.
  - assert (0 < Qabs b) by lra.
    setoid_replace (/ h) with (Qabs b * (/ h * / Qabs b)) by (field; split; intros E; rewrite E in *; lra).
    setoid_replace (/ Qabs b) with (h * (/ h * / Qabs b)) at 1 by (field; split; intros E; rewrite E in *; lra).
    apply Qmult_le_compat_r; [exact Hb|]. apply Qmult_le_0_compat; apply Qinv_le_0_compat; lra.
Qed.

Section Conf.
  Variable k' : nat.
  Variables h M Y0 : Q.
  Hypothesis h_pos : 0 < h.
  Hypothesis M_pos : 0 <= M.
  Hypothesis Y_pos : 0 <= Y0.

  Definition conf (nd : Z) (X Y : nat -> bd) : Prop :=
    (0 <= nd <= 99)%Z /\
    (forall i, (i <= k')%nat -> Qabs (dval (X i)) <= M) /\
    (forall i, (i <= k')%nat -> Qabs (dval (Y i)) <= Y0) /\
    (forall i j, (i <= k')%nat -> (j <= k')%nat -> i <> j -> h <= Qabs (dval (X i) - dval (X j))).

  Fixpoint dd_bd (nd : Z) (X Y : nat -> bd) (i m : nat) : bd :=
    match i with
    | O => Y m
    | S i' =>
        if (i' <? m)%nat then
          match ddiv (dsub (dd_bd nd X Y i' m) (dd_bd nd X Y i' (m - 1))) (dsub (X m) (X (m - 1 - i')%nat)) with
          | Ok q => round q nd
          | _ => dzero
          end
        else dd_bd nd X Y i' m
    end.
  Notation XQ X := (fun i => dval (X i)).

  Lemma unit_small nd : (0 <= nd <= 99)%Z -> 0 < p10 (- nd) /\ p10 (- nd) <= 1 /\ p10 (-99) <= p10 (- nd).
  Proof.
    intros H. split; [apply p10_pos|]. split; [|apply p10_mono; lia]. change 1 with (p10 0). apply p10_mono. lia.
  Qed.
  Lemma divisor_nz nd X Y i j : conf nd X Y -> (i <= k')%nat -> (j <= k')%nat -> i <> j -> ~ dval (dsub (X i) (X j)) == 0.
  Proof.
    intros (_ & _ & _ & D) Hi Hj N E. specialize (D i j Hi Hj N). rewrite dval_dsub in E. rewrite E in D.
    change (Qabs 0) with 0 in D. lra.
  Qed.

  Lemma dd_bd_pass nd X Y : conf nd X Y -> forall i, (i < k')%nat ->
    dd_pass (bd_arith nd) X i (dd_bd nd X Y i) (dd_bd nd X Y (1 + i)) k'.
  Proof.
    intros C i Hi. split.
    - intros m Hm. cbn [n_div n_sub n_round bd_arith]. cbn [dd_bd plus].
      replace (i <? m)%nat with true by (symmetry; apply Nat.ltb_lt; lia).
      destruct (ddiv_ok (dsub (dd_bd nd X Y i m) (dd_bd nd X Y i (m - 1))) (dsub (X m) (X (m - 1 - i)%nat))) as [q Q].
      { apply (divisor_nz nd X Y); auto; lia. }
      exists q. rewrite Q. auto.
    - intros m Hm. cbn [dd_bd plus]. replace (i <? m)%nat with false by (symmetry; apply Nat.ltb_ge; lia). reflexivity.
  Qed.

  Lemma dd_err i : exists B E, 0 <= B /\ 0 <= E /\ forall nd X Y, conf nd X Y -> forall m, (m <= k')%nat ->
    Qabs (dd_at (XQ X) (XQ Y) i m) <= B /\
    near (E * p10 (- nd)) (dval (dd_bd nd X Y i m)) (dd_at (XQ X) (XQ Y) i m).
  Proof.
    induction i as [|i (B & E & HB & HE & IH)].
    - exists Y0, 0. split; [exact Y_pos|]. split; [lra|]. intros nd X Y C m Hm. split; [apply C; exact Hm|].
      cbn [dd_at dd_bd]. apply (near_le 0); [apply near_refl|]. lra.
    - assert (H2 : 0 <= / h) by (apply Qinv_le_0_compat; lra).
      exists (B + (B + B) / h), (E + ((2 * E) / h + ((B + B) + 2 * E) / h + 1)).
      assert (P1 : 0 <= (B + B) / h) by (apply Qmult_le_0_compat; lra).
      assert (P2 : 0 <= (2 * E) / h) by (apply Qmult_le_0_compat; lra).
      assert (P3 : 0 <= ((B + B) + 2 * E) / h) by (apply Qmult_le_0_compat; lra).
      split; [lra|]. split; [lra|]. intros nd X Y C m Hm.
      destruct (unit_small nd (proj1 C)) as (U0 & U1 & U2).
      cbn [dd_at dd_bd]. destruct (Nat.ltb_spec i m) as [L|L].
      2:{ destruct (IH nd X Y C m Hm) as [I1 I2]. split; [lra|]. eapply near_le; [exact I2|]. apply Qmult_le_compat_r; lra. }
      destruct (IH nd X Y C m Hm) as [I1 I2]. destruct (IH nd X Y C (m - 1)%nat ltac:(lia)) as [J1 J2].
      set (D := dd_at _ _ i m) in *. set (D' := dd_at _ _ i (m - 1)) in *.
      set (F := dd_bd nd X Y i m) in *. set (F' := dd_bd nd X Y i (m - 1)) in *.
      pose proof (divisor_nz nd X Y m (m - 1 - i) C ltac:(lia) ltac:(lia) ltac:(lia)) as NZ.
      assert (HX : h <= Qabs (dval (X m) - dval (X (m - 1 - i)%nat))) by (apply C; lia).
      set (w := dsub (X m) (X (m - 1 - i)%nat)) in *.
      assert (Ew : dval w == dval (X m) - dval (X (m - 1 - i)%nat)) by apply dval_dsub.
      set (dx := dval (X m) - dval (X (m - 1 - i)%nat)) in *.
      destruct (ddiv_ok (dsub F F') w NZ) as [q Q]. rewrite Q.
      pose proof (ddiv_err _ _ _ Q) as QE.
      assert (NX : ~ dx == 0) by (rewrite <- Ew; exact NZ).
      assert (V : dval (dsub F F') / dval w == (dval F - dval F') / dx) by (rewrite dval_dsub, Ew; reflexivity).
      rewrite V in QE.
      assert (DD : Qabs (D - D') <= B + B).
      { apply abs_le_iff in I1. apply abs_le_iff in J1. apply abs_le_iff. lra. }
      pose proof (abs_div_le _ dx _ h DD h_pos HX) as DQ.
      assert (FD : Qabs ((dval F - dval F') - (D - D')) <= 2 * E * p10 (- nd)).
      { pose proof (near_sub _ _ _ _ _ _ I2 J2) as N. unfold near in N. lra. }
      pose proof (abs_div_le _ dx _ h FD h_pos HX) as FQ.
      assert (FE : ((dval F - dval F') - (D - D')) / dx == (dval F - dval F') / dx - (D - D') / dx) by (field; exact NX).
      rewrite FE in FQ.
      assert (FU : 2 * E * p10 (- nd) / h == (2 * E) / h * p10 (- nd)) by (field; lra). rewrite FU in FQ.
      assert (FA : Qabs ((dval F - dval F') / dx) <= ((B + B) + 2 * E) / h).
      { apply (near_abs _ _ _ _ FQ) in DQ. eapply Qle_trans; [exact DQ|].
        setoid_replace (((B + B) + 2 * E) / h) with ((B + B) / h + (2 * E) / h) by (field; lra).
        assert (2 * E / h * p10 (- nd) <= 2 * E / h * 1) by (apply Qmult_le_l_compat; lra). lra. }
      split; [lra|].
      pose proof (round_err q nd (proj1 (proj1 C))) as RE.
      assert (S1 : (1 # 2) * p10 (-99) * Qabs ((dval F - dval F') / dx) <= ((B + B) + 2 * E) / h * p10 (- nd)).
      { setoid_replace (((B + B) + 2 * E) / h * p10 (- nd)) with (p10 (- nd) * (((B + B) + 2 * E) / h)) by ring.
        pose proof (p10_pos (-99)) as DP. set (d := p10 (-99)) in *. clearbody d.
        apply Qmult_le_compat_nonneg; split; [lra|lra|apply Qabs_nonneg|exact FA]. }
      assert (NQ : near (((B + B) + 2 * E) / h * p10 (- nd)) (dval q) ((dval F - dval F') / dx)) by (unfold near; lra).
      pose proof (near_trans _ _ _ _ _ RE (near_trans _ _ _ _ _ NQ FQ)) as T.
      eapply near_le; [exact T|].
      setoid_replace ((E + (2 * E / h + (B + B + 2 * E) / h + 1)) * p10 (- nd))
        with (E * p10 (- nd) + 2 * E / h * p10 (- nd) + (B + B + 2 * E) / h * p10 (- nd) + p10 (- nd)) by ring.
      assert (0 <= E * p10 (- nd)) by (apply Qmult_le_0_compat; lra). lra.
  Qed.

  (** The coefficients of the basis. *)
  Lemma newton_err i : exists B E, 0 <= B /\ 0 <= E /\ forall nd X Y, conf nd X Y -> (i <= k')%nat -> forall j,
    Qabs (newton_at q_arith (XQ X) i j) <= B /\
    near (E * p10 (- nd)) (dval (newton_at (bd_arith nd) X i j)) (newton_at q_arith (XQ X) i j).
  Proof.
    induction i as [|i (B & E & HB & HE & IH)].
    - exists 1, 0. split; [lra|]. split; [lra|]. intros nd X Y C Hi j. cbn [newton_at]. destruct (j =? 0)%nat; cbn.
      + split; [discriminate|]. unfold near. cbn. discriminate.
      + split; [discriminate|]. unfold near. cbn. discriminate.
    - exists (B * M + B), ((E * M) + E + 1).
      assert (0 <= B * M) by (apply Qmult_le_0_compat; lra). assert (0 <= E * M) by (apply Qmult_le_0_compat; lra).
      split; [lra|]. split; [lra|]. intros nd X Y C Hi j.
      destruct (unit_small nd (proj1 C)) as (U0 & U1 & U2).
      assert (Hx : Qabs (dval (X i)) <= M) by (apply C; lia).
      assert (Hc : Qabs (- dval (X i)) <= M) by (rewrite Qabs_opp; exact Hx).
      assert (Mul : forall j, Qabs (newton_at q_arith (XQ X) i j * (- dval (X i))) <= B * M /\
        near (E * M * p10 (- nd)) (dval (dmul (newton_at (bd_arith nd) X i j) (dneg (X i)))) (newton_at q_arith (XQ X) i j * (- dval (X i)))).
      { intros l. destruct (IH nd X Y C ltac:(lia) l) as [I1 I2]. split; [apply abs_mul_le; auto|].
        pose proof (near_mul _ 0 _ _ _ _ B M I2 (near_refl (- dval (X i))) I1 Hc) as N.
        eapply near_eq; [eapply near_le; [exact N|]|rewrite dval_dmul, dval_dneg; reflexivity|reflexivity].
        setoid_replace (E * p10 (- nd) * (M + 0) + B * 0) with (E * M * p10 (- nd)) by ring. apply Qle_refl. }
      cbn [newton_at]. destruct (Nat.eqb_spec j 0) as [->|J].
      + destruct (Mul O) as [M1 M2]. cbn [n_mul n_neg q_arith bd_arith]. split; [lra|].
        eapply near_le; [exact M2|]. apply Qmult_le_compat_r; lra.
      + destruct (Mul j) as [M1 M2]. destruct (IH nd X Y C ltac:(lia) (j - 1)%nat) as [I1 I2].
        cbn [n_mul n_neg n_add n_round q_arith bd_arith].
        set (a := newton_at q_arith (XQ X) i j : Q) in *. set (b := newton_at q_arith (XQ X) i (j - 1) : Q) in *.
        split; [eapply Qle_trans; [apply Qabs_triangle|]; lra|].
        pose proof (round_err (dadd (dmul (newton_at (bd_arith nd) X i j) (dneg (X i))) (newton_at (bd_arith nd) X i (j - 1))) nd (proj1 (proj1 C))) as RE.
        assert (N : near (E * M * p10 (- nd) + E * p10 (- nd)) (dval (dadd (dmul (newton_at (bd_arith nd) X i j) (dneg (X i))) (newton_at (bd_arith nd) X i (j - 1)))) (a * (- dval (X i)) + b)).
        { eapply near_eq; [exact (near_add _ _ _ _ _ _ M2 I2)|rewrite dval_dadd; reflexivity|reflexivity]. }
        eapply near_le; [exact (near_trans _ _ _ _ _ RE N)|].
        setoid_replace ((E * M + E + 1) * p10 (- nd)) with (E * M * p10 (- nd) + E * p10 (- nd) + p10 (- nd)) by ring. lra.
  Qed.

  Lemma terms_err i : exists E, 0 <= E /\ forall nd X Y, conf nd X Y -> (i <= S k')%nat -> forall j,
    near (E * p10 (- nd)) (dval (terms_at (bd_arith nd) X (dd_bd nd X Y k') i j))
                          (terms_at q_arith (XQ X) (dd_at (XQ X) (XQ Y) k') i j).
  Proof.
    destruct (dd_err k') as (BD & ED & HBD & HED & HD).
    induction i as [|i (E & HE & IH)].
    - exists 0. split; [lra|]. intros nd X Y C Hi j. cbn [terms_at n_zero q_arith bd_arith]. unfold near. cbn. discriminate.
    - destruct (newton_err i) as (BN & EN & HBN & HEN & HN).
      exists (E + (EN * (BD + ED) + BN * ED) + 1).
      assert (P1 : 0 <= EN * (BD + ED)) by (apply Qmult_le_0_compat; lra).
      assert (P2 : 0 <= BN * ED) by (apply Qmult_le_0_compat; lra).
      split; [lra|]. intros nd X Y C Hi j. destruct (unit_small nd (proj1 C)) as (U0 & U1 & U2).
      specialize (IH nd X Y C ltac:(lia) j). destruct (HN nd X Y C ltac:(lia) j) as [N1 N2].
      destruct (HD nd X Y C i ltac:(lia)) as [D1 D2].
      cbn [terms_at n_add n_mul n_round q_arith bd_arith].
      pose proof (near_mul _ _ _ _ _ _ _ _ N2 D2 N1 D1) as P.
      pose proof (round_err (dmul (newton_at (bd_arith nd) X i j) (dd_bd nd X Y k' i)) nd (proj1 (proj1 C))) as RE.
      assert (RE' : near ((1 # 2) * p10 (- nd)) (dval (round (dmul (newton_at (bd_arith nd) X i j) (dd_bd nd X Y k' i)) nd))
                      (dval (newton_at (bd_arith nd) X i j) * dval (dd_bd nd X Y k' i))).
      { eapply near_eq; [exact RE|reflexivity|apply dval_dmul]. }
      pose proof (near_add _ _ _ _ _ _ IH (near_trans _ _ _ _ _ RE' P)) as A.
      eapply near_eq; [eapply near_le; [exact A|]|rewrite dval_dadd; reflexivity|reflexivity].
      set (u := p10 (- nd)) in *.
      assert (Q1 : EN * u * (BD + ED * u) <= EN * u * (BD + ED)).
      { apply Qmult_le_l_compat; [apply Qmult_le_0_compat; lra|].
        assert (ED * u <= ED * 1) by (apply Qmult_le_l_compat; lra). lra. }
      setoid_replace ((E + (EN * (BD + ED) + BN * ED) + 1) * u) with (E * u + (EN * u * (BD + ED) + BN * (ED * u)) + u) by ring.
      lra.
  Qed.

  Lemma pow_bound x i : Qabs x <= M -> Qabs (qpow x i) <= qpow M i.
  Proof. intros H. induction i as [|i IH]; cbn [qpow]; [discriminate|]. apply abs_mul_le; auto. Qed.
  Lemma sum_err E x f g n : 0 <= E -> Qabs x <= M -> (forall j, (j < n)%nat -> near E (f j) (g j)) ->
    near (E * qsum n (qpow M)) (qsum n (fun j => f j * qpow x j)) (qsum n (fun j => g j * qpow x j)).
  Proof.
    intros HE Hx. induction n as [|n IH]; intros H.
    - cbn. unfold near. cbn. lra.
    - cbn [qsum]. eapply near_le; [apply near_add; [apply IH; auto|]|].
      + assert (T : near (E * qpow M n) (f n * qpow x n) (g n * qpow x n)).
        { unfold near. setoid_replace (f n * qpow x n - g n * qpow x n) with ((f n - g n) * qpow x n) by ring.
          apply abs_mul_le; [apply H; lia|apply pow_bound; exact Hx]. }
        exact T.
      + setoid_replace (E * (qsum n (qpow M) + qpow M n)) with (E * qsum n (qpow M) + E * qpow M n) by ring. apply Qle_refl.
  Qed.
End Conf.

(** The constant depends only on the number of points, their spacing and the
    sizes. *)
Theorem interpolation_error (k : nat) (h M Y0 : Q) : (0 < k)%nat -> 0 < h ->
  exists C : Q, forall (nd : Z) (xs ys : list bd),
    (0 <= nd <= 99)%Z -> length xs = k -> length ys = k ->
    (forall x, In x xs -> Qabs (dval x) <= M) -> (forall y, In y ys -> Qabs (dval y) <= Y0) ->
    (forall i j a b, nth_error xs i = Some a -> nth_error xs j = Some b -> i <> j -> h <= Qabs (dval a - dval b)) ->
    exists ts, from_points (bd_arith nd) xs ys = Ok ts /\ length ts = k /\
      forall i x y, nth_error xs i = Some x -> nth_error ys i = Some y ->
        Qabs (pval (map dval ts) (dval x) - dval y) <= C * p10 (- nd).
Proof.
  intros K H. destruct k as [|k']; [lia|].
  destruct (Qlt_le_dec M 0) as [HM|HM].
  { exists 0. intros nd xs ys Hnd Lx Ly HX. destruct xs as [|x xs]; [discriminate|].
    exfalso. specialize (HX x (or_introl eq_refl)). pose proof (Qabs_nonneg (dval x)). lra. }
  destruct (Qlt_le_dec Y0 0) as [HY|HY].
  { exists 0. intros nd xs ys Hnd Lx Ly _ HYs. destruct ys as [|y ys]; [discriminate|].
    exfalso. specialize (HYs y (or_introl eq_refl)). pose proof (Qabs_nonneg (dval y)). lra. }
  destruct (terms_err k' h M Y0 H HM HY (S k')) as (E & HE & T).
  exists (E * qsum (S k') (qpow M)). intros nd xs ys Hnd Lx Ly HX HYs HD.
  pose (X := fun i => nth i xs dzero). pose (Y := fun i => nth i ys dzero).
  assert (EX : xs = tab X (S k')) by (rewrite <- Lx; apply list_tab).
  assert (EY : ys = tab Y (S k')) by (rewrite <- Ly; apply list_tab).
  assert (C : conf k' h M Y0 nd X Y).
  { split; [exact Hnd|]. split; [|split].
    - intros i Hi. apply HX. apply nth_In. lia.
    - intros i Hi. apply HYs. apply nth_In. lia.
    - intros i j Hi Hj Ne. apply (HD i j); auto; rewrite EX, tab_nth_error by lia; reflexivity. }
  exists (tab (terms_at (bd_arith nd) X (dd_bd nd X Y k') (S k')) (S k')).
  split; [|split; [apply tab_length|]].
  - rewrite EX, EY. apply (from_points_ok (bd_arith nd) X (dd_bd nd X Y) k').
    intros i Hi. exact (dd_bd_pass k' h M Y0 H nd X Y C i Hi).
  - intros i x y Hx Hy.
    assert (Hi : (i < S k')%nat) by (rewrite <- Lx; apply nth_error_Some; congruence).
    rewrite EX, tab_nth_error in Hx by exact Hi. rewrite EY, tab_nth_error in Hy by exact Hi.
    inversion Hx. inversion Hy. clear Hx Hy. subst x y.
    pose (XQ := fun i => dval (X i)). pose (YQ := fun i => dval (Y i)).
    assert (DX : forall i j, (i <= k')%nat -> (j <= k')%nat -> i <> j -> ~ XQ i == XQ j).
    { intros a b Ha Hb Ne Eq. pose proof (proj2 (proj2 (proj2 C)) a b Ha Hb Ne) as S. fold (XQ a) (XQ b) in S.
      rewrite Eq in S. setoid_replace (XQ b - XQ b) with 0 in S by ring. change (Qabs 0) with 0 in S. lra. }
    pose proof (interpolates XQ YQ k' DX i ltac:(lia)) as I. rewrite pval_tab in I.
    assert (P : pval (map dval (tab (terms_at (bd_arith nd) X (dd_bd nd X Y k') (S k')) (S k'))) (dval (X i)) ==
                qsum (S k') (fun j => dval (terms_at (bd_arith nd) X (dd_bd nd X Y k') (S k') j) * qpow (dval (X i)) j)).
    { unfold tab at 1. rewrite map_map. apply (pval_tab (fun j => dval (terms_at (bd_arith nd) X (dd_bd nd X Y k') (S k') j))). }
    rewrite P. fold (YQ i). rewrite <- I.
    pose proof (sum_err M (E * p10 (- nd)) (dval (X i))
      (fun j => dval (terms_at (bd_arith nd) X (dd_bd nd X Y k') (S k') j))
      (fun j => terms_at q_arith XQ (dd_at XQ YQ k') (S k') j) (S k')) as SE.
    unfold near in SE. setoid_replace (E * qsum (S k') (qpow M) * p10 (- nd)) with (E * p10 (- nd) * qsum (S k') (qpow M)) by ring.
    apply SE.
    + apply Qmult_le_0_compat; [exact HE|]. apply Qlt_le_weak, p10_pos.
    + apply C. lia.
    + intros j Hj. apply (T nd X Y C (le_n _)).
Qed.
