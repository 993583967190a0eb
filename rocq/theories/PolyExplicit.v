(** [from_points] at a finite number of digits: explicit bounds on the coefficients and the values. *)
From Coq Require Import ZArith QArith Qabs Qreals Reals List Bool Arith Lia Lra.
From Verif Require Import Res Dec DecFacts RFacts Poly PolyFacts PolyErr Interp DivDiff.
Import ListNotations.
Open Scope R_scope.

Lemma rval_round_0 z nd : (0 <= nd)%Z -> rval z = 0 -> rval (round z nd) = 0.
Proof.
  intros H E. assert (E' : (dval z == dval dzero)%Q) by (apply eqR_Qeq; unfold rval in E; rewrite E; unfold Q2R; cbn; lra).
  apply round_compat with (n := nd) in E'. rewrite (round_id dzero) in E' by (right; cbn; exact H). unfold rval. rewrite (Qeq_eqR _ _ E').
  unfold Q2R. cbn. lra.
Qed.
Lemma rval_done : rval done = 1.
Proof. unfold rval, Q2R. cbn. lra. Qed.
Lemma rval_dzero : rval dzero = 0.
Proof. unfold rval, Q2R. cbn. lra. Qed.

Lemma Rabs_tri3 a b c e1 e2 : Rabs (a - b) <= e1 -> Rabs (b - c) <= e2 -> Rabs (a - c) <= e1 + e2.
Proof. intros H K. replace (a - c) with ((a - b) + (b - c)) by ring. eapply Rle_trans; [apply Rabs_triang|]. lra. Qed.
Lemma Rabs_mult_le a b A B : Rabs a <= A -> Rabs b <= B -> Rabs (a * b) <= A * B.
Proof. intros H K. rewrite Rabs_mult. apply Rmult_le_compat; try apply Rabs_pos; assumption. Qed.

Lemma dd_bd_stable nd X Y i m : (m <= i)%nat -> dd_bd nd X Y i m = dd_bd nd X Y m m.
Proof.
  induction i as [|i IH]; intros H; [replace m with O by lia; reflexivity|].
  destruct (Nat.eq_dec m (S i)) as [->|Ne]; [reflexivity|]. cbn [dd_bd].
  replace (i <? m)%nat with false by (symmetry; apply Nat.ltb_ge; lia). apply IH. lia.
Qed.

(** The sum 1 + r + ... of the powers of |t| is at most 2. *)
Lemma half_powers t n : Rabs t <= / 2 -> rsum n (fun j => Rabs t ^ j) <= 2.
Proof.
  intros H. pose proof (Rabs_pos t) as P. set (r := Rabs t) in *. clearbody r.
  assert (G : rsum n (fun j => r ^ j) <= 2 - r ^ n * 2 * / 1).
  { induction n as [|n IH]; cbn [rsum pow]; [lra|]. assert (0 <= r ^ n) by (apply pow_le; exact P). nra. }
  assert (0 <= r ^ n) by (apply pow_le; exact P). lra.
Qed.

Section Explicit.
  Variable k' : nat.
  Variable nd : Z.
  Hypothesis nd_ok : (2 <= nd <= 97)%Z.
  Variables X Y : nat -> bd.
  Variable f : R -> R.
  Variables G g E : nat -> R.
  Notation x := (fun i => rval (X i)).
  Notation u := (r10 (- nd)).

  Hypothesis g_pos : forall i, (1 <= i <= k')%nat -> 0 < g i.
  Hypothesis gap : forall i j, (i < j <= k')%nat -> g (j - i)%nat <= Rabs (x j - x i).
  Hypothesis start : forall i, (i <= k')%nat -> Rabs (rval (Y i) - f (x i)) <= E O * u.
  Hypothesis size : forall i m, (i <= m <= k')%nat -> Rabs (rdd x f i m) <= G i.
  (** The growth of the error from one column to the next, in units of the last digit. *)
  Hypothesis grow : forall i, (i < k')%nat -> 2 * E i / g (S i) * (1 + / 200) + G (S i) / 200 + / 2 <= E (S i).

  Lemma unit_bound : 0 < u <= / 100.
  Proof.
    split; [apply r10_pos|]. apply Rle_trans with (r10 (-2)).
    - apply r10_mono. lia.
    - change (-2)%Z with (- (2))%Z. rewrite r10_opp, r10_IZR by lia. change (10 ^ 2)%Z with 100%Z. lra.
  Qed.
  Lemma delta_bound : 0 < delta <= / 200 * u.
  Proof.
    split; [apply delta_pos|]. unfold delta. apply Rle_trans with (/ 2 * (/ 100 * u)); [|lra]. apply Rmult_le_compat_l; [lra|].
    replace (/ 100) with (r10 (-2)). 2:{ change (-2)%Z with (- (2))%Z. rewrite r10_opp, r10_IZR by lia. reflexivity. }
    rewrite <- r10_plus. apply r10_mono. lia.
  Qed.

  Lemma gap_nz i j : (i <= k')%nat -> (j <= k')%nat -> i <> j -> x i <> x j.
  Proof.
    intros Hi Hj Ne Eq.
    assert (K : forall a b, (a < b <= k')%nat -> x a <> x b).
    { intros a b H Eq'. pose proof (gap a b H) as Gp. pose proof (g_pos (b - a)%nat ltac:(lia)) as P. cbv beta in *.
      rewrite <- Eq', Rminus_eq_0, Rabs_R0 in Gp. lra. }
    destruct (Nat.lt_ge_cases i j); [apply (K i j); [lia|exact Eq]|apply (K j i); [lia|symmetry; exact Eq]].
  Qed.

  Lemma dd_pass_ok i : (i < k')%nat -> dd_pass (bd_arith nd) X i (dd_bd nd X Y i) (dd_bd nd X Y (1 + i)) k'.
  Proof.
    intros Hi. split.
    - intros m Hm. cbn [n_div n_sub n_round bd_arith]. cbn [dd_bd plus].
      replace (i <? m)%nat with true by (symmetry; apply Nat.ltb_lt; lia).
      destruct (ddiv_R (dsub (dd_bd nd X Y i m) (dd_bd nd X Y i (m - 1))) (dsub (X m) (X (m - 1 - i)%nat))) as (q & Q & _).
      { rewrite rval_dsub. intros Z. apply (gap_nz m (m - 1 - i)%nat); try lia. cbv beta. lra. }
      exists q. rewrite Q. auto.
    - intros m Hm. cbn [dd_bd plus]. replace (i <? m)%nat with false by (symmetry; apply Nat.ltb_ge; lia). reflexivity.
  Qed.

  Lemma E_pos i : (i <= k')%nat -> 0 <= E i.
  Proof.
    pose proof unit_bound as U.
    induction i as [|i IH]; intros H.
    - pose proof (start O ltac:(lia)) as S. pose proof (Rabs_pos (rval (Y O) - f (x O))). apply Rmult_le_reg_r with u; [lra|]. lra.
    - specialize (IH ltac:(lia)). pose proof (grow i ltac:(lia)) as Gr. pose proof (g_pos (S i) ltac:(lia)) as P.
      pose proof (size (S i) (S i) ltac:(lia)) as Z. pose proof (Rabs_pos (rdd x f (S i) (S i))) as ZP.
      assert (0 <= 2 * E i / g (S i)) by (apply Rmult_le_pos; [lra|left; apply Rinv_0_lt_compat; exact P]). lra.
  Qed.

  Lemma dd_explicit i : forall m, (i <= m <= k')%nat -> Rabs (rval (dd_bd nd X Y i m) - rdd x f i m) <= E i * u.
  Proof.
    pose proof unit_bound as U. pose proof delta_bound as D.
    induction i as [|i IH]; intros m Hm; [apply start; lia|].
    cbn [dd_bd]. replace (i <? m)%nat with true by (symmetry; apply Nat.ltb_lt; lia).
    assert (NZ : x m - x (m - 1 - i)%nat <> 0).
    { intros Z. apply (gap_nz m (m - 1 - i)%nat); try lia. lra. }
    pose proof (gap (m - 1 - i)%nat m ltac:(lia)) as Gp. replace (m - (m - 1 - i))%nat with (S i) in Gp by lia.
    pose proof (g_pos (S i) ltac:(lia)) as P. pose proof (grow i ltac:(lia)) as Gr. pose proof (E_pos i ltac:(lia)) as EP.
    destruct (ddiv_R (dsub (dd_bd nd X Y i m) (dd_bd nd X Y i (m - 1))) (dsub (X m) (X (m - 1 - i)%nat))) as (q & Q & QE).
    { rewrite rval_dsub. exact NZ. }
    rewrite Q. rewrite !rval_dsub in QE.
    pose proof (IH m ltac:(lia)) as I1. pose proof (IH (m - 1)%nat ltac:(lia)) as I2.
    set (a := rval (dd_bd nd X Y i m)) in *. set (b := rval (dd_bd nd X Y i (m - 1))) in *.
    pose proof (size (S i) m Hm) as Sz. pose proof (round_err_R q nd ltac:(lia)) as RE. cbn [rdd] in *.
    set (A := rdd x f i m) in *. set (B := rdd x f i (m - 1)) in *. cbv beta in *.
    set (w := rval (X m) - rval (X (m - 1 - i)%nat)) in *.
    assert (T : Rabs ((a - b) / w - (A - B) / w) <= 2 * E i / g (S i) * u).
    { replace ((a - b) / w - (A - B) / w) with (((a - A) - (b - B)) * / w) by (field; exact NZ).
      rewrite Rabs_mult. replace (2 * E i / g (S i) * u) with ((2 * E i * u) * / g (S i)) by (field; lra).
      apply Rmult_le_compat; try apply Rabs_pos.
      - unfold Rminus at 1. eapply Rle_trans; [apply Rabs_triang|]. rewrite Rabs_Ropp. lra.
      - rewrite Rabs_inv. apply Rinv_le_contravar; [exact P|exact Gp]. }
    set (e1 := 2 * E i / g (S i)) in *.
    assert (e1p : 0 <= e1) by (unfold e1; apply Rmult_le_pos; [lra|left; apply Rinv_0_lt_compat; exact P]).
    assert (Sq : Rabs ((a - b) / w) <= G (S i) + e1).
    { replace ((a - b) / w) with ((A - B) / w + ((a - b) / w - (A - B) / w)) by ring. eapply Rle_trans; [apply Rabs_triang|].
      assert (e1 * u <= e1 * 1) by (apply Rmult_le_compat_l; lra). lra. }
    assert (Dq : delta * Rabs ((a - b) / w) <= / 200 * u * (G (S i) + e1)) by (apply Rmult_le_compat; try apply Rabs_pos; lra).
    eapply Rle_trans; [apply (Rabs_tri3 _ (rval q) _ (/ 2 * u) (/ 200 * u * (G (S i) + e1) + e1 * u)); [exact RE|]|].
    - apply (Rabs_tri3 _ ((a - b) / w)); [lra|exact T].
    - replace (/ 2 * u + (/ 200 * u * (G (S i) + e1) + e1 * u)) with ((e1 * (1 + / 200) + G (S i) / 200 + / 2) * u) by field.
      apply Rmult_le_compat_r; lra.
  Qed.

  (** The coefficients of the products. *)
  Notation nu i j := (rval (newton_at (bd_arith nd) X i j)).
  Lemma nu_high i : forall j, (i < j)%nat -> nu i j = 0.
  Proof.
    induction i as [|i IH]; intros j H; cbn [newton_at].
    - destruct (Nat.eqb_spec j 0); [lia|]. apply rval_dzero.
    - destruct (Nat.eqb_spec j 0); [lia|]. cbn [n_round n_add n_mul n_neg bd_arith]. apply rval_round_0; [lia|].
      rewrite rval_dadd, rval_dmul, !IH by lia. ring.
  Qed.
  (** One multiplication: exact at 0, rounded elsewhere. *)
  Lemma nu_step i j : exists e, Rabs e <= / 2 * u /\
    nu (S i) j = - x i * nu i j + match j with O => 0 | S j' => nu i j' end + e.
  Proof.
    pose proof unit_bound as U. cbn [newton_at]. destruct j as [|j]; cbn [Nat.eqb].
    - exists 0. split; [rewrite Rabs_R0; lra|]. cbn [n_mul n_neg bd_arith]. rewrite rval_dmul, rval_dneg. ring.
    - cbn [n_round n_add n_mul n_neg bd_arith]. replace (S j - 1)%nat with j by lia.
      set (z := dadd _ _). exists (rval (round z nd) - rval z). split; [apply round_err_R; lia|].
      unfold z. rewrite rval_dadd, rval_dmul, rval_dneg. ring.
  Qed.

  (** Coefficient by coefficient, for points of size at most rho. *)
  Lemma nu_coef rho : 0 <= rho -> (forall i, (i <= k')%nat -> Rabs (x i) <= rho) -> forall i j, (i <= k')%nat ->
    Rabs (wcoef x i j) <= (1 + rho) ^ i /\ Rabs (nu i j - wcoef x i j) <= INR i * (1 + rho) ^ i * u.
  Proof.
    intros HR HX i. pose proof unit_bound as U. induction i as [|i IH]; intros j Hi.
    - cbn [newton_at wcoef INR pow]. rewrite Rmult_0_l, Rmult_0_l. destruct j; cbn [Nat.eqb n_one n_zero bd_arith];
        rewrite ?rval_done, ?rval_dzero, ?Rminus_eq_0, ?Rabs_R0, ?Rabs_R1; lra.
    - destruct (nu_step i j) as (e & He & Ee). rewrite Ee. cbn [wcoef]. rewrite S_INR. cbn [pow].
      assert (Hx : Rabs (- x i) <= rho) by (rewrite Rabs_Ropp; apply HX; lia).
      set (q := (1 + rho) ^ i) in *. assert (Q1 : 1 <= q) by (apply pow_R1_Rle; lra).
      destruct (IH j ltac:(lia)) as (W1 & N1).
      pose proof (Rabs_mult_le _ _ _ _ Hx W1) as W2. pose proof (Rabs_mult_le _ _ _ _ Hx N1) as N2. pose proof (pos_INR i) as Ip.
      assert (QU : u <= q * u) by nra. assert (QR : 0 <= rho * q * u) by (apply Rmult_le_pos; [apply Rmult_le_pos|]; lra).
      assert (IQ : 0 <= INR i * q * u) by (apply Rmult_le_pos; [apply Rmult_le_pos|]; lra).
      destruct j as [|j].
      + split; [rewrite Rplus_0_r; lra|].
        replace (- x i * nu i 0 + 0 + e - (- x i * wcoef x i 0 + 0)) with (- x i * (nu i 0 - wcoef x i 0) + e) by ring.
        eapply Rle_trans; [apply Rabs_triang|]. nra.
      + destruct (IH j ltac:(lia)) as (W3 & N3). split.
        * eapply Rle_trans; [apply Rabs_triang|]. lra.
        * replace (- x i * nu i (S j) + nu i j + e - (- x i * wcoef x i (S j) + wcoef x i j))
            with (- x i * (nu i (S j) - wcoef x i (S j)) + (nu i j - wcoef x i j) + e) by ring.
          eapply Rle_trans; [apply Rabs_triang|]. eapply Rle_trans; [apply Rplus_le_compat_r, Rabs_triang|]. nra.
  Qed.

  Section At.
  (** As a function, at a point t within 1/2; kappa bounds the distances to the points, wb their products. *)
  Variable t : R.
  Hypothesis t_half : Rabs t <= / 2.
  Variable kappa : R.
  Hypothesis k_one : 1 <= kappa.
  Hypothesis dist : forall i, (i <= k')%nat -> Rabs (t - x i) <= kappa.
  Variable wb : nat -> R.
  Hypothesis prod : forall i, (i <= k')%nat -> Rabs (wprod x i t) <= wb i.

  Lemma err_sum (e : nat -> R) n : (forall j, Rabs (e j) <= / 2 * u) -> Rabs (rsum n (fun j => e j * t ^ j)) <= u.
  Proof.
    intros H. pose proof unit_bound as U. eapply Rle_trans; [apply rsum_abs|].
    apply Rle_trans with (/ 2 * u * rsum n (fun j => Rabs t ^ j)).
    - rewrite <- rsum_scal. apply rsum_le. intros j _. rewrite Rabs_mult, <- RPow_abs. apply Rmult_le_compat_r; [apply pow_le, Rabs_pos|apply H].
    - pose proof (half_powers t n t_half). nra.
  Qed.

  Notation nuval i := (rsum (S k') (fun j => nu i j * t ^ j)).
  Lemma choice_nu i : exists e : nat -> R, (forall j, Rabs (e j) <= / 2 * u) /\
    forall j, nu (S i) j = - x i * nu i j + match j with O => 0 | S j' => nu i j' end + e j.
  Proof.
    exists (fun j => nu (S i) j - (- x i * nu i j + match j with O => 0 | S j' => nu i j' end)). split; intros j; [|ring].
    destruct (nu_step i j) as (e & He & Ee). rewrite Ee.
    replace (_ - _) with e by ring. exact He.
  Qed.
  Lemma nu_val i : (i <= k')%nat -> Rabs (nuval i - wprod x i t) <= INR i * kappa ^ i * u.
  Proof.
    pose proof unit_bound as U. induction i as [|i IH]; intros Hi.
    - assert (Z : nuval 0 = 1).
      { rewrite rsum_shift. cbn [newton_at Nat.eqb n_one bd_arith]. rewrite rval_done.
        rewrite (rsum_ext k' _ (fun _ => 0)). 2:{ intros j _. cbn [Nat.eqb n_zero bd_arith]. rewrite rval_dzero. ring. } rewrite rsum_0. cbn. ring. }
      rewrite Z. cbn. rewrite Rminus_eq_0, Rabs_R0. lra.
    - pose proof (IH ltac:(lia)) as N1. destruct (choice_nu i) as (e & He & Ee).
      set (q := kappa ^ i) in *. assert (Q1 : 1 <= q) by (apply pow_R1_Rle; lra). pose proof (dist i ltac:(lia)) as Di. pose proof (pos_INR i) as Ip.
      assert (V : nuval (S i) = (t - x i) * nuval i + rsum (S k') (fun j => e j * t ^ j)).
      { rewrite (rsum_ext (S k') _ (fun j => (- x i * (nu i j * t ^ j) + match j with O => 0 | S j' => nu i j' end * t ^ j) + e j * t ^ j)).
        2:{ intros j _. rewrite Ee. ring. }
        rewrite !rsum_add, rsum_scal. f_equal. rewrite (rsum_shift k' (fun j => match j with O => 0 | S j' => nu i j' end * t ^ j)).
        rewrite (rsum_ext k' (fun i0 => nu i i0 * t ^ S i0) (fun j => t * (nu i j * t ^ j))) by (intros; cbn [pow]; ring).
        rewrite rsum_scal. assert (Top : nuval i = rsum k' (fun j => nu i j * t ^ j)).
        { cbn [rsum]. rewrite (nu_high i k') by lia. ring. }
        rewrite <- Top. ring. }
      rewrite V. cbn [wprod]. rewrite S_INR. cbn [pow]. fold q.
      replace ((t - x i) * nuval i + rsum (S k') (fun j => e j * t ^ j) - wprod x i t * (t - x i))
        with ((t - x i) * (nuval i - wprod x i t) + rsum (S k') (fun j => e j * t ^ j)) by ring.
      eapply Rle_trans; [apply Rabs_triang|]. pose proof (err_sum e (S k') He) as Es.
      pose proof (Rabs_mult_le _ _ _ _ Di N1) as M1.
      assert (QU : u <= kappa * q * u). { assert (1 <= kappa * q) by nra. nra. }
      replace ((INR i + 1) * (kappa * q) * u) with (kappa * (INR i * q * u) + kappa * q * u) by ring. lra.
  Qed.

  (** The value of the polynomial. *)
  Notation D := (dd_bd nd X Y k').
  Notation term i j := (rval (terms_at (bd_arith nd) X D i j)).
  Definition value_error : R := rsum (S k') (fun i => (G i + E i * u) * (INR i * kappa ^ i) + E i * wb i + 1) * u.
  Lemma term_step i j : exists e, Rabs e <= / 2 * u /\ term (S i) j = term i j + rval (D i) * nu i j + e.
  Proof.
    cbn [terms_at n_add n_round n_mul bd_arith]. set (z := dmul _ _). exists (rval (round z nd) - rval z).
    split; [apply round_err_R; lia|]. rewrite rval_dadd. unfold z. rewrite rval_dmul. ring.
  Qed.
  Lemma D_close i : (i <= k')%nat -> Rabs (rval (D i) - rdd x f i i) <= E i * u /\ Rabs (rval (D i)) <= G i + E i * u.
  Proof.
    intros H. rewrite dd_bd_stable by exact H. pose proof (dd_explicit i i ltac:(lia)) as A. split; [exact A|].
    replace (rval (dd_bd nd X Y i i)) with (rdd x f i i + (rval (dd_bd nd X Y i i) - rdd x f i i)) by ring.
    eapply Rle_trans; [apply Rabs_triang|]. pose proof (size i i ltac:(lia)). lra.
  Qed.
  Lemma value_explicit : Rabs (rsum (S k') (fun j => term (S k') j * t ^ j) - nform x f (S k') t) <= value_error.
  Proof.
    pose proof unit_bound as U.
    assert (K : forall m, (m <= S k')%nat -> Rabs (rsum (S k') (fun j => term m j * t ^ j) - nform x f m t) <=
      rsum m (fun i => (G i + E i * u) * (INR i * kappa ^ i) + E i * wb i + 1) * u).
    { induction m as [|m IH]; intros Hm.
      - unfold nform. cbn [rsum terms_at n_zero bd_arith]. rewrite rval_dzero.
        rewrite (rsum_ext k' _ (fun _ => 0)) by (intros; ring). rewrite rsum_0. replace (_ - 0) with 0 by ring. rewrite Rabs_R0. lra.
      - specialize (IH ltac:(lia)). unfold nform in *. 
        assert (Ch : exists e : nat -> R, (forall j, Rabs (e j) <= / 2 * u) /\ forall j, term (S m) j = term m j + rval (D m) * nu m j + e j).
        { exists (fun j => term (S m) j - (term m j + rval (D m) * nu m j)). split; intros j; [|ring].
          destruct (term_step m j) as (e & He & Ee). rewrite Ee. replace (_ - _) with e by ring. exact He. }
        destruct Ch as (e & He & Ee).
        assert (TV : rsum (S k') (fun j => term (S m) j * t ^ j) = rsum (S k') (fun j => term m j * t ^ j) +
          rval (D m) * nuval m + rsum (S k') (fun j => e j * t ^ j)).
        { rewrite (rsum_ext (S k') _ (fun j => (term m j * t ^ j + rval (D m) * (nu m j * t ^ j)) + e j * t ^ j)).
          2:{ intros j _. rewrite Ee. ring. }
          rewrite !rsum_add, rsum_scal. reflexivity. }
        rewrite TV. clear TV. set (T := rsum (S k') (fun j => term m j * t ^ j)) in *.
        pose proof (err_sum e (S k') He) as Es. set (ES := rsum (S k') (fun j => e j * t ^ j)) in *.
        pose proof (nu_val m ltac:(lia)) as N1. pose proof (prod m ltac:(lia)) as W1. set (V := nuval m) in *.
        destruct (D_close m ltac:(lia)) as (D1 & D2). clearbody T ES V.
        cbn [rsum]. set (S0 := rsum m (fun i => rdd x f i i * wprod x i t)) in *. set (R0 := rsum m (fun i => _ + _ + 1)) in *.
        replace (T + rval (D m) * V + ES - (S0 + rdd x f m m * wprod x m t))
          with ((T - S0) + rval (D m) * (V - wprod x m t) + (rval (D m) - rdd x f m m) * wprod x m t + ES) by ring.
        eapply Rle_trans; [apply Rabs_triang|]. eapply Rle_trans; [apply Rplus_le_compat_r, Rabs_triang|].
        eapply Rle_trans; [apply Rplus_le_compat_r, Rplus_le_compat_r, Rabs_triang|].
        pose proof (Rabs_mult_le _ _ _ _ D2 N1) as P1. pose proof (Rabs_mult_le _ _ _ _ D1 W1) as P2.
        set (q := kappa ^ m) in *.
        replace ((R0 + ((G m + E m * u) * (INR m * q) + E m * wb m + 1)) * u)
          with (R0 * u + (G m + E m * u) * (INR m * q * u) + E m * u * wb m + u) by ring. lra. }
    apply K. lia.
  Qed.
  End At.

  (** The coefficients of the polynomial. *)
  Notation D := (dd_bd nd X Y k').
  Notation term i j := (rval (terms_at (bd_arith nd) X D i j)).
  Definition coef_error (rho : R) : R :=
    rsum (S k') (fun i => (G i + E i * u) * (INR i * (1 + rho) ^ i) + E i * (1 + rho) ^ i + 1) * u.
  Lemma coef_explicit rho : 0 <= rho -> (forall i, (i <= k')%nat -> Rabs (x i) <= rho) -> forall j,
    Rabs (term (S k') j - ncoef x f (S k') j) <= coef_error rho.
  Proof.
    intros HR HX j. pose proof unit_bound as U.
    assert (K : forall m, (m <= S k')%nat -> Rabs (term m j - ncoef x f m j) <=
      rsum m (fun i => (G i + E i * u) * (INR i * (1 + rho) ^ i) + E i * (1 + rho) ^ i + 1) * u).
    { induction m as [|m IH]; intros Hm.
      - unfold ncoef. cbn [rsum terms_at n_zero bd_arith]. rewrite rval_dzero, Rminus_0_r, Rabs_R0. lra.
      - specialize (IH ltac:(lia)). unfold ncoef in *. destruct (term_step m j) as (e & He & Ee). rewrite Ee.
        destruct (nu_coef rho HR HX m j ltac:(lia)) as (W1 & N1). destruct (D_close m ltac:(lia)) as (D1 & D2).
        cbn [rsum]. set (S0 := rsum m (fun i => rdd x f i i * wcoef x i j)) in *. set (R0 := rsum m (fun i => _ + _ + 1)) in *.
        set (V := nu m j) in *. set (W := wcoef x m j) in *. set (T := term m j) in *.
        replace (T + rval (D m) * V + e - (S0 + rdd x f m m * W))
          with ((T - S0) + rval (D m) * (V - W) + (rval (D m) - rdd x f m m) * W + e) by ring.
        eapply Rle_trans; [apply Rabs_triang|]. eapply Rle_trans; [apply Rplus_le_compat_r, Rabs_triang|].
        eapply Rle_trans; [apply Rplus_le_compat_r, Rplus_le_compat_r, Rabs_triang|].
        pose proof (Rabs_mult_le _ _ _ _ D2 N1) as P1. pose proof (Rabs_mult_le _ _ _ _ D1 W1) as P2.
        set (q := (1 + rho) ^ m) in *.
        replace ((R0 + ((G m + E m * u) * (INR m * q) + E m * q + 1)) * u)
          with (R0 * u + (G m + E m * u) * (INR m * q * u) + E m * u * q + u) by ring. lra. }
    apply K. lia.
  Qed.
End Explicit.
