(** Divided differences over the reals: Newton's form, its derivatives and the size of the coefficients. *)
From Coq Require Import Reals Lra Lia List Arith Sorted Permutation.
From Verif Require Import Interp.
Import ListNotations.
Open Scope R_scope.

(** ** Sums *)
Fixpoint rsum (n : nat) (f : nat -> R) : R := match n with O => 0 | S n' => rsum n' f + f n' end.

Lemma rsum_ext n f g : (forall i, (i < n)%nat -> f i = g i) -> rsum n f = rsum n g.
Proof. induction n as [|n IH]; intros H; [reflexivity|]. cbn [rsum]. rewrite IH by (intros; apply H; lia). rewrite H by lia. reflexivity. Qed.
Lemma rsum_add n f g : rsum n (fun i => f i + g i) = rsum n f + rsum n g.
Proof. induction n as [|n IH]; cbn [rsum]; [ring|]. rewrite IH. ring. Qed.
Lemma rsum_scal n c f : rsum n (fun i => c * f i) = c * rsum n f.
Proof. induction n as [|n IH]; cbn [rsum]; [ring|]. rewrite IH. ring. Qed.
Lemma rsum_0 n : rsum n (fun _ => 0) = 0.
Proof. induction n as [|n IH]; cbn [rsum]; [reflexivity|]. rewrite IH. ring. Qed.
Lemma rsum_shift n f : rsum (S n) f = f O + rsum n (fun i => f (S i)).
Proof. induction n as [|n IH]; [cbn [rsum]; ring|]. cbn [rsum] in *. rewrite IH. ring. Qed.
Lemma rsum_le n f g : (forall i, (i < n)%nat -> f i <= g i) -> rsum n f <= rsum n g.
Proof. induction n as [|n IH]; intros H; cbn [rsum]; [lra|]. apply Rplus_le_compat; [apply IH; intros; apply H; lia|apply H; lia]. Qed.
Lemma rsum_abs n f : Rabs (rsum n f) <= rsum n (fun i => Rabs (f i)).
Proof.
  induction n as [|n IH]; cbn [rsum]; [rewrite Rabs_R0; lra|]. eapply Rle_trans; [apply Rabs_triang|]. lra.
Qed.
Lemma rsum_pos n f : (forall i, (i < n)%nat -> 0 <= f i) -> 0 <= rsum n f.
Proof. intros H. rewrite <- (rsum_0 n). apply rsum_le. exact H. Qed.

(** ** Divided differences *)
Section DD.
  Variable x : nat -> R.
  Variable f : R -> R.

  (** of order i on the points m - i .. m *)
  Fixpoint rdd (i m : nat) : R :=
    match i with
    | O => f (x m)
    | S i' => (rdd i' m - rdd i' (m - 1)) / (x m - x (m - 1 - i')%nat)
    end.
  (** The polynomial through those points. *)
  Fixpoint nev (i m : nat) (t : R) : R :=
    match i with
    | O => f (x m)
    | S i' => ((t - x (m - 1 - i')%nat) * nev i' m t - (t - x m) * nev i' (m - 1) t) / (x m - x (m - 1 - i')%nat)
    end.

  Lemma nev_interp k : (forall i j, (i <= k)%nat -> (j <= k)%nat -> i <> j -> x i <> x j) ->
    forall i m j, (i <= m <= k)%nat -> (m - i <= j <= m)%nat -> nev i m (x j) = f (x j).
  Proof.
    intros D i. induction i as [|i IH]; intros m j Hm Hj.
    - cbn. f_equal. f_equal. lia.
    - cbn [nev]. assert (NZ : x m - x (m - 1 - i)%nat <> 0).
      { intros E. apply (D m (m - 1 - i)%nat); try lia. lra. }
      destruct (Nat.eq_dec j m) as [->|Ne].
      + rewrite IH by lia. field. exact NZ.
      + rewrite (IH (m - 1)%nat j) by lia. destruct (Nat.eq_dec j (m - 1 - i)%nat) as [->|Ne'].
        * field. exact NZ.
        * rewrite (IH m j) by lia. field. exact NZ.
  Qed.

  Lemma nev_degree i m : degree i (INR (fact i) * rdd i m) (nev i m).
  Proof.
    revert m. induction i as [|i IH]; intros m.
    - cbn [fact rdd nev]. replace (INR 1 * f (x m)) with (f (x m)) by (cbn; ring). apply degree_const.
    - cbn [nev rdd].
      set (h := / (x m - x (m - 1 - i)%nat)).
      apply degree_ext with (fun t => h * ((t - x (m - 1 - i)%nat) * nev i m t + -1 * ((t - x m) * nev i (m - 1) t))).
      { intros t. unfold Rdiv, h. ring. }
      replace (INR (fact (S i)) * ((rdd i m - rdd i (m - 1)) / (x m - x (m - 1 - i)%nat)))
        with (h * (INR (S i) * (INR (fact i) * rdd i m) + -1 * (INR (S i) * (INR (fact i) * rdd i (m - 1))))).
      2:{ unfold Rdiv. fold h. change (fact (S i)) with (S i * fact i)%nat. rewrite mult_INR. ring. }
      apply degree_scal. apply degree_plus; [apply degree_lin, IH|]. apply degree_scal. apply degree_lin, IH.
  Qed.

  Definition pts (m i : nat) : list R := map x (seq (m - i) (S i)).
  Lemma pts_nodup k m i : (forall i j, (i <= k)%nat -> (j <= k)%nat -> i <> j -> x i <> x j) -> (i <= m <= k)%nat -> NoDup (pts m i).
  Proof.
    intros D H. unfold pts. apply NoDup_nth_error. intros a b Ha E. rewrite map_length, seq_length in Ha.
    destruct (Nat.lt_ge_cases b (S i)) as [Hb|Hb].
    - rewrite !nth_error_map, !(nth_error_nth' _ O), !seq_nth in E by (rewrite ?seq_length; lia). cbn in E. inversion E as [E'].
      destruct (Nat.eq_dec a b) as [|Ne]; [assumption|]. exfalso. apply (D (m - i + a)%nat (m - i + b)%nat); try lia. exact E'.
    - exfalso. rewrite (proj2 (nth_error_None (map x (seq (m - i) (S i))) b)) in E by (rewrite map_length, seq_length; exact Hb).
      apply nth_error_None in E. rewrite map_length, seq_length in E. lia.
  Qed.
  Lemma pts_in m i y : In y (pts m i) -> exists j, (m - i <= j < m - i + S i)%nat /\ y = x j.
  Proof. unfold pts. intros H. apply in_map_iff in H. destruct H as (j & <- & Hj). apply in_seq in Hj. exists j. split; [lia|reflexivity]. Qed.

  Lemma rdd_bound k d i m a b F : (forall i j, (i <= k)%nat -> (j <= k)%nat -> i <> j -> x i <> x j) -> (i <= m <= k)%nat ->
    (forall j, (j <= k)%nat -> a <= x j <= b) -> derivatives f d i a b -> (forall t, a <= t <= b -> Rabs (d i t) <= F) ->
    Rabs (rdd i m) <= F / INR (fact i).
  Proof.
    intros D Hm B (D0 & D1) HF. destruct (nev_degree i m) as (q & Q0 & Q1 & Q2). pose proof (INR_fact_lt_0 i) as Fp.
    destruct (sorted_perm (pts m i) (pts_nodup k m i D Hm)) as (l & Sl & Pl).
    destruct (rolle_chain i (fun j t => d j t - q j t) a b l) as (c & Bc & Ec).
    - intros j t Hj Ht. apply (derivable_pt_lim_minus (d j) (q j)); [apply D1; assumption|apply Q1].
    - exact Sl.
    - apply Permutation_length in Pl. unfold pts in Pl. rewrite map_length, seq_length in Pl. lia.
    - intros y Hy. apply (Permutation_in _ (Permutation_sym Pl)) in Hy. destruct (pts_in _ _ _ Hy) as (j & Hj & ->).
      assert (Bj : a <= x j <= b) by (apply B; lia). split; [exact Bj|].
      rewrite D0 by exact Bj. rewrite Q0, (nev_interp k D i m j) by lia. ring.
    - specialize (HF c Bc). rewrite Q2 in Ec. assert (EK : d i c = INR (fact i) * rdd i m) by lra.
      rewrite EK, Rabs_mult, (Rabs_right (INR _)) in HF by lra.
      apply Rmult_le_reg_l with (INR (fact i)); [exact Fp|]. replace (INR (fact i) * (F / INR (fact i))) with F by (field; lra). exact HF.
  Qed.

  (** ** Newton's form *)
  Fixpoint wprod (i : nat) (t : R) : R := match i with O => 1 | S i' => wprod i' t * (t - x i') end.
  Definition nform (n : nat) (t : R) : R := rsum n (fun i => rdd i i * wprod i t).

  Lemma wprod_diffs i t : wprod i t = diffs (map x (seq 0 i)) t.
  Proof.
    assert (App : forall l a, diffs (l ++ [a]) t = diffs l t * (t - a)).
    { induction l as [|b l IH]; intros a; [cbn; ring|]. cbn [app diffs fold_right]. unfold diffs in IH. rewrite IH. ring. }
    induction i as [|i IH]; [reflexivity|]. rewrite seq_S, map_app. cbn [map plus wprod]. rewrite App, IH. reflexivity.
  Qed.
  Lemma wprod_zero i j : (j < i)%nat -> wprod i (x j) = 0.
  Proof. intros H. rewrite wprod_diffs. apply diffs_in. apply in_map. apply in_seq. lia. Qed.

  Lemma nform_nev k : (forall i j, (i <= k)%nat -> (j <= k)%nat -> i <> j -> x i <> x j) ->
    forall n, (n <= k)%nat -> forall t, nform (S n) t = nev n n t.
  Proof.
    intros D n. induction n as [|n IH]; intros Hn t; [unfold nform; cbn; ring|].
    unfold nform. cbn [rsum]. fold (nform n t). change (nform n t + rdd n n * wprod n t) with (nform (S n) t).
    rewrite IH by lia.
    assert (ND : NoDup (pts n n)) by (apply (pts_nodup k); [exact D|lia]).
    assert (Len : length (pts n n) = S n) by (unfold pts; rewrite map_length, seq_length; reflexivity).
    assert (Eq : forall t, nev n n t = nev (S n) (S n) t + -1 * (rdd (S n) (S n) * wprod (S n) t)).
    { apply (degree_unique (S n) 0 _ _ (pts n n) ND Len).
      - apply degree_le with n (INR (fact n) * rdd n n); [lia|apply nev_degree].
      - replace 0 with (INR (fact (S n)) * rdd (S n) (S n) + -1 * (rdd (S n) (S n) * INR (fact (S n)))) by ring.
        apply degree_plus; [apply nev_degree|]. apply degree_scal. apply degree_scal.
        apply degree_ext with (diffs (map x (seq 0 (S n)))); [intros y; symmetry; apply wprod_diffs|].
        replace (S n) with (length (map x (seq 0 (S n)))) at 1 2 by (rewrite map_length, seq_length; reflexivity). apply degree_diffs.
      - intros y Hy. destruct (pts_in _ _ _ Hy) as (j & Hj & ->). rewrite wprod_zero by lia.
        rewrite (nev_interp k D n n j), (nev_interp k D (S n) (S n) j) by lia. ring. }
    rewrite Eq. cbn [rdd wprod] in *. ring.
  Qed.

  (** The coefficients of the products and of the form. *)
  Fixpoint wcoef (i j : nat) : R :=
    match i with
    | O => match j with O => 1 | S _ => 0 end
    | S i' => - x i' * wcoef i' j + match j with O => 0 | S j' => wcoef i' j' end
    end.
  Definition ncoef (n j : nat) : R := rsum n (fun i => rdd i i * wcoef i j).

  Lemma wcoef_high i : forall j, (i < j)%nat -> wcoef i j = 0.
  Proof.
    induction i as [|i IH]; intros j H; destruct j as [|j]; try lia; cbn [wcoef]; [reflexivity|]. rewrite !IH by lia. ring.
  Qed.
  Lemma wcoef_val n i t : (i < n)%nat -> rsum n (fun j => wcoef i j * t ^ j) = wprod i t.
  Proof.
    intros H. destruct n as [|k]; [lia|]. revert H. induction i as [|i IH]; intros H.
    - rewrite rsum_shift. cbn [wcoef pow wprod]. rewrite (rsum_ext k _ (fun _ => 0)) by (intros; ring). rewrite rsum_0. ring.
    - rewrite rsum_shift. cbn [wcoef wprod].
      rewrite (rsum_ext k _ (fun j => (- x i) * (wcoef i (S j) * t ^ S j) + t * (wcoef i j * t ^ j))) by (intros; cbn [pow]; ring).
      rewrite rsum_add, !rsum_scal. rewrite <- IH by lia.
      pose proof (rsum_shift k (fun j => wcoef i j * t ^ j)) as Sh.
      assert (Low : rsum (S k) (fun j => wcoef i j * t ^ j) = rsum k (fun j => wcoef i j * t ^ j)).
      { cbn [rsum]. rewrite (wcoef_high i k) by lia. ring. }
      rewrite Low in Sh at 1. rewrite Low. set (s := rsum k (fun j => wcoef i j * t ^ j)) in *.
      set (r := rsum k (fun j => wcoef i (S j) * t ^ S j)) in *. clearbody r s. rewrite Sh. cbn [pow]. ring.
  Qed.
  Lemma ncoef_val n t : rsum n (fun j => ncoef n j * t ^ j) = nform n t.
  Proof.
    unfold ncoef, nform.
    assert (G : forall m, (m <= n)%nat -> rsum n (fun j => rsum m (fun i => rdd i i * wcoef i j) * t ^ j) = rsum m (fun i => rdd i i * wprod i t)).
    { induction m as [|m IH]; intros H.
      - cbn [rsum]. rewrite (rsum_ext n _ (fun _ => 0)) by (intros; ring). apply rsum_0.
      - cbn [rsum]. rewrite <- IH by lia. rewrite <- (wcoef_val n m t) by lia. rewrite <- rsum_scal, <- rsum_add.
        apply rsum_ext. intros; ring. }
    apply G. lia.
  Qed.
End DD.

(** ** Derivatives of the polynomial through n points *)

(** The derivatives of a polynomial with coefficients c at 0. *)
Lemma coef_chain (c : nat -> R) n : exists q : nat -> R -> R,
  (forall t, q O t = rsum n (fun j => c j * t ^ j)) /\ (forall j t, derivable_pt_lim (q j) t (q (S j) t)) /\
  (forall t, q n t = 0) /\ forall j, (j < n)%nat -> q j 0 = INR (fact j) * c j.
Proof.
  revert c. induction n as [|n IH]; intros c.
  - exists (fun _ _ => 0). split; [reflexivity|]. split; [intros; apply (derivable_pt_lim_const 0)|]. split; [reflexivity|]. intros; lia.
  - (* c_0 + t * (c_1 + ...) *)
    destruct (IH (fun j => INR (S j) * c (S j))) as (q & Q0 & Q1 & Q2 & Q3).
    exists (fun j t => match j with O => rsum (S n) (fun j => c j * t ^ j) | S j' => q j' t end).
    split; [reflexivity|]. split; [|split].
    + intros [|j] t; [|apply Q1]. rewrite Q0.
      assert (D : forall m, derivable_pt_lim (fun t => rsum (S m) (fun j => c j * t ^ j)) t (rsum m (fun j => INR (S j) * c (S j) * t ^ j))).
      { induction m as [|m IHm].
        - cbn [rsum]. eapply dpl_ext; [| |apply (derivable_pt_lim_const (c O))]; [intros y; unfold fct_cte; cbn; ring|reflexivity].
        - change (rsum (S m) (fun j => INR (S j) * c (S j) * t ^ j)) with (rsum m (fun j => INR (S j) * c (S j) * t ^ j) + INR (S m) * c (S m) * t ^ m).
          eapply dpl_ext; [| |apply (derivable_pt_lim_plus _ _ _ _ _ IHm (derivable_pt_lim_scal _ (c (S m)) _ _ (derivable_pt_lim_pow t (S m))))].
          + intros y. cbn [rsum]. reflexivity.
          + cbn [pred]. ring. }
      apply D.
    + intros t. apply Q2.
    + intros [|j] Hj.
      * rewrite rsum_shift. rewrite (rsum_ext n _ (fun _ => 0)) by (intros; cbn [pow]; ring). rewrite rsum_0. cbn. ring.
      * rewrite Q3 by lia. change (fact (S j)) with (S j * fact j)%nat. rewrite mult_INR. ring.
Qed.

Lemma rolle_drop k : forall d a b l,
  (forall j x, (j < k)%nat -> a <= x <= b -> derivable_pt_lim (d j) x (d (S j) x)) ->
  StronglySorted Rlt l -> (forall x, In x l -> a <= x <= b /\ d O x = 0) ->
  exists l', StronglySorted Rlt l' /\ length l' = (length l - k)%nat /\ forall x, In x l' -> a <= x <= b /\ d k x = 0.
Proof.
  induction k as [|k IH]; intros d a b l D S H.
  - exists l. split; [exact S|]. split; [lia|exact H].
  - destruct (rolle_list (d O) (d 1%nat) a b (fun x => D O x ltac:(lia)) l S H) as (l' & S' & L' & H' & _).
    destruct (IH (fun j => d (Datatypes.S j)) a b l') as (l2 & S2 & L2 & H2).
    + intros j x Hj. apply D. lia.
    + exact S'.
    + exact H'.
    + exists l2. split; [exact S2|]. split; [lia|exact H2].
Qed.

Lemma diffs_le l t w : (forall y, In y l -> Rabs (t - y) <= w) -> Rabs (diffs l t) <= w ^ length l.
Proof.
  induction l as [|a l IH]; intros H; [cbn; rewrite Rabs_R1; lra|].
  cbn [diffs fold_right length pow]. rewrite Rabs_mult. apply Rmult_le_compat; try apply Rabs_pos.
  - apply H. left. reflexivity.
  - apply IH. intros y Hy. apply H. right. exact Hy.
Qed.

Lemma interp_derivative f d q a b (l : list R) n j F : NoDup l -> length l = n -> (forall x, In x l -> a <= x <= b) -> derivatives f d n a b ->
  (forall x, a <= x <= b -> Rabs (d n x) <= F) ->
  (forall i x, derivable_pt_lim (q i) x (q (S i) x)) -> (forall x, q n x = 0) -> (forall x, In x l -> q O x = f x) -> (j <= n)%nat ->
  forall t, a <= t <= b -> Rabs (q j t - d j t) <= F / INR (fact (n - j)) * (b - a) ^ (n - j).
Proof.
  intros N L B (D0 & D) HF Q1 Qn E Hj t Ht.
  destruct (sorted_perm l N) as (m & Sm & Pm).
  destruct (rolle_drop j (fun i x => d i x - q i x) a b m) as (l' & S' & L' & H').
  - intros i x Hi Hx. apply (derivable_pt_lim_minus (d i) (q i)); [apply D; [lia|exact Hx]|apply Q1].
  - exact Sm.
  - intros x Hx. apply (Permutation_in _ (Permutation_sym Pm)) in Hx. split; [apply B; exact Hx|].
    rewrite D0 by (apply B; exact Hx). rewrite (E x Hx). ring.
  - apply Permutation_length in Pm. assert (Ll : length l' = (n - j)%nat) by lia.
    assert (ND : NoDup l').
    { clear - S'. induction S' as [|a l S IH F]; constructor; [|exact IH]. intros I. rewrite Forall_forall in F. specialize (F a I). lra. }
    assert (K : Rabs (q j t - d j t) <= F / INR (fact (length l')) * Rabs (diffs l' t)).
    { apply (interp_error (d j) (fun i => d (j + i)%nat) (q j) a b l' F ND).
      - intros x Hx. apply H'. exact Hx.
      - split; [intros x _; rewrite Nat.add_0_r; reflexivity|]. intros i x Hi Hx. rewrite <- plus_n_Sm. apply D; [lia|exact Hx].
      - rewrite Ll. replace (j + (n - j))%nat with n by lia. exact HF.
      - exists (fun i => q (j + i)%nat). split; [intros x; rewrite Nat.add_0_r; reflexivity|]. split.
        + intros i x. rewrite <- plus_n_Sm. apply Q1.
        + intros x. rewrite Ll. replace (j + (n - j))%nat with n by lia. apply Qn.
      - intros x Hx. destruct (H' x Hx) as (_ & Z). lra.
      - exact Ht. }
    rewrite Ll in K. apply Rle_trans with (1 := K). apply Rmult_le_compat_l.
    + pose proof (HF t Ht) as HFt. pose proof (Rabs_pos (d n t)). pose proof (INR_fact_lt_0 (n - j)).
      apply Rmult_le_pos; [lra|left; apply Rinv_0_lt_compat; assumption].
    + rewrite <- Ll. apply diffs_le. intros y Hy. destruct (H' y Hy) as (By & _). apply Rabs_le. lra.
Qed.
