(** Polynomial interpolation: the loops in closed form, and their exactness. *)
From Coq Require Import ZArith QArith Qfield List Bool Arith Lia Setoid.
From Verif Require Import Res Dec DecFacts Poly.
Import ListNotations.
Open Scope nat_scope.

(** ** Lists as functions *)
Definition tab {A} (f : nat -> A) (k : nat) : list A := map f (seq 0 k).
Lemma tab_length {A} (f : nat -> A) k : length (tab f k) = k.
Proof. unfold tab. rewrite map_length, seq_length. reflexivity. Qed.
Lemma tab_nth_error {A} (f : nat -> A) k i : i < k -> nth_error (tab f k) i = Some (f i).
Proof.
  intros H. unfold tab. rewrite nth_error_map.
  rewrite (nth_error_nth' (seq 0 k) 0) by (rewrite seq_length; exact H). rewrite seq_nth by exact H. reflexivity.
Qed.
Lemma get_tab {A} (f : nat -> A) k i : i < k -> get (tab f k) i = Ok (f i).
Proof. intros H. unfold get. rewrite tab_nth_error by exact H. reflexivity. Qed.
Lemma tab_ext {A} (f g : nat -> A) k : (forall i, i < k -> f i = g i) -> tab f k = tab g k.
Proof. intros H. unfold tab. apply map_ext_in. intros i Hi. apply in_seq in Hi. apply H. lia. Qed.
Lemma list_tab {A} (d : A) (l : list A) : l = tab (fun i => nth i l d) (length l).
Proof.
  unfold tab. induction l as [|a l IH]; [reflexivity|]. cbn [length seq map nth]. f_equal.
  rewrite <- seq_shift, map_map. exact IH.
Qed.
Lemma list_ext {A} (u v : list A) : (forall i, nth_error u i = nth_error v i) -> u = v.
Proof.
  revert v. induction u as [|a u IH]; intros [|b v] H; auto; [specialize (H 0); discriminate H|specialize (H 0); discriminate H|].
  pose proof (H 0) as E. cbn in E. inversion E. f_equal. apply IH. intros i. exact (H (S i)).
Qed.
Lemma set_length {A} (l : list A) i a : length (set l i a) = length l.
Proof. revert i. induction l as [|x l IH]; intros [|i]; cbn; auto. Qed.
Lemma set_nth_error {A} (l : list A) i a j : i < length l ->
  nth_error (set l i a) j = if j =? i then Some a else nth_error l j.
Proof.
  revert i j. induction l as [|x l IH]; intros [|i] [|j] H; cbn in *; try lia; auto. apply IH. lia.
Qed.
Lemma set_tab {A} (f : nat -> A) k i a : i < k -> set (tab f k) i a = tab (fun j => if j =? i then a else f j) k.
Proof.
  intros H. apply list_ext. intros j. rewrite set_nth_error by (rewrite tab_length; exact H).
  destruct (Nat.lt_ge_cases j k) as [L|L].
  - rewrite !tab_nth_error by exact L. destruct (j =? i); reflexivity.
  - destruct (Nat.eqb_spec j i); [lia|].
    transitivity (@None A); [|symmetry]; apply nth_error_None; rewrite tab_length; lia.
Qed.
Lemma repeat_tab {A} (a : A) k : repeat a k = tab (fun _ => a) k.
Proof.
  unfold tab. generalize 0. induction k as [|k IH]; intros s; [reflexivity|]. cbn. f_equal. apply IH.
Qed.

(** ** Loops *)
Lemma for_each_app {T} l l' (f : nat -> T -> res T) s :
  for_each (l ++ l') f s = let? s' := for_each l f s in for_each l' f s'.
Proof.
  revert s. induction l as [|i l IH]; intros s; [reflexivity|]. cbn. destruct (f i s); cbn [rbind]; auto.
Qed.
Lemma range_S a b : a <= b -> range a (S b) = range a b ++ [b].
Proof. intros H. unfold range. replace (S b - a) with (S (b - a)) by lia. rewrite seq_S. f_equal. f_equal. lia. Qed.
Lemma range_nil a b : b <= a -> range a b = [].
Proof. intros H. unfold range. replace (b - a) with 0 by lia. reflexivity. Qed.
(** Upwards from 0. *)
Lemma for_up {T} (f : nat -> T -> res T) (st : nat -> T) k :
  (forall i, i < k -> f i (st i) = Ok (st (1 + i))) -> for_each (range 0 k) f (st 0) = Ok (st k).
Proof.
  induction k as [|k IH]; intros H; [reflexivity|].
  rewrite range_S by lia. rewrite for_each_app, IH by auto. cbn [rbind for_each]. change (st (S k)) with (st (1 + k)). rewrite H by lia. reflexivity.
Qed.
(** Downwards from b to a. *)
Lemma for_down {T} (f : nat -> T -> res T) (st : nat -> T) a b : a <= b ->
  (forall i, a <= i < b -> f i (st (1 + i)) = Ok (st i)) -> for_each (rev (range a b)) f (st b) = Ok (st a).
Proof.
  induction b as [|b IH]; intros L H.
  - replace a with 0 by lia. reflexivity.
  - destruct (Nat.eq_dec a (1 + b)) as [->|N]; [rewrite range_nil by lia; reflexivity|].
    rewrite range_S by lia. rewrite rev_app_distr. cbn [rev app for_each]. change (st (S b)) with (st (1 + b)). rewrite (H b) by lia. cbn [rbind].
    apply IH; [lia|]. intros i Hi. apply H. lia.
Qed.

Section Generic.
  Variable A : arith.
  Notation N := (num A).
  Notation "a -- b" := (n_sub A a b) (at level 50).

  (** One pass of the divided differences. *)
  Definition dd_pass (X : nat -> N) (i : nat) (f g : nat -> N) (k' : nat) : Prop :=
    (forall m, i < m <= k' ->
       exists q, n_div A (f m -- f (m - 1)) (X m -- X (m - 1 - i)) = Ok q /\ n_round A q = g m) /\
    (forall m, m <= i -> g m = f m).
  Lemma dd_inner X i f g k' : i <= k' -> dd_pass X i f g k' ->
    for_each (rev (range i k')) (dd_step A (tab X (S k')) i) (tab f (S k')) = Ok (tab g (S k')).
  Proof.
    intros L [H E].
    pose (st := fun c => tab (fun m => if c <? m then g m else f m) (S k')).
    assert (Eb : tab f (S k') = st k').
    { apply tab_ext. intros m Hm. destruct (Nat.ltb_spec k' m); [lia|reflexivity]. }
    assert (Ea : tab g (S k') = st i).
    { apply tab_ext. intros m Hm. destruct (Nat.ltb_spec i m); [reflexivity|]. apply E. lia. }
    rewrite Eb, Ea. apply for_down; [exact L|]. intros j Hj.
    unfold st, dd_step. replace (j + 1) with (1 + j) by lia.
    rewrite !get_tab by lia. cbn [rbind].
    replace (1 + j <? 1 + j) with false by (symmetry; apply Nat.ltb_irrefl).
    replace (1 + j <? j) with false by (symmetry; apply Nat.ltb_ge; lia).
    destruct (H (1 + j) ltac:(lia)) as (q & Q & R). replace (1 + j - 1) with j in Q by lia. rewrite Q. cbn [rbind].
    f_equal. rewrite set_tab by lia. apply tab_ext. intros m Hm. rewrite R.
    destruct (Nat.eqb_spec m (1 + j)) as [->|Ne].
    - replace (j <? 1 + j) with true by (symmetry; apply Nat.ltb_lt; lia). reflexivity.
    - destruct (Nat.ltb_spec (1 + j) m); destruct (Nat.ltb_spec j m); try reflexivity; lia.
  Qed.

  (** [F i] is the contents of the array after i passes. *)
  Lemma dd_all X F k' :
    (forall i, i < k' -> dd_pass X i (F i) (F (1 + i)) k') ->
    divided_differences A (tab X (S k')) (tab (F 0) (S k')) = Ok (tab (F k') (S k')).
  Proof.
    intros H. unfold divided_differences. rewrite tab_length.
    apply (for_up _ (fun i => tab (F i) (S k'))). intros i Hi. apply dd_inner; [lia|]. apply H. exact Hi.
  Qed.

  (** The coefficient arrays. *)
  Fixpoint newton_at (X : nat -> N) (i : nat) : nat -> N :=
    match i with
    | O => fun j => if j =? 0 then n_one A else n_zero A
    | S i' => fun j =>
        let c := n_neg A (X i') in
        if j =? 0 then n_mul A (newton_at X i' 0) c
        else n_round A (n_add A (n_mul A (newton_at X i' j) c) (newton_at X i' (j - 1)))
    end.
  Fixpoint terms_at (X D : nat -> N) (i : nat) (j : nat) : N :=
    match i with
    | O => n_zero A
    | S i' => n_add A (terms_at X D i' j) (n_round A (n_mul A (newton_at X i' j) (D i')))
    end.

  Lemma newton_step_ok X D k i : i < k ->
    newton_step A (tab X k) (tab D k) k i (tab (newton_at X i) k, tab (terms_at X D i) k) =
    Ok (tab (newton_at X (1 + i)) k, tab (terms_at X D (1 + i)) k).
  Proof.
    intros Hi. unfold newton_step.
    assert (T : for_each (range 0 k) (add_term A (tab (newton_at X i) k) (tab D k) i) (tab (terms_at X D i) k) =
                Ok (tab (terms_at X D (1 + i)) k)).
    { pose (st := fun c => tab (fun j => if j <? c then terms_at X D (1 + i) j else terms_at X D i j) k).
      assert (Ea : tab (terms_at X D i) k = st 0) by (apply tab_ext; reflexivity).
      assert (Eb : tab (terms_at X D (1 + i)) k = st k).
      { apply tab_ext. intros j Hj. replace (j <? k) with true by (symmetry; apply Nat.ltb_lt; exact Hj). reflexivity. }
      rewrite Ea, Eb. apply for_up. intros j Hj. unfold st, add_term. rewrite !get_tab by lia. cbn [rbind].
      rewrite Nat.ltb_irrefl. f_equal. rewrite set_tab by lia. apply tab_ext. intros m Hm.
      destruct (Nat.eqb_spec m j) as [->|Ne].
      - replace (j <? 1 + j) with true by (symmetry; apply Nat.ltb_lt; lia). reflexivity.
      - destruct (Nat.ltb_spec m j); destruct (Nat.ltb_spec m (1 + j)); try reflexivity; lia. }
    rewrite T. cbn [rbind]. rewrite (get_tab X) by exact Hi. cbn [rbind].
    pose (st := fun c => tab (fun j => if c <=? j then (if j =? 0 then newton_at X i 0 else newton_at X (1 + i) j) else newton_at X i j) k).
    assert (Sh : for_each (rev (range 1 k)) (shift_coeff A (n_neg A (X i))) (tab (newton_at X i) k) = Ok (st 1)).
    { assert (Eb : tab (newton_at X i) k = st k).
      { apply tab_ext. intros j Hj. replace (k <=? j) with false by (symmetry; apply Nat.leb_gt; lia). reflexivity. }
      rewrite Eb. apply for_down; [lia|]. intros j Hj. unfold st, shift_coeff. rewrite !get_tab by lia. cbn [rbind].
      replace (1 + j <=? j) with false by (symmetry; apply Nat.leb_gt; lia).
      replace (1 + j <=? j - 1) with false by (symmetry; apply Nat.leb_gt; lia).
      f_equal. rewrite set_tab by lia. apply tab_ext. intros m Hm.
      destruct (Nat.eqb_spec m j) as [->|Ne].
      - replace (j <=? j) with true by (symmetry; apply Nat.leb_le; lia).
        destruct (Nat.eqb_spec j 0) as [->|J]; [lia|]. cbn [newton_at plus]. replace (j =? 0) with false by (symmetry; apply Nat.eqb_neq; exact J). reflexivity.
      - destruct (Nat.leb_spec (1 + j) m); destruct (Nat.leb_spec j m); try reflexivity; lia. }
    rewrite Sh. cbn [rbind]. unfold st. rewrite get_tab by lia. cbn [Nat.leb rbind]. f_equal. f_equal.
    rewrite set_tab by lia. apply tab_ext. intros m Hm. destruct (Nat.eqb_spec m 0) as [->|Ne].
    - reflexivity.
    - destruct m; [lia|reflexivity].
  Qed.

  Lemma from_points_ok X F k' :
    (forall i, i < k' -> dd_pass X i (F i) (F (1 + i)) k') ->
    from_points A (tab X (S k')) (tab (F 0) (S k')) = Ok (tab (terms_at X (F k') (S k')) (S k')).
  Proof.
    intros H. unfold from_points. rewrite tab_length. cbn [Nat.eqb]. rewrite dd_all by exact H. cbn [rbind].
    rewrite !repeat_tab, set_tab by lia.
    replace (tab (fun j => if j =? 0 then n_one A else n_zero A) (S k')) with (tab (newton_at X 0) (S k')) by reflexivity.
    replace (tab (fun _ => n_zero A) (S k')) with (tab (terms_at X (F k') 0) (S k')) by reflexivity.
    rewrite (for_up _ (fun i => (tab (newton_at X i) (S k'), tab (terms_at X (F k') i) (S k')))).
    - reflexivity.
    - intros i Hi. apply newton_step_ok. exact Hi.
  Qed.
End Generic.

(** ** Exact arithmetic *)
Open Scope Q_scope.

Fixpoint qsum (n : nat) (f : nat -> Q) : Q :=
  match n with O => 0 | S n' => qsum n' f + f n' end.
Fixpoint qpow (x : Q) (n : nat) : Q := match n with O => 1 | S n' => x * qpow x n' end.
(** The value of the polynomial with coefficients l_0, l_1, ... *)
Definition pval (l : list Q) (x : Q) : Q := qsum (length l) (fun i => nth i l 0 * qpow x i).

Lemma qsum_ext n f g : (forall i, (i < n)%nat -> f i == g i) -> qsum n f == qsum n g.
Proof.
  induction n as [|n IH]; intros H; [reflexivity|]. cbn. rewrite IH, (H n) by auto. reflexivity.
Qed.
Lemma qsum_add n f g : qsum n (fun i => f i + g i) == qsum n f + qsum n g.
Proof. induction n as [|n IH]; cbn; [reflexivity|]. rewrite IH. ring. Qed.
Lemma qsum_scal n c f : qsum n (fun i => c * f i) == c * qsum n f.
Proof. induction n as [|n IH]; cbn; [ring|]. rewrite IH. ring. Qed.
Lemma qsum_0 n : qsum n (fun _ => 0) == 0.
Proof. induction n as [|n IH]; cbn; [reflexivity|]. rewrite IH. ring. Qed.
Lemma qsum_shift n f : qsum (S n) f == f O + qsum n (fun i => f (S i)).
Proof. induction n as [|n IH]; [cbn; ring|]. cbn [qsum] in *. rewrite IH. ring. Qed.
Lemma pval_tab f k x : pval (tab f k) x == qsum k (fun i => f i * qpow x i).
Proof.
  unfold pval. rewrite tab_length. apply qsum_ext. intros i Hi.
  rewrite (nth_error_nth (tab f k) i 0 (tab_nth_error f k i Hi)). reflexivity.
Qed.

Section Exact.
  Variables X Y : nat -> Q.
  Variable k' : nat.
  Hypothesis distinct : forall i j, (i <= k')%nat -> (j <= k')%nat -> i <> j -> ~ X i == X j.

  (** Contents of the array after i passes, in exact arithmetic. *)
  Fixpoint dd_at (i m : nat) : Q :=
    match i with
    | O => Y m
    | S i' => if (i' <? m)%nat then (dd_at i' m - dd_at i' (m - 1)) / (X m - X (m - 1 - i')) else dd_at i' m
    end.
  Lemma dd_at_pass i : (i < k')%nat -> dd_pass q_arith X i (dd_at i) (dd_at (1 + i)) k'.
  Proof.
    intros Hi. split.
    - intros m Hm. cbn [n_div n_sub n_round q_arith num]. cbn [dd_at plus].
      replace (i <? m)%nat with true by (symmetry; apply Nat.ltb_lt; lia).
      destruct (Qeq_bool _ _) eqn:E; [|eexists; split; reflexivity].
      apply Qeq_bool_iff in E. exfalso. apply (distinct m (m - 1 - i)%nat); try lia.
      setoid_replace (X m) with ((X m - X (m - 1 - i)%nat) + X (m - 1 - i)%nat) by ring. rewrite E. ring.
    - intros m Hm. cbn [dd_at plus]. replace (i <? m)%nat with false by (symmetry; apply Nat.ltb_ge; lia). reflexivity.
  Qed.
  Lemma dd_at_stable i m : (m <= i)%nat -> dd_at i m = dd_at m m.
  Proof.
    induction i as [|i IH]; intros H; [replace m with O by lia; reflexivity|].
    destruct (Nat.eq_dec m (S i)) as [->|Ne]; [reflexivity|]. cbn [dd_at].
    replace (i <? m)%nat with false by (symmetry; apply Nat.ltb_ge; lia). apply IH. lia.
  Qed.
  Lemma dd_rec l a : (a + S l <= k')%nat ->
    dd_at (S l) (a + S l) * (X (a + S l)%nat - X a) == dd_at l (a + S l) - dd_at l (a + l).
  Proof.
    intros H. cbn [dd_at]. replace (l <? a + S l)%nat with true by (symmetry; apply Nat.ltb_lt; lia).
    replace (a + S l - 1 - l)%nat with a by lia. replace (a + S l - 1)%nat with (a + l)%nat by lia.
    field. intros E. apply (distinct (a + S l) a); try lia.
    setoid_replace (X (a + S l)%nat) with ((X (a + S l)%nat - X a) + X a) by ring. rewrite E. ring.
  Qed.

  (** (x - x_a) ... (x - x_{a+l-1}) *)
  Fixpoint basis (a l : nat) (x : Q) : Q := match l with O => 1 | S l' => basis a l' x * (x - X (a + l')%nat) end.
  Lemma basis_first a l x : basis a (S l) x == (x - X a) * basis (S a) l x.
  Proof.
    induction l as [|l IH]; [cbn; rewrite Nat.add_0_r; ring|].
    change (basis a (S (S l)) x) with (basis a (S l) x * (x - X (a + S l)%nat)). rewrite IH. cbn [basis].
    replace (S a + l)%nat with (a + S l)%nat by lia. ring.
  Qed.
  (** Newton's form on the points a .. a+l. *)
  Fixpoint newton (a l : nat) (x : Q) : Q :=
    match l with O => dd_at 0 a | S l' => newton a l' x + dd_at (S l') (a + S l') * basis a (S l') x end.
  Lemma newton_next a l x : (S a + l <= k')%nat ->
    newton (S a) l x == newton a l x + (dd_at l (S a + l) - dd_at l (a + l)) * basis (S a) l x.
  Proof.
    induction l as [|l IH]; intros H; [cbn; rewrite !Nat.add_0_r; ring|].
    cbn [newton]. rewrite IH by lia. rewrite (basis_first a l).
    replace (S a + S l)%nat with (a + S (S l))%nat by lia. replace (S a + l)%nat with (a + S l)%nat by lia.
    pose proof (dd_rec l a ltac:(lia)) as R. cbn [basis]. replace (S a + l)%nat with (a + S l)%nat by lia.
    set (b := basis (S a) l x) in *. clearbody b.
    setoid_replace ((dd_at l (a + S l) - dd_at l (a + l)) * b) with ((dd_at (S l) (a + S l) * (X (a + S l)%nat - X a)) * b) by (rewrite R; reflexivity).
    ring.
  Qed.
  Lemma basis_zero a l j : (j < l)%nat -> basis a l (X (a + j)%nat) == 0.
  Proof.
    induction l as [|l IH]; intros H; [lia|]. cbn [basis]. destruct (Nat.eq_dec j l) as [->|Ne]; [ring|].
    rewrite IH by lia. ring.
  Qed.
  Lemma newton_interpolates l : forall a j, (j <= l)%nat -> (a + l <= k')%nat -> newton a l (X (a + j)%nat) == Y (a + j)%nat.
  Proof.
    induction l as [|l IH]; intros a j Hj H.
    - replace j with O by lia. cbn. rewrite Nat.add_0_r. reflexivity.
    - destruct (Nat.eq_dec j (S l)) as [->|Ne].
      + (* (X - x_a) * this = (X - x_a) * the form on a+1 .. *)
        pose proof (IH (S a) l (le_n _) ltac:(lia)) as E. replace (S a + l)%nat with (a + S l)%nat in E by lia.
        rewrite <- E. rewrite newton_next by lia. cbn [newton]. rewrite basis_first.
        replace (S a + l)%nat with (a + S l)%nat by lia. rewrite <- (dd_rec l a) by lia. ring.
      + cbn [newton]. rewrite basis_zero by lia. rewrite IH by lia. ring.
  Qed.

  (** The coefficient arrays. *)
  Lemma newton_at_high i : forall j, (i < j)%nat -> newton_at q_arith X i j == 0.
  Proof.
    induction i as [|i IH]; intros j H; cbn [newton_at].
    - destruct (Nat.eqb_spec j 0); [lia|reflexivity].
    - destruct (Nat.eqb_spec j 0); [lia|]. cbn. rewrite !IH by lia. ring.
  Qed.
  Lemma newton_at_val i x : (i <= k')%nat -> qsum (S k') (fun j => newton_at q_arith X i j * qpow x j) == basis 0 i x.
  Proof.
    induction i as [|i IH]; intros H.
    - rewrite qsum_shift. cbn [newton_at Nat.eqb qpow basis n_one q_arith].
      rewrite (qsum_ext _ _ (fun _ => 0)) by (intros; cbn; ring). rewrite qsum_0. ring.
    - rewrite qsum_shift. cbn [newton_at Nat.eqb qpow basis].
      rewrite (qsum_ext _ _ (fun j => (- X i) * (newton_at q_arith X i (S j) * qpow x (S j)) + x * (newton_at q_arith X i j * qpow x j))).
      2:{ intros j Hj. replace (S j - 1)%nat with j by lia. cbn. ring. }
      rewrite qsum_add, !qsum_scal. rewrite <- IH by lia.
      pose proof (qsum_shift k' (fun j => newton_at q_arith X i j * qpow x j)) as Sh.
      assert (Top : newton_at q_arith X i k' == 0) by (apply newton_at_high; lia).
      assert (Low : qsum (S k') (fun j => newton_at q_arith X i j * qpow x j) == qsum k' (fun j => newton_at q_arith X i j * qpow x j)).
      { cbn [qsum]. rewrite Top. ring. }
      rewrite <- Low. set (s := qsum (S k') _) in *. set (r := qsum k' (fun j => newton_at q_arith X i (S j) * _)) in *.
      rewrite Sh. cbv beta. fold r. cbn [qpow plus n_mul n_neg q_arith].
      set (n0 := newton_at q_arith X i 0 : Q). set (xi := X i). clearbody r n0 xi. ring.
  Qed.
  Lemma terms_at_val D i x : (i <= S k')%nat ->
    qsum (S k') (fun j => terms_at q_arith X D i j * qpow x j) == qsum i (fun m => D m * basis 0 m x).
  Proof.
    induction i as [|i IH]; intros H.
    - cbn [qsum terms_at n_zero q_arith]. rewrite (qsum_ext _ _ (fun _ => 0)) by (intros; cbn; ring). rewrite qsum_0. cbn. ring.
    - change (qsum (S i) (fun m => D m * basis 0 m x)) with (qsum i (fun m => D m * basis 0 m x) + D i * basis 0 i x).
      rewrite <- IH, <- (newton_at_val i x) by lia. rewrite <- qsum_scal, <- (qsum_add (S k')).
      apply qsum_ext. intros j Hj. cbn [terms_at]. cbn. ring.
  Qed.
  Lemma newton_sum l x : qsum (S l) (fun m => dd_at m m * basis 0 m x) == newton 0 l x.
  Proof. induction l as [|l IH]; [cbn; ring|]. cbn [qsum newton] in *. rewrite IH. reflexivity. Qed.

  Lemma interpolates i : (i <= k')%nat ->
    pval (tab (terms_at q_arith X (dd_at k') (S k')) (S k')) (X i) == Y i.
  Proof.
    intros H. rewrite pval_tab, terms_at_val by lia.
    rewrite (qsum_ext _ _ (fun m => dd_at m m * basis 0 m (X i))).
    - rewrite newton_sum. apply (newton_interpolates k' 0 i); lia.
    - intros m Hm. rewrite dd_at_stable by lia. reflexivity.
  Qed.
End Exact.

(** Pairwise distinct rational numbers. *)
Definition pairwise_distinct (l : list Q) : Prop :=
  forall i j a b, nth_error l i = Some a -> nth_error l j = Some b -> i <> j -> ~ a == b.

Theorem from_points_interpolates (xs ys : list Q) :
  ys <> [] -> (length xs = length ys)%nat -> pairwise_distinct xs ->
  exists ts, from_points q_arith xs ys = Ok ts /\ length ts = length ys /\
    forall i x y, nth_error xs i = Some x -> nth_error ys i = Some y -> pval ts x == y.
Proof.
  intros Hy HL HD. destruct (length ys) as [|k'] eqn:L; [destruct ys; [congruence|discriminate]|].
  pose (X := fun i => nth i xs 0). pose (Y := fun i => nth i ys 0).
  assert (EX : xs = tab X (S k')) by (rewrite <- HL; apply list_tab).
  assert (EY : ys = tab (dd_at X Y 0) (S k')) by (rewrite <- L; apply list_tab).
  assert (DX : forall i j, (i <= k')%nat -> (j <= k')%nat -> i <> j -> ~ X i == X j).
  { intros i j Hi Hj. apply HD; rewrite EX, tab_nth_error by lia; reflexivity. }
  exists (tab (terms_at q_arith X (dd_at X Y k') (S k')) (S k')).
  split; [|split; [apply tab_length|]].
  - transitivity (from_points q_arith (tab X (S k')) (tab (dd_at X Y 0) (S k'))); [congruence|].
    apply (from_points_ok q_arith X (dd_at X Y) k'). intros i Hi. exact (dd_at_pass X Y k' DX i Hi).
  - intros i x y Hx Hyi.
    assert (Hi : (i < S k')%nat) by (rewrite <- HL; apply nth_error_Some; congruence).
    rewrite EX, tab_nth_error in Hx by exact Hi. rewrite EY, tab_nth_error in Hyi by exact Hi.
    inversion Hx. inversion Hyi. apply interpolates; [exact DX|lia].
Qed.

(** ** Horner *)
Lemma poly_eval_val (ts : list Q) (x : Q) : ts <> [] ->
  exists y : Q, poly_eval q_arith ts x = Ok y /\ y == pval ts x.
Proof.
  intros H. unfold poly_eval. destruct (length ts) as [|l] eqn:L; [destruct ts; [congruence|discriminate]|].
  pose (T := fun i => nth i ts 0 : Q). assert (E : ts = tab T (S l)) by (rewrite <- L; apply list_tab).
  rewrite E. change (num q_arith) with Q. rewrite tab_length, get_tab by lia. cbn [rbind].
  pose (st := fix st (n : nat) : Q := match n with O => T l | S n' => st n' * x + T (l - S n')%nat end).
  exists (st l). split.
  - replace (T l) with (st (l - l)%nat) by (rewrite Nat.sub_diag; reflexivity).
    replace (st l) with (st (l - 0)%nat) by (rewrite Nat.sub_0_r; reflexivity).
    apply (for_down _ (fun i => st (l - i)%nat)); [lia|]. intros i Hi. rewrite get_tab by lia. cbn [rbind].
    replace (l - i)%nat with (S (l - (1 + i)))%nat by lia. cbn [st].
    replace (l - S (l - (1 + i)))%nat with i by lia. reflexivity.
  - rewrite pval_tab.
    assert (G : forall n, (n <= l)%nat -> st n == qsum (S n) (fun i => T (l - n + i)%nat * qpow x i)).
    { induction n as [|n IH]; intros Hn.
      - cbn. rewrite Nat.sub_0_r, Nat.add_0_r. ring.
      - rewrite qsum_shift. cbn [st qpow]. rewrite IH by lia. rewrite Nat.add_0_r.
        rewrite (qsum_ext (S n) (fun i => T (l - S n + S i)%nat * (x * qpow x i)) (fun i => x * (T (l - n + i)%nat * qpow x i))).
        + rewrite qsum_scal. ring.
        + intros i Hi. replace (l - S n + S i)%nat with (l - n + i)%nat by lia. ring. }
    rewrite G by lia. apply qsum_ext. intros i Hi. rewrite Nat.sub_diag. reflexivity.
Qed.

(** ** Uniqueness *)
(** Division by (x - a). *)
Fixpoint quo (a : Q) (p : list Q) : list Q :=
  match p with [] => [] | [_] => [] | _ :: r => pval r a :: quo a r end.
Lemma pval_cons c p x : pval (c :: p) x == c + x * pval p x.
Proof.
  unfold pval. cbn [length]. rewrite qsum_shift. cbn [nth qpow]. rewrite <- qsum_scal.
  rewrite (qsum_ext _ (fun i => nth i p 0 * (x * qpow x i)) (fun i => x * (nth i p 0 * qpow x i))) by (intros; ring). ring.
Qed.
Lemma quo_val a p x : pval p x == pval p a + (x - a) * pval (quo a p) x.
Proof.
  induction p as [|c p IH]; [cbn; ring|]. destruct p as [|c' p].
  - cbn. ring.
  - change (quo a (c :: c' :: p)) with (pval (c' :: p) a :: quo a (c' :: p)).
    rewrite (pval_cons c), (pval_cons c), (pval_cons (pval _ a)), IH. ring.
Qed.
Lemma quo_length a p : length (quo a p) = pred (length p).
Proof.
  induction p as [|c p IH]; [reflexivity|]. destruct p as [|c' p]; [reflexivity|].
  change (quo a (c :: c' :: p)) with (pval (c' :: p) a :: quo a (c' :: p)). cbn [length] in *. lia.
Qed.
Lemma pval_zero p x : Forall (fun c => c == 0) p -> pval p x == 0.
Proof. induction 1 as [|c p H F IH]; [reflexivity|]. rewrite pval_cons, H, IH. ring. Qed.
Lemma quo_zero a p : pval p a == 0 -> Forall (fun c => c == 0) (quo a p) -> Forall (fun c => c == 0) p.
Proof.
  induction p as [|c p IH]; intros V F; [constructor|]. destruct p as [|c' p].
  - constructor; [|constructor]. rewrite pval_cons in V. cbn in V. rewrite <- V. ring.
  - change (quo a (c :: c' :: p)) with (pval (c' :: p) a :: quo a (c' :: p)) in F. inversion F as [|? ? F1 F2]; subst.
    constructor; [|apply IH; auto]. rewrite pval_cons, F1 in V. rewrite <- V. ring.
Qed.
Lemma many_roots xs : pairwise_distinct xs -> forall p, (length p <= length xs)%nat ->
  (forall x, In x xs -> pval p x == 0) -> Forall (fun c => c == 0) p.
Proof.
  induction xs as [|a xs IH]; intros D p L R.
  - destruct p; [constructor|cbn in L; lia].
  - apply (quo_zero a p); [apply R; left; reflexivity|]. apply IH.
    + intros i j u v Hu Hv Ne. apply (D (S i) (S j)); auto.
    + rewrite quo_length. cbn [length] in L. lia.
    + intros x Hx. pose proof (quo_val a p x) as Q. rewrite (R a), (R x) in Q by (cbn; auto).
      assert (N : ~ x - a == 0).
      { intros E. apply In_nth_error in Hx. destruct Hx as [i Hi]. apply (D O (S i) a x); auto.
        setoid_replace a with (x - (x - a)) by ring. rewrite E. ring. }
      destruct (Qeq_dec (pval (quo a p) x) 0) as [Z|Z]; [exact Z|]. exfalso.
      assert (P : (x - a) * pval (quo a p) x == 0) by (rewrite Q; ring). apply Qmult_integral in P. tauto.
Qed.

Fixpoint pdiff (p q : list Q) : list Q :=
  match p, q with a :: p', b :: q' => (a - b) :: pdiff p' q' | _, _ => [] end.
Lemma pdiff_val p q x : length p = length q -> pval (pdiff p q) x == pval p x - pval q x.
Proof.
  revert q. induction p as [|a p IH]; intros [|b q] L; try discriminate L; [cbn; ring|].
  cbn [pdiff]. rewrite !pval_cons, IH by (cbn in L; lia). ring.
Qed.
Lemma pdiff_zero p q : length p = length q -> Forall (fun c => c == 0) (pdiff p q) -> Forall2 Qeq p q.
Proof.
  revert q. induction p as [|a p IH]; intros [|b q] L F; try discriminate L; constructor; cbn in F; inversion F; subst.
  - setoid_replace a with ((a - b) + b) by ring. rewrite H1. ring.
  - apply IH; auto.
Qed.
Lemma pdiff_length p q : length p = length q -> length (pdiff p q) = length p.
Proof. revert q. induction p as [|a p IH]; intros [|b q] L; try discriminate L; auto. cbn in *. rewrite IH by lia. reflexivity. Qed.

Theorem interpolation_unique xs ys p q :
  length xs = length ys -> pairwise_distinct xs -> length p = length ys -> length q = length ys ->
  (forall i x y, nth_error xs i = Some x -> nth_error ys i = Some y -> pval p x == y) ->
  (forall i x y, nth_error xs i = Some x -> nth_error ys i = Some y -> pval q x == y) ->
  Forall2 Qeq p q.
Proof.
  intros L D Lp Lq Hp Hq. apply pdiff_zero; [congruence|]. apply (many_roots xs D).
  - rewrite pdiff_length by congruence. lia.
  - intros x Hx. apply In_nth_error in Hx. destruct Hx as [i Hi].
    assert (E : (i < length ys)%nat) by (rewrite <- L; apply nth_error_Some; congruence).
    apply nth_error_Some in E. destruct (nth_error ys i) as [y|] eqn:Hy; [|congruence].
    rewrite pdiff_val by congruence. rewrite (Hp i x y Hi Hy), (Hq i x y Hi Hy). ring.
Qed.
