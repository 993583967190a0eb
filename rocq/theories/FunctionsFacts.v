(** The dependency closure is reachability; it terminates and is ordered. *)
From Coq Require Import List String Bool Arith Lia Sorted Permutation.
From Verif Require Import Res Functions.
Import ListNotations.
Open Scope list_scope.

(** ** Specification *)

(** The entry a name refers to: the first of that name, at index [i]. *)
Definition entry (tbl : list fn) (i : nat) (f : fn) : Prop :=
  nth_error tbl i = Some f /\ forall j g, j < i -> nth_error tbl j = Some g -> f_name g <> f_name f.

(** Reachable from a requested name through declared dependencies, never
    through an excluded name. *)
Inductive reach (tbl : list fn) (names exclude : list string) : string -> Prop :=
| reach_name n : In n names -> ~ In n exclude -> reach tbl names exclude n
| reach_dep i f d : entry tbl i f -> reach tbl names exclude (f_name f) -> In d (f_deps f) -> ~ In d exclude ->
    reach tbl names exclude d.

Definition in_table_order (l : list (nat * fn)) : Prop := StronglySorted lt (map fst l).

(** ** Proofs *)
Lemma contains_In l n : contains l n = true <-> In n l.
Proof.
  unfold contains. rewrite existsb_exists. split.
  - intros (x & H & E). apply String.eqb_eq in E. congruence.
  - intros H. exists n. split; [exact H|apply String.eqb_refl].
Qed.
Lemma find_fn_some tbl n : forall s i f, find_fn tbl n s = Some (i, f) ->
  exists k, i = s + k /\ entry tbl k f /\ f_name f = n.
Proof.
  induction tbl as [|g r IH]; intros s i f H; [discriminate|]. cbn in H.
  destruct (String.eqb_spec (f_name g) n) as [E|E].
  - inversion H; subst. exists 0. split; [lia|]. split; [|reflexivity]. split; [reflexivity|]. intros; lia.
  - destruct (IH _ _ _ H) as (k & K & (N & F) & E'). exists (S k). split; [lia|]. split; [|exact E']. split; [exact N|].
    intros [|j] h L Hj; cbn in Hj; [inversion Hj; subst; congruence|]. apply (F j); [lia|exact Hj].
Qed.
Lemma find_fn_entry tbl n i f : find_fn tbl n 0 = Some (i, f) <-> entry tbl i f /\ f_name f = n.
Proof.
  split.
  - intros H. destruct (find_fn_some _ _ _ _ _ H) as (k & -> & E & N). auto.
  - intros [[N F] E]. assert (forall s, find_fn tbl n s = Some (s + i, f)); [|rewrite H; reflexivity].
    revert i N F. induction tbl as [|g r IH]; intros [|i] N F s; try discriminate; cbn in *.
    + inversion N; subst. rewrite String.eqb_refl, Nat.add_0_r. reflexivity.
    + destruct (String.eqb_spec (f_name g) n) as [E2|E2].
      * exfalso. apply (F 0 g); [lia|reflexivity|congruence].
      * rewrite (IH i N) by (intros j h L Hj; apply (F (S j) h); [lia|exact Hj]). f_equal. f_equal. lia.
Qed.
Lemma entry_name tbl i j f g : entry tbl i f -> entry tbl j g -> f_name f = f_name g -> i = j /\ f = g.
Proof.
  intros [A B] [C D] E. destruct (Nat.lt_trichotomy i j) as [L|[L|L]].
  - exfalso. apply (D i f L A E).
  - subst. split; congruence.
  - exfalso. apply (B j g L C). congruence.
Qed.
Lemma entry_index tbl i f g : entry tbl i f -> entry tbl i g -> f = g.
Proof. intros [A _] [B _]. congruence. Qed.

Section Closure.
  Variables (tbl : list fn) (names exclude : list string).
  Notation R := (reach tbl names exclude).

  Definition handled (stack : list string) (res : list (nat * fn)) (n : string) : Prop :=
    In n exclude \/ find_fn tbl n 0 = None \/ (exists i f, In (i, f) res /\ f_name f = n) \/ In n stack.
  Definition inv (stack : list string) (res : list (nat * fn)) : Prop :=
    (forall n, In n stack -> ~ In n exclude -> R n) /\
    (forall i f, In (i, f) res -> entry tbl i f /\ R (f_name f)) /\
    NoDup (map fst res) /\
    (forall n, In n names -> handled stack res n) /\
    (forall i f d, In (i, f) res -> In d (f_deps f) -> handled stack res d).
  Definition weight (l : list (nat * fn)) : nat := fold_right (fun p n => List.length (f_deps (snd p)) + n) 0 l.

  Lemma handled_pop stack res n m : handled (m :: stack) res n ->
    In m exclude \/ find_fn tbl m 0 = None \/ (exists i f, In (i, f) res /\ f_name f = m) -> handled stack res n.
  Proof. unfold handled. cbn. intros [H|[H|[H|[->|H]]]] Hm; tauto. Qed.
  Lemma inv_pop stack res m : inv (m :: stack) res ->
    In m exclude \/ find_fn tbl m 0 = None \/ (exists i f, In (i, f) res /\ f_name f = m) -> inv stack res.
  Proof.
    intros (A & B & C & D & E) Hm. split; [intros n H; apply A; right; exact H|]. split; [exact B|]. split; [exact C|].
    split; [intros n H; apply (handled_pop _ _ _ m); auto|]. intros i f d H1 H2. apply (handled_pop _ _ _ m); eauto.
  Qed.
  Lemma inv_push stack res m i f : inv (m :: stack) res -> ~ In m exclude -> find_fn tbl m 0 = Some (i, f) ->
    (forall j g, In (j, g) res -> f_name g <> m) -> inv (rev (f_deps f) ++ stack) (res ++ [(i, f)]).
  Proof.
    intros (A & B & C & D & E) Nx Fm Nr. apply find_fn_entry in Fm. destruct Fm as [En Em].
    assert (Rm : R m) by (apply A; [left; reflexivity|exact Nx]).
    assert (Hm : forall n, handled (m :: stack) res n -> handled (rev (f_deps f) ++ stack) (res ++ [(i, f)]) n).
    { unfold handled. intros n [H|[H|[(j & g & H & Hg)|[H|H]]]]; auto.
      - right; right; left. exists j, g. rewrite in_app_iff. auto.
      - right; right; left. exists i, f. rewrite in_app_iff. cbn. subst. auto.
      - right; right; right. apply in_app_iff. auto. }
    split; [|split; [|split; [|split]]].
    - intros n H Hx. apply in_app_iff in H. destruct H as [H|H]; [|apply A; [right; exact H|exact Hx]].
      apply in_rev in H. apply (reach_dep _ _ _ i f); auto. rewrite Em. exact Rm.
    - intros j g H. apply in_app_iff in H. destruct H as [H|[H|[]]]; [apply B; exact H|]. inversion H; subst. auto.
    - rewrite map_app. cbn. apply (Permutation_NoDup (l := i :: map fst res)); [apply Permutation_cons_append|]. constructor; [|exact C].
      intros H. apply in_map_iff in H. destruct H as ((j & g) & Hj & H). cbn in Hj. subst j.
      destruct (B _ _ H) as [Eg _]. pose proof (entry_index _ _ _ _ En Eg). subst g. exact (Nr _ _ H Em).
    - auto.
    - intros j g d H Hd. apply in_app_iff in H. destruct H as [H|[H|[]]]; [eauto|]. inversion H; subst j g.
      right; right; right. apply in_app_iff. left. apply in_rev in Hd. exact Hd.
  Qed.

  Lemma weight_app a b : weight (a ++ b) = weight a + weight b.
  Proof. unfold weight. induction a as [|x a IH]; [reflexivity|]. cbn. rewrite IH. lia. Qed.
  Lemma weight_cons x a : weight (x :: a) = List.length (f_deps (snd x)) + weight a.
  Proof. reflexivity. Qed.
  Lemma weight_incl (a : list (nat * fn)) : forall b, NoDup a -> incl a b -> weight a <= weight b.
  Proof.
    induction a as [|x a IH]; intros b N I; [cbn; lia|]. inversion N; subst.
    destruct (in_split x b) as (b1 & b2 & ->); [apply I; left; reflexivity|].
    assert (L : weight a <= weight (b1 ++ b2)).
    { apply IH; [assumption|]. intros y Hy. assert (In y (b1 ++ x :: b2)) as H by (apply I; right; exact Hy).
      apply in_app_iff in H. apply in_app_iff. destruct H as [H|[H|H]]; auto. subst. contradiction. }
    rewrite weight_cons, weight_app in *. rewrite weight_cons. lia.
  Qed.
  Definition indexed : list (nat * fn) := combine (seq 0 (List.length tbl)) tbl.
  Lemma indexed_weight : weight indexed = fold_right (fun f n => List.length (f_deps f) + n) 0 tbl.
  Proof.
    unfold indexed. generalize 0 at 1 as s. induction tbl as [|f r IH]; intros s; [reflexivity|].
    cbn. f_equal. apply IH.
  Qed.
  Lemma entry_indexed i f : entry tbl i f -> In (i, f) indexed.
  Proof.
    intros [H _]. unfold indexed. assert (forall s, In (s + i, f) (combine (seq s (List.length tbl)) tbl)); [|apply (H0 0)].
    revert i H. induction tbl as [|g r IH]; intros [|i] H s; try discriminate; cbn in *.
    - inversion H; subst. left. f_equal. lia.
    - right. replace (s + S i) with (S s + i) by lia. apply IH. exact H.
  Qed.
  Lemma NoDup_of_fst (l : list (nat * fn)) : NoDup (map fst l) -> NoDup l.
  Proof. apply NoDup_map_inv. Qed.
  Lemma res_weight stack res : inv stack res -> weight res <= weight indexed.
  Proof.
    intros (_ & B & C & _). apply weight_incl; [apply NoDup_of_fst; exact C|].
    intros [i f] H. apply entry_indexed. apply (B i f H).
  Qed.

  Lemma collect_ok fuel : forall stack res, inv stack res ->
    List.length stack + (weight indexed - weight res) <= fuel ->
    exists res', collect tbl exclude fuel stack res = Some res' /\ inv [] res'.
  Proof.
    induction fuel as [|fuel IH]; intros stack res I L.
    - destruct stack as [|n stack]; [|cbn in L; lia]. exists res. auto.
    - destruct stack as [|n stack]; [exists res; auto|]. cbn [collect]. cbn in L.
      destruct (contains exclude n) eqn:X.
      { apply contains_In in X. apply IH; [apply (inv_pop _ _ n); auto|lia]. }
      assert (NX : ~ In n exclude) by (rewrite <- contains_In; congruence).
      destruct (find_fn tbl n 0) as [[i f]|] eqn:F.
      2:{ apply IH; [apply (inv_pop _ _ n); auto|lia]. }
      destruct (existsb (fun g => String.eqb (f_name (snd g)) n) res) eqn:E.
      { apply existsb_exists in E. destruct E as ((j & g) & H & E). apply String.eqb_eq in E.
        apply IH; [apply (inv_pop _ _ n); auto|lia]. right; right. exists j, g. auto. }
      assert (I' : inv (rev (f_deps f) ++ stack) (res ++ [(i, f)])).
      { apply (inv_push _ _ n); auto. intros j g H Hn. assert (existsb (fun g => String.eqb (f_name (snd g)) n) res = true); [|congruence].
        apply existsb_exists. exists (j, g). split; [exact H|]. cbn. apply String.eqb_eq. exact Hn. }
      apply IH; [exact I'|].
      pose proof (res_weight _ _ I') as W. rewrite weight_app, weight_cons in *. cbn [snd] in *. change (weight []) with 0 in *. rewrite app_length, rev_length. lia.
  Qed.
End Closure.

Lemma inv_start tbl names exclude : inv tbl names exclude (rev names) [].
Proof.
  split; [intros n H X; apply in_rev in H; apply reach_name; assumption|]. split; [intros i f []|]. split; [constructor|].
  split; [|intros i f d []]. intros n H. right; right; right. apply in_rev. rewrite rev_involutive. exact H.
Qed.

(** sorting *)
Lemma insert_perm x l : Permutation (insert_fn x l) (x :: l).
Proof.
  induction l as [|y r IH]; [reflexivity|]. cbn. destruct (Nat.leb (fst x) (fst y)); [reflexivity|].
  rewrite IH. apply perm_swap.
Qed.
Lemma sort_perm l : Permutation (sort_fns l) l.
Proof. induction l as [|x l IH]; [reflexivity|]. cbn. rewrite insert_perm. constructor. exact IH. Qed.
Lemma insert_sorted x l : StronglySorted le (map fst l) -> StronglySorted le (map fst (insert_fn x l)).
Proof.
  induction l as [|y r IH]; intros H; [repeat constructor|]. cbn. cbn in H. inversion H as [|? ? H1 H2]; subst.
  destruct (Nat.leb_spec (fst x) (fst y)) as [L|L].
  - cbn. constructor; [exact H|]. constructor; [exact L|]. eapply Forall_impl; [|exact H2]. cbn. intros; lia.
  - cbn. constructor; [apply IH; exact H1|]. rewrite Forall_forall in *. intros z Hz.
    apply (Permutation_in z (Permutation_map fst (insert_perm x r))) in Hz. destruct Hz as [<-|Hz]; [lia|apply H2; exact Hz].
Qed.
Lemma sort_sorted l : StronglySorted le (map fst (sort_fns l)).
Proof. induction l as [|x l IH]; [constructor|]. cbn. apply insert_sorted. exact IH. Qed.
Lemma sorted_strict l : StronglySorted le l -> NoDup l -> StronglySorted lt l.
Proof.
  induction 1 as [|x l S IH F]; intros N; [constructor|]. inversion N; subst. constructor; [auto|].
  rewrite Forall_forall in *. intros y Hy. specialize (F y Hy). assert (x <> y) by congruence. lia.
Qed.
Lemma sorted_unique {A} (l : list (nat * A)) : forall l', StronglySorted lt (map fst l) -> StronglySorted lt (map fst l') ->
  (forall x, In x l <-> In x l') -> l = l'.
Proof.
  induction l as [|x l IH]; intros [|y l'] S S' H; [reflexivity| | |].
  - exfalso. apply (proj2 (H y)). left; reflexivity.
  - exfalso. apply (proj1 (H x)). left; reflexivity.
  - cbn in S, S'. inversion S as [|? ? S1 F1]; subst. inversion S' as [|? ? S2 F2]; subst. rewrite Forall_forall in F1, F2.
    assert (E : x = y).
    { destruct (proj1 (H x) (or_introl eq_refl)) as [->|H1]; [reflexivity|].
      destruct (proj2 (H y) (or_introl eq_refl)) as [->|H2]; [reflexivity|].
      apply (in_map fst) in H1, H2. apply F2 in H1. apply F1 in H2. lia. }
    subst y. f_equal. apply IH; auto. intros z. split; intros Hz.
    + destruct (proj1 (H z) (or_intror Hz)) as [->|Hz']; [|exact Hz']. apply (in_map fst) in Hz. apply F1 in Hz. lia.
    + destruct (proj2 (H z) (or_intror Hz)) as [->|Hz']; [|exact Hz']. apply (in_map fst) in Hz. apply F2 in Hz. lia.
Qed.

Theorem closure_ok tbl names exclude : exists l, get_functions_and_deps tbl names exclude = Some l /\
  in_table_order l /\ forall i f, In (i, f) l <-> entry tbl i f /\ reach tbl names exclude (f_name f).
Proof.
  unfold get_functions_and_deps.
  destruct (collect_ok tbl names exclude (rounds tbl names) (rev names) [] (inv_start _ _ _)) as (res & E & I).
  { rewrite rev_length, indexed_weight. cbn. unfold rounds. lia. }
  rewrite E. exists (sort_fns res). split; [reflexivity|]. destruct I as (A & B & C & D & F).
  split.
  - apply sorted_strict; [apply sort_sorted|]. apply (Permutation_NoDup (l := map fst res)); [|exact C].
    apply Permutation_map. symmetry. apply sort_perm.
  - intros i f. assert (P : In (i, f) (sort_fns res) <-> In (i, f) res).
    { split; apply Permutation_in; [|symmetry]; apply sort_perm. }
    rewrite P. clear P. split; [apply B|]. intros [En Rf].
    assert (H : forall n, reach tbl names exclude n -> forall i f, entry tbl i f -> f_name f = n -> In (i, f) res).
    { clear i f En Rf. induction 1 as [n Hn X|i0 f0 d E0 R0 IH Hd X]; intros i f En Nf.
      - destruct (D n Hn) as [H|[H|[(j & g & H & Hg)|[]]]]; [contradiction| |].
        + assert (find_fn tbl n 0 = Some (i, f)) by (apply find_fn_entry; auto). congruence.
        + destruct (B _ _ H) as [Eg _]. destruct (entry_name tbl i j f g En Eg) as [-> ->]; [congruence|exact H].
      - destruct (F i0 f0 d (IH i0 f0 E0 eq_refl) Hd) as [H|[H|[(j & g & H & Hg)|[]]]]; [contradiction| |].
        + assert (find_fn tbl d 0 = Some (i, f)) by (apply find_fn_entry; auto). congruence.
        + destruct (B _ _ H) as [Eg _]. destruct (entry_name tbl i j f g En Eg) as [-> ->]; [congruence|exact H]. }
    apply (H (f_name f) Rf i f En eq_refl).
Qed.

Lemma reach_ext tbl names names' exclude exclude' n :
  (forall n, In n names -> In n names') -> (forall n, In n exclude' -> In n exclude) ->
  reach tbl names exclude n -> reach tbl names' exclude' n.
Proof.
  intros H X. induction 1 as [n Hn Nx|i f d E R IH Hd Nx]; [apply reach_name; auto|]. apply (reach_dep _ _ _ i f); auto.
Qed.
Theorem closure_request tbl names names' exclude exclude' :
  (forall n, In n names <-> In n names') -> (forall n, In n exclude <-> In n exclude') ->
  get_functions_and_deps tbl names exclude = get_functions_and_deps tbl names' exclude'.
Proof.
  intros H X. destruct (closure_ok tbl names exclude) as (l & E & S & I).
  destruct (closure_ok tbl names' exclude') as (l' & E' & S' & I'). rewrite E, E'. f_equal.
  apply sorted_unique; [exact S|exact S'|]. intros [i f]. rewrite I, I'.
  split; (intros [En Rf]; split; [exact En|]); revert Rf; apply reach_ext; intros; first [apply H|apply X]; assumption.
Qed.
(** The loop needs no more rounds than the request and all declared dependencies together. *)
Theorem closure_rounds tbl names exclude fuel : rounds tbl names <= fuel ->
  collect tbl exclude fuel (rev names) [] <> None.
Proof.
  intros L. destruct (collect_ok tbl names exclude fuel (rev names) [] (inv_start _ _ _)) as (res & E & I).
  { rewrite rev_length, indexed_weight. cbn. unfold rounds in L. lia. }
  congruence.
Qed.
Theorem closure_exact tbl names exclude : exists l, get_functions_and_deps tbl names exclude = Some l /\
  forall i f, In (i, f) l <-> entry tbl i f /\ reach tbl names exclude (f_name f).
Proof. destruct (closure_ok tbl names exclude) as (l & E & _ & C). eauto. Qed.
Theorem closure_order tbl names exclude l : get_functions_and_deps tbl names exclude = Some l -> StronglySorted lt (map fst l).
Proof. intros H. destruct (closure_ok tbl names exclude) as (l' & E & S & _). rewrite E in H. inversion H; subst. exact S. Qed.
