(** Lemmas about [expand]. *)
From Coq Require Import List String Bool Ring_theory Ring.
From Verif Require Import Res Syntax Visitor Trans TransFacts ExpandSpec.
Import ListNotations.
Open Scope list_scope.

Lemma make_sum_nonempty l : l <> [] -> exists e, make_sum l = Ok e.
Proof.
  intros H. unfold make_sum.
  assert (R : rev l <> []). { intros E. apply H. rewrite <- (rev_involutive l), E. reflexivity. }
  revert R. generalize (rev l) as m. clear. induction m as [|x m IH]; intros R; [congruence|].
  cbn. destruct m as [|y m]; [eauto|]. destruct IH as [e He]; [discriminate|]. rewrite He. cbn [rbind].
  destruct (is_negated x); eauto.
Qed.

Lemma cross_nonempty (l r : list expr) :
  l <> [] -> r <> [] ->
  flat_map (fun a => map (fun b => make_binary a BMul b) r) l <> [].
Proof. destruct l as [|a l], r as [|b r]; cbn; congruence. Qed.

Lemma app_nonempty {A} (l r : list A) : l <> [] -> l ++ r <> [].
Proof. destruct l; cbn; congruence. Qed.

Lemma match_sum_paren a n :
  (forall b, a <> EParen b) -> match_sum (EParen a) n = match_sum a n.
Proof. destruct a; intros H; try reflexivity. congruence. Qed.

Lemma match_sum_paren2 a n :
  match_sum (EParen (EParen a)) n = [if n then negate (EParen a) else EParen a].
Proof. reflexivity. Qed.

Lemma match_sum_nonempty e : forall n, match_sum e n <> [].
Proof.
  induction e using expr_ind_sup; intros n; try (cbn; discriminate).
  - destruct op; cbn; try discriminate;
      solve [apply app_nonempty; auto | apply cross_nonempty; auto].
  - destruct e; try (rewrite match_sum_paren by congruence; apply IHe).
    cbn. discriminate.
Qed.

Section Value.
  Context {V : Type} (I : interp V) (zero one : V).
  Hypothesis RT : ring_theory zero one (i_bin I BAdd) (i_bin I BMul) (i_bin I BSub) (i_un I UNeg) (@eq V).
  Add Ring VR : RT.
  Notation "a + b" := (i_bin I BAdd a b).
  Notation "a * b" := (i_bin I BMul a b).
  Notation "a - b" := (i_bin I BSub a b).
  Notation "- a" := (i_un I UNeg a).
  Notation sumv l := (fold_right (fun e s => i_bin I BAdd (den I e) s) zero l).

  Lemma den_negate e : den I (negate e) = - den I e.
  Proof. destruct e; try reflexivity. destruct op; try reflexivity. cbn. ring. Qed.

  Lemma den_deparen e : den I (deparen e) = den I e.
  Proof. destruct e; reflexivity. Qed.

  Lemma sumv_app l r : sumv (l ++ r) = sumv l + sumv r.
  Proof. induction l as [|x l IH]; cbn; [ring|]. rewrite IH. ring. Qed.

  Lemma make_sum_rev_val l e : make_sum_rev l = Ok e -> den I e = sumv l.
  Proof.
    revert e. induction l as [|x l IH]; cbn [make_sum_rev]; intros e H; [discriminate|].
    destruct l as [|y l].
    - inversion H; subst. cbn. ring.
    - destruct (make_sum_rev (y :: l)) as [lhs| |] eqn:E; cbn [rbind] in H; try discriminate.
      specialize (IH _ eq_refl). cbn [fold_right]. cbn [fold_right] in IH. rewrite <- IH.
      destruct (is_negated x); inversion H; subst; cbn [den]; [rewrite den_negate|]; ring.
  Qed.

  Lemma sumv_rev l : sumv (rev l) = sumv l.
  Proof. induction l as [|x l IH]; cbn; [reflexivity|]. rewrite sumv_app, IH. cbn. ring. Qed.

  Lemma make_sum_val l e : make_sum l = Ok e -> den I e = sumv l.
  Proof. intros H. apply make_sum_rev_val in H. rewrite H. apply sumv_rev. Qed.

  Lemma sumv_cross l r :
    sumv (flat_map (fun a => map (fun b => make_binary a BMul b) r) l) = sumv l * sumv r.
  Proof.
    induction l as [|x l IH]; cbn; [ring|]. rewrite sumv_app, IH.
    assert (E : sumv (map (fun b => make_binary x BMul b) r) = den I x * sumv r).
    { clear IH. induction r as [|y r IH]; cbn; [ring|]. rewrite IH. ring. }
    rewrite E. ring.
  Qed.

  Lemma match_sum_val e : forall n, sumv (match_sum e n) = if n then - den I e else den I e.
  Proof.
    assert (Leaf : forall (x : expr) (n : bool), sumv [if n then negate x else x] = if n then - den I x else den I x).
    { intros x [|]; cbn; [rewrite den_negate|]; ring. }
    induction e using expr_ind_sup; intros n; try apply Leaf.
    - destruct op; try apply Leaf; cbn [match_sum deparen].
      + rewrite sumv_app, IHe1, IHe2. destruct n; cbn; ring.
      + rewrite sumv_app, IHe1, IHe2. destruct n; cbn; ring.
      + rewrite sumv_cross, IHe1, IHe2. destruct n; cbn; ring.
    - destruct e; try (rewrite match_sum_paren by congruence; apply IHe).
      rewrite match_sum_paren2. rewrite Leaf. reflexivity.
  Qed.

  Lemma expand_val e : forall r, expand e = Ok r -> den I r = den I e.
  Proof.
    unfold expand. induction e using expr_ind_sup; intros r' H'; cbn in H'; unfold def_expr in H';
      try discriminate; try (inversion H'; reflexivity).
    - destruct op; cbn in H'; try discriminate.
      assert (H2 : make_sum (match_sum (deparen e) true) = Ok r') by exact H'.
      apply make_sum_val in H2. rewrite H2, match_sum_val.
      cbn. rewrite den_deparen. reflexivity.
    - assert (H2 : make_sum (match_sum (EBinary op e1 e2) false) = Ok r') by exact H'.
      apply make_sum_val in H2. rewrite H2, match_sum_val. reflexivity.
    - unfold def_method in H'.
      destruct (visit expand_visitor e) as [x| |] eqn:E; cbn in H'; try discriminate.
      destruct (rseq (map (visit expand_visitor) args)) as [a| |] eqn:E2; cbn in H'; try discriminate.
      inversion H'; subst. cbn. rewrite (IHe x eq_refl). f_equal.
      apply rseq_ok_inv in E2. clear H' E IHe. revert a E2.
      induction H as [|y l Hy _ IH]; intros [|b a] E2; cbn in E2; try discriminate; [reflexivity|].
      inversion E2. cbn. f_equal; auto.
    - unfold def_paren in H'. destruct (visit expand_visitor e) as [x| |] eqn:E; cbn in H'; try discriminate.
      inversion H'; subst. cbn. auto.
    - unfold def_field in H'. destruct (visit expand_visitor e) as [x| |] eqn:E; cbn in H'; try discriminate.
      inversion H'; subst. cbn. f_equal. auto.
  Qed.
End Value.

Lemma expand_preserves {V} (I : interp V) e r : ring_interp I -> expand e = Ok r -> den I r = den I e.
Proof. intros (zero & one & RT). apply (expand_val I zero one RT). Qed.

Lemma expand_outcome e :
  if expand_fails e then expand e = Err UnsupportedExpr else exists r, expand e = Ok r.
Proof.
  unfold expand. induction e using expr_ind_sup; cbn [expand_fails];
    try reflexivity; try (eexists; reflexivity).
  - destruct op; cbn; try reflexivity. apply make_sum_nonempty, match_sum_nonempty.
  - apply (make_sum_nonempty (match_sum (EBinary op e1 e2) false)), match_sum_nonempty.
  - cbn. unfold def_expr, def_method. destruct (expand_fails e).
    + rewrite IHe. reflexivity.
    + destruct IHe as [x Hx]. rewrite Hx. cbn [rbind orb].
      assert (HA : if existsb expand_fails args then rseq (map (visit expand_visitor) args) = Err UnsupportedExpr
                   else exists a, rseq (map (visit expand_visitor) args) = Ok a).
      { induction H as [|y l Hy _ IH]; cbn; [eauto|]. destruct (expand_fails y).
        - rewrite Hy. reflexivity.
        - destruct Hy as [z ->]. cbn [orb rbind]. destruct (existsb expand_fails l).
          + rewrite IH. reflexivity.
          + destruct IH as [w ->]. cbn. eauto. }
      destruct (existsb expand_fails args).
      * rewrite HA. reflexivity.
      * destruct HA as [a ->]. cbn. eauto.
  - cbn. unfold def_expr, def_paren. destruct (expand_fails e).
    + rewrite IHe. reflexivity.
    + destruct IHe as [x ->]. cbn. eauto.
  - cbn. unfold def_expr, def_field. destruct (expand_fails e).
    + rewrite IHe. reflexivity.
    + destruct IHe as [x ->]. cbn. eauto.
Qed.

(** ** Multiplying out *)

Lemma signed_negate x : signed_product x = true -> signed_product (negate x) = true.
Proof. destruct x; cbn; auto. destruct op; cbn; auto. Qed.

Lemma match_sum_products e :
  forall n, plainly_nested e = true -> Forall (fun x => signed_product x = true) (match_sum e n).
Proof.
  assert (Leaf : forall (x : expr) (n : bool), signed_product x = true ->
            Forall (fun x => signed_product x = true) [if n then negate x else x]).
  { intros x n H. constructor; [|constructor]. destruct n; auto using signed_negate. }
  induction e using expr_ind_sup; intros n S; try (cbn in S; discriminate); try (apply Leaf; exact S).
  - destruct op; try (cbn in S; discriminate);
      cbn [plainly_nested] in S; apply andb_prop in S; destruct S as [S1 S2]; cbn [match_sum deparen].
    + apply Forall_app; auto.
    + apply Forall_app; auto.
    + apply Forall_forall. intros x Hx. apply in_flat_map in Hx. destruct Hx as (a & Ha & Hx).
      apply in_map_iff in Hx. destruct Hx as (b & <- & Hb). cbn.
      specialize (IHe1 n S1). specialize (IHe2 false S2). rewrite Forall_forall in IHe1, IHe2.
      rewrite IHe1, IHe2; auto.
  - destruct e; try (rewrite match_sum_paren by congruence; apply IHe; exact S).
    apply (Leaf (EParen e)). exact S.
Qed.

Lemma signed_sum x : signed_product x = true -> sum_of_products x = true.
Proof. destruct x; cbn; auto. destruct op; cbn; auto; discriminate. Qed.

Lemma make_sum_rev_products l e :
  Forall (fun x => signed_product x = true) l -> make_sum_rev l = Ok e -> sum_of_products e = true.
Proof.
  intros H. revert e. induction H as [|x l Hx Hl IH]; cbn [make_sum_rev]; intros e E; [discriminate|].
  destruct l as [|y l].
  - inversion E; subst. apply signed_sum; auto.
  - destruct (make_sum_rev (y :: l)) as [lhs| |]; cbn [rbind] in E; try discriminate.
    destruct (is_negated x); inversion E; subst; cbn; rewrite IH by auto; cbn;
      apply signed_sum; auto using signed_negate.
Qed.

Lemma make_sum_products l e :
  Forall (fun x => signed_product x = true) l -> make_sum l = Ok e -> sum_of_products e = true.
Proof. intros H. apply make_sum_rev_products. apply Forall_rev. auto. Qed.

Lemma sum_expanded e : sum_of_products e = true -> expanded e = true.
Proof. induction e; cbn; auto. intros H. apply IHe, signed_sum, H. Qed.

Lemma expand_expanded e : expandable e = true -> exists r, expand e = Ok r /\ expanded r = true.
Proof.
  unfold expand. induction e using expr_ind_sup; intros S; try (cbn in S; discriminate).
  - eexists; split; reflexivity.
  - eexists; split; reflexivity.
  - destruct op; try (cbn in S; discriminate).
    destruct (make_sum_nonempty (match_sum (deparen e) true) (match_sum_nonempty _ _)) as [r Hr].
    exists r. split; [exact Hr|]. apply sum_expanded, (make_sum_products (match_sum (deparen e) true)); auto.
    apply match_sum_products. destruct e; try exact S.
    cbn [deparen]. destruct e; try exact S.
  - destruct (make_sum_nonempty (match_sum (EBinary op e1 e2) false) (match_sum_nonempty _ _)) as [r Hr].
    exists r. split; [exact Hr|]. apply sum_expanded, (make_sum_products (match_sum (EBinary op e1 e2) false)); auto.
    apply match_sum_products. exact S.
  - cbn in S. destruct (IHe S) as (r & Hr & X). exists (EParen r). cbn. unfold def_expr, def_paren.
    rewrite Hr. cbn. auto.
Qed.
