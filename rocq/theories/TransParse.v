(** Transformations and printing: when results read back. *)
From Coq Require Import String Ascii List Bool Arith Lia ZArith QArith.
From Verif Require Import Res Dec DecFacts DecStr DecStrFacts Syntax Visitor Trans TransFacts Parse ParseFacts ExprOps.
Import ListNotations.
Open Scope list_scope.
Open Scope nat_scope.

Lemma rust_prec_small op : rust_prec op < 100.
Proof. destruct op; cbn; lia. Qed.
Lemma c_prec_small op : c_prec op < 100.
Proof. destruct op; cbn; lia. Qed.

(** ** Substitution of operands that need no parentheses *)
Section Subst.
  Variable prec : binop -> nat.
  Hypothesis prec_small : forall op, prec op < 100.

  Definition atomic_list (vl : varlist) : Prop :=
    Forall (fun b => wp prec (snd b) = true /\ lvl prec (snd b) = 101) vl.

  Lemma find_atomic vl p x : atomic_list vl -> find_var vl p = Some x -> wp prec x = true /\ lvl prec x = 101.
  Proof.
    intros A F. apply find_var_spec in F. destruct F as (a & b & -> & _).
    unfold atomic_list in A. rewrite Forall_forall in A. apply (A (p, x)).
    apply in_or_app. right. left. reflexivity.
  Qed.

  Lemma subst_lvl vl e : atomic_list vl -> supported e = true -> lvl prec (subst_spec vl e) = lvl prec e.
  Proof.
    intros A S. destruct e; try reflexivity; try discriminate. cbn [subst_spec].
    destruct (find_var vl p) eqn:F; [|reflexivity]. apply (find_atomic vl p e A F).
  Qed.

  Lemma subst_wp vl e :
    atomic_list vl -> supported e = true -> wp prec e = true -> wp prec (subst_spec vl e) = true.
  Proof.
    intros A. induction e using expr_ind_sup; cbn [supported]; intros S W; try discriminate; auto;
      cbn [subst_spec].
    - destruct (find_var vl p) eqn:F; [|reflexivity]. apply (find_atomic vl p e A F).
    - cbn [wp] in *. apply andb_prop in W. destruct W as [W L]. rewrite subst_lvl by auto.
      rewrite IHe by auto. exact L.
    - cbn [wp] in *. apply andb_prop in S. destruct S as [S1 S2].
      apply andb_prop in W. destruct W as [W L2]. apply andb_prop in W. destruct W as [W L1].
      apply andb_prop in W. destruct W as [W1 W2].
      rewrite !subst_lvl, IHe1, IHe2, L1, L2 by auto. reflexivity.
    - cbn [wp] in *. apply andb_prop in S. destruct S as [S1 S2].
      apply andb_prop in W. destruct W as [W WA]. apply andb_prop in W. destruct W as [W L].
      rewrite subst_lvl, IHe, L by auto. cbn [andb].
      apply forallb_forall. intros y Hy. apply in_map_iff in Hy. destruct Hy as (z & <- & Hz).
      rewrite Forall_forall in H. rewrite forallb_forall in S2, WA. auto.
    - cbn [wp] in *. apply andb_prop in W. destruct W as [W L].
      rewrite subst_lvl, IHe by auto. exact L.
  Qed.
End Subst.

(** ** Paren *)

(** No method receiver or field base is a bare operator. *)
Definition is_op (e : expr) : bool := match e with EUnary _ _ | EBinary _ _ _ | ECast _ _ => true | _ => false end.
Fixpoint receivers_ok (e : expr) : bool :=
  match e with
  | EUnary _ a | EParen a => receivers_ok a
  | EBinary _ a b => receivers_ok a && receivers_ok b
  | EMethodCall r _ _ args => negb (is_op r) && receivers_ok r && forallb receivers_ok args
  | EField a _ => negb (is_op a) && receivers_ok a
  | _ => true
  end.
(** All literals are as the parser produces them. *)
Fixpoint lits_ok (e : expr) : bool :=
  match e with
  | ELit l => canon_lit l
  | EUnary _ a | EParen a | EField a _ => lits_ok a
  | EBinary _ a b => lits_ok a && lits_ok b
  | EMethodCall r _ _ args => lits_ok r && forallb lits_ok args
  | _ => true
  end.

Section ParenWp.
  Variable prec : binop -> nat.
  Hypothesis prec_small : forall op, prec op < 100.

  Lemma lvl_parenthesise e : supported e = true -> lvl prec (parenthesise_op e) = 101.
  Proof. destruct e; cbn; auto; discriminate. Qed.
  Lemma wp_parenthesise e : wp prec e = true -> wp prec (parenthesise_op e) = true.
  Proof. destruct e; cbn [parenthesise_op make_paren wp]; auto. Qed.
  Lemma lvl_not_op e : supported e = true -> is_op e = false -> lvl prec e = 101.
  Proof. destruct e; cbn; auto; discriminate. Qed.
  Lemma is_op_paren e : is_op (paren_spec e) = is_op e.
  Proof. destruct e; reflexivity. Qed.

  Lemma paren_wp e :
    supported e = true -> receivers_ok e = true -> lits_ok e = true -> wp prec (paren_spec e) = true.
  Proof.
    induction e using expr_ind_sup; cbn [supported receivers_ok lits_ok]; intros S R L; try discriminate; auto;
      cbn [paren_spec wp];
      repeat match goal with H : _ && _ = true |- _ => apply andb_prop in H; destruct H end.
    - rewrite lvl_parenthesise by (apply paren_supported; auto).
      rewrite wp_parenthesise by auto. reflexivity.
    - rewrite !lvl_parenthesise by (apply paren_supported; auto).
      rewrite !wp_parenthesise by auto. cbn [andb].
      apply andb_true_intro. pose proof (prec_small op). split; [apply Nat.leb_le|apply Nat.ltb_lt]; lia.
    - rewrite lvl_not_op; [|apply paren_supported; auto|rewrite is_op_paren; apply negb_true_iff; auto].
      rewrite IHe by auto. cbn [andb].
      apply forallb_forall. intros y Hy. apply in_map_iff in Hy. destruct Hy as (z & <- & Hz).
      rewrite Forall_forall in H. rewrite forallb_forall in *. auto.
    - rewrite lvl_not_op; [|apply paren_supported; auto|rewrite is_op_paren; apply negb_true_iff; auto].
      rewrite IHe by auto. reflexivity.
  Qed.

  Lemma wp_receivers e : wp prec e = true -> receivers_ok e = true /\ lits_ok e = true.
  Proof.
    assert (NOP : forall e, 101 <= lvl prec e -> negb (is_op e) = true).
    { intros [] H; auto; cbn [lvl] in H; try lia. pose proof (prec_small op). lia. }
    induction e using expr_ind_sup; cbn [wp receivers_ok lits_ok]; intros W; try discriminate; auto;
      repeat match goal with H : _ && _ = true |- _ => apply andb_prop in H; destruct H end;
      repeat match goal with H : Nat.leb _ _ = true |- _ => apply Nat.leb_le in H end.
    - apply IHe; auto.
    - destruct IHe1, IHe2; auto. split; apply andb_true_intro; auto.
    - destruct IHe as [IR IL]; auto. rewrite NOP, IR, IL by auto. cbn [andb].
      rewrite Forall_forall in H. match goal with X : forallb _ _ = true |- _ => rewrite forallb_forall in X end.
      split; apply forallb_forall; intros y Hy; apply H; auto.
    - destruct IHe as [IR IL]; auto. rewrite NOP, IR, IL by auto. auto.
  Qed.
End ParenWp.

(** ** Expression operators *)

Lemma quote_sum_ok l r :
  wp rust_prec l = true -> wp rust_prec r = true ->
  quote_sum l r = Ok (EBinary BAdd (EParen l) (EParen r)).
Proof.
  intros Wl Wr. unfold quote_sum.
  assert (E : TLParen :: toks l ++ TRParen :: TBin BAdd :: TLParen :: toks r ++ [TRParen] =
              toks (EBinary BAdd (EParen l) (EParen r))).
  { cbn [toks]. cbn [app]. rewrite <- app_assoc. reflexivity. }
  rewrite E. unfold rust_parse. rewrite (parse_wp rust_prec rust_prec_small); [reflexivity|].
  cbn [wp]. rewrite Wl, Wr. reflexivity.
Qed.

Lemma expr_of_bd_ok x : exists e y, expr_of_bd x = Ok e /\ bd_of_expr e = Ok y /\ (dval y == dval x)%Q.
Proof.
  unfold expr_of_bd. rewrite parse_lit_float_repr. eexists.
  destruct (parse_dec_repr x) as (y & Hy & V). exists y. split; [reflexivity|].
  cbn. rewrite list_ascii_of_string_of_list_ascii, Hy. auto.
Qed.
