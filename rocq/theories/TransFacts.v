(** Lemmas about the symbolic transformations. *)
From Coq Require Import ZArith List String Bool Ascii Lia Setoid.
From Verif Require Import Res Dec DecStr Syntax Visitor Trans.
Import ListNotations.
Open Scope list_scope.

Lemma rseq_map_ok {A B} (f : A -> res B) (g : A -> B) l :
  Forall (fun x => f x = Ok (g x)) l -> rseq (map f l) = Ok (map g l).
Proof. induction 1 as [|x l Hx _ IH]; cbn; [reflexivity|]. rewrite Hx, IH. reflexivity. Qed.

Lemma rseq_ok_inv {A} (l : list (res A)) r : rseq l = Ok r -> l = map Ok r.
Proof.
  revert r. induction l as [|x l IH]; cbn; intros r H.
  - inversion H. reflexivity.
  - destruct x; cbn in H; try discriminate. destruct (rseq l); cbn in H; try discriminate.
    inversion H; subst. cbn. f_equal. apply IH. reflexivity.
Qed.

(** ** Variable lists *)

Definition add_all (l : list (list string * expr)) (vl : varlist) : varlist :=
  fold_left (fun v b => fst (add_var v (fst b) (snd b))) l vl.

Lemma add_all_app l vl : add_all l vl = vl ++ l.
Proof.
  revert vl. induction l as [|[n e] l IH]; intros vl; cbn; [now rewrite app_nil_r|].
  fold (add_all l). rewrite IH. rewrite <- app_assoc. reflexivity.
Qed.

Lemma find_var_spec l n e :
  find_var l n = Some e <->
  exists a b, l = a ++ (n, e) :: b /\ ~ In n (map fst a).
Proof.
  unfold find_var. induction l as [|[m x] l IH]; cbn.
  - split; [discriminate|]. intros (a & b & H & _). destruct a; discriminate.
  - destruct (path_eqb m n) eqn:E.
    + apply path_eqb_eq in E. subst m. split.
      * intros H. inversion H; subst. exists [], l. cbn. tauto.
      * intros (a & b & H & N). destruct a as [|[m' x'] a]; inversion H; subst; [reflexivity|].
        cbn in N. tauto.
    + apply path_eqb_neq in E. rewrite IH. split.
      * intros (a & b & -> & N). exists ((m, x) :: a), b. cbn. intuition.
      * intros (a & b & H & N). destruct a as [|[m' x'] a]; inversion H; subst; [tauto|].
        exists a, b. cbn in N. tauto.
Qed.

Lemma find_var_none l n : find_var l n = None <-> ~ In n (map fst l).
Proof.
  unfold find_var. induction l as [|[m x] l IH]; cbn; [tauto|].
  destruct (path_eqb m n) eqn:E.
  - apply path_eqb_eq in E. split; [discriminate|]. tauto.
  - apply path_eqb_neq in E. rewrite IH. tauto.
Qed.

Lemma find_var_app l l' n :
  find_var (l ++ l') n = match find_var l n with Some e => Some e | None => find_var l' n end.
Proof.
  unfold find_var. induction l as [|[m x] l IH]; cbn; [reflexivity|].
  destruct (path_eqb m n); [reflexivity|]. apply IH.
Qed.

(** ** Substitution *)

Fixpoint subst_spec (vl : varlist) (e : expr) : expr :=
  match e with
  | EPath p => match find_var vl p with Some x => x | None => EPath p end
  | EUnary op a => EUnary op (subst_spec vl a)
  | EBinary op a b => EBinary op (subst_spec vl a) (subst_spec vl b)
  | EMethodCall r m t args => EMethodCall (subst_spec vl r) m t (map (subst_spec vl) args)
  | EParen a => EParen (subst_spec vl a)
  | EField a m => EField (subst_spec vl a) m
  | _ => e
  end.

Lemma rseq_err_or_ok {A} (l : list (res A)) :
  Forall (fun r => r <> Panic) l -> rseq l <> Panic.
Proof.
  induction 1 as [|x l Hx _ IH]; cbn; [discriminate|].
  destruct x; cbn; try congruence. destruct (rseq l); cbn; congruence.
Qed.

(** Induction over expressions when unsupported nodes need no hypothesis. *)
Lemma expr_ind_sup (P : expr -> Prop) :
  (forall l, P (ELit l)) -> (forall p, P (EPath p)) ->
  (forall op e, P e -> P (EUnary op e)) ->
  (forall op l r, P l -> P r -> P (EBinary op l r)) ->
  (forall r m t args, P r -> Forall P args -> P (EMethodCall r m t args)) ->
  (forall e, P e -> P (EParen e)) ->
  (forall e m, P e -> P (EField e m)) ->
  (forall f args, P (ECall f args)) -> (forall e t, P (ECast e t)) ->
  (forall c t o, P (EIf c t o)) -> (forall b, P (EBlock b)) -> (forall k, P (EOther k)) ->
  forall e, P e.
Proof.
  intros. apply expr_ind_nested with (Ps := fun _ => True); auto.
Qed.

Definition unsup : res expr := Err UnsupportedExpr.

(** A visitor whose methods rebuild as the default ones do, given outcomes of
    children that are Ok, is total on supported expressions and fails with
    [UnsupportedExpr] on the others. *)
Lemma subst_ok vl e :
  subst vl e = if supported e then Ok (subst_spec vl e) else Err UnsupportedExpr.
Proof.
  unfold subst. induction e using expr_ind_sup; cbn [visit supported subst_spec]; try reflexivity.
  - cbn. destruct (find_var vl p); reflexivity.
  - cbn. unfold def_expr, def_unary. rewrite IHe. destruct (supported e); reflexivity.
  - cbn. unfold def_expr, def_binary. rewrite IHe1, IHe2. destruct (supported e1), (supported e2); reflexivity.
  - cbn. unfold def_expr, def_method. rewrite IHe. destruct (supported e); [|reflexivity].
    cbn [rbind andb].
    assert (HA : rseq (map (visit (subst_visitor vl)) args) =
                 if forallb supported args then Ok (map (subst_spec vl) args) else Err UnsupportedExpr).
    { induction H as [|x l Hx _ IH]; cbn; [reflexivity|]. rewrite Hx, IH.
      destruct (supported x), (forallb supported l); reflexivity. }
    rewrite HA. destruct (forallb supported args); reflexivity.
  - cbn. unfold def_expr, def_paren. rewrite IHe. destruct (supported e); reflexivity.
  - cbn. unfold def_expr, def_field. rewrite IHe. destruct (supported e); reflexivity.
Qed.

Lemma subst_spec_den {V} (I : interp V) vl e :
  supported e = true ->
  den I (subst_spec vl e) =
  den (with_paths I (fun p => match find_var vl p with Some x => den I x | None => i_path I p end)) e.
Proof.
  induction e using expr_ind_sup; cbn [supported subst_spec]; intros S; try discriminate.
  - reflexivity.
  - cbn. destruct (find_var vl p); reflexivity.
  - cbn. rewrite IHe; auto.
  - apply andb_prop in S. destruct S. cbn. rewrite IHe1, IHe2; auto.
  - apply andb_prop in S. destruct S as [S1 S2]. cbn. rewrite IHe; auto. f_equal.
    rewrite map_map. apply map_ext_in. intros a Ha. rewrite Forall_forall in H.
    rewrite forallb_forall in S2. apply H; auto.
  - cbn. auto.
  - cbn. rewrite IHe; auto.
Qed.

Lemma in_paths_method r m t args p :
  In p (paths_of (EMethodCall r m t args)) <->
  In p (paths_of r) \/ exists a, In a args /\ In p (paths_of a).
Proof. cbn. rewrite in_app_iff, in_flat_map. firstorder. Qed.

Lemma subst_spec_id vl e :
  (forall p, In p (paths_of e) -> find_var vl p = None) -> subst_spec vl e = e.
Proof.
  induction e using expr_ind_sup; cbn [subst_spec paths_of]; intros S; try reflexivity.
  - rewrite S; [reflexivity|]. now left.
  - f_equal; auto.
  - f_equal; [apply IHe1 | apply IHe2]; intros p Hp; apply S; apply in_app_iff; auto.
  - f_equal.
    + apply IHe. intros p Hp; apply S; apply in_app_iff; auto.
    + rewrite <- map_id. apply map_ext_in. intros a Ha. rewrite Forall_forall in H.
      apply H; auto. intros p Hp. apply S. apply in_app_iff. right. apply in_flat_map. eauto.
  - f_equal; auto.
  - f_equal; auto.
Qed.

Lemma subst_spec_paths vl e p :
  supported e = true ->
  In p (paths_of (subst_spec vl e)) <->
  (In p (paths_of e) /\ find_var vl p = None) \/
  (exists q x, In q (paths_of e) /\ find_var vl q = Some x /\ In p (paths_of x)).
Proof.
  induction e using expr_ind_sup; intros S; cbn [supported] in S; try discriminate;
    cbn [subst_spec].
  - cbn. firstorder.
  - destruct (find_var vl p0) as [x|] eqn:E; cbn [paths_of].
    + split.
      * intros H. right. exists p0, x. cbn. auto.
      * intros [[[->|[]] N]|(q & y & [->|[]] & Hq & Hp)]; congruence.
    + cbn. split.
      * intros [->|[]]. left. auto.
      * intros [[[->|[]] N]|(q & y & [->|[]] & Hq & Hp)]; [auto|congruence].
  - cbn [paths_of]. apply IHe; auto.
  - apply andb_prop in S. destruct S as [S1 S2]. cbn [paths_of].
    rewrite in_app_iff, IHe1, IHe2 by auto. split.
    + intros [[[A B]|(q & x & A & B & C)]|[[A B]|(q & x & A & B & C)]].
      * left. rewrite in_app_iff. auto.
      * right. exists q, x. rewrite in_app_iff. auto.
      * left. rewrite in_app_iff. auto.
      * right. exists q, x. rewrite in_app_iff. auto.
    + intros [[A B]|(q & x & A & B & C)]; apply in_app_iff in A; destruct A as [A|A].
      * left. left. auto.
      * right. left. auto.
      * left. right. eauto.
      * right. right. eauto.
  - apply andb_prop in S. destruct S as [S1 S2]. rewrite !in_paths_method, IHe by auto.
    rewrite Forall_forall in H. rewrite forallb_forall in S2.
    assert (HA : (exists a, In a (map (subst_spec vl) args) /\ In p (paths_of a)) <->
      (exists a, In a args /\ ((In p (paths_of a) /\ find_var vl p = None) \/
        (exists q x, In q (paths_of a) /\ find_var vl q = Some x /\ In p (paths_of x))))).
    { split.
      - intros (a & Ha & Hp). apply in_map_iff in Ha. destruct Ha as (b & <- & Hb).
        exists b. split; auto. apply H; auto.
      - intros (a & Ha & Hp). exists (subst_spec vl a). split; [apply in_map; auto|].
        apply H; auto. }
    rewrite HA. clear HA H S2 IHe. split.
    + intros [[[A B]|(q & x & A & B & C)]|(a & Ha & [[A B]|(q & x & A & B & C)])].
      * left. split; auto.
      * right. exists q, x. rewrite in_paths_method. auto.
      * left. split; [right; eauto|auto].
      * right. exists q, x. rewrite in_paths_method. split; [right; eauto|auto].
    + intros [[A B]|(q & x & A & B & C)]; [|apply in_paths_method in A];
        destruct A as [A|(a & Ha & A)].
      * left. left. auto.
      * right. exists a. auto.
      * left. right. eauto.
      * right. exists a. split; auto. right. eauto.
  - cbn [paths_of]. auto.
  - cbn [paths_of]. auto.
Qed.

(** ** Collect *)

Lemma collect_ok v e :
  collect_terms v e = if supported e then Ok e else Err UnsupportedExpr.
Proof.
  unfold collect_terms. induction e using expr_ind_sup; cbn [visit supported]; try reflexivity.
  - cbn. unfold def_expr, def_unary. rewrite IHe. destruct (supported e); reflexivity.
  - cbn. unfold def_expr, def_binary. rewrite IHe1, IHe2. destruct (supported e1), (supported e2); reflexivity.
  - cbn. unfold def_expr, def_method. rewrite IHe. destruct (supported e); [|reflexivity].
    cbn [rbind andb].
    assert (HA : rseq (map (visit default_visitor) args) =
                 if forallb supported args then Ok args else Err UnsupportedExpr).
    { induction H as [|x l Hx _ IH]; cbn; [reflexivity|]. rewrite Hx, IH.
      destruct (supported x), (forallb supported l); reflexivity. }
    rewrite HA. destruct (forallb supported args); reflexivity.
  - cbn. unfold def_expr, def_paren. rewrite IHe. destruct (supported e); reflexivity.
  - cbn. unfold def_expr, def_field. rewrite IHe. destruct (supported e); reflexivity.
Qed.

(** ** Paren *)

Fixpoint paren_spec (e : expr) : expr :=
  match e with
  | EUnary op a => EUnary op (parenthesise_op (paren_spec a))
  | EBinary op a b => EBinary op (parenthesise_op (paren_spec a)) (parenthesise_op (paren_spec b))
  | EMethodCall r m t args => EMethodCall (paren_spec r) m t (map paren_spec args)
  | EParen a => EParen (paren_spec a)
  | EField a m => EField (paren_spec a) m
  | _ => e
  end.

Lemma paren_ok e : paren e = if supported e then Ok (paren_spec e) else Err UnsupportedExpr.
Proof.
  unfold paren. induction e using expr_ind_sup; cbn [visit supported paren_spec]; try reflexivity.
  - cbn. unfold paren_post, def_unary. rewrite IHe. destruct (supported e); reflexivity.
  - cbn. unfold paren_post, def_binary. rewrite IHe1, IHe2. destruct (supported e1), (supported e2); reflexivity.
  - cbn. unfold paren_post, def_method. rewrite IHe. destruct (supported e); [|reflexivity].
    cbn [rbind andb].
    assert (HA : rseq (map (visit paren_visitor) args) =
                 if forallb supported args then Ok (map paren_spec args) else Err UnsupportedExpr).
    { induction H as [|x l Hx _ IH]; cbn; [reflexivity|]. rewrite Hx, IH.
      destruct (supported x), (forallb supported l); reflexivity. }
    rewrite HA. destruct (forallb supported args); reflexivity.
  - cbn. unfold paren_post, def_paren. rewrite IHe. destruct (supported e); reflexivity.
  - cbn. unfold paren_post, def_field. rewrite IHe. destruct (supported e); reflexivity.
Qed.

Lemma den_parenthesise {V} (I : interp V) e : den I (parenthesise_op e) = den I e.
Proof. destruct e; reflexivity. Qed.

Lemma paren_den {V} (I : interp V) e : supported e = true -> den I (paren_spec e) = den I e.
Proof.
  induction e using expr_ind_sup; cbn [supported paren_spec]; intros S; try reflexivity.
  - cbn. rewrite den_parenthesise, IHe; auto.
  - apply andb_prop in S. destruct S. cbn. rewrite !den_parenthesise, IHe1, IHe2; auto.
  - apply andb_prop in S. destruct S as [S1 S2]. cbn. rewrite IHe; auto. f_equal.
    rewrite map_map. apply map_ext_in. intros a Ha. rewrite Forall_forall in H.
    rewrite forallb_forall in S2. apply H; auto.
  - cbn. auto.
  - cbn. rewrite IHe; auto.
Qed.

Lemma paren_parenthesise e :
  paren_spec (parenthesise_op e) = parenthesise_op (paren_spec e).
Proof. destruct e; reflexivity. Qed.

Lemma parenthesise_idem e : parenthesise_op (parenthesise_op e) = parenthesise_op e.
Proof. destruct e; reflexivity. Qed.

Lemma supported_parenthesise e : supported (parenthesise_op e) = supported e.
Proof. destruct e; reflexivity. Qed.

Lemma paren_supported e : supported e = true -> supported (paren_spec e) = true.
Proof.
  induction e using expr_ind_sup; cbn [supported paren_spec]; intros S; try reflexivity; try discriminate; auto.
  - rewrite supported_parenthesise. auto.
  - apply andb_prop in S. destruct S. rewrite !supported_parenthesise, IHe1, IHe2; auto.
  - apply andb_prop in S. destruct S as [S1 S2]. rewrite IHe by auto. cbn.
    apply forallb_forall. intros a Ha. apply in_map_iff in Ha. destruct Ha as (b & <- & Hb).
    rewrite Forall_forall in H. rewrite forallb_forall in S2. apply H; auto.
Qed.

Lemma paren_idem e : supported e = true -> paren_spec (paren_spec e) = paren_spec e.
Proof.
  induction e using expr_ind_sup; cbn [supported paren_spec]; intros S; try reflexivity.
  - cbn. rewrite paren_parenthesise, parenthesise_idem, IHe; auto.
  - apply andb_prop in S. destruct S. cbn.
    rewrite !paren_parenthesise, !parenthesise_idem, IHe1, IHe2; auto.
  - apply andb_prop in S. destruct S as [S1 S2]. cbn. rewrite IHe; auto. f_equal.
    rewrite map_map. apply map_ext_in. intros a Ha. rewrite Forall_forall in H.
    rewrite forallb_forall in S2. apply H; auto.
  - cbn. f_equal. auto.
  - cbn. rewrite IHe; auto.
Qed.
