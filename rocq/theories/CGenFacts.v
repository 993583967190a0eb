(** The stack discipline of [CVisitor]. *)
From Coq Require Import List String Ascii Bool Arith Lia.
From Verif Require Import Res Syntax Item CGen.
Import ListNotations.
Open Scope string_scope.
Open Scope list_scope.

(** ** Induction over the nested trees *)
Section CInd.
  Variable P : cexpr -> Prop.
  Variable Q : cstmt -> Prop.
  Variable R : citem -> Prop.
  Definition POpt (o : option cexpr) : Prop := match o with Some e => P e | None => True end.
  Hypothesis Hnum : forall d, P (CNum d).
  Hypothesis Hpath : forall p, P (CPath p).
  Hypothesis Hun : forall op a, P a -> P (CUnary op a).
  Hypothesis Hbin : forall op a b, P a -> P b -> P (CBinary op a b).
  Hypothesis Hmeth : forall r m args, P r -> Forall P args -> P (CMethodCall r m args).
  Hypothesis Hparen : forall a, P a -> P (CParen a).
  Hypothesis Hcall : forall f args, P f -> Forall P args -> P (CCall f args).
  Hypothesis Hcast : forall a t, P a -> P (CCast a t).
  Hypothesis Hif : forall c t o, P c -> Forall Q t -> POpt o -> P (CIf c t o).
  Hypothesis Hblock : forall b, Forall Q b -> P (CBlock b).
  Hypothesis Harr : forall es, Forall P es -> P (CArray es).
  Hypothesis Hass : forall a b, P a -> P b -> P (CAssign a b).
  Hypothesis Hassop : forall op a b, P a -> P b -> P (CAssignOp op a b).
  Hypothesis Hmark : forall k, P (CMarker k).
  Hypothesis Hverb : P CVerbatim.
  Hypothesis Hlocal : forall p o, POpt o -> Q (CLocal p o).
  Hypothesis Hest : forall e, P e -> Q (CExprStmt e).
  Hypothesis Hsemi : forall e, P e -> Q (CSemi e).
  Hypothesis Hist : forall i, R i -> Q (CItemStmt i).
  Hypothesis Hconst : forall n t e, P e -> R (CConst n t e).
  Hypothesis Htype : forall n t, R (CType n t).
  Hypothesis Hfn : forall n ps r b, Forall Q b -> R (CFn n ps r b).
  Hypothesis Himark : forall k, R (CItemMarker k).
  Hypothesis Hiverb : R CItemVerbatim.

  Fixpoint cexpr_ind_nested (e : cexpr) : P e :=
    let fix all (l : list cexpr) : Forall P l :=
      match l with [] => Forall_nil _ | x :: r => Forall_cons _ (cexpr_ind_nested x) (all r) end in
    let fix alls (l : list cstmt) : Forall Q l :=
      match l with [] => Forall_nil _ | x :: r => Forall_cons _ (cstmt_ind_nested x) (alls r) end in
    match e with
    | CNum d => Hnum d
    | CPath p => Hpath p
    | CUnary op a => Hun op a (cexpr_ind_nested a)
    | CBinary op a b => Hbin op a b (cexpr_ind_nested a) (cexpr_ind_nested b)
    | CMethodCall r m args => Hmeth r m args (cexpr_ind_nested r) (all args)
    | CParen a => Hparen a (cexpr_ind_nested a)
    | CCall f args => Hcall f args (cexpr_ind_nested f) (all args)
    | CCast a t => Hcast a t (cexpr_ind_nested a)
    | CIf c t o => Hif c t o (cexpr_ind_nested c) (alls t)
                     (match o with Some e => cexpr_ind_nested e | None => I end)
    | CBlock b => Hblock b (alls b)
    | CArray es => Harr es (all es)
    | CAssign a b => Hass a b (cexpr_ind_nested a) (cexpr_ind_nested b)
    | CAssignOp op a b => Hassop op a b (cexpr_ind_nested a) (cexpr_ind_nested b)
    | CMarker k => Hmark k
    | CVerbatim => Hverb
    end
  with cstmt_ind_nested (t : cstmt) : Q t :=
    match t with
    | CLocal p o => Hlocal p o (match o with Some e => cexpr_ind_nested e | None => I end)
    | CExprStmt e => Hest e (cexpr_ind_nested e)
    | CSemi e => Hsemi e (cexpr_ind_nested e)
    | CItemStmt i => Hist i (citem_ind_nested i)
    end
  with citem_ind_nested (i : citem) : R i :=
    let fix alls (l : list cstmt) : Forall Q l :=
      match l with [] => Forall_nil _ | x :: r => Forall_cons _ (cstmt_ind_nested x) (alls r) end in
    match i with
    | CConst n t e => Hconst n t e (cexpr_ind_nested e)
    | CType n t => Htype n t
    | CFn n ps r b => Hfn n ps r b (alls b)
    | CItemMarker k => Himark k
    | CItemVerbatim => Hiverb
    end.

  Lemma cind_all : (forall e, P e) /\ (forall t, Q t) /\ (forall i, R i).
  Proof. repeat split. - apply cexpr_ind_nested. - apply cstmt_ind_nested. - apply citem_ind_nested. Qed.
End CInd.

(** ** The text of a tree, without a stack (specification) *)
Definition ty_text (t : cty) : string :=
  match t with CTyPath p => basic_type (path_text p) | CTyMarker k => k | CTyVerbatim => "" end.
Fixpoint pat_text (p : cpat) : string :=
  match p with
  | CPatIdent n => n
  | CPatTyped p t => (ty_text t ++ " " ++ pat_text p)%string
  | CPatMarker k => k
  | CPatVerbatim => ""
  end.
Definition param_text (a : cpat + string) : string := match a with inl p => pat_text p | inr k => k end.
Definition ret_text (t : option cty) : string := match t with None => "void" | Some t => ty_text t end.

Section Text.
  Variable o : copts.
  Fixpoint expr_text (e : cexpr) : string :=
    match e with
    | CNum d => d
    | CPath p => path_text p
    | CUnary op a => (unop_text op ++ expr_text a)%string
    | CBinary op a b => (expr_text a ++ " " ++ binop_text op ++ " " ++ expr_text b)%string
    | CMethodCall r m args =>
        match method_text o m (expr_text r :: map expr_text args) with Ok t => t | _ => "" end
    | CParen a => ("(" ++ expr_text a ++ ")")%string
    | CCall f args => call_text o (expr_text f) (commas_text (map expr_text args))
    | CCast a t => ("(" ++ ty_text t ++ ")" ++ expr_text a)%string
    | CIf c t (Some e) =>
        ("(" ++ expr_text c ++ ") ? (" ++ block_text (map stmt_text t) ++ ") : (" ++ expr_text e ++ ")")%string
    | CIf _ _ None => "<<if requires an else>>"
    | CBlock b => ("(" ++ block_text (map stmt_text b) ++ ")")%string
    | CArray es => commas_text (map expr_text es)
    | CAssign a b => (expr_text a ++ " = " ++ expr_text b)%string
    | CAssignOp op a b => (expr_text a ++ " " ++ assign_op_text op ++ " " ++ expr_text b)%string
    | CMarker k => k
    | CVerbatim => ""
    end
  with stmt_text (t : cstmt) : string :=
    match t with
    | CExprStmt e => (expr_text e ++ ";")%string
    | CSemi e => expr_text e
    | CLocal p (Some e) => (pat_text p ++ " = " ++ expr_text e)%string
    | CLocal p None => pat_text p
    | CItemStmt i => item_text i
    end
  with item_text (i : citem) : string :=
    match i with
    | CConst n t e => ("const " ++ ty_text t ++ " " ++ n ++ " = " ++ expr_text e ++ ";")%string
    | CType n t => ("typedef " ++ ty_text t ++ " " ++ n ++ ";")%string
    | CFn n ps r b =>
        ((ret_text r ++ " " ++ (prefix o ++ n) ++ "(" ++ commas_text (map param_text ps) ++ ")")
         ++ " { return (" ++ block_text (map stmt_text b) ++ "); }")%string
    | CItemMarker k => k
    | CItemVerbatim => ""
    end.
  Definition file_text (items : list citem) : string :=
    String.concat (nl ++ nl) ("#include <math.h>" :: map item_text items).
End Text.

(** ** Trees on which the visitor cannot fail *)
Definition ty_ok (t : cty) : bool := match t with CTyVerbatim => false | _ => true end.
Fixpoint pat_ok (p : cpat) : bool :=
  match p with CPatIdent _ | CPatMarker _ => true | CPatTyped p t => pat_ok p && ty_ok t | CPatVerbatim => false end.
Definition param_ok (a : cpat + string) : bool := match a with inl p => pat_ok p | inr _ => true end.

(** No [Verbatim] node, and [mul_add] always has its two arguments. *)
Fixpoint expr_ok (e : cexpr) : bool :=
  match e with
  | CNum _ | CPath _ | CMarker _ => true
  | CUnary _ a | CParen a => expr_ok a
  | CBinary _ a b | CAssign a b | CAssignOp _ a b => expr_ok a && expr_ok b
  | CMethodCall r m args =>
      expr_ok r && forallb expr_ok args
      && (negb (String.eqb m "mul_add") || Nat.leb 2 (List.length args))
  | CCall f args => expr_ok f && forallb expr_ok args
  | CCast a t => expr_ok a && ty_ok t
  | CIf c t e => expr_ok c && forallb stmt_ok t && match e with Some e => expr_ok e | None => true end
  | CBlock b => forallb stmt_ok b
  | CArray es => forallb expr_ok es
  | CVerbatim => false
  end
with stmt_ok (t : cstmt) : bool :=
  match t with
  | CExprStmt e | CSemi e => expr_ok e
  | CLocal p i => pat_ok p && match i with Some e => expr_ok e | None => true end
  | CItemStmt i => item_ok i
  end
with item_ok (i : citem) : bool :=
  match i with
  | CConst _ t e => ty_ok t && expr_ok e
  | CType _ t => ty_ok t
  | CFn _ ps r b => forallb param_ok ps && match r with Some t => ty_ok t | None => true end && forallb stmt_ok b
  | CItemMarker _ => true
  | CItemVerbatim => false
  end.

(** Number of compound assignments: each leaves one string behind. *)
Definition total {A} (f : A -> nat) (l : list A) : nat := fold_right (fun x n => f x + n) 0 l.
Fixpoint expr_leak (e : cexpr) : nat :=
  match e with
  | CNum _ | CPath _ | CMarker _ | CVerbatim => 0
  | CUnary _ a | CParen a | CCast a _ => expr_leak a
  | CBinary _ a b | CAssign a b => expr_leak a + expr_leak b
  | CAssignOp _ a b => S (expr_leak a + expr_leak b)
  | CMethodCall r _ args => expr_leak r + total expr_leak args
  | CCall f args => expr_leak f + total expr_leak args
  | CIf c t e => expr_leak c + total stmt_leak t + match e with Some e => expr_leak e | None => 0 end
  | CBlock b => total stmt_leak b
  | CArray es => total expr_leak es
  end
with stmt_leak (t : cstmt) : nat :=
  match t with
  | CExprStmt e | CSemi e => expr_leak e
  | CLocal _ i => match i with Some e => expr_leak e | None => 0 end
  | CItemStmt i => item_leak i
  end
with item_leak (i : citem) : nat :=
  match i with
  | CConst _ _ e => expr_leak e
  | CFn _ _ _ b => total stmt_leak b
  | _ => 0
  end.

Definition leak (n : nat) : list string := repeat "<<expr_assign_op>>" n.

Lemma leak_app n m s : leak n ++ leak m ++ s = leak (n + m) ++ s.
Proof. unfold leak. rewrite repeat_app, app_assoc. reflexivity. Qed.
Lemma leak_comm n m : leak (n + m) = leak (m + n).
Proof. f_equal. lia. Qed.
Lemma leak_in n s : leak n ++ "<<expr_assign_op>>" :: s = leak (S n) ++ s.
Proof. unfold leak. induction n; cbn in *; [auto|]. now rewrite IHn. Qed.

Lemma visit_ty_ok t s : ty_ok t = true -> visit_ty t s = Ok (ty_text t :: s).
Proof. destruct t; cbn; congruence. Qed.
Lemma visit_pat_ok p s : pat_ok p = true -> visit_pat p s = Ok (pat_text p :: s).
Proof.
  revert s. induction p; cbn [pat_ok visit_pat pat_text]; intros s H; try congruence.
  apply andb_prop in H. destruct H. unfold pop_after. rewrite IHp by auto. cbn [rbind tos fst snd].
  rewrite visit_ty_ok by auto. reflexivity.
Qed.

Lemma each_ok {A} (visit : A -> stack -> res stack) (text : A -> string) (lk : A -> nat) l s :
  Forall (fun x => forall s, visit x s = Ok (text x :: leak (lk x) ++ s)) l ->
  each visit l s = Ok (map text l, leak (total lk l) ++ s).
Proof.
  intros F. revert s. induction F as [|x r Hx Hr IH]; intros s; [reflexivity|].
  cbn [each map total fold_right]. unfold pop_after. rewrite Hx. cbn [rbind tos fst snd].
  rewrite IH. cbn [rbind fst snd]. rewrite leak_app, leak_comm. reflexivity.
Qed.

Lemma each_params l s : forallb param_ok l = true -> each visit_param l s = Ok (map param_text l, s).
Proof.
  revert s. induction l as [|[p|k] r IH]; intros s H; [reflexivity| |]; cbn [forallb] in H;
    apply andb_prop in H; destruct H as [H1 H2]; cbn [each map visit_param param_text]; unfold pop_after.
  - rewrite visit_pat_ok by auto. cbn [rbind tos fst snd]. rewrite IH by auto. reflexivity.
  - cbn [rbind tos fst snd]. rewrite IH by auto. reflexivity.
Qed.

Lemma visit_sig_ok o n ps r s :
  forallb param_ok ps = true -> match r with Some t => ty_ok t | None => true end = true ->
  visit_sig o n ps r s =
  Ok ((ret_text r ++ " " ++ (prefix o ++ n) ++ "(" ++ commas_text (map param_text ps) ++ ")")%string :: s).
Proof.
  intros Hp Hr. unfold visit_sig. cbn [tos rbind fst snd]. rewrite each_params by auto. cbn [rbind fst snd].
  unfold pop_after. destruct r as [t|]; cbn [visit_ret ret_text].
  - rewrite visit_ty_ok by auto. reflexivity.
  - reflexivity.
Qed.

Lemma method_text_ok o m x l :
  (String.eqb m "mul_add" = false \/ 2 <= List.length l) -> exists t, method_text o m (x :: l) = Ok t.
Proof.
  intros H. unfold method_text. destruct (String.eqb m "round"); [eauto|].
  destruct (String.eqb m "mul_add"); [|eauto].
  destruct l as [|b [|c r]]; cbn in H; [lia| |eauto]. destruct H; [discriminate|lia].
Qed.

Section Run.
  Variable o : copts.
  Notation ET := (expr_text o). Notation ST := (stmt_text o). Notation IT := (item_text o).

  Ltac step :=
    match goal with
    | IH : _ = true -> forall s, visit_expr o ?a s = _ |- context [visit_expr o ?a ?s] => rewrite (IH ltac:(auto) s)
    end; cbn [rbind tos fst snd].
  Ltac fin := rewrite ?leak_in, ?leak_app; repeat (f_equal; try lia).

  Lemma forall_ok {A} (ok : A -> bool) (Q : A -> Prop) l :
    Forall (fun x => ok x = true -> Q x) l -> forallb ok l = true -> Forall Q l.
  Proof.
    intros F H. rewrite Forall_forall in *. rewrite forallb_forall in H. auto.
  Qed.

  (** Unfolding equations of the visitor. *)
  Definition vblock (b : list cstmt) (s : stack) : res (string * stack) :=
    pop_after (let? b := each (visit_stmt o) b s in Ok (block_text (fst b) :: snd b)).
  Lemma v_if c t e s : visit_expr o (CIf c t e) s =
    let? x := pop_after (visit_expr o c s) in
    let? y := vblock t (snd x) in
    match e with
    | Some e =>
        let? z := pop_after (visit_expr o e (snd y)) in
        Ok (("(" ++ fst x ++ ") ? (" ++ fst y ++ ") : (" ++ fst z ++ ")")%string :: snd z)
    | None => Ok ("<<if requires an else>>" :: snd y)
    end.
  Proof. reflexivity. Qed.
  Lemma v_block b s : visit_expr o (CBlock b) s =
    let? x := vblock b s in Ok (("(" ++ fst x ++ ")")%string :: snd x).
  Proof. reflexivity. Qed.
  Lemma v_local p i s : visit_stmt o (CLocal p i) s =
    let? x := pop_after (visit_pat p s) in
    match i with
    | Some e => let? y := pop_after (visit_expr o e (snd x)) in Ok ((fst x ++ " = " ++ fst y)%string :: snd y)
    | None => Ok (fst x :: snd x)
    end.
  Proof. reflexivity. Qed.
  Lemma v_est e s : visit_stmt o (CExprStmt e) s =
    let? x := pop_after (visit_expr o e s) in Ok ((fst x ++ ";")%string :: snd x).
  Proof. reflexivity. Qed.
  Lemma v_const n t e s : visit_item o (CConst n t e) s =
    let? y := pop_after (visit_ty t s) in
    let? z := pop_after (visit_expr o e (snd y)) in
    Ok (("const " ++ fst y ++ " " ++ n ++ " = " ++ fst z ++ ";")%string :: snd z).
  Proof. reflexivity. Qed.
  Lemma v_fn n ps r b s : visit_item o (CFn n ps r b) s =
    let? x := pop_after (visit_sig o n ps r s) in
    let? y := vblock b (snd x) in
    Ok ((fst x ++ " { return (" ++ fst y ++ "); }")%string :: snd y).
  Proof. reflexivity. Qed.
  Lemma vblock_ok b s :
    Forall (fun t => stmt_ok t = true -> forall s, visit_stmt o t s = Ok (ST t :: leak (stmt_leak t) ++ s)) b ->
    forallb stmt_ok b = true -> vblock b s = Ok (block_text (map ST b), leak (total stmt_leak b) ++ s).
  Proof.
    intros F H. apply forall_ok in F; [|assumption]. unfold vblock, pop_after.
    rewrite (each_ok _ ST stmt_leak) by auto. reflexivity.
  Qed.

  Ltac ok_hyps := cbn [expr_ok stmt_ok item_ok] in *;
    repeat match goal with H : _ && _ = true |- _ => apply andb_prop in H; destruct H end.
  Ltac vstep := unfold pop_after; cbn [rbind tos fst snd].

  Lemma visit_ok :
    (forall e, expr_ok e = true -> forall s, visit_expr o e s = Ok (ET e :: leak (expr_leak e) ++ s)) /\
    (forall t, stmt_ok t = true -> forall s, visit_stmt o t s = Ok (ST t :: leak (stmt_leak t) ++ s)) /\
    (forall i, item_ok i = true -> forall s, visit_item o i s = Ok (IT i :: leak (item_leak i) ++ s)).
  Proof.
    apply cind_all; try reflexivity; try discriminate.
    - intros op a IH H s. cbn [visit_expr]. vstep. step. reflexivity.
    - intros op a b IHa IHb H s. ok_hyps. cbn [visit_expr]. vstep. step. step. cbn [expr_leak]. fin.
    - intros r m args IHr F H s. ok_hyps. cbn [visit_expr]. vstep. step.
      apply forall_ok in F; [|assumption]. rewrite (each_ok _ ET expr_leak) by auto. vstep.
      destruct (method_text_ok o m (ET r) (map ET args)) as [t Ht].
      { rewrite map_length. match goal with H : _ || _ = true |- _ => apply orb_prop in H; destruct H as [H|H] end.
        - left. now apply negb_true_iff.
        - right. now apply Nat.leb_le. }
      cbn [expr_text]. rewrite Ht. cbn [rbind expr_leak]. fin.
    - intros a IH H s. cbn [visit_expr]. vstep. step. reflexivity.
    - intros f args IH F H s. ok_hyps. cbn [visit_expr]. vstep. step.
      apply forall_ok in F; [|assumption]. rewrite (each_ok _ ET expr_leak) by auto. vstep. cbn [expr_leak]. fin.
    - intros a t IH H s. ok_hyps. cbn [visit_expr]. vstep. step. rewrite visit_ty_ok by auto. reflexivity.
    - intros c t e IHc F IHe H s. ok_hyps. rewrite v_if. vstep. step. rewrite vblock_ok by auto. vstep.
      destruct e as [e|].
      + cbn [POpt] in IHe. step. cbn [expr_leak]. fin.
      + cbn [expr_leak]. fin.
    - intros b F H s. rewrite v_block. rewrite vblock_ok by auto. reflexivity.
    - intros es F H s. cbn [visit_expr]. apply forall_ok in F; [|assumption].
      rewrite (each_ok _ ET expr_leak) by auto. reflexivity.
    - intros a b IHa IHb H s. ok_hyps. cbn [visit_expr]. vstep. step. step. cbn [expr_leak]. fin.
    - intros op a b IHa IHb H s. ok_hyps. cbn [visit_expr]. vstep. step. step. cbn [expr_leak]. fin.
    - intros p [e|] IH H s; ok_hyps; rewrite v_local; rewrite visit_pat_ok by auto; vstep.
      + cbn [POpt] in IH. step. reflexivity.
      + reflexivity.
    - intros e IH H s. rewrite v_est. vstep. step. reflexivity.
    - auto.
    - auto.
    - intros n t e IH H s. ok_hyps. rewrite v_const. rewrite visit_ty_ok by auto. vstep. step. reflexivity.
    - intros n [p|k|] H s; [reflexivity|reflexivity|discriminate].
    - intros n ps r b F H s. ok_hyps. rewrite v_fn. rewrite visit_sig_ok by auto. vstep.
      rewrite vblock_ok by auto. reflexivity.
  Qed.

  Lemma to_c_ok items : forallb item_ok items = true -> to_c o items = Ok (file_text o items).
  Proof.
    intros H. unfold to_c. rewrite (each_ok _ IT item_leak).
    - cbn [rbind tos fst snd]. reflexivity.
    - rewrite Forall_forall. rewrite forallb_forall in H. intros x Hx. apply (proj2 (proj2 visit_ok)). auto.
  Qed.
End Run.
