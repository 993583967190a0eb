(** Expression trees (the part of syn 1.0's [Expr] that doctor-syn handles) and
    their meaning under an arbitrary interpretation.

    Cites doctor-syn/src/visitor.rs:121-133 for the supported node kinds.
    Spans, attributes, leading colons, generic path arguments and qualified
    self types are dropped.  Types in casts, locals and turbofish are kept as
    text. *)
From Coq Require Import List String Bool.
Import ListNotations.
Open Scope string_scope.

(** syn::UnOp *)
Inductive unop : Type := UDeref | UNot | UNeg.

(** syn::BinOp without the compound assignments (those never occur in an
    [ExprBinary] built by the parser). *)
Inductive binop : Type :=
| BAdd | BSub | BMul | BDiv | BRem
| BAnd | BOr | BBitXor | BBitAnd | BBitOr | BShl | BShr
| BEq | BLt | BLe | BNe | BGe | BGt.

(** syn::Lit: [LInt]/[LFloat] carry the base-10 digits and the suffix.
    All other kinds of literal are [LOther] with their text. *)
Inductive lit : Type :=
| LInt (digits suffix : string)
| LFloat (digits suffix : string)
| LBool (b : bool)
| LOther (text : string).

Inductive expr : Type :=
| ELit (l : lit)
| EPath (p : list string)
| EUnary (op : unop) (e : expr)
| EBinary (op : binop) (l r : expr)
| EMethodCall (recv : expr) (m : string) (turbofish : option string) (args : list expr)
| EParen (e : expr)
| EField (e : expr) (member : string)
| ECall (f : expr) (args : list expr)
| ECast (e : expr) (ty : string)
| EIf (cond : expr) (thn : list stmt) (els : option expr)
| EBlock (b : list stmt)
| EOther (kind : string)
with stmt : Type :=
| SLocal (name : string) (ty : option string) (init : option expr)
| SExpr (e : expr)
| SSemi (e : expr).

(** Induction principle covering the nested lists. *)
Section ExprInd.
  Variable P : expr -> Prop.
  Variable Ps : stmt -> Prop.
  Definition OptP (o : option expr) : Prop := match o with Some e => P e | None => True end.
  Hypothesis Hlit : forall l, P (ELit l).
  Hypothesis Hpath : forall p, P (EPath p).
  Hypothesis Hunary : forall op e, P e -> P (EUnary op e).
  Hypothesis Hbinary : forall op l r, P l -> P r -> P (EBinary op l r).
  Hypothesis Hmethod : forall r m t args, P r -> Forall P args -> P (EMethodCall r m t args).
  Hypothesis Hparen : forall e, P e -> P (EParen e).
  Hypothesis Hfield : forall e m, P e -> P (EField e m).
  Hypothesis Hcall : forall f args, P f -> Forall P args -> P (ECall f args).
  Hypothesis Hcast : forall e t, P e -> P (ECast e t).
  Hypothesis Hif : forall c t e, P c -> Forall Ps t -> OptP e -> P (EIf c t e).
  Hypothesis Hblock : forall b, Forall Ps b -> P (EBlock b).
  Hypothesis Hother : forall k, P (EOther k).
  Hypothesis Hlocal : forall n t i, OptP i -> Ps (SLocal n t i).
  Hypothesis Hsexpr : forall e, P e -> Ps (SExpr e).
  Hypothesis Hssemi : forall e, P e -> Ps (SSemi e).

  Fixpoint expr_ind_nested (e : expr) : P e :=
    let fix all (l : list expr) : Forall P l :=
        match l with
        | [] => Forall_nil _
        | x :: r => Forall_cons _ (expr_ind_nested x) (all r)
        end in
    let fix alls (l : list stmt) : Forall Ps l :=
        match l with
        | [] => Forall_nil _
        | x :: r => Forall_cons _ (stmt_ind_nested x) (alls r)
        end in
    match e with
    | ELit l => Hlit l
    | EPath p => Hpath p
    | EUnary op e => Hunary op e (expr_ind_nested e)
    | EBinary op l r => Hbinary op l r (expr_ind_nested l) (expr_ind_nested r)
    | EMethodCall r m t args => Hmethod r m t args (expr_ind_nested r) (all args)
    | EParen e => Hparen e (expr_ind_nested e)
    | EField e m => Hfield e m (expr_ind_nested e)
    | ECall f args => Hcall f args (expr_ind_nested f) (all args)
    | ECast e t => Hcast e t (expr_ind_nested e)
    | EIf c t o => Hif c t o (expr_ind_nested c) (alls t)
                      (match o with Some e => expr_ind_nested e | None => I end)
    | EBlock b => Hblock b (alls b)
    | EOther k => Hother k
    end
  with stmt_ind_nested (s : stmt) : Ps s :=
    match s with
    | SLocal n t o => Hlocal n t o (match o with Some e => expr_ind_nested e | None => I end)
    | SExpr e => Hsexpr e (expr_ind_nested e)
    | SSemi e => Hssemi e (expr_ind_nested e)
    end.
End ExprInd.

(** The nodes [visit_expr_core] dispatches on; everything else is an error.
    visitor.rs:121-133 *)
Fixpoint supported (e : expr) : bool :=
  match e with
  | ELit _ | EPath _ => true
  | EUnary _ a | EParen a | EField a _ => supported a
  | EBinary _ a b => supported a && supported b
  | EMethodCall r _ _ args => supported r && forallb supported args
  | _ => false
  end.

(** ** Meaning of expressions (specification)

    An interpretation gives a value to names, literals and unsupported
    constructs and a function to operators, methods and fields.  Parentheses
    have no effect on the value. *)
Record interp (V : Type) : Type := Interp {
  i_lit : lit -> V;
  i_path : list string -> V;
  i_un : unop -> V -> V;
  i_bin : binop -> V -> V -> V;
  i_meth : string -> option string -> V -> list V -> V;
  i_field : string -> V -> V;
  i_other : expr -> V
}.
Arguments Interp {V}.
Arguments i_lit {V}. Arguments i_path {V}. Arguments i_un {V}. Arguments i_bin {V}.
Arguments i_meth {V}. Arguments i_field {V}. Arguments i_other {V}.

Fixpoint den {V} (I : interp V) (e : expr) : V :=
  match e with
  | ELit l => i_lit I l
  | EPath p => i_path I p
  | EUnary op a => i_un I op (den I a)
  | EBinary op a b => i_bin I op (den I a) (den I b)
  | EMethodCall r m t args => i_meth I m t (den I r) (map (den I) args)
  | EParen a => den I a
  | EField a m => i_field I m (den I a)
  | _ => i_other I e
  end.

(** The same interpretation with other values for names. *)
Definition with_paths {V} (I : interp V) (f : list string -> V) : interp V :=
  Interp (i_lit I) f (i_un I) (i_bin I) (i_meth I) (i_field I) (i_other I).

(** Names mentioned in supported positions. *)
Fixpoint paths_of (e : expr) : list (list string) :=
  match e with
  | EPath p => [p]
  | EUnary _ a | EParen a | EField a _ => paths_of a
  | EBinary _ a b => paths_of a ++ paths_of b
  | EMethodCall r _ _ args => paths_of r ++ flat_map paths_of args
  | _ => []
  end.

(** Decidable equality of names (derived [PartialEq] of [syn::Path]). *)
Fixpoint path_eqb (p q : list string) : bool :=
  match p, q with
  | [], [] => true
  | a :: p', b :: q' => String.eqb a b && path_eqb p' q'
  | _, _ => false
  end.

Lemma path_eqb_eq p q : path_eqb p q = true <-> p = q.
Proof.
  revert q. induction p as [|a p IH]; intros [|b q]; cbn; split; intros H; try congruence; try discriminate.
  - apply andb_prop in H. destruct H as [H1 H2]. apply String.eqb_eq in H1. apply IH in H2. congruence.
  - inversion H; subst. rewrite String.eqb_refl. cbn. apply IH. reflexivity.
Qed.

Lemma path_eqb_neq p q : path_eqb p q = false <-> p <> q.
Proof.
  rewrite <- path_eqb_eq. destruct (path_eqb p q); split; congruence.
Qed.
