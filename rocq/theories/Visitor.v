(** The [Visitor] trait: doctor-syn/src/visitor.rs.

    A visitor is a record of the trait's overridable methods.  Each method
    receives, next to the original sub-expressions, the outcome of visiting
    them; a method that does not visit a sub-expression ignores that outcome.
    [v_expr] is the (rarely overridden) wrapper [visit_expr] around
    [visit_expr_core]. *)
From Coq Require Import List String.
From Verif Require Import Res Syntax.
Import ListNotations.

Record visitor : Type := Visitor {
  v_method : expr -> res expr -> string -> option string -> list expr -> list (res expr) -> res expr;
  v_lit : lit -> res expr;
  v_path : list string -> res expr;
  v_field : expr -> res expr -> string -> res expr;
  v_paren : expr -> res expr -> res expr;
  v_binary : binop -> expr -> res expr -> expr -> res expr -> res expr;
  v_unary : unop -> expr -> res expr -> res expr;
  v_expr : res expr -> res expr
}.

(** visitor.rs:15-32 *)
Definition def_method (_ : expr) (recv : res expr) (m : string) (t : option string)
           (_ : list expr) (args : list (res expr)) : res expr :=
  let? r := recv in let? a := rseq args in Ok (EMethodCall r m t a).
(** visitor.rs:35-37 *)
Definition def_lit (l : lit) : res expr := Ok (ELit l).
(** visitor.rs:40-42 *)
Definition def_path (p : list string) : res expr := Ok (EPath p).
(** visitor.rs:45-54 *)
Definition def_field (_ : expr) (base : res expr) (m : string) : res expr :=
  let? b := base in Ok (EField b m).
(** visitor.rs:57-65 *)
Definition def_paren (_ : expr) (e : res expr) : res expr := let? x := e in Ok (EParen x).
(** visitor.rs:87-97 *)
Definition def_binary (op : binop) (_ : expr) (l : res expr) (_ : expr) (r : res expr) : res expr :=
  let? a := l in let? b := r in Ok (EBinary op a b).
(** visitor.rs:99-107 *)
Definition def_unary (op : unop) (_ : expr) (e : res expr) : res expr :=
  let? x := e in Ok (EUnary op x).
(** visitor.rs:110-119 with TRACING = false *)
Definition def_expr (r : res expr) : res expr := r.

Definition default_visitor : visitor :=
  Visitor def_method def_lit def_path def_field def_paren def_binary def_unary def_expr.

(** visitor.rs:121-133 [visit_expr_core], wrapped by [visit_expr]. *)
Fixpoint visit (v : visitor) (e : expr) : res expr :=
  v_expr v
    match e with
    | EUnary op a => v_unary v op a (visit v a)
    | EBinary op a b => v_binary v op a (visit v a) b (visit v b)
    | EMethodCall r m t args => v_method v r (visit v r) m t args (map (visit v) args)
    | EParen a => v_paren v a (visit v a)
    | ELit l => v_lit v l
    | EPath p => v_path v p
    | EField a m => v_field v a (visit v a) m
    | _ => Err UnsupportedExpr
    end.
