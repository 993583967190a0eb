(** Specifications used by the properties of [expand]; independent of the model. *)
From Coq Require Import List String Bool Ring_theory.
From Verif Require Import Syntax.
Import ListNotations.

(** The interpretation makes + - * and negation those of a commutative ring;
    everything else (division, comparison, methods, ...) is unconstrained. *)
Definition ring_interp {V} (I : interp V) : Prop :=
  exists zero one : V,
    ring_theory zero one (i_bin I BAdd) (i_bin I BMul) (i_bin I BSub) (i_un I UNeg) (@eq V).

(** A construct that is an error wherever the traversal meets it: one outside
    the supported kinds, or a dereference / logical not.  The traversal goes
    into parentheses, fields, receivers and arguments but not into operators. *)
Fixpoint expand_fails (e : expr) : bool :=
  match e with
  | ELit _ | EPath _ => false
  | EBinary _ _ _ => false
  | EUnary UNeg _ => false
  | EUnary _ _ => true
  | EMethodCall r _ _ args => expand_fails r || existsb expand_fails args
  | EParen a | EField a _ => expand_fails a
  | _ => true
  end.

(** Polynomial expressions. *)
Fixpoint polynomial_expr (e : expr) : bool :=
  match e with
  | ELit _ | EPath _ => true
  | EUnary UNeg a | EParen a => polynomial_expr a
  | EBinary BAdd a b | EBinary BSub a b | EBinary BMul a b => polynomial_expr a && polynomial_expr b
  | _ => false
  end.

(** A signed product of names and literals: no sum inside. *)
Fixpoint signed_product (e : expr) : bool :=
  match e with
  | ELit _ | EPath _ => true
  | EUnary UNeg a | EParen a => signed_product a
  | EBinary BMul a b => signed_product a && signed_product b
  | _ => false
  end.
(** A sum of signed products, possibly in parentheses as a whole. *)
Fixpoint sum_of_products (e : expr) : bool :=
  match e with
  | EBinary BAdd a b | EBinary BSub a b => sum_of_products a && sum_of_products b
  | _ => signed_product e
  end.
Fixpoint expanded (e : expr) : bool :=
  match e with EParen a => expanded a | _ => sum_of_products e end.

(** No doubled parentheses and no minus sign in front of a sum, except where the
    minus sign is the outermost operator. *)
Fixpoint plainly_nested (e : expr) : bool :=
  match e with
  | ELit _ | EPath _ => true
  | EUnary UNeg a => signed_product a
  | EParen (EParen a) => signed_product a
  | EParen a => plainly_nested a
  | EBinary BAdd a b | EBinary BSub a b | EBinary BMul a b => plainly_nested a && plainly_nested b
  | _ => false
  end.
Fixpoint expandable (e : expr) : bool :=
  match e with
  | EParen a => expandable a
  | EUnary UNeg (EParen (EParen a)) => plainly_nested (EParen a)
  | EUnary UNeg a => plainly_nested a
  | _ => plainly_nested e
  end.
