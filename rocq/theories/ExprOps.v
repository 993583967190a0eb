(** The arithmetic operators on [Expression]: doctor-syn/src/expression.rs:199-219. *)
From Coq Require Import String List ZArith.
From Verif Require Import Res Dec DecStr Syntax Trans Parse.
Import ListNotations.

Inductive eop := OpAdd | OpSub | OpMul | OpDiv.

(** The BigDecimal operator substituted for [$op] in the numeric branch. *)
Definition bd_op (o : eop) (x y : bd) : res bd :=
  match o with
  | OpAdd => Ok (dadd x y)
  | OpSub => Ok (dsub x y)
  | OpMul => Ok (dmul x y)
  | OpDiv => ddiv x y
  end.

(** [Result::unwrap] *)
Definition unwrap {A} (r : res A) : res A := match r with Ok a => Ok a | _ => Panic end.

(** [parse_quote!((#lhs) + (#rhs))]: the operands' tokens in parentheses, parsed
    again; [parse_quote!] panics when they do not parse. *)
Definition quote_sum (l r : expr) : res expr :=
  match rust_parse (TLParen :: toks l ++ TRParen :: TBin BAdd :: TLParen :: toks r ++ [TRParen]) with
  | Some e => Ok e
  | None => Panic
  end.

(** expression.rs:199-219 [make_op!]: note that the symbolic branch builds a sum
    whatever the operator (line 211). *)
Definition make_op (o : eop) (l r : expr) : res expr :=
  if (is_numeric l && is_numeric r)%bool then
    let? x := unwrap (bd_of_expr l) in
    let? y := unwrap (bd_of_expr r) in
    let? z := bd_op o x y in
    expr_of_bd z
  else quote_sum l r.
