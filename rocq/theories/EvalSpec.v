(** Specification vocabulary for evaluation: exact rational values of arithmetic
    expressions and the propagated error bound. *)
From Coq Require Import ZArith QArith Qabs List Bool String.
From Verif Require Import Res Dec Syntax Trans.
Import ListNotations.
Open Scope Q_scope.

(** The exact value of an expression made of numbers, + - * /, unary minus and
    parentheses; no value if a divisor is zero. *)
Fixpoint exact (e : expr) : option Q :=
  match e with
  | ELit _ => match bd_of_expr e with Ok x => Some (dval x) | _ => None end
  | EParen a => exact a
  | EUnary UNeg a => match exact a with Some x => Some (- x) | None => None end
  | EBinary op a b =>
      match exact a, exact b with
      | Some x, Some y =>
          match op with
          | BAdd => Some (x + y)
          | BSub => Some (x - y)
          | BMul => Some (x * y)
          | BDiv => if Qeq_bool y 0 then None else Some (x / y)
          | _ => None
          end
      | _, _ => None
      end
  | _ => None
  end.

(** Half a unit of the n-th decimal. *)
Definition half_ulp (n : Z) : Q := (1 # 2) * p10 (- n).

(** The error bound at [n] digits.  A product adds half a unit; a quotient half
    a unit and a relative error of half of 10^-99; a quotient has a bound only
    when its divisor is known to be away from zero. *)
Fixpoint err_bound (n : Z) (e : expr) : option Q :=
  match e with
  | ELit _ => Some 0
  | EParen a | EUnary _ a => err_bound n a
  | EBinary op a b =>
      match exact a, exact b, err_bound n a, err_bound n b with
      | Some x, Some y, Some ea, Some eb =>
          match op with
          | BAdd | BSub => Some (ea + eb)
          | BMul => Some (Qabs x * eb + Qabs y * ea + ea * eb + half_ulp n)
          | BDiv =>
              if Qle_bool (Qabs y) eb then None
              else let d := (ea * Qabs y + Qabs x * eb) / (Qabs y * (Qabs y - eb)) in
                   Some (d + (1 # 2) * p10 (-99) * (Qabs (x / y) + d) + half_ulp n)
          | _ => None
          end
      | _, _, _, _ => None
      end
  | _ => None
  end.

(** All parentheses removed. *)
Fixpoint strip_parens (e : expr) : expr :=
  match e with
  | EUnary op a => EUnary op (strip_parens a)
  | EBinary op a b => EBinary op (strip_parens a) (strip_parens b)
  | EMethodCall r m t args => EMethodCall (strip_parens r) m t (map strip_parens args)
  | EParen a => strip_parens a
  | EField a m => EField (strip_parens a) m
  | _ => e
  end.

(** No field access. *)
Fixpoint fieldless (e : expr) : bool :=
  match e with
  | EUnary _ a | EParen a => fieldless a
  | EBinary _ a b => fieldless a && fieldless b
  | EMethodCall r _ _ args => fieldless r && forallb fieldless args
  | EField _ _ => false
  | _ => true
  end.

(** The methods the evaluator knows, with their number of arguments. *)
Open Scope string_scope.
Definition known_methods : list (string * nat) :=
  [("round", 0); ("abs", 0); ("signum", 0); ("recip", 0); ("powi", 1); ("powf", 1); ("sqrt", 0);
   ("exp", 0); ("exp2", 0); ("ln", 0); ("log", 1); ("log2", 0); ("log10", 0); ("sin", 0); ("cos", 0);
   ("tan", 0); ("asin", 0); ("acos", 0); ("atan", 0); ("erf", 0); ("erfc", 0); ("dnorm", 2);
   ("pnorm", 2); ("qnorm", 2); ("round_ieee", 1)]%nat.

(** Every method called in an expression, with its number of arguments. *)
Fixpoint methods_of (e : expr) : list (string * nat) :=
  match e with
  | EUnary _ a | EParen a | EField a _ => methods_of a
  | EBinary _ a b => methods_of a ++ methods_of b
  | EMethodCall r m _ args => (m, List.length args) :: methods_of r ++ flat_map methods_of args
  | _ => []
  end%list.

(** Arithmetic expressions over readable numbers without division. *)
Fixpoint polynomial_numeric (e : expr) : bool :=
  match e with
  | ELit _ => match bd_of_expr e with Ok _ => true | _ => false end
  | EParen a | EUnary UNeg a => polynomial_numeric a
  | EBinary (BAdd | BSub | BMul) a b => polynomial_numeric a && polynomial_numeric b
  | _ => false
  end.
