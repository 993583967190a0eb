(** doctor-syn/src/transformation/eval.rs: the [Eval] visitor.

    [o] and [fuel] are those of BdMath.v. *)
From Coq Require Import ZArith List Bool String.
From Verif Require Import Res Dec DecStr Syntax Visitor Trans ExprOps BdMath.
Import ListNotations.
Open Scope Z_scope.
Open Scope string_scope.

(** eval.rs:51-169: the method table, on the evaluated receiver and arguments. *)
Definition eval_call (o : oracles) (fuel : nat) (nd : Z) (m : string) (x : bd) (args : list bd) : res bd :=
  let some (r : res (option bd)) : res bd := let? v := r in ok_or CouldNotEvaluate v in
  match args with
  | [] =>
      if m =? "round" then Ok (round x 0)
      else if m =? "abs" then Ok (dabs x)
      else if m =? "signum" then Ok (dsignum x)
      else if m =? "recip" then Ok (o_inverse o x)
      else if m =? "sqrt" then ok_or CouldNotEvaluate (o_sqrt o x)
      else if m =? "exp" then bexp x nd
      else if m =? "exp2" then some (bpow fuel dtwo x nd)
      else if m =? "ln" then some (bln fuel x nd)
      else if m =? "log2" then some (blog fuel x dtwo nd)
      else if m =? "log10" then some (blog fuel x (bigd 10) nd)
      else if m =? "sin" then bsin x nd
      else if m =? "cos" then bcos x nd
      else if m =? "tan" then btan x nd
      else if m =? "asin" then basin o x nd
      else if m =? "acos" then bacos o x nd
      else if m =? "atan" then batan o x nd
      else if m =? "erf" then berf o x nd
      else if m =? "erfc" then berfc o x nd
      else Err CouldNotEvaluate
  | [a] =>
      if m =? "powi" then some (bpow fuel x a nd)
      else if m =? "powf" then some (bpow fuel x a nd)
      else if m =? "log" then some (blog fuel x a nd)
      else if m =? "round_ieee" then bround_ieee o x a
      else Err CouldNotEvaluate
  | [a; b] =>
      if m =? "dnorm" then bdnorm o x a b nd
      else if m =? "pnorm" then bpnorm o x a b nd
      else if m =? "qnorm" then some (bqnorm o fuel x a b nd)
      else Err CouldNotEvaluate
  | _ => Err CouldNotEvaluate
  end.

(** eval.rs:31-170 [visit_method_call] *)
Definition eval_method (o : oracles) (fuel : nat) (nd : Z) (_ : expr) (recv : res expr) (m : string)
  (_ : option string) (_ : list expr) (args : list (res expr)) : res expr :=
  let? r := recv in
  let? a := rseq args in
  let? x := bd_of_expr r in
  let? xs := rseq (map bd_of_expr a) in
  let? y := eval_call o fuel nd m x xs in
  expr_of_bd y.

(** eval.rs:179-195: the operators on two numbers *)
Definition eval_op (nd : Z) (op : binop) (x y : bd) : res expr :=
  match op with
  | BAdd => expr_of_bd (dadd x y)
  | BSub => expr_of_bd (dsub x y)
  | BMul => expr_of_bd (round (dmul x y) nd)
  | BDiv => let? q := ddiv x y in expr_of_bd (round q nd)
  | BLt => Ok (expr_of_bool (dltb x y))
  | BGt => Ok (expr_of_bool (dltb y x))
  | BLe => Ok (expr_of_bool (dleb x y))
  | BGe => Ok (expr_of_bool (dleb y x))
  | BEq => Ok (expr_of_bool (deqb x y))
  | BNe => Ok (expr_of_bool (negb (deqb x y)))
  | _ => Err CouldNotEvaluate
  end.
(** eval.rs:172-199 [visit_binary] *)
Definition eval_binary (nd : Z) (op : binop) (_ : expr) (l : res expr) (_ : expr) (r : res expr) : res expr :=
  let? a := l in
  let? b := r in
  if is_numeric a && is_numeric b then
    let? x := unwrap (bd_of_expr a) in
    let? y := unwrap (bd_of_expr b) in
    eval_op nd op x y
  else Err CouldNotEvaluate.

(** eval.rs:201-214 [visit_unary] *)
Definition eval_unary (op : unop) (_ : expr) (e : res expr) : res expr :=
  let? a := e in
  if is_numeric a then
    let? x := unwrap (bd_of_expr a) in
    match op with UNeg => expr_of_bd (dneg x) | _ => Err CouldNotEvaluate end
  else Err CouldNotEvaluate.

(** eval.rs:217-227 [visit_path] *)
Definition eval_path (o : oracles) (nd : Z) (p : list string) : res expr :=
  match p with
  | [n] => if n =? "PI" then let? x := bpi o nd in expr_of_bd x else Err CouldNotEvaluate
  | _ => Err CouldNotEvaluate
  end.

(** eval.rs:27-29 [visit_paren] *)
Definition eval_paren (_ : expr) (e : res expr) : res expr := e.

Definition eval_visitor (o : oracles) (fuel : nat) (nd : Z) : visitor :=
  Visitor (eval_method o fuel nd) def_lit (eval_path o nd) def_field eval_paren
          (eval_binary nd) eval_unary def_expr.

(** expression.rs:357-360 [eval] *)
Definition eval (o : oracles) (fuel : nat) (nd : Z) (e : expr) : res expr :=
  visit (eval_visitor o fuel nd) e.
