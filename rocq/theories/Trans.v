(** Symbolic transformations: VariableList, Subst, Collect, Paren, Expand,
    tools, and the arithmetic operators on Expression. *)
From Coq Require Import ZArith List String Bool Ascii.
From Verif Require Import Res Dec DecStr Syntax Visitor.
Import ListNotations.
Open Scope string_scope.
Open Scope list_scope.

(** ** variablelist.rs *)

Definition varlist := list (list string * expr).

(** variablelist.rs:21-25 [add_var]: push, return the old length. *)
Definition add_var (vl : varlist) (n : list string) (e : expr) : varlist * nat :=
  (vl ++ [(n, e)], List.length vl).

(** variablelist.rs:27-33 [find]: first pair whose name is equal. *)
Definition find_var (vl : varlist) (n : list string) : option expr :=
  match List.find (fun b => path_eqb (fst b) n) vl with
  | Some (_, e) => Some e
  | None => None
  end.

(** ** transformation/subst.rs:11-24 *)
Definition subst_visitor (vl : varlist) : visitor :=
  Visitor def_method def_lit
          (fun p => match find_var vl p with Some e => Ok e | None => Ok (EPath p) end)
          def_field def_paren def_binary def_unary def_expr.
(** expression.rs:342-344 [subst] *)
Definition subst (vl : varlist) (e : expr) : res expr := visit (subst_visitor vl) e.

(** ** transformation/collect.rs:13-19; expression.rs:423-425 [collect_terms] *)
Definition collect_terms (variable : list string) (e : expr) : res expr :=
  visit default_visitor e.

(** ** transformation/tools.rs *)

(** tools.rs:6-20 *)
Definition negate (e : expr) : expr :=
  match e with EUnary UNeg x => x | _ => EUnary UNeg e end.
(** tools.rs:23-28 *)
Definition deparen (e : expr) : expr := match e with EParen x => x | _ => e end.
(** tools.rs:59-66 *)
Definition is_negated (e : expr) : bool := match e with EUnary UNeg _ => true | _ => false end.
(** tools.rs:75-82, 84-92, 94-101 *)
Definition make_paren (e : expr) : expr := EParen e.
Definition make_binary (l : expr) (op : binop) (r : expr) : expr := EBinary op l r.
Definition make_unary (op : unop) (e : expr) : expr := EUnary op e.

(** tools.rs:31-57 [make_sum]: recursion from the right end of the slice; an
    empty slice indexes out of bounds (panic).  Written on the reversed list:
    the head of [rev_sum] is the last element of the slice. *)
Fixpoint make_sum_rev (rev_sum : list expr) : res expr :=
  match rev_sum with
  | [] => Panic
  | rhs :: rest =>
      match rest with
      | [] => Ok rhs
      | _ :: _ =>
          let? lhs := make_sum_rev rest in
          if is_negated rhs then Ok (EBinary BSub lhs (negate rhs))
          else Ok (EBinary BAdd lhs rhs)
      end
  end.
Definition make_sum (sum : list expr) : res expr := make_sum_rev (rev sum).

(** ** transformation/expand.rs *)

(** expand.rs:11-49 [match_sum]: the terms appended to [sum].  One layer of
    parentheses is removed first.  ([match_sum] never returns [Err].) *)
Fixpoint match_sum (e : expr) (is_neg : bool) {struct e} : list expr :=
  match deparen e with
  | EBinary BAdd l r => match_sum l is_neg ++ match_sum r is_neg
  | EBinary BSub l r => match_sum l is_neg ++ match_sum r (negb is_neg)
  | EBinary BMul l r =>
      flat_map (fun lhs => map (fun rhs => make_binary lhs BMul rhs) (match_sum r false))
               (match_sum l is_neg)
  | _ => [if is_neg then negate (deparen e) else deparen e]
  end.

(** expand.rs:52-62 [visit_unary] *)
Definition expand_unary (op : unop) (e : expr) (_ : res expr) : res expr :=
  match op with
  | UDeref => Err UnsupportedExpr
  | UNot => Err UnsupportedExpr
  | UNeg => make_sum (match_sum (deparen e) true)
  end.
(** expand.rs:64-69 [visit_binary] *)
Definition expand_binary (op : binop) (l : expr) (_ : res expr) (r : expr) (_ : res expr) : res expr :=
  make_sum (match_sum (EBinary op l r) false).

Definition expand_visitor : visitor :=
  Visitor def_method def_lit def_path def_field def_paren expand_binary expand_unary def_expr.
(** expression.rs:410-412 [expand] *)
Definition expand (e : expr) : res expr := visit expand_visitor e.

(** ** transformation/paren.rs *)

(** paren.rs:9-15 *)
Definition parenthesise_op (e : expr) : expr :=
  match e with
  | EBinary _ _ _ => make_paren e
  | EUnary _ _ => make_paren e
  | _ => e
  end.
(** paren.rs:18-35 [visit_expr]; the [println!("HERE")] on line 30 is not modelled. *)
Definition paren_post (r : res expr) : res expr :=
  let? e := r in
  Ok match e with
     | EBinary op l r => make_binary (parenthesise_op l) op (parenthesise_op r)
     | EUnary op a => make_unary op (parenthesise_op a)
     | _ => e
     end.
Definition paren_visitor : visitor :=
  Visitor def_method def_lit def_path def_field def_paren def_binary def_unary paren_post.
(** expression.rs:438-440 [paren] *)
Definition paren (e : expr) : res expr := visit paren_visitor e.

(** ** Literals as numbers: expression.rs *)

(** expression.rs:81-91 [From<BigDecimal> for Expression]; [LitFloat::new]
    panics when the text is not a float literal. *)
Definition expr_of_bd (x : bd) : res expr :=
  match parse_lit_float (dec_repr x) with
  | Some (d, s) => Ok (ELit (LFloat (string_of_list_ascii d) (string_of_list_ascii s)))
  | None => Panic
  end.

(** expression.rs:106-124 [expr_to::<BigDecimal>]: [base10_parse] is [FromStr]
    on the base-10 digits, ignoring the suffix. *)
Definition bd_of_expr (e : expr) : res bd :=
  match e with
  | ELit (LFloat d _) | ELit (LInt d _) =>
      ok_or CouldNotConvertFromExpression (parse_dec (list_ascii_of_string d))
  | _ => Err CouldNotConvertFromExpression
  end.

(** expression.rs:324-334 [is_numeric] *)
Definition is_numeric (e : expr) : bool :=
  match e with ELit (LInt _ _) | ELit (LFloat _ _) => true | _ => false end.
(** expression.rs:311-316 [is_lit] *)
Definition is_lit (e : expr) : bool := match e with ELit _ => true | _ => false end.

(** expression.rs:32-41 [From<bool>] *)
Definition expr_of_bool (b : bool) : expr := ELit (LBool b).
