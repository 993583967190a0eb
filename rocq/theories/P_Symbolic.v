(** Properties C03-C12: variable lists and symbolic transformations. Theorems only. *)
From Coq Require Import ZArith QArith Qabs String List Bool.
From Verif Require Import Res Dec DecFacts Syntax Trans TransFacts ExpandSpec ExpandFacts
  Parse ParseFacts ExprOps TransParse SymbolicProofs.
Import ListNotations.
Open Scope string_scope.
Open Scope list_scope.

Notation name s := (EPath [s]).
Notation int s := (ELit (LInt s "")).

(** ** C03 Variable lists.  [add_all adds []] is the list after the calls [adds]. *)

Theorem C03_find_first_binding :
  forall (adds : list (list string * expr)) (n : list string) (e : expr),
  find_var (add_all adds []) n = Some e <->
  exists before after, adds = before ++ (n, e) :: after /\ ~ In n (map fst before).
Proof. exact find_first_binding. Qed.
Print Assumptions C03_find_first_binding.

Theorem C03_find_none :
  forall adds n, find_var (add_all adds []) n = None <-> ~ In n (map fst adds).
Proof. exact find_none_binding. Qed.
Print Assumptions C03_find_none.

Theorem C03_add_var_index :
  forall adds n e, snd (add_var (add_all adds []) n e) = List.length adds.
Proof. exact add_var_index. Qed.
Print Assumptions C03_add_var_index.

Theorem C03_add_var_stable :
  forall vl n x m e, find_var vl n = Some x -> find_var (fst (add_var vl m e)) n = Some x.
Proof. exact add_var_stable. Qed.
Print Assumptions C03_add_var_stable.

Example C03_case :
  find_var (add_all [(["x"], int "1"); (["y"], int "2"); (["x"], int "3")] []) ["x"] = Some (int "1").
Proof. reflexivity. Qed.

(** ** C04, C05 Substitution *)

Theorem C04_subst_meaning :
  forall (vl : varlist) (e r : expr), subst vl e = Ok r ->
  forall (V : Type) (I : interp V),
  den I r =
  den (with_paths I (fun p => match find_var vl p with Some x => den I x | None => i_path I p end)) e.
Proof. exact subst_meaning. Qed.
Print Assumptions C04_subst_meaning.

Example C04_case :
  subst [(["x"], EBinary BAdd (name "x") (name "y")); (["y"], int "5")]
        (EBinary BMul (name "x") (EMethodCall (name "y") "pow" None [name "x"; name "z"]))
  = Ok (EBinary BMul (EBinary BAdd (name "x") (name "y"))
          (EMethodCall (int "5") "pow" None [EBinary BAdd (name "x") (name "y"); name "z"])).
Proof. reflexivity. Qed.

Theorem C05_subst_fails_exactly :
  forall vl e,
  (supported e = true -> exists r, subst vl e = Ok r) /\
  (supported e = false -> subst vl e = Err UnsupportedExpr).
Proof. exact subst_fails_exactly. Qed.
Print Assumptions C05_subst_fails_exactly.

Theorem C05_subst_unbound_unchanged :
  forall vl e, supported e = true -> (forall p, In p (paths_of e) -> ~ In p (map fst vl)) ->
  subst vl e = Ok e.
Proof. exact subst_unbound. Qed.
Print Assumptions C05_subst_unbound_unchanged.

(** The names of the result: the unbound names of the original and the names of
    the bound expressions put in, nothing else. *)
Theorem C05_subst_names :
  forall vl e r, subst vl e = Ok r -> forall p,
  In p (paths_of r) <->
  (In p (paths_of e) /\ find_var vl p = None) \/
  (exists q x, In q (paths_of e) /\ find_var vl q = Some x /\ In p (paths_of x)).
Proof. exact subst_names. Qed.
Print Assumptions C05_subst_names.

Example C05_case :
  subst [(["q"], int "1")] (EBinary BAdd (name "x") (int "1")) = Ok (EBinary BAdd (name "x") (int "1"))
  /\ subst [] (EBinary BAdd (ECall (name "f") []) (int "1")) = Err UnsupportedExpr.
Proof. split; reflexivity. Qed.

(** ** C06 The printed form of a substitution result

    Full statement: for token lists [ts], [ts_b] accepted by the parser,
    [subst] of the parsed trees gives an [r] with [rust_parse (toks r) = Some r].
    It is false: no parentheses are inserted around a substituted operator.
    Proved: it holds when no bound expression is an operator; and in general
    exactly when [r] is sufficiently parenthesised. *)
Theorem C06_subst_reads_back_partial :
  forall ts e vl r,
  Forall tok_ok ts -> rust_parse ts = Some e ->
  Forall (fun b => exists ts', Forall tok_ok ts' /\ rust_parse ts' = Some (snd b) /\ is_op (snd b) = false) vl ->
  subst vl e = Ok r -> rust_parse (toks r) = Some r.
Proof. exact subst_reads_back. Qed.
Print Assumptions C06_subst_reads_back_partial.

Theorem C06_subst_reads_back_refuted :
  exists ts ts' e x r r',
  Forall tok_ok ts /\ Forall tok_ok ts' /\
  rust_parse ts = Some e /\ rust_parse ts' = Some x /\ subst [(["x"], x)] e = Ok r /\
  rust_parse (toks r) = Some r' /\ r' <> r /\
  den (Interp (V := Z) (fun _ => 2%Z) (fun p => if path_eqb p ["a"] then 3%Z else 5%Z) (fun _ => Z.opp)
              (fun op => match op with BMul => Z.mul | _ => Z.add end) (fun _ _ z _ => z) (fun _ z => z) (fun _ => 0%Z)) r
  <> den (Interp (V := Z) (fun _ => 2%Z) (fun p => if path_eqb p ["a"] then 3%Z else 5%Z) (fun _ => Z.opp)
              (fun op => match op with BMul => Z.mul | _ => Z.add end) (fun _ _ z _ => z) (fun _ z => z) (fun _ => 0%Z)) r'.
Proof. exact subst_reads_back_false. Qed.
Print Assumptions C06_subst_reads_back_refuted.

(** A tree is recovered from its printed form exactly when no operand needs
    parentheses that are not there. *)
Theorem C06_reads_back_exactly :
  forall e, Forall tok_ok (toks e) -> (rust_parse (toks e) = Some e <-> wp rust_prec e = true).
Proof. exact (reads_back_iff rust_prec rust_prec_small). Qed.
Print Assumptions C06_reads_back_exactly.

(** Parsing then printing gives the tokens back, always. *)
Theorem C06_print_parse :
  forall ts e, Forall tok_ok ts -> rust_parse ts = Some e -> toks e = ts.
Proof. exact print_parse. Qed.
Print Assumptions C06_print_parse.

Example C06_case :
  rust_parse [TPath ["x"]; TBin BMul; TLit (LInt "2" "")] = Some (EBinary BMul (name "x") (int "2")) /\
  rust_parse [TLParen; TPath ["a"]; TBin BAdd; TPath ["b"]; TRParen] = Some (EParen (EBinary BAdd (name "a") (name "b"))).
Proof. split; reflexivity. Qed.

(** ** C07 Paren *)

Theorem C07_paren_value :
  forall e, supported e = true ->
  exists r, paren e = Ok r /\ (forall (V : Type) (I : interp V), den I r = den I e) /\ paren r = Ok r.
Proof. exact paren_value. Qed.
Print Assumptions C07_paren_value.

Theorem C07_paren_fails_exactly : forall e, supported e = false -> paren e = Err UnsupportedExpr.
Proof. exact paren_fails. Qed.
Print Assumptions C07_paren_fails_exactly.

(** Full statement: for every supported [e], [paren e = Ok r -> rust_parse (toks r) = Some r].
    It is false when a method receiver or field base is a bare operator (such
    trees come out of [subst]).  Proved for all trees without such receivers;
    every tree read by the parser is of that kind. *)
Theorem C07_paren_reads_back_partial :
  forall e r, receivers_ok e = true -> lits_ok e = true -> paren e = Ok r -> rust_parse (toks r) = Some r.
Proof. exact paren_reads_back. Qed.
Print Assumptions C07_paren_reads_back_partial.

Theorem C07_paren_of_parsed_reads_back :
  forall ts e r, Forall tok_ok ts -> rust_parse ts = Some e -> paren e = Ok r -> rust_parse (toks r) = Some r.
Proof. exact paren_of_parsed. Qed.
Print Assumptions C07_paren_of_parsed_reads_back.

(** The parenthesised form does not even depend on the precedence table. *)
Theorem C07_paren_any_precedence :
  forall prec, (forall op, (prec op < 100)%nat) ->
  forall ts e r, Forall tok_ok ts -> rust_parse ts = Some e -> paren e = Ok r ->
  parse_toks prec (toks r) = Some r.
Proof. exact paren_any_prec. Qed.
Print Assumptions C07_paren_any_precedence.

Theorem C07_paren_reads_back_refuted :
  exists ts ts' e x s r r',
  Forall tok_ok ts /\ Forall tok_ok ts' /\ rust_parse ts = Some e /\ rust_parse ts' = Some x /\
  subst [(["x"], x)] e = Ok s /\ paren s = Ok r /\ rust_parse (toks r) = Some r' /\ r' <> r.
Proof. exact paren_reads_back_false. Qed.
Print Assumptions C07_paren_reads_back_refuted.

Example C07_case :
  paren (EBinary BAdd (EBinary BMul (int "2") (name "x")) (EUnary UNeg (name "y")))
  = Ok (EBinary BAdd (EParen (EBinary BMul (int "2") (name "x"))) (EParen (EUnary UNeg (name "y")))).
Proof. reflexivity. Qed.

(** ** C08-C10 Expand *)

Theorem C08_expand_value :
  forall (V : Type) (I : interp V) (e r : expr), ring_interp I -> expand e = Ok r -> den I r = den I e.
Proof. exact (fun V I e r => expand_preserves I e r). Qed.
Print Assumptions C08_expand_value.

Example C08_case :
  (forall env, ring_interp (z_interp env)) /\
  expand (EBinary BMul (EParen (EBinary BAdd (name "x") (int "1"))) (EParen (EBinary BSub (name "y") (int "2"))))
  = Ok (EBinary BAdd (EBinary BAdd (EBinary BAdd
         (EBinary BMul (name "x") (name "y"))
         (EBinary BMul (name "x") (EUnary UNeg (int "2"))))
         (EBinary BMul (int "1") (name "y")))
         (EBinary BMul (int "1") (EUnary UNeg (int "2")))).
Proof. split; [exact z_interp_ring|reflexivity]. Qed.

Theorem C09_expand_total : forall e, expand e <> Panic.
Proof. exact expand_total. Qed.
Print Assumptions C09_expand_total.

Theorem C09_expand_fails_exactly :
  forall e, (expand_fails e = true -> expand e = Err UnsupportedExpr) /\
            (expand_fails e = false -> exists r, expand e = Ok r).
Proof. exact expand_fails_exactly. Qed.
Print Assumptions C09_expand_fails_exactly.

(** Full statement: [polynomial_expr e = true -> exists r, expand e = Ok r /\ expanded r = true].
    False for doubled parentheses and for minus signs in front of a sum. *)
Theorem C10_expand_multiplies_out_partial :
  forall e, expandable e = true -> exists r, expand e = Ok r /\ expanded r = true.
Proof. exact expand_expanded. Qed.
Print Assumptions C10_expand_multiplies_out_partial.

Theorem C10_expand_multiplies_out_refuted :
  exists e r, polynomial_expr e = true /\ expand e = Ok r /\ expanded r = false.
Proof. exact expand_not_expanded. Qed.
Print Assumptions C10_expand_multiplies_out_refuted.

Example C10_case :
  expandable (EBinary BMul (EParen (EBinary BAdd (name "x") (int "1")))
                (EParen (EBinary BSub (name "y") (EParen (EBinary BMul (name "z") (EUnary UNeg (name "x"))))))) = true.
Proof. reflexivity. Qed.

(** ** C11 Collect *)

Theorem C11_collect_value :
  forall (variable : list string) (e : expr),
  (supported e = true -> exists r, collect_terms variable e = Ok r /\
       forall (V : Type) (I : interp V), den I r = den I e) /\
  (supported e = false -> collect_terms variable e = Err UnsupportedExpr).
Proof. exact collect_value. Qed.
Print Assumptions C11_collect_value.

Example C11_case :
  collect_terms ["x"] (EBinary BAdd (name "x") (name "x")) = Ok (EBinary BAdd (name "x") (name "x")).
Proof. reflexivity. Qed.

(** ** C12 Operators on expressions *)

(** Numeric operands: +, - and * are exact. *)
Theorem C12_numeric_exact :
  forall a b x y, bd_of_expr a = Ok x -> bd_of_expr b = Ok y ->
  (exists e z, make_op OpAdd a b = Ok e /\ bd_of_expr e = Ok z /\ (dval z == dval x + dval y)%Q) /\
  (exists e z, make_op OpSub a b = Ok e /\ bd_of_expr e = Ok z /\ (dval z == dval x - dval y)%Q) /\
  (exists e z, make_op OpMul a b = Ok e /\ bd_of_expr e = Ok z /\ (dval z == dval x * dval y)%Q).
Proof. exact numeric_exact. Qed.
Print Assumptions C12_numeric_exact.

(** Numeric operands: division is exact to 100 digits and panics on zero. *)
Theorem C12_numeric_division :
  forall a b x y, bd_of_expr a = Ok x -> bd_of_expr b = Ok y ->
  ((dval y == 0)%Q -> make_op OpDiv a b = Panic) /\
  (~ (dval y == 0)%Q -> exists e z, make_op OpDiv a b = Ok e /\ bd_of_expr e = Ok z /\
     (Qabs (dval z - dval x / dval y) <= (1 # 2) * p10 (-99) * Qabs (dval x / dval y))%Q).
Proof. exact numeric_division. Qed.
Print Assumptions C12_numeric_division.

(** Symbolic operands.  Full statement: also for -, * and / with their own
    operator.  False: the sum is built for every operator. *)
Theorem C12_symbolic_partial :
  forall ta tb a b, Forall tok_ok ta -> Forall tok_ok tb ->
  rust_parse ta = Some a -> rust_parse tb = Some b -> is_numeric a && is_numeric b = false ->
  exists r, make_op OpAdd a b = Ok r /\
    forall (V : Type) (I : interp V), den I r = i_bin I BAdd (den I a) (den I b).
Proof. exact symbolic_add. Qed.
Print Assumptions C12_symbolic_partial.

(** What is built instead: the sum, for every operator. *)
Theorem C12_symbolic_builds_sum :
  forall ta tb a b o, Forall tok_ok ta -> Forall tok_ok tb ->
  rust_parse ta = Some a -> rust_parse tb = Some b -> is_numeric a && is_numeric b = false ->
  exists r, make_op o a b = Ok r /\
    forall (V : Type) (I : interp V), den I r = i_bin I BAdd (den I a) (den I b).
Proof. exact symbolic_any. Qed.
Print Assumptions C12_symbolic_builds_sum.

Theorem C12_symbolic_refuted :
  forall o, o <> OpAdd ->
  exists r (env : list string -> Z),
  make_op o (EPath ["a"]) (EPath ["b"]) = Ok r /\
  den (z_interp env) r <>
  i_bin (z_interp env) (match o with OpAdd => BAdd | OpSub => BSub | OpMul => BMul | OpDiv => BDiv end)
        (env ["a"]) (env ["b"]).
Proof. exact symbolic_false. Qed.
Print Assumptions C12_symbolic_refuted.

Example C12_case :
  make_op OpSub (name "a") (name "b") = Ok (EBinary BAdd (EParen (name "a")) (EParen (name "b"))) /\
  make_op OpSub (int "3") (int "5") = Ok (ELit (LFloat "-2" "")).
Proof. split; reflexivity. Qed.
