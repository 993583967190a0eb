(** Properties C13-C16: evaluation. Theorems only. *)
From Coq Require Import ZArith QArith Qabs String List Bool.
From Verif Require Import Res Dec DecFacts Syntax Trans ExprOps BdMath Eval EvalSpec EvalFacts EvalSafe PiFacts EvalFunctions.
Import ListNotations.
Open Scope string_scope.
Open Scope list_scope.

Notation name s := (EPath [s]).
Notation int s := (ELit (LInt s "")).
Notation flt s := (ELit (LFloat s "")).

(** ** C13 Arithmetic *)

Theorem C13_error_bound :
  forall (o : oracles) (fuel : nat) (n : Z), (0 <= n)%Z ->
  forall (e : expr) (q b : Q), exact e = Some q -> err_bound n e = Some b ->
  exists x, evals o fuel n e x /\ (Qabs (dval x - q) <= b)%Q.
Proof. exact eval_err_bound. Qed.
Print Assumptions C13_error_bound.

Theorem C13_sum :
  forall o fuel n a b x y, evals o fuel n a x -> evals o fuel n b y ->
  exists z, evals o fuel n (EBinary BAdd a b) z /\ (dval z == dval x + dval y)%Q.
Proof. exact eval_add. Qed.
Print Assumptions C13_sum.

Theorem C13_difference :
  forall o fuel n a b x y, evals o fuel n a x -> evals o fuel n b y ->
  exists z, evals o fuel n (EBinary BSub a b) z /\ (dval z == dval x - dval y)%Q.
Proof. exact eval_sub. Qed.
Print Assumptions C13_difference.

Theorem C13_negation :
  forall o fuel n a x, evals o fuel n a x ->
  exists z, evals o fuel n (EUnary UNeg a) z /\ (dval z == - dval x)%Q.
Proof. exact eval_neg. Qed.
Print Assumptions C13_negation.

Theorem C13_product :
  forall o fuel n a b x y, (0 <= n)%Z -> evals o fuel n a x -> evals o fuel n b y ->
  exists z, evals o fuel n (EBinary BMul a b) z /\ is_round_half_away (dval x * dval y) n (dval z).
Proof. exact eval_mul. Qed.
Print Assumptions C13_product.

Theorem C13_quotient :
  forall o fuel n a b x y, (0 <= n)%Z -> evals o fuel n a x -> evals o fuel n b y -> ~ (dval y == 0)%Q ->
  exists z q, evals o fuel n (EBinary BDiv a b) z /\
    (Qabs (q - dval x / dval y) <= (1 # 2) * p10 (-99) * Qabs (dval x / dval y))%Q /\
    is_round_half_away q n (dval z).
Proof. exact eval_div. Qed.
Print Assumptions C13_quotient.

Theorem C13_comparison :
  forall o fuel n op a b x y P, evals o fuel n a x -> evals o fuel n b y ->
  truth op (dval x) (dval y) = Some P ->
  exists v, eval o fuel n (EBinary op a b) = Ok (ELit (LBool v)) /\ (v = true <-> P).
Proof. exact eval_compare. Qed.
Print Assumptions C13_comparison.

(** (1/3) * -(2.5) at 4 digits. *)
Definition C13_expr : expr :=
  EBinary BMul (EParen (EBinary BDiv (int "1") (int "3"))) (EUnary UNeg (EParen (flt "2.5"))).
Example C13_case :
  eval no_oracles 0 4 C13_expr = Ok (flt "-0.8333") /\
  (exists q, exact C13_expr = Some q /\ q == -(5 # 6))%Q /\
  (exists b, err_bound 4 C13_expr = Some b /\ b < 2 # 10000)%Q.
Proof.
  split; [vm_compute; reflexivity|]. split; eexists; split; vm_compute; reflexivity.
Qed.

(** ** C14 A literal or an error *)

Theorem C14_literal_partial :
  (* missing: field access, which is kept as it is (refuted below) *)
  forall o fuel n e r, fieldless e = true -> eval o fuel n e = Ok r -> is_lit r = true.
Proof. exact eval_lit. Qed.
Print Assumptions C14_literal_partial.

Theorem C14_literal_refuted :
  forall o fuel n, exists e r, eval o fuel n e = Ok r /\ is_lit r = false.
Proof. intros o fuel n. exists (EField (EParen (int "2")) "y"). eexists. split; reflexivity. Qed.
Print Assumptions C14_literal_refuted.

Theorem C14_only_pi :
  forall o fuel n e r, eval o fuel n e = Ok r -> forall p, In p (paths_of e) -> p = ["PI"].
Proof. exact eval_names. Qed.
Print Assumptions C14_only_pi.

Theorem C14_only_known_methods :
  forall o fuel n e r, eval o fuel n e = Ok r -> forall p, In p (methods_of e) -> In p known_methods.
Proof. exact eval_methods. Qed.
Print Assumptions C14_only_known_methods.

Example C14_case :
  eval no_oracles 0 3 (EBinary BAdd (name "PI") (int "1")) = Ok (flt "4.142") /\
  eval no_oracles 0 3 (EBinary BAdd (name "E") (int "1")) = Err CouldNotEvaluate /\
  eval no_oracles 0 3 (EMethodCall (int "1") "sinh" None []) = Err CouldNotEvaluate.
Proof. repeat split; vm_compute; reflexivity. Qed.

(** ** C15 No panic *)

(** [safe]: no division, no method computed by series or logarithm, literals
    readable as numbers.  Missing: those; see C18, C19 for exp, sin and cos. *)
Theorem C15_no_panic_partial :
  forall o fuel n, (n < 100)%Z -> forall e, safe e = true -> eval o fuel n e <> Panic.
Proof. exact eval_no_panic. Qed.
Print Assumptions C15_no_panic_partial.

(** Sums, products, negations of numbers always give a number. *)
Theorem C15_polynomial_evaluates_partial :
  forall o fuel n e, polynomial_numeric e = true -> exists x, evals o fuel n e x.
Proof. exact eval_polynomial. Qed.
Print Assumptions C15_polynomial_evaluates_partial.

(** The exact condition for a quotient. *)
Theorem C15_division_by_zero :
  forall o fuel n a b x y, evals o fuel n a x -> evals o fuel n b y -> (dval y == 0)%Q ->
  eval o fuel n (EBinary BDiv a b) = Panic.
Proof. exact eval_div_zero. Qed.
Print Assumptions C15_division_by_zero.

Theorem C15_asin_outside :
  forall o fuel n a x, (n < 100)%Z -> (forall y, (dval y < 0)%Q -> o_sqrt o y = None) ->
  evals o fuel n a x -> (1 < Qabs (dval x))%Q ->
  eval o fuel n (EMethodCall a "asin" None []) = Panic.
Proof. exact eval_asin_panic. Qed.
Print Assumptions C15_asin_outside.

(** Further ways to panic: 2.log(1), density with deviation 0, the quantile of 1,
    a literal whose exponent does not fit. *)
Theorem C15_no_panic_refuted :
  eval no_oracles 0 5 (EBinary BDiv (int "1") (int "0")) = Panic /\
  eval no_oracles 10 5 (EMethodCall (int "2") "log" None [int "1"]) = Panic /\
  eval no_oracles 0 5 (EMethodCall (int "2") "dnorm" None [int "0"; int "0"]) = Panic /\
  eval no_oracles 0 5 (EMethodCall (int "1") "qnorm" None [int "0"; int "1"]) = Panic /\
  eval no_oracles 0 5 (EUnary UNeg (flt "1e99999999999999999999")) = Panic.
Proof. exact eval_panics. Qed.
Print Assumptions C15_no_panic_refuted.

Example C15_case :
  safe (EBinary BLt (EMethodCall (EUnary UNeg (flt "2.5")) "round" None []) (EBinary BMul (name "PI") (int "3"))) = true /\
  evals no_oracles 0 3 (int "2") (BD 2 0) /\ (1 < Qabs (dval (BD 2 0)))%Q.
Proof. split; [vm_compute; reflexivity|]. split; [exists (int "2"); split; reflexivity|vm_compute; reflexivity]. Qed.

(** ** C16 Parentheses *)

Theorem C16_parentheses_ignored :
  forall o fuel n a b, strip_parens a = strip_parens b -> eval o fuel n a = eval o fuel n b.
Proof. exact eval_parens. Qed.
Print Assumptions C16_parentheses_ignored.

Example C16_case :
  let a := EBinary BMul (EParen (EBinary BAdd (int "1") (EParen (int "2")))) (int "3") in
  let b := EParen (EBinary BMul (EBinary BAdd (EParen (EParen (int "1"))) (int "2")) (EParen (int "3"))) in
  strip_parens a = strip_parens b /\ a <> b /\ eval no_oracles 0 5 a = Ok (flt "9").
Proof.
  cbv zeta. split; [vm_compute; reflexivity|]. split; [discriminate|]. vm_compute. reflexivity.
Qed.
