(** Properties C17-C21, C41, C42: the functions of BigDecimal. Theorems only.
    [rval x] is the real number x denotes, [r10 k] the real 10^k. *)
From Coq Require Import ZArith QArith Qabs Reals String List Bool Lra.
From Verif Require Import Res Dec DecFacts RFacts Syntax Trans ExprOps BdMath Eval EvalSpec EvalFacts EvalSafe
  Accuracy PiFacts LnFacts SymFacts EvalFunctions FunctionCases.
Import ListNotations.
Open Scope string_scope.
Open Scope list_scope.

Notation name s := (EPath [s]).
Notation int s := (ELit (LInt s "")).
Notation flt s := (ELit (LFloat s "")).

(** ** C17 pi *)

(** Missing: 100 digits and more (refuted at 101). *)
Theorem C17_pi_half_unit_partial :
  forall (o : oracles) (nd : Z), (nd < 100)%Z ->
  exists r, bpi o nd = Ok r /\ (Rabs (rval r - PI) <= / 2 * r10 (- nd))%R.
Proof. exact bpi_ok. Qed.
Print Assumptions C17_pi_half_unit_partial.

Theorem C17_eval_pi_partial :
  forall o fuel n, (n < 100)%Z ->
  exists x, evals o fuel n (name "PI") x /\ (Rabs (rval x - PI) <= / 2 * r10 (- n))%R.
Proof. exact eval_pi_ok. Qed.
Print Assumptions C17_eval_pi_partial.

Theorem C17_pi_digits_refuted :
  forall o, exists nd r, bpi o nd = Ok r /\ (Rabs (rval r - PI) > r10 (- nd))%R.
Proof. intros o. exists 101%Z. exact (bpi_101_bad o). Qed.
Print Assumptions C17_pi_digits_refuted.

Example C17_case : bpi no_oracles 6 = Ok (BD 3141593 6).
Proof. vm_compute. reflexivity. Qed.

(** ** C18, C19 exp, sin, cos.
    [range_at n] is 1 for n = 1 and 2 * min n (99 - n) above. *)

Theorem C18_exp_accurate :
  forall (n : Z) (x : bd), (1 <= n <= 98)%Z -> (Rabs (rval x) <= IZR (range_at n))%R ->
  exists r, bexp x n = Ok r /\ (Rabs (rval r - exp (rval x)) <= r10 (- n))%R.
Proof. intros n x N. exact (bexp_ok _ _ _ x (acc_range n N)). Qed.
Print Assumptions C18_exp_accurate.

Theorem C18_eval_exp_accurate :
  forall o fuel n a x, (1 <= n <= 98)%Z -> evals o fuel n a x -> (Rabs (rval x) <= IZR (range_at n))%R ->
  exists y, evals o fuel n (EMethodCall a "exp" None []) y /\ (Rabs (rval y - exp (rval x)) <= r10 (- n))%R.
Proof. exact eval_exp_ok. Qed.
Print Assumptions C18_eval_exp_accurate.

Theorem C19_sin_accurate :
  forall (n : Z) (x : bd), (1 <= n <= 98)%Z -> (Rabs (rval x) <= IZR (range_at n))%R ->
  exists r, bsin x n = Ok r /\ (Rabs (rval r - sin (rval x)) <= r10 (- n))%R.
Proof. intros n x N. exact (bsin_ok _ _ _ x (acc_range n N)). Qed.
Print Assumptions C19_sin_accurate.

Theorem C19_cos_accurate :
  forall (n : Z) (x : bd), (1 <= n <= 98)%Z -> (Rabs (rval x) <= IZR (range_at n))%R ->
  exists r, bcos x n = Ok r /\ (Rabs (rval r - cos (rval x)) <= r10 (- n))%R.
Proof. intros n x N. exact (bcos_ok _ _ _ x (acc_range n N)). Qed.
Print Assumptions C19_cos_accurate.

Theorem C19_eval_sin_accurate :
  forall o fuel n a x, (1 <= n <= 98)%Z -> evals o fuel n a x -> (Rabs (rval x) <= IZR (range_at n))%R ->
  exists y, evals o fuel n (EMethodCall a "sin" None []) y /\ (Rabs (rval y - sin (rval x)) <= r10 (- n))%R.
Proof. exact eval_sin_ok. Qed.
Print Assumptions C19_eval_sin_accurate.

Theorem C19_eval_cos_accurate :
  forall o fuel n a x, (1 <= n <= 98)%Z -> evals o fuel n a x -> (Rabs (rval x) <= IZR (range_at n))%R ->
  exists y, evals o fuel n (EMethodCall a "cos" None []) y /\ (Rabs (rval y - cos (rval x)) <= r10 (- n))%R.
Proof. exact eval_cos_ok. Qed.
Print Assumptions C19_eval_cos_accurate.

Example C18_case : (1 <= 10 <= 98)%Z /\ (Rabs (rval (BD (-1234567) 5)) <= IZR (range_at 10))%R /\
  bexp (BD (-15) 1) 4 = Ok (BD 22313 5).
Proof.
  split; [split; discriminate|]. split; [|vm_compute; reflexivity].
  apply rval_le_abs; vm_compute; discriminate.
Qed.
Example C19_case : (Rabs (rval (BD (-31) 1)) <= IZR (range_at 2))%R /\
  bsin (BD (-31) 1) 2 = Ok (BD (-42) 3) /\ bcos (BD (-31) 1) 2 = Ok (BD (-999) 3).
Proof.
  split; [|split; vm_compute; reflexivity]. apply rval_le_abs; vm_compute; discriminate.
Qed.

(** ** C20 Domain of the logarithm *)

Theorem C20_ln_domain :
  forall fuel x n, bln fuel x n = Ok None <-> (dval x <= 0)%Q.
Proof. exact bln_domain. Qed.
Print Assumptions C20_ln_domain.

Theorem C20_pow_domain :
  forall fuel x y n, bpow fuel x y n = Ok None <-> (dval x <= 0)%Q.
Proof. exact bpow_domain. Qed.
Print Assumptions C20_pow_domain.

Theorem C20_log_domain :
  forall fuel x b n r, blog fuel x b n = Ok r -> (r = None <-> (dval x <= 0 \/ dval b <= 0)%Q).
Proof. exact blog_domain. Qed.
Print Assumptions C20_log_domain.

Theorem C20_eval_ln :
  forall o fuel n a x t, evals o fuel n a x ->
  (eval o fuel n (EMethodCall a "ln" t []) = Err CouldNotEvaluate <-> (dval x <= 0)%Q).
Proof. exact eval_ln_exact. Qed.
Print Assumptions C20_eval_ln.

Theorem C20_eval_pow :
  forall o fuel n a x b y m t, evals o fuel n a x -> evals o fuel n b y -> In m ["powi"; "powf"] ->
  (dval x <= 0)%Q -> eval o fuel n (EMethodCall a m t [b]) = Err CouldNotEvaluate.
Proof. exact eval_pow_fails. Qed.
Print Assumptions C20_eval_pow.

(** (-2) to the power 2 cannot be evaluated; 2 to the power 2 can. *)
Example C20_case :
  eval no_oracles 20 4 (EMethodCall (EParen (EUnary UNeg (int "2"))) "powi" None [int "2"]) = Err CouldNotEvaluate /\
  eval no_oracles 20 2 (EMethodCall (int "2") "powi" None [int "2"]) = Ok (flt "4.007") /\
  bln 20 (BD 1 1) 2 = Ok (Some (BD (-23020000) 7)).
Proof. repeat split; vm_compute; reflexivity. Qed.

(** ** C21 Symmetry *)

Theorem C21_sin : forall x n, bsin (dneg x) n = rmap dneg (bsin x n).
Proof. exact bsin_odd. Qed.
Print Assumptions C21_sin.
Theorem C21_cos : forall x n, bcos (dneg x) n = bcos x n.
Proof. exact bcos_even. Qed.
Print Assumptions C21_cos.
Theorem C21_tan : forall x n, btan (dneg x) n = rmap dneg (btan x n).
Proof. exact btan_odd. Qed.
Print Assumptions C21_tan.
Theorem C21_asin : forall o x n, basin o (dneg x) n = rmap dneg (basin o x n).
Proof. exact basin_odd. Qed.
Print Assumptions C21_asin.
Theorem C21_atan : forall o x n, batan o (dneg x) n = rmap dneg (batan o x n).
Proof. exact batan_odd. Qed.
Print Assumptions C21_atan.
Theorem C21_erf : forall o x n, berf o (dneg x) n = rmap dneg (berf o x n).
Proof. exact berf_odd. Qed.
Print Assumptions C21_erf.
Example C21_case : bsin (BD 7 1) 5 = Ok (BD 644218 6) /\ bsin (BD (-7) 1) 5 = Ok (BD (-644218) 6).
Proof. split; vm_compute; reflexivity. Qed.

(** ** C41 exp at every argument: the bound of C18 without a range. *)
Theorem C41_exp_everywhere_refuted :
  exists x n r, (1 <= n <= 98)%Z /\ bexp x n = Ok r /\ (Rabs (rval r - exp (rval x)) > r10 (- n))%R.
Proof. exact exp_everywhere_bad. Qed.
Print Assumptions C41_exp_everywhere_refuted.

(** ** C42 ln terminates *)
Theorem C42_ln_terminates_refuted :
  exists x n, (0 <= n)%Z /\ (0 < dval x)%Q /\ forall fuel, bln fuel x n = Err OutOfFuel.
Proof. exact ln_diverges. Qed.
Print Assumptions C42_ln_terminates_refuted.
