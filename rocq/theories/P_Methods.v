(** Properties C56 and C57: the evaluator's other methods.  Theorems only. *)
From Coq Require Import ZArith QArith Qabs Reals String List Bool Lqa.
From Verif Require Import Res Dec DecFacts RFacts Syntax BdMath Eval EvalFacts TrigAcc AccEval ErfAcc EvalMethods.
Import ListNotations.
Open Scope string_scope.
Open Scope list_scope.
Open Scope Q_scope.

(** ** C56 abs, signum, round, recip, sqrt *)
Theorem C56_abs : forall o fuel n a x t, evals o fuel n a x ->
  exists z, evals o fuel n (EMethodCall a "abs" t []) z /\ dval z == Qabs (dval x).
Proof. exact eval_abs. Qed.
Theorem C56_signum : forall o fuel n a x t, evals o fuel n a x ->
  exists z, evals o fuel n (EMethodCall a "signum" t []) z /\ dval z == sign (dval x).
Proof. exact eval_signum. Qed.
(** to the nearest integer, halves away from zero *)
Theorem C56_round : forall o fuel n a x t, evals o fuel n a x ->
  exists z, evals o fuel n (EMethodCall a "round" t []) z /\ is_round_half_away (dval x) 0 (dval z).
Proof. exact eval_round. Qed.
Theorem C56_recip : forall o fuel n a x t, evals o fuel n a x ->
  exists z, evals o fuel n (EMethodCall a "recip" t []) z /\ dval z == dval (o_inverse o x).
Proof. exact eval_recip. Qed.
Theorem C56_sqrt : forall o fuel n a x t, sqrt_good o -> evals o fuel n a x -> (0 <= rval x)%R ->
  exists z, evals o fuel n (EMethodCall a "sqrt" t []) z /\ (Rabs (rval z - sqrt (rval x)) <= r10 (-96) * sqrt (rval x))%R.
Proof. exact eval_sqrt. Qed.
Theorem C56_sqrt_none : forall o fuel n a x t, evals o fuel n a x -> o_sqrt o x = None ->
  eval o fuel n (EMethodCall a "sqrt" t []) = Err CouldNotEvaluate.
Proof. exact eval_sqrt_none. Qed.

(** (-5/2).round() is -3, its signum -1; a square root that is good. *)
Example C56_case : let a := EParen (EUnary UNeg (ELit (LFloat "2.5" ""))) in
  evals sqrt_oracles 0 3 a (BD (-25) 1) /\
  eval sqrt_oracles 0 3 (EMethodCall a "round" None []) = Ok (ELit (LFloat "-3" "")) /\
  eval sqrt_oracles 0 3 (EMethodCall a "signum" None []) = Ok (ELit (LFloat "-1" "")) /\
  sqrt_good sqrt_oracles /\ o_sqrt sqrt_oracles (BD (-25) 1) = None.
Proof.
  split; [exists (ELit (LFloat "-2.5" "")); split; vm_compute; reflexivity|]. split; [vm_compute; reflexivity|]. split; [vm_compute; reflexivity|].
  split; [exact sqrt_down_good|vm_compute; reflexivity].
Qed.

(** ** C57 qnorm is defined on the open unit interval *)
Theorem C57_qnorm_undefined : forall o fuel x m s n, bqnorm o fuel x m s n = Ok None <-> dval x <= 0 \/ 1 < dval x.
Proof. intros. apply qnorm_domain. Qed.
Theorem C57_qnorm_defined : forall o fuel x m s n r, bqnorm o fuel x m s n = Ok (Some r) -> 0 < dval x < 1.
Proof. intros o fuel x m s n r. apply qnorm_domain. Qed.
(** At one it panics instead of reporting an error. *)
Theorem C57_qnorm_one_refuted : exists x, ~ 0 < dval x < 1 /\ forall o fuel m s n, bqnorm o fuel x m s n = Panic.
Proof.
  exists (BD 1 0). split; [vm_compute; intros [_ H]; discriminate H|]. intros. apply qnorm_domain. reflexivity.
Qed.
Example C57_case : bqnorm sqrt_oracles 40 (BD 504 3) dzero done 2 = Ok (Some (BD 0 2)) /\ bqnorm sqrt_oracles 9 (BD 2 0) dzero done 2 = Ok None.
Proof. split; [exact qnorm_504|vm_compute; reflexivity]. Qed.

Print Assumptions C56_abs.
Print Assumptions C56_signum.
Print Assumptions C56_round.
Print Assumptions C56_recip.
Print Assumptions C56_sqrt.
Print Assumptions C56_sqrt_none.
Print Assumptions C57_qnorm_undefined.
Print Assumptions C57_qnorm_defined.
Print Assumptions C57_qnorm_one_refuted.
