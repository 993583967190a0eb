(** Properties C15, C42, C50, C51, C52, C53: panics of the evaluator, logarithms, powers, the inverse
    trigonometric functions, erf and the normal law. Theorems only.

    [rval x] is the real number x denotes, [r10 k] the real 10^k.  "exists F,
    forall fuel >= F" reads: the loop ends, and with this result. [always o n e x]:
    the expression e evaluates to x at n digits; [eval_value o n e P]: it evaluates
    to a number that satisfies P. *)
From Coq Require Import ZArith QArith Reals String List Bool Lra Lia.
From Verif Require Import Res Dec DecFacts RFacts Syntax Trans ExprOps BdMath Eval EvalSpec EvalFacts
  Accuracy PiFacts FunctionCases LnAcc TrigAcc AccEval ErfSeries ErfAcc QnormEnds MacPanic PanicFree.
Import ListNotations.
Open Scope string_scope.
Open Scope list_scope.
Open Scope R_scope.

Notation int s := (ELit (LInt s "")).
Notation flt s := (ELit (LFloat s "")).

(** ** C42 ln terminates. Missing: below 2 digits (refuted at 0) and above 94. *)
Theorem C42_ln_terminates_partial :
  forall x n, (2 <= n <= 94)%Z -> 0 < rval x ->
  exists F, forall fuel, (F <= fuel)%nat -> exists r, bln fuel x n = Ok (Some r).
Proof.
  intros x n N X. destruct (bln_accurate n x N X) as [F A]. exists F. intros fuel H. destruct (A fuel H) as (r & R & _). eauto.
Qed.
Print Assumptions C42_ln_terminates_partial.

(** ** C50 ln, log, pow *)

Theorem C50_ln :
  forall n x, (2 <= n <= 94)%Z -> 0 < rval x ->
  exists F, forall fuel, (F <= fuel)%nat ->
  exists r, bln fuel x n = Ok (Some r) /\ Rabs (rval r - ln (rval x)) <= (1 + 5 * Rabs (ln (rval x))) * r10 (- n).
Proof. exact bln_accurate. Qed.
Print Assumptions C50_ln.

(** [ln_err x n] = (1 + 5 |ln x|) 10^-n;
    [log_err x b n] = 3 (ln_err x n + |ln x / ln b| ln_err b n) / |ln b|. *)
Theorem C50_log :
  forall n, (2 <= n <= 94)%Z -> forall x b, 0 < rval x -> 0 < rval b -> / 40 <= Rabs (ln (rval b)) ->
  exists F, forall fuel, (F <= fuel)%nat ->
  exists r, blog fuel x b n = Ok (Some r) /\ Rabs (rval r - ln (rval x) / ln (rval b)) <= log_err (rval x) (rval b) n.
Proof. exact blog_accurate'. Qed.
Print Assumptions C50_log.

(** [pow_err x y n] = 10^-n + x^y (exp (|y| ln_err x n) - 1). *)
Theorem C50_pow :
  forall n x y, (2 <= n <= 94)%Z -> 0 < rval x ->
  Rabs (rval y) * (Rabs (ln (rval x)) + ln_err (rval x) n) <= IZR (range_at n) ->
  exists F, forall fuel, (F <= fuel)%nat ->
  exists r, bpow fuel x y n = Ok (Some r) /\ Rabs (rval r - Rpower (rval x) (rval y)) <= pow_err (rval x) (rval y) n.
Proof. exact bpow_accurate. Qed.
Print Assumptions C50_pow.

Theorem C50_eval_ln :
  forall o n, (2 <= n <= 94)%Z -> forall a x t, always o n a x -> 0 < rval x ->
  eval_value o n (EMethodCall a "ln" t []) (fun y => Rabs (y - ln (rval x)) <= ln_err (rval x) n).
Proof. exact eval_ln_value. Qed.
Print Assumptions C50_eval_ln.

Theorem C50_eval_log :
  forall o n, (2 <= n <= 94)%Z -> forall a x b y t, always o n a x -> always o n b y ->
  0 < rval x -> 0 < rval y -> / 40 <= Rabs (ln (rval y)) ->
  eval_value o n (EMethodCall a "log" t [b]) (fun z => Rabs (z - ln (rval x) / ln (rval y)) <= log_err (rval x) (rval y) n).
Proof. exact eval_log_value. Qed.
Print Assumptions C50_eval_log.

Theorem C50_eval_log2 :
  forall o n, (2 <= n <= 94)%Z -> forall a x t, always o n a x -> 0 < rval x ->
  eval_value o n (EMethodCall a "log2" t []) (fun z => Rabs (z - ln (rval x) / ln 2) <= log_err (rval x) 2 n).
Proof. exact eval_log2_value. Qed.
Print Assumptions C50_eval_log2.

Theorem C50_eval_log10 :
  forall o n, (2 <= n <= 94)%Z -> forall a x t, always o n a x -> 0 < rval x ->
  eval_value o n (EMethodCall a "log10" t []) (fun z => Rabs (z - ln (rval x) / ln 10) <= log_err (rval x) 10 n).
Proof. exact eval_log10_value. Qed.
Print Assumptions C50_eval_log10.

Theorem C50_eval_pow :
  forall o n, (2 <= n <= 94)%Z -> forall a x b y m t, always o n a x -> always o n b y -> In m ["powi"; "powf"] -> 0 < rval x ->
  Rabs (rval y) * (Rabs (ln (rval x)) + ln_err (rval x) n) <= IZR (range_at n) ->
  eval_value o n (EMethodCall a m t [b]) (fun z => Rabs (z - Rpower (rval x) (rval y)) <= pow_err (rval x) (rval y) n).
Proof. exact eval_pow_value. Qed.
Print Assumptions C50_eval_pow.

Theorem C50_eval_exp2 :
  forall o n, (2 <= n <= 94)%Z -> forall a x t, always o n a x -> Rabs (rval x) <= IZR (range_at n) ->
  eval_value o n (EMethodCall a "exp2" t []) (fun z => Rabs (z - Rpower 2 (rval x)) <= pow_err 2 (rval x) n).
Proof. exact eval_exp2_value. Qed.
Print Assumptions C50_eval_exp2.

(** 1.5 to the power 2.5: the hypotheses hold at 10 digits; the value at 2 digits is 2.759. *)
Example C50_case : Rabs (rval (BD 25 1)) * (Rabs (ln (rval (BD 15 1))) + ln_err (rval (BD 15 1)) 10) <= IZR (range_at 10) /\
  always no_oracles 10 (flt "1.5") (BD 15 1) /\ bpow 20 (BD 15 1) (BD 25 1) 2 = Ok (Some (BD 2759 3)).
Proof.
  split; [|split; [exists O; intros fuel _; exists (flt "1.5"); split; reflexivity|vm_compute; reflexivity]].
  assert (E : rval (BD 15 1) = 1.5) by (rewrite rval_eq; cbn [mant scale]; rewrite r10_opp, r10_IZR by lia; change (10 ^ 1)%Z with 10%Z; lra).
  assert (E2 : rval (BD 25 1) = 2.5) by (rewrite rval_eq; cbn [mant scale]; rewrite r10_opp, r10_IZR by lia; change (10 ^ 1)%Z with 10%Z; lra).
  rewrite E, E2, (Rabs_pos_eq 2.5) by lra. unfold ln_err. destruct (r10_cent 10 ltac:(lia)) as [U0 U1].
  assert (L : 0 < ln 1.5 <= 0.9).
  { split; [rewrite <- ln_1; apply ln_increasing; lra|]. pose proof ln_2_bounds. assert (ln 1.5 < ln 2) by (apply ln_increasing; lra). lra. }
  rewrite (Rabs_pos_eq (ln 1.5)) by lra. change (range_at 10) with 20%Z. nra.
Qed.

(** ** C53 ln to the requested number of digits at every argument *)
Theorem C53_ln_units_refuted :
  exists fuel x n r, (2 <= n <= 94)%Z /\ 0 < rval x /\ bln fuel x n = Ok (Some r) /\ Rabs (rval r - ln (rval x)) > r10 (- n).
Proof.
  destruct ln_units_bad as (r & R & W). exists 300%nat, (BD 10000 0), 2%Z, r. split; [lia|]. split; [|auto].
  replace (rval (BD 10000 0)) with 10000 by (symmetry; apply rval_bigd). lra.
Qed.
Print Assumptions C53_ln_units_refuted.

(** ** C51 atan, asin, acos, tan.
    [sqrt_good o]: the square root of the crate is correct to a relative 10^-96. *)

Theorem C51_atan :
  forall o n, sqrt_good o -> (2 <= n <= 94)%Z -> forall x,
  exists y, batan o x n = Ok y /\ Rabs (rval y - atan (rval x)) <= 5 * r10 (- n).
Proof. exact batan_accurate. Qed.
Print Assumptions C51_atan.

Theorem C51_asin :
  forall o n, sqrt_good o -> (2 <= n <= 94)%Z -> forall x, Rabs (rval x) <= 1 ->
  exists y, basin o x n = Ok y /\ Rabs (rval y - asin (rval x)) <= 6 * r10 (- n).
Proof. exact basin_accurate. Qed.
Print Assumptions C51_asin.

Theorem C51_acos :
  forall o n, sqrt_good o -> (2 <= n <= 94)%Z -> forall x, Rabs (rval x) <= 1 ->
  exists y, bacos o x n = Ok y /\ Rabs (rval y - acos (rval x)) <= 7 * r10 (- n).
Proof. exact bacos_accurate. Qed.
Print Assumptions C51_acos.

(** [tan_err x n] = 3 (1 + |tan x|) 10^-n / |cos x|. *)
Theorem C51_tan :
  forall n x, (1 <= n <= 98)%Z -> Rabs (rval x) <= IZR (range_at n) -> 2 * r10 (- n) <= Rabs (cos (rval x)) ->
  exists r, btan x n = Ok r /\ Rabs (rval r - tan (rval x)) <= tan_err (rval x) n.
Proof. exact btan_accurate. Qed.
Print Assumptions C51_tan.

Theorem C51_eval_atan :
  forall o n, (2 <= n <= 94)%Z -> sqrt_good o -> forall a x t, always o n a x ->
  eval_value o n (EMethodCall a "atan" t []) (fun z => Rabs (z - atan (rval x)) <= 5 * r10 (- n)).
Proof. exact eval_atan_value. Qed.
Print Assumptions C51_eval_atan.

Theorem C51_eval_asin :
  forall o n, (2 <= n <= 94)%Z -> sqrt_good o -> forall a x t, always o n a x -> Rabs (rval x) <= 1 ->
  eval_value o n (EMethodCall a "asin" t []) (fun z => Rabs (z - asin (rval x)) <= 6 * r10 (- n)).
Proof. exact eval_asin_value. Qed.
Print Assumptions C51_eval_asin.

Theorem C51_eval_acos :
  forall o n, (2 <= n <= 94)%Z -> sqrt_good o -> forall a x t, always o n a x -> Rabs (rval x) <= 1 ->
  eval_value o n (EMethodCall a "acos" t []) (fun z => Rabs (z - acos (rval x)) <= 7 * r10 (- n)).
Proof. exact eval_acos_value. Qed.
Print Assumptions C51_eval_acos.

Theorem C51_eval_tan :
  forall o n, (2 <= n <= 94)%Z -> forall a x t, always o n a x ->
  Rabs (rval x) <= IZR (range_at n) -> 2 * r10 (- n) <= Rabs (cos (rval x)) ->
  eval_value o n (EMethodCall a "tan" t []) (fun z => Rabs (z - tan (rval x)) <= tan_err (rval x) n).
Proof. exact eval_tan_value. Qed.
Print Assumptions C51_eval_tan.

(** A square root rounded down is good enough; asin(0.9) with it. *)
Example C51_case : sqrt_good sqrt_oracles /\
  basin sqrt_oracles (BD 9 1) 2 = Ok (BD 1119000000000000000 18).
Proof. split; [exact sqrt_down_good|]. vm_compute. reflexivity. Qed.

(** ** C52 erf, erfc, dnorm, pnorm, qnorm.
    [erf x] = 2 / sqrt PI times the integral of exp (- t^2) from 0 to x;
    [phi], [Phi]: density and distribution of the standard normal law. *)

Theorem C52_erf :
  forall o n, sqrt_good o -> (2 <= n <= 94)%Z -> forall x, rval x * rval x <= IZR (range_at n) ->
  exists v, berf o x n = Ok v /\ Rabs (rval v - erf (rval x)) <= 2 * Rabs (rval x) * r10 (- n).
Proof. exact berf_accurate. Qed.
Print Assumptions C52_erf.

Theorem C52_erfc :
  forall o n, sqrt_good o -> (2 <= n <= 94)%Z -> forall x, rval x * rval x <= IZR (range_at n) ->
  exists v, berfc o x n = Ok v /\ Rabs (rval v - (1 - erf (rval x))) <= 2 * Rabs (rval x) * r10 (- n).
Proof. exact berfc_accurate. Qed.
Print Assumptions C52_erfc.

Theorem C52_dnorm :
  forall o n, sqrt_good o -> (2 <= n <= 94)%Z -> forall mean sd, rval sd <> 0 ->
  forall x, ((rval x - rval mean) / rval sd) ^ 2 <= IZR (range_at n) ->
  exists v, bdnorm o x mean sd n = Ok v /\
    Rabs (rval v - phi ((rval x - rval mean) / rval sd) / rval sd) <= r10 (- n) / Rabs (rval sd).
Proof. exact bdnorm_accurate. Qed.
Print Assumptions C52_dnorm.

Theorem C52_pnorm :
  forall o n, sqrt_good o -> (2 <= n <= 94)%Z -> forall mean sd, rval sd <> 0 ->
  forall x, ((rval x - rval mean) / rval sd) ^ 2 <= IZR (range_at n) ->
  exists v, bpnorm o x mean sd n = Ok v /\
    Rabs (rval v - Phi ((rval x - rval mean) / rval sd)) <= Rabs ((rval x - rval mean) / rval sd) * r10 (- n).
Proof. exact bpnorm_accurate. Qed.
Print Assumptions C52_pnorm.

(** What qnorm returns is a quantile. Missing: that its loop ends; see [C52_qnorm_ends] for
    probabilities near one half. *)
Theorem C52_qnorm_partial :
  forall o n, sqrt_good o -> (2 <= n <= 94)%Z -> forall mean sd, rval sd <> 0 ->
  forall fuel x r, bqnorm o fuel x mean sd n = Ok (Some r) ->
  (Rabs (rval r - rval mean) + 1) ^ 2 <= IZR (range_at n) * rval sd ^ 2 ->
  Rabs (Phi ((rval r - rval mean) / rval sd) - rval x) <= (1 / 2 + (Rabs (rval r - rval mean) + / 4) / Rabs (rval sd)) * r10 (- n).
Proof. exact bqnorm_solves. Qed.
Print Assumptions C52_qnorm_partial.

(** The Newton iteration, which starts from 0, ends for probabilities from 0.46 to 0.54 when
    0 is within 0.04 standard deviations of the mean. *)
Theorem C52_qnorm_ends :
  forall o n, sqrt_good o -> (2 <= n <= 94)%Z -> forall mean sd x, rval sd <> 0 ->
  0.46 <= rval x <= 0.54 -> Rabs (rval mean / rval sd) <= 0.04 ->
  exists F, forall fuel, (F <= fuel)%nat -> exists r, bqnorm o fuel x mean sd n = Ok (Some r) /\
    Rabs (Phi ((rval r - rval mean) / rval sd) - rval x) <= (0.7 + 0.22 / Rabs (rval sd)) * r10 (- n).
Proof. exact bqnorm_ends. Qed.
Print Assumptions C52_qnorm_ends.

(** The loop itself takes at most 2 n + 3 turns. *)
Theorem C52_qnorm_turns :
  forall o n, sqrt_good o -> (2 <= n <= 94)%Z -> forall mean sd x, rval sd <> 0 ->
  0.46 <= rval x <= 0.54 -> Rabs (rval mean / rval sd) <= 0.04 ->
  exists r, qnorm_loop o (2 * Z.to_nat n + 3) x mean sd n dzero64 = Ok r.
Proof. intros o n G N mean sd x S X M. destruct (qnorm_loop_ends o n G N mean sd x S X M _ (le_n _)) as (r & R & _). eauto. Qed.
Print Assumptions C52_qnorm_turns.

Theorem C52_eval_erf :
  forall o n, (2 <= n <= 94)%Z -> sqrt_good o -> forall a x t, always o n a x -> rval x * rval x <= IZR (range_at n) ->
  eval_value o n (EMethodCall a "erf" t []) (fun z => Rabs (z - erf (rval x)) <= 2 * Rabs (rval x) * r10 (- n)).
Proof. exact eval_erf_value. Qed.
Print Assumptions C52_eval_erf.

Theorem C52_eval_erfc :
  forall o n, (2 <= n <= 94)%Z -> sqrt_good o -> forall a x t, always o n a x -> rval x * rval x <= IZR (range_at n) ->
  eval_value o n (EMethodCall a "erfc" t []) (fun z => Rabs (z - (1 - erf (rval x))) <= 2 * Rabs (rval x) * r10 (- n)).
Proof. exact eval_erfc_value. Qed.
Print Assumptions C52_eval_erfc.

Theorem C52_eval_dnorm :
  forall o n, (2 <= n <= 94)%Z -> sqrt_good o -> forall a x b m c s t,
  always o n a x -> always o n b m -> always o n c s -> rval s <> 0 ->
  ((rval x - rval m) / rval s) ^ 2 <= IZR (range_at n) ->
  eval_value o n (EMethodCall a "dnorm" t [b; c])
    (fun z => Rabs (z - phi ((rval x - rval m) / rval s) / rval s) <= r10 (- n) / Rabs (rval s)).
Proof. exact eval_dnorm_value. Qed.
Print Assumptions C52_eval_dnorm.

Theorem C52_eval_pnorm :
  forall o n, (2 <= n <= 94)%Z -> sqrt_good o -> forall a x b m c s t,
  always o n a x -> always o n b m -> always o n c s -> rval s <> 0 ->
  ((rval x - rval m) / rval s) ^ 2 <= IZR (range_at n) ->
  eval_value o n (EMethodCall a "pnorm" t [b; c])
    (fun z => Rabs (z - Phi ((rval x - rval m) / rval s)) <= Rabs ((rval x - rval m) / rval s) * r10 (- n)).
Proof. exact eval_pnorm_value. Qed.
Print Assumptions C52_eval_pnorm.

Theorem C52_eval_qnorm_partial :
  forall o n, (2 <= n <= 94)%Z -> sqrt_good o -> forall fuel a x b m c s t y,
  evals o fuel n a x -> evals o fuel n b m -> evals o fuel n c s -> rval s <> 0 ->
  evals o fuel n (EMethodCall a "qnorm" t [b; c]) y ->
  (Rabs (rval y - rval m) + 1) ^ 2 <= IZR (range_at n) * rval s ^ 2 ->
  Rabs (Phi ((rval y - rval m) / rval s) - rval x) <= (1 / 2 + (Rabs (rval y - rval m) + / 4) / Rabs (rval s)) * r10 (- n).
Proof. exact eval_qnorm_value. Qed.
Print Assumptions C52_eval_qnorm_partial.

Theorem C52_eval_qnorm_ends :
  forall o n, (2 <= n <= 94)%Z -> sqrt_good o -> forall a x b m c s t,
  always o n a x -> always o n b m -> always o n c s -> rval s <> 0 -> 0.46 <= rval x <= 0.54 -> Rabs (rval m / rval s) <= 0.04 ->
  eval_value o n (EMethodCall a "qnorm" t [b; c])
    (fun z => Rabs (Phi ((z - rval m) / rval s) - rval x) <= (0.7 + 0.22 / Rabs (rval s)) * r10 (- n)).
Proof. exact eval_qnorm_ends. Qed.
Print Assumptions C52_eval_qnorm_ends.

(** The standard normal quantile of 0.53 at forty digits: the loop has to move, for the
    distribution at 0 is 1/2. *)
Example C52_moves : exists r, qnorm_loop sqrt_oracles 83 (BD 53 2) dzero done 40 dzero64 = Ok r.
Proof.
  assert (S1 : rval done = 1) by apply rval_bigd. assert (M0 : rval dzero = 0) by apply rval_bigd.
  apply (C52_qnorm_turns sqrt_oracles 40 sqrt_down_good ltac:(lia)).
  - rewrite S1. lra.
  - rewrite rval_eq. cbn [mant scale]. rewrite r10_opp, r10_IZR by lia. change (10 ^ 2)%Z with 100%Z. lra.
  - rewrite M0. unfold Rdiv. rewrite Rmult_0_l, Rabs_R0. lra.
Qed.

(** erf(0.5) = 0.5205 and the quantile of 0.504, both at two digits. *)
Example C52_case : sqrt_good sqrt_oracles /\
  berf sqrt_oracles (BD 5 1) 2 = Ok (dmul (dmul two_over_root_pi (BD 5 1)) (BD 923 3)) /\
  round (dmul (dmul two_over_root_pi (BD 5 1)) (BD 923 3)) 3 = BD 521 3 /\
  bqnorm sqrt_oracles 40 (BD 504 3) dzero done 2 = Ok (Some (BD 0 2)).
Proof. split; [exact sqrt_down_good|]. split; [exact erf_half|]. split; [vm_compute; reflexivity|exact qnorm_504]. Qed.

(** ** C15 No panic, with the series methods.
    [within_limits]: numeric literals readable, no divisor that evaluates to zero, and every
    method called within its limits ([call_limits]: |x| <= 9000 for exp, exp2, sin and cos,
    |x| <= 1 for asin and acos, x^2 <= 9000 for erf and erfc, a nonzero deviation for dnorm and
    pnorm, a base away from 1 for log, and so on). Missing: qnorm. *)
Theorem C15_within_limits_partial :
  forall o n, (2 <= n <= 94)%Z -> sqrt_good o -> forall fuel e,
  within_limits o n fuel e -> eval o fuel n e <> Panic.
Proof. exact eval_within_limits. Qed.
Print Assumptions C15_within_limits_partial.

(** Up to |x| = 9000 the series of exp, sin and cos always end; from 15003 on they never do. *)
Theorem C15_series_end :
  forall x n, (0 <= n <= 590)%Z -> Rabs (rval x) <= 9000 ->
  (exists r, bexp x n = Ok r) /\ (exists r, bsin x n = Ok r) /\ (exists r, bcos x n = Ok r).
Proof. intros x n N X. split; [|split]; [apply bexp_ends|apply bsin_ends|apply bcos_ends]; assumption. Qed.
Print Assumptions C15_series_end.

Theorem C15_series_overrun :
  forall o fuel n a x m t, (0 <= n)%Z -> evals o fuel n a x -> In m ["exp"; "sin"; "cos"] ->
  15003 <= Rabs (rval x) -> eval o fuel n (EMethodCall a m t []) = Panic.
Proof. exact eval_overruns. Qed.
Print Assumptions C15_series_overrun.

(** 2.5.exp() / 3 is within the limits; 20000 is beyond those of exp. *)
Example C15_limits_case : within_limits sqrt_oracles 5 0
  (EBinary BDiv (EMethodCall (flt "2.5") "exp" None []) (int "3")) /\
  evals no_oracles 0 5 (int "20000") (BD 20000 0) /\ 15003 <= Rabs (rval (BD 20000 0)).
Proof.
  split; [apply limits_case|]. split; [exists (int "20000"); split; reflexivity|].
  change (BD 20000 0) with (bigd 20000). rewrite rval_bigd, Rabs_pos_eq; lra.
Qed.
