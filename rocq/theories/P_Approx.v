(** Property C58: the error of [approx] on the whole interval.  Theorems only.
    [derivatives f d n lo hi]: d 0 is f and d (j+1) the derivative of d j on [lo, hi], for j < n.
    [chebyshev_bound n w F] is F / n! * (w/2)^n / 2^(n-2).
    [has_parity]: f is even (odd) on an interval symmetric about zero if Parity::Even (Odd) is asked for.
    [value_at]: the evaluator's value of an expression at a point; [den I r] the value of the result,
    [real_interp I]: in real arithmetic. *)
From Coq Require Import ZArith QArith Qabs Qreals Reals String List Bool Arith Lra Lia.
From Verif Require Import Res Dec DecFacts RFacts Syntax BdMath Eval EvalFacts EvalFunctions Accuracy PiFacts Poly PolyFacts MulAddFacts ApproxFacts Interp ApproxErr.
Import ListNotations.
Open Scope R_scope.

Theorem C58_interval :
  forall (n : nat) (W M Y0 : Q), (2 <= n)%nat -> (0 < W)%Q ->
  exists L C : R, 0 <= L /\ 0 <= C /\ forall o fuel e xmin xmax x p nd f d F eps, right_parity p n = true ->
    (2 <= nd <= 97)%Z -> (8 * Z.of_nat (n - 1) ^ 2 <= 10 ^ nd)%Z ->
    (W <= dval xmax - dval xmin)%Q -> (Qabs (dval xmin) <= M)%Q -> (Qabs (dval xmax) <= M)%Q ->
    let w := rval xmax - rval xmin in
    let lo := rval xmin - w * r10 (- nd) in
    let hi := rval xmax + w * r10 (- nd) in
    has_parity p f (rval xmin) (rval xmax) -> derivatives f d n lo hi ->
    (forall t, lo <= t <= hi -> Rabs (f t) + eps <= Q2R Y0 /\ Rabs (d n t) <= F) ->
    (forall xv, lo <= rval xv <= hi -> exists y, value_at o fuel nd e x xv y /\ Rabs (rval y - f (rval xv)) <= eps) ->
    exists r, approx o fuel e n xmin xmax x p nd = Ok r /\
    forall I, real_interp I -> rval xmin <= i_path I x <= rval xmax ->
      Rabs (den I r - f (i_path I x)) <= chebyshev_bound n w F + L * eps + C * (1 + F) * r10 (- nd).
Proof. exact approx_total. Qed.
Print Assumptions C58_interval.

(** [call m x] is x.m() *)
Theorem C58_exp :
  forall (n : nat) (W M : Q), (2 <= n)%nat -> (0 < W)%Q ->
  exists C : R, forall o fuel xmin xmax x nd,
    (2 <= nd <= 97)%Z -> (8 * Z.of_nat (n - 1) ^ 2 <= 10 ^ nd)%Z ->
    (W <= dval xmax - dval xmin)%Q -> (Qabs (dval xmin) <= M)%Q -> (Qabs (dval xmax) <= M)%Q ->
    Q2R M + 2 <= IZR (range_at nd) ->
    let w := rval xmax - rval xmin in
    exists r, approx o fuel (call "exp" x) n xmin xmax x PNeither nd = Ok r /\
    forall I, real_interp I -> rval xmin <= i_path I x <= rval xmax ->
      Rabs (den I r - exp (i_path I x)) <= chebyshev_bound n w (exp (rval xmax + w * r10 (- nd))) + C * r10 (- nd).
Proof. exact approx_exp. Qed.
Print Assumptions C58_exp.

Theorem C58_sin :
  forall (n : nat) (W M : Q), (2 <= n)%nat -> (0 < W)%Q ->
  exists C : R, forall o fuel xmin xmax x p nd, right_parity p n = true -> has_parity p sin (rval xmin) (rval xmax) ->
    (2 <= nd <= 97)%Z -> (8 * Z.of_nat (n - 1) ^ 2 <= 10 ^ nd)%Z ->
    (W <= dval xmax - dval xmin)%Q -> (Qabs (dval xmin) <= M)%Q -> (Qabs (dval xmax) <= M)%Q ->
    Q2R M + 2 <= IZR (range_at nd) ->
    exists r, approx o fuel (call "sin" x) n xmin xmax x p nd = Ok r /\
    forall I, real_interp I -> rval xmin <= i_path I x <= rval xmax ->
      Rabs (den I r - sin (i_path I x)) <= chebyshev_bound n (rval xmax - rval xmin) 1 + C * r10 (- nd).
Proof. intros n W M N HW. apply (approx_wave "sin" sin 0 n W M N HW eval_sin_ok). intros x. f_equal. ring. Qed.
Print Assumptions C58_sin.

Theorem C58_cos :
  forall (n : nat) (W M : Q), (2 <= n)%nat -> (0 < W)%Q ->
  exists C : R, forall o fuel xmin xmax x p nd, right_parity p n = true -> has_parity p cos (rval xmin) (rval xmax) ->
    (2 <= nd <= 97)%Z -> (8 * Z.of_nat (n - 1) ^ 2 <= 10 ^ nd)%Z ->
    (W <= dval xmax - dval xmin)%Q -> (Qabs (dval xmin) <= M)%Q -> (Qabs (dval xmax) <= M)%Q ->
    Q2R M + 2 <= IZR (range_at nd) ->
    exists r, approx o fuel (call "cos" x) n xmin xmax x p nd = Ok r /\
    forall I, real_interp I -> rval xmin <= i_path I x <= rval xmax ->
      Rabs (den I r - cos (i_path I x)) <= chebyshev_bound n (rval xmax - rval xmin) 1 + C * r10 (- nd).
Proof.
  intros n W M N HW. apply (approx_wave "cos" cos (PI / 2) n W M N HW eval_cos_ok). intros x.
  replace (x + PI / 2) with (PI / 2 + x) by ring. symmetry. apply cos_sin.
Qed.
Print Assumptions C58_cos.

(** The sine on [-1, 1] by the odd terms of a cubic at two digits, x - 0.16 x^3, meets the hypotheses. *)
Example C58_case : right_parity POdd 4 = true /\ has_parity POdd sin (rval (bigd (-1))) (rval (bigd 1)) /\
  (8 * Z.of_nat (4 - 1) ^ 2 <= 10 ^ 2)%Z /\ (2 <= dval (bigd 1) - dval (bigd (-1)))%Q /\ Q2R 1 + 2 <= IZR (range_at 2) /\
  approx no_oracles 9 (call "sin" ["x"%string]) 4 (bigd (-1)) (bigd 1) ["x"%string] POdd 2 =
  Ok (EBinary BMul (EMethodCall (EParen (EUnary UNeg (ELit (LFloat "0.16" "")))) "mul_add" None
        [EBinary BMul (EPath ["x"]) (EPath ["x"]); ELit (LFloat "1.00" "")]) (EPath ["x"]))%string.
Proof.
  split; [reflexivity|]. split; [split; [rewrite !rval_bigd; lra|intros t _; apply sin_neg]|]. split; [discriminate|].
  split; [vm_compute; discriminate|]. split; [unfold Q2R; cbn; lra|]. vm_compute. reflexivity.
Qed.
