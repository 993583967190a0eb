(** Property C59: the error of [approx] with explicit constants.  Theorems only.
    [derivatives f d n lo hi]: d 0 is f and d (j+1) the derivative of d j on [lo, hi], for j < n.
    [chebyshev_bound n w F] is F / n! * (w/2)^n / 2^(n-2), [node a b n i] the i-th of the n Chebyshev nodes,
    [spacing w m d] is w * sin(d * PI / (2 m))^2, [rsum n f] is f 0 + ... + f (n-1), [rprod n q] is q 0 * ... * q (n-1).
    [real_interp I]: I is real arithmetic; [den I r] is the value of the result, [i_path I x] that of the variable. *)
From Coq Require Import ZArith QArith Reals String List Bool Arith Lra Lia.
From Verif Require Import Res Dec DecFacts RFacts Syntax BdMath Eval EvalFacts Poly PolyFacts MulAddFacts ApproxFacts Interp ApproxErr DivDiff PolyExplicit ApproxExplicit Exp2Approx Exp2Numbers.
Import ListNotations.
Open Scope R_scope.

(** [F i] bounds the derivative i, [g i] is below the distance of two nodes i apart, [q i] above the distances of the
    node i to the ends; [E i] bounds the error of the divided differences of order i in units of the last digit, from
    that of the samples, E 0. *)
Theorem C59_explicit :
  forall (k : nat) (nd : Z) (xmin xmax : bd) (f : R -> R) (d : nat -> R -> R) (F g E q : nat -> R),
  (1 <= k)%nat -> (2 <= nd <= 97)%Z -> - / 2 <= rval xmin < rval xmax -> rval xmax <= / 2 ->
  let u := r10 (- nd) in
  let w := rval xmax - rval xmin in
  let lo := rval xmin - w * u in
  let hi := rval xmax + w * u in
  derivatives f d (S k) lo hi ->
  (forall i t, (i <= S k)%nat -> lo <= t <= hi -> Rabs (d i t) <= F i) ->
  (forall i, (1 <= i <= k)%nat -> 0 < g i <= spacing w k i - 2 * (w * u)) ->
  (forall i, (i < k)%nat -> 2 * E i / g (S i) * (1 + / 200) + F (S i) / INR (fact (S i)) / 200 + / 2 <= E (S i)) ->
  (forall i, (i <= k)%nat -> node (rval xmin) (rval xmax) (S k) i - rval xmin + w * u <= q i /\
                             rval xmax - node (rval xmin) (rval xmax) (S k) i + w * u <= q i) ->
  forall o fuel e x p r, right_parity p (S k) = true -> has_parity p f (rval xmin) (rval xmax) ->
  approx o fuel e (S k) xmin xmax x p nd = Ok r ->
  (forall xv y, lo <= rval xv <= hi -> value_at o fuel nd e x xv y -> Rabs (rval y - f (rval xv)) <= E O * u) ->
  forall I, real_interp I -> rval xmin <= i_path I x <= rval xmax ->
    Rabs (den I r - f (i_path I x)) <= chebyshev_bound (S k) w (F (S k)) +
      F (S k) / INR (fact (S k)) * (INR (S k) * (1 + u) ^ S k * u) +
      rsum (S k) (fun i => (F i / INR (fact i) + E i * u) * (INR i * (1 + u) ^ i) + E i * rprod i q + 1) * u.
Proof.
  intros k nd xmin xmax f d F g E q K N (A & AB) B u w lo hi Df Bf Bg Gr Bq o fuel e x p r.
  exact (approx_bound k K nd xmin xmax N A AB B f d F g E q Df Bf Bg Gr Bq o fuel e x p r).
Qed.
Print Assumptions C59_explicit.

(** The calls in [gen_exp2]: [two_pow x] is 2.0.powf(x); 8 terms and 20 digits for f32, 12 terms and 40 digits for f64. *)
Theorem C59_exp2_32 :
  forall o x xmin xmax, rval xmin = - / 2 -> rval xmax = / 2 -> exists F, forall fuel, (F <= fuel)%nat ->
  exists r, approx o fuel (two_pow x) 8 xmin xmax x PNeither 20 = Ok r /\
    forall I, real_interp I -> - / 2 <= i_path I x <= / 2 -> Rabs (den I r - Rpower 2 (i_path I x)) <= 1.16 / 10000000000.
Proof. exact exp2_value_32. Qed.
Print Assumptions C59_exp2_32.

Theorem C59_exp2_64 :
  forall o x xmin xmax, rval xmin = - / 2 -> rval xmax = / 2 -> exists F, forall fuel, (F <= fuel)%nat ->
  exists r, approx o fuel (two_pow x) 12 xmin xmax x PNeither 40 = Ok r /\
    forall I, real_interp I -> - / 2 <= i_path I x <= / 2 -> Rabs (den I r - Rpower 2 (i_path I x)) <= 8.8 / 1000000000000000000.
Proof. exact exp2_value_64. Qed.
Print Assumptions C59_exp2_64.

(** The hypotheses of [C59_explicit] hold for 2^t on [-1/2, 1/2] with 8 terms at 20 digits. *)
Example C59_case : rval (BD (-5) 1) = - / 2 /\ rval (BD 5 1) = / 2 /\ derivatives (Rpower 2) d_two 8 (-1) 1 /\
  (forall i t, t <= / 2 + / 100 -> Rabs (d_two i t) <= F_two i) /\
  (forall i, (1 <= i <= 7)%nat -> 0 < g8 i <= spacing 1 7 i - 2 * (1 * r10 (- (20)))) /\
  (forall i, (i < 7)%nat -> 2 * E8 i / g8 (S i) * (1 + / 200) + 0.6 <= E8 (S i)) /\
  two_pow ["x"%string] = EMethodCall (ELit (LFloat "2.0" "")) "powf" None [EPath ["x"%string]].
Proof.
  assert (V : forall m, rval (BD m 1) = IZR m / 10). { intros m. rewrite rval_eq. cbn [mant scale]. rewrite r10_num by lia. reflexivity. }
  split; [rewrite V; lra|]. split; [rewrite V; lra|]. split; [apply d_two_ok|]. split; [exact d_two_bound|]. split; [|split; [exact growth8|reflexivity]].
  intros i H. pose proof (spacing8 i H). pose proof (spacing_cubic 1 7 i ltac:(lra) ltac:(lia) ltac:(lia)). lra.
Qed.
