(** exp and the hyperbolic functions of the generated library, built on its exp2. *)
From Coq Require Import List String Bool ZArith QArith Reals Ascii Lia Lra.
From Flocq Require Import Core Relative IEEE754.BinarySingleNaN IEEE754.Binary IEEE754.Bits.
From Verif Require Import Res Dec DecFacts DecStr Syntax Trans Item Functions FunctionsFacts GenCode GenCodeFacts GenSem FloatBits GenRun GenFloat GenFloat2 GenFloat4
  DecimalLit UseNumberType RFacts NumberTypeFacts ExactFloats Poly MulAddFacts ApproxFacts Exp2Approx Exp2Numbers HornerFloat HornerParity Exp2Edge Exp2Float.
From Flocq Require Import Core Relative Mult_error.
From Coq Require Import Lra.
Import ListNotations.
Open Scope string_scope.
Open Scope list_scope.

#[local] Arguments bin_op bits nan_of checked !op !a !b /.
#[local] Arguments declare bits !t !a /.
#[local] Arguments cast bits !t !a /.
#[local] Arguments method bits nan_of std m !recv args /.
Definition one_of (bits : Z) : flt bits := of_decimal bits (BD 10 1).
Definition two_of (bits : Z) : flt bits := of_decimal bits (BD 20 1).
Section Run.
  Variables (bits : Z) (sub : string -> expr) (lib : list item).
  Hypothesis HB : (bits = 32 \/ bits = 64)%Z.
  Notation H := (has bits sub lib).
  Variable nan_of : list (flt bits) -> { x : flt bits | Binary.is_nan (prec bits) (emax bits) x = true }.
  Variable std : string -> list (flt bits) -> option (flt bits).
  Variable checked : bool.
  Notation R := (run bits nan_of std checked lib).
  Notation C := (const_of bits nan_of std checked lib).
  Ltac go := cbn [eval_g lookup String.eqb Ascii.eqb Bool.eqb rbind method flts_of flt_of bin_op un_op flt_op is_rel
    hd_error code bind_params].

  Theorem run_exp d x c y : H "fty" -> H "exp" -> C "LOG2_E" = Ok (VFlt c) -> R d "exp2" [VFlt (fmul bits nan_of x c)] = Ok (VFlt y) ->
    R (S d) "exp" [VFlt x] = Ok (VFlt y).
  Proof.
    intros hf he hc hr. rewrite run_S, he. go. unfold code_exp. go. rewrite (res_fty bits sub lib HB hf), decl_flt. go.
    rewrite hc. go. rewrite hr. go. rewrite decl_flt. reflexivity.
  Qed.
  Definition sinh_a (c x : flt bits) : flt bits := ffma bits nan_of x c (fneg bits (one_of bits)).
  Definition sinh_b (c x : flt bits) : flt bits := ffma bits nan_of x (fneg bits c) (fneg bits (one_of bits)).
  Theorem run_sinh d x c p q : H "fty" -> H "sinh" -> C "LOG2_E" = Ok (VFlt c) ->
    R d "exp2" [VFlt (sinh_a c x)] = Ok (VFlt p) -> R d "exp2" [VFlt (sinh_b c x)] = Ok (VFlt q) ->
    R (S d) "sinh" [VFlt x] = Ok (VFlt (fsub bits nan_of p q)).
  Proof.
    intros hf he hc hp hq. rewrite run_S, he. go. unfold code_sinh. go. rewrite (res_fty bits sub lib HB hf), decl_flt. go.
    rewrite hc. go. change (literal bits (LFloat "1.0" "")) with (@Ok (val bits) (VLitF (one_of bits))). go. rewrite decl_flt. go. rewrite decl_flt. go.
    unfold sinh_a in hp. unfold sinh_b in hq. rewrite hp. go. rewrite hq. go. rewrite decl_flt. reflexivity.
  Qed.
  Theorem run_cosh d x c p q : H "fty" -> H "cosh" -> C "LOG2_E" = Ok (VFlt c) ->
    R d "exp2" [VFlt (sinh_a c x)] = Ok (VFlt p) -> R d "exp2" [VFlt (sinh_b c x)] = Ok (VFlt q) ->
    R (S d) "cosh" [VFlt x] = Ok (VFlt (fadd bits nan_of p q)).
  Proof.
    intros hf he hc hp hq. rewrite run_S, he. go. unfold code_cosh. go. rewrite (res_fty bits sub lib HB hf), decl_flt. go.
    rewrite hc. go. change (literal bits (LFloat "1.0" "")) with (@Ok (val bits) (VLitF (one_of bits))). go. rewrite decl_flt. go. rewrite decl_flt. go.
    unfold sinh_a in hp. unfold sinh_b in hq. rewrite hp. go. rewrite hq. go. rewrite decl_flt. reflexivity.
  Qed.
  Definition tanh_a (c x : flt bits) : flt bits := fmul bits nan_of x (fmul bits nan_of c (two_of bits)).
  Theorem run_tanh d x c p : H "fty" -> H "tanh" -> C "LOG2_E" = Ok (VFlt c) -> R d "exp2" [VFlt (tanh_a c x)] = Ok (VFlt p) ->
    R (S d) "tanh" [VFlt x] = Ok (VFlt (fdiv bits nan_of (fsub bits nan_of p (one_of bits)) (fadd bits nan_of p (one_of bits)))).
  Proof.
    intros hf he hc hp. rewrite run_S, he. go. unfold code_tanh. go. rewrite (res_fty bits sub lib HB hf), decl_flt. go.
    rewrite hc. go. change (literal bits (LFloat "2.0" "")) with (@Ok (val bits) (VLitF (two_of bits))). go.
    unfold tanh_a in hp. rewrite hp. go. rewrite decl_flt. go. change (literal bits (LFloat "1.0" "")) with (@Ok (val bits) (VLitF (one_of bits))). go.
    rewrite decl_flt. reflexivity.
  Qed.
End Run.

Open Scope R_scope.
(** ** Powers of two near t *)
Lemma Rpower_ln2 x : Rpower 2 (x / ln 2) = exp x.
Proof. unfold Rpower. f_equal. pose proof ln2_tight. field. lra. Qed.
Lemma Rpower_half x : Rpower 2 (x / ln 2 - 1) = exp x / 2.
Proof. unfold Rminus. rewrite Rpower_plus, Rpower_Ropp, Rpower_1, Rpower_ln2 by lra. reflexivity. Qed.
Lemma power_near E D y t out : Rabs (out - Rpower 2 y) <= E * Rpower 2 y -> Rabs (y - t) <= D -> D <= / 1024 -> 0 <= E ->
  Rabs (out - Rpower 2 t) <= (1.001 * E + 0.6946 * D) * Rpower 2 t.
Proof.
  intros HO HD D1 E0. pose proof (Rpower_shift (y - t) ltac:(lra)) as S.
  assert (Ey : Rpower 2 y = Rpower 2 t * Rpower 2 (y - t)) by (rewrite <- Rpower_plus; f_equal; ring).
  assert (P : 0 < Rpower 2 t) by apply exp_pos. rewrite Ey in HO. set (p := Rpower 2 t) in *. set (s := Rpower 2 (y - t)) in *. clearbody p s.
  assert (S2 : Rabs (s - 1) <= 0.6946 * D) by lra.
  replace (out - p) with ((out - p * s) + p * (s - 1)) by ring. apply Rle_trans with (1 := Rabs_triang _ _). rewrite Rabs_mult, (Rabs_pos_eq p) by lra.
  assert (p * Rabs (s - 1) <= p * (0.6946 * D)) by (apply Rmult_le_compat_l; lra).
  assert (E * (p * s) <= E * (p * 1.001)).
  { apply Rmult_le_compat_l; [exact E0|]. apply Rmult_le_compat_l; [lra|]. apply Rabs_le_inv in S2. lra. }
  lra.
Qed.

(** ** tanh from a power *)
Lemma tanh_exp x : tanh x = (exp (2 * x) - 1) / (exp (2 * x) + 1).
Proof.
  unfold tanh, sinh, cosh. replace (2 * x) with (x + x) by ring. rewrite exp_plus, exp_Ropp. pose proof (exp_pos x) as P. set (a := exp x) in *. clearbody a.
  field. repeat split; try lra; nra.
Qed.
Lemma quotient_steps ep et s t th n m z : 0 < s -> 0 <= th <= / 50 -> 0 < ep <= / 16777216 -> 0 < et <= ep / 1048576 -> Rabs (t - s) <= th * s ->
  Rabs (n - (t - 1)) <= ep * Rabs (t - 1) + et -> Rabs (m - (t + 1)) <= ep * Rabs (t + 1) + et -> Rabs (z - n / m) <= ep * Rabs (n / m) + et ->
  0 < m /\ Rabs (n / m) <= 1.001 /\ Rabs (z - (s - 1) / (s + 1)) <= 2.05 * th * (s / ((s + 1) * (s + 1))) + 3.02 * ep.
Proof.
  intros S T P U D N M Z. pose proof (Rabs_le_inv _ _ D) as D'. assert (T0 : 0.98 * s <= t) by nra. assert (Tp : 0 < t) by lra.
  rewrite (Rabs_pos_eq (t + 1)) in M by lra. pose proof (Rabs_le_inv _ _ M) as M'. assert (M1 : 0.9999 * (t + 1) <= m) by nra. assert (Mp : 0 < m) by lra.
  assert (A1 : Rabs (t - 1) <= t + 1) by (apply Rabs_le; lra).
  set (f := (t - 1) / (t + 1)). assert (Fe : f * (t + 1) = t - 1) by (unfold f; field; lra).
  assert (F1 : Rabs f <= 1).
  { unfold f, Rdiv. rewrite Rabs_mult, (Rabs_pos_eq (/ (t + 1))) by (left; apply Rinv_0_lt_compat; lra). apply Rmult_le_reg_r with (t + 1); [lra|]. rewrite Rmult_assoc, Rinv_l by lra. lra. }
  assert (Q1 : Rabs (n / m - f) <= 2.001 * ep).
  { replace (n / m - f) with (((n - (t - 1)) - f * (m - (t + 1))) * / m).
    - rewrite Rabs_mult, (Rabs_pos_eq (/ m)) by (left; apply Rinv_0_lt_compat; lra). apply Rmult_le_reg_r with m; [exact Mp|]. rewrite Rmult_assoc, Rinv_l, Rmult_1_r by lra.
      apply Rle_trans with (Rabs (n - (t - 1)) + Rabs (f * (m - (t + 1)))).
      + replace (n - (t - 1) - f * (m - (t + 1))) with ((n - (t - 1)) + - (f * (m - (t + 1)))) by ring. apply Rle_trans with (1 := Rabs_triang _ _). rewrite Rabs_Ropp. lra.
      + rewrite Rabs_mult. assert (Rabs f * Rabs (m - (t + 1)) <= 1 * (ep * (t + 1) + et)) by (apply Rmult_le_compat; try apply Rabs_pos; lra).
        assert (ep * Rabs (t - 1) <= ep * (t + 1)) by (apply Rmult_le_compat_l; lra). assert (2.001 * ep * (0.9999 * (t + 1)) <= 2.001 * ep * m) by (apply Rmult_le_compat_l; lra). nra.
    - replace (n - (t - 1) - f * (m - (t + 1))) with (n - f * m - (t - 1) + f * (t + 1)) by ring. rewrite Fe. field. lra. }
  assert (Q2 : Rabs (n / m) <= 1.001).
  { replace (n / m) with (f + (n / m - f)) by ring. apply Rle_trans with (1 := Rabs_triang _ _). lra. }
  split; [exact Mp|]. split; [exact Q2|].
  assert (Q3 : Rabs (f - (s - 1) / (s + 1)) <= 2.05 * th * (s / ((s + 1) * (s + 1)))).
  { replace (f - (s - 1) / (s + 1)) with (2 * (t - s) * (/ (t + 1) * / (s + 1))) by (unfold f; field; lra).
    rewrite !Rabs_mult, (Rabs_pos_eq 2) by lra. rewrite (Rabs_pos_eq (/ (t + 1))), (Rabs_pos_eq (/ (s + 1))) by (left; apply Rinv_0_lt_compat; lra).
    assert (I1 : / (t + 1) <= 1.025 * / (s + 1)).
    { apply Rmult_le_reg_r with (t + 1); [lra|]. rewrite Rinv_l by lra. apply Rmult_le_reg_r with (s + 1); [lra|]. replace (1.025 * / (s + 1) * (t + 1) * (s + 1)) with (1.025 * (t + 1)) by (field; lra). lra. }
    assert (I2 : 0 < / (s + 1)) by (apply Rinv_0_lt_compat; lra). assert (I3 : 0 < / (t + 1)) by (apply Rinv_0_lt_compat; lra).
    replace 1.025 with (41 / 40) in I1 by lra. replace 2.05 with (41 / 20) by lra.
    replace (41 / 20 * th * (s / ((s + 1) * (s + 1)))) with (2 * (th * s) * ((41 / 40 * / (s + 1)) * / (s + 1))) by (field; lra).
    apply Rmult_le_compat; try lra.
    - pose proof (Rabs_pos (t - s)). lra.
    - apply Rmult_le_pos; lra.
    - apply Rmult_le_compat_r; lra. }
  replace (z - (s - 1) / (s + 1)) with ((z - n / m) + (n / m - f) + (f - (s - 1) / (s + 1))) by ring.
  apply Rle_trans with (1 := Rabs_triang _ _). apply Rle_trans with (1 := Rplus_le_compat_r _ _ _ (Rabs_triang _ _)).
  assert (ep * Rabs (n / m) <= ep * 1.001) by (apply Rmult_le_compat_l; lra). lra.
Qed.
Lemma bell x : let s := exp (2 * x) in s / ((s + 1) * (s + 1)) <= / 4 /\ Rabs x * (s / ((s + 1) * (s + 1))) <= 0.1832.
Proof.
  intros s. assert (S : 0 < s) by apply exp_pos.
  assert (B : forall k, 0 < k -> k * s <= (s + 1) * (s + 1) -> s / ((s + 1) * (s + 1)) <= / k).
  { intros k K L. assert (Q : 0 < (s + 1) * (s + 1)) by nra. apply Rmult_le_reg_r with ((s + 1) * (s + 1)); [exact Q|]. unfold Rdiv. rewrite Rmult_assoc, Rinv_l, Rmult_1_r by lra.
    apply Rmult_le_reg_l with k; [exact K|]. rewrite <- Rmult_assoc, Rinv_r by lra. lra. }
  split; [apply B; [lra|]; assert (0 <= (s - 1) * (s - 1)) by apply Rle_0_sqr; lra|].
  destruct (Req_dec x 0) as [->|NX]; [rewrite Rabs_R0; lra|].
  assert (X : 0 < Rabs x) by (apply Rabs_pos_lt; exact NX). set (a := Rabs x) in *.
  assert (G : 5.46 * a * s <= (s + 1) * (s + 1)).
  { assert (E1 : 1 + a <= exp a) by apply exp_ineq1_le. assert (E2 : (1 + a) * (1 + a) <= exp (2 * a)).
    { replace (2 * a) with (a + a) by ring. rewrite exp_plus. apply Rmult_le_compat; lra. }
    assert (E3 : exp (2 * a) + 2 + exp (- (2 * a)) = (s + 1) * (s + 1) / s).
    { unfold s, a, Rabs. destruct (Rcase_abs x).
      - replace (2 * - x) with (- (2 * x)) by ring. rewrite Ropp_involutive, exp_Ropp. field. apply Rgt_not_eq, exp_pos.
      - rewrite exp_Ropp. field. apply Rgt_not_eq, exp_pos. }
    pose proof (exp_pos (- (2 * a))). assert (E4 : 5.46 * a <= (s + 1) * (s + 1) / s).
    { rewrite <- E3. assert (0 <= (a - 1.73) * (a - 1.73)) by apply Rle_0_sqr. lra. }
    apply Rmult_le_compat_r with (r := s) in E4; [|lra]. replace ((s + 1) * (s + 1) / s * s) with ((s + 1) * (s + 1)) in E4 by (field; lra). exact E4. }
  pose proof (B (5.46 * a) ltac:(lra) G) as B1. apply Rle_trans with (a * / (5.46 * a)); [apply Rmult_le_compat_l; lra|]. rewrite Rinv_mult, <- Rmult_assoc, (Rmult_comm a), Rmult_assoc, Rinv_r by lra. lra.
Qed.
Section Acc.
  Variables (bits : Z) (sub : string -> expr) (lib : list item).
  Hypothesis HB : (bits = 32 \/ bits = 64)%Z.
  Notation H := (has bits sub lib).
  Variable nan_of : list (flt bits) -> { x : flt bits | Binary.is_nan (prec bits) (emax bits) x = true }.
  Variable std : string -> list (flt bits) -> option (flt bits).
  Variable checked : bool.
  Notation R' := (run bits nan_of std checked lib).
  Notation C := (const_of bits nan_of std checked lib).
  Let ep := bpow radix2 (- prec bits).
  Let et := eta bits.
  (** exp2 with the relative error E, on (lo, hi] *)
  Variables (E lo hi : R) (d : nat).
  Hypothesis E0 : 0 <= E <= / 100.
  Hypothesis hexp2 : forall y : flt bits, finite y = true -> lo < fR y <= hi ->
    exists out, R' d "exp2" [VFlt y] = Ok (VFlt out) /\ finite out = true /\ Rabs (fR out - Rpower 2 (fR y)) <= E * Rpower 2 (fR y).
  Variable c : flt bits.
  Hypothesis hc : C "LOG2_E" = Ok (VFlt c).
  Hypothesis Fc : finite c = true.
  Hypothesis Vc : Rabs (fR c - 1 / ln 2) <= (1 + / 100000) * ep * (1 / ln 2).
  Hypothesis hf : H "fty".

  Lemma ep_small : 0 < ep <= / 16777216. Proof. split; [apply eps_pos|apply (eps_small bits HB)]. Qed.
  Lemma et_small : 0 < et <= ep / 1048576. Proof. split; [apply eta_pos|apply (eta_eps bits HB)]. Qed.
  Lemma inv_ln2 : 1.4426 <= 1 / ln 2 <= 1.44272.
  Proof. pose proof ln2_tight. unfold Rdiv. rewrite Rmult_1_l. split; (apply Rmult_le_reg_r with (ln 2); [lra|rewrite Rinv_l; lra]). Qed.
  Lemma c_near : Rabs (fR c - 1 / ln 2) <= 1.44274 * ep.
  Proof. pose proof inv_ln2. pose proof ep_small. apply Rle_trans with (1 := Vc). set (q := 1 / ln 2) in *. clearbody q. assert (ep * q <= ep * 1.44272) by (apply Rmult_le_compat_l; lra). lra. Qed.
  Lemma c_size : 1.4425 <= fR c <= 1.44273.
  Proof. pose proof c_near as N. pose proof inv_ln2. pose proof ep_small. apply Rabs_le_inv in N. lra. Qed.
  Lemma xc_near (x m s : R) : Rabs x <= 1000 -> Rabs m = 1 ->
    Rabs (RN bits (x * (m * fR c) - s) - (m * (x / ln 2) - s)) <= (2.88548 * Rabs x + Rabs s) * ep + et.
  Proof.
    intros X M. pose proof c_near as N. pose proof c_size as S. pose proof ep_small as P.
    pose proof (RN_err bits (x * (m * fR c) - s) HB) as RE. fold ep et in RE. unfold eps in RE. fold ep in RE.
    assert (A : Rabs (x * (m * fR c) - s) <= 1.44273 * Rabs x + Rabs s).
    { unfold Rminus. apply Rle_trans with (1 := Rabs_triang _ _). rewrite Rabs_Ropp, !Rabs_mult, M, (Rabs_pos_eq (fR c)) by lra.
      apply Rplus_le_compat_r. rewrite Rmult_1_l, Rmult_comm. apply Rmult_le_compat_r; [apply Rabs_pos|lra]. }
    assert (B : Rabs (x * (m * fR c) - s - (m * (x / ln 2) - s)) <= 1.44274 * ep * Rabs x).
    { replace (x * (m * fR c) - s - (m * (x / ln 2) - s)) with (m * (x * (fR c - 1 / ln 2))) by (unfold Rdiv; ring).
      rewrite !Rabs_mult, M, Rmult_1_l, Rmult_comm. apply Rmult_le_compat_r; [apply Rabs_pos|exact N]. }
    assert (A2 : ep * Rabs (x * (m * fR c) - s) <= ep * (1.44273 * Rabs x + Rabs s)) by (apply Rmult_le_compat_l; lra).
    set (w := x * (m * fR c) - s) in *. replace (RN bits w - (m * (x / ln 2) - s)) with ((RN bits w - w) + (w - (m * (x / ln 2) - s))) by ring.
    apply Rle_trans with (1 := Rabs_triang _ _). pose proof (Rabs_pos x). nra.
  Qed.

  Definition theta (x s : R) : R := 1.001 * E + (2.00426 * Rabs x + 0.6946 * s + / 1000) * ep.

  Lemma d_small x s : Rabs x <= 1000 -> 0 <= s <= 1 -> (2.88548 * Rabs x + s) * ep + et <= / 1024.
  Proof. intros X S. pose proof ep_small. pose proof et_small. pose proof (Rabs_pos x). nra. Qed.

  Lemma exp2_at (y : flt bits) x m s : finite y = true -> Rabs x <= 1000 -> Rabs m = 1 -> 0 <= s <= 1 ->
    fR y = RN bits (x * (m * fR c) - s) -> lo + / 1024 < m * (x / ln 2) - s <= hi - / 1024 ->
    exists out, R' d "exp2" [VFlt y] = Ok (VFlt out) /\ finite out = true /\
      Rabs (fR out - Rpower 2 (m * (x / ln 2) - s)) <= theta x s * Rpower 2 (m * (x / ln 2) - s).
  Proof.
    intros Fy X M S V L. pose proof (xc_near x m s X M) as N. rewrite <- V, (Rabs_pos_eq s) in N by lra.
    pose proof (d_small x s X S) as D. pose proof (Rabs_le_inv _ _ N) as N'.
    destruct (hexp2 y Fy ltac:(lra)) as (out & R & Fo & O). exists out. split; [exact R|]. split; [exact Fo|].
    apply Rle_trans with (1 := power_near _ _ _ _ _ O N D ltac:(lra)). apply Rmult_le_compat_r; [left; apply exp_pos|].
    unfold theta. pose proof et_small. pose proof ep_small. pose proof (Rabs_pos x). nra.
  Qed.
  Lemma small_fin v : Rabs v <= 4000 -> Rabs (RN bits v) < bpow radix2 (emax bits).
  Proof.
    intros A. apply Rle_lt_trans with (IZR 4000).
    - apply RN_bound; [exact A|]. destruct HB as [-> | ->]; vm_compute; split; discriminate.
    - change 4000 with (IZR 4000). apply Rlt_le_trans with (bpow radix2 12); [change (bpow radix2 12) with 4096; lra|]. apply bpow_le.
      destruct HB as [-> | ->]; [change (emax 32) with 128%Z|change (emax 64) with 1024%Z]; lia.
  Qed.

  Theorem exp_accuracy (x : flt bits) : H "exp" -> finite x = true -> Rabs (fR x) <= 1000 -> lo + / 1024 < fR x / ln 2 <= hi - / 1024 ->
    exists out, R' (S d) "exp" [VFlt x] = Ok (VFlt out) /\ finite out = true /\
      Rabs (fR out - exp (fR x)) <= theta (fR x) 0 * exp (fR x).
  Proof.
    intros he Fx X L. pose proof c_size as S.
    destruct (fmul_value bits nan_of x c Fx Fc) as [V F].
    { apply small_fin. rewrite Rabs_mult, (Rabs_pos_eq (fR c)) by lra. pose proof (Rabs_pos (fR x)). nra. }
    destruct (exp2_at (fmul bits nan_of x c) (fR x) 1 0 F X) as (out & R & Fo & O); try lra.
    - apply Rabs_R1.
    - rewrite V. f_equal. ring.
    - exists out. split; [|split; [exact Fo|]].
      + exact (run_exp bits sub lib HB nan_of std checked d x c out hf he hc R).
      + replace (1 * (fR x / ln 2) - 0) with (fR x / ln 2) in O by ring. rewrite Rpower_ln2 in O. exact O.
  Qed.

  (** *** sinh and cosh *)
  Lemma one_value : fR (one_of bits) = 1 /\ finite (one_of bits) = true.
  Proof.
    assert (D : dreal (BD 10 1) = 1) by (rewrite dreal_rval, rval_eq; cbn [mant scale]; rewrite r10_num by lia; change (10 ^ 1)%Z with 10%Z; lra).
    assert (V : RN bits 1 = 1) by (apply (RN_int bits 1); destruct HB as [-> | ->]; vm_compute; discriminate).
    unfold one_of. destruct (of_decimal_nearest bits (BD 10 1)) as [A B].
    - rewrite D, V. rewrite Rabs_R1. change 1 with (bpow radix2 0). apply bpow_lt. destruct HB as [-> | ->]; reflexivity.
    - split; [rewrite A, D; exact V|exact B].
  Qed.
  Lemma theta_small x s : Rabs x <= 1000 -> 0 <= s <= 1 -> 0 <= theta x s <= / 50.
  Proof. intros X S. unfold theta. pose proof ep_small. pose proof (Rabs_pos x). nra. Qed.
  Lemma power_bound t : t <= IZR (emax bits) - 4 -> Rpower 2 t <= bpow radix2 (emax bits) / 16.
  Proof.
    intros T. apply Rle_trans with (Rpower 2 (IZR (emax bits - 4))).
    - apply Rle_Rpower; [lra|]. rewrite minus_IZR. exact T.
    - rewrite <- powerRZ_Rpower by lra. rewrite <- (bpow_powerRZ radix2). replace (emax bits - 4)%Z with (emax bits + -4)%Z by ring. rewrite bpow_plus. change (bpow radix2 (-4)) with (/ 16). lra.
  Qed.
  Lemma halves (x : flt bits) : finite x = true -> Rabs (fR x) <= 1000 -> lo + / 1024 < - (Rabs (fR x) / ln 2) - 1 -> Rabs (fR x) / ln 2 - 1 <= hi - / 1024 ->
    exists p q, R' d "exp2" [VFlt (sinh_a bits nan_of c x)] = Ok (VFlt p) /\ R' d "exp2" [VFlt (sinh_b bits nan_of c x)] = Ok (VFlt q) /\
      finite p = true /\ finite q = true /\ Rabs (fR p - exp (fR x) / 2) <= theta (fR x) 1 * (exp (fR x) / 2) /\
      Rabs (fR q - exp (- fR x) / 2) <= theta (fR x) 1 * (exp (- fR x) / 2).
  Proof.
    intros Fx X L1 L2. pose proof c_size as S. destruct one_value as [V1 F1]. destruct (fneg_value bits (one_of bits)) as [N1 G1]. rewrite V1 in N1. rewrite F1 in G1.
    destruct (fneg_value bits c) as [Nc Gc]. rewrite Fc in Gc.
    assert (I : 0 < / ln 2) by (apply Rinv_0_lt_compat; pose proof ln2_tight; lra).
    assert (B : - (Rabs (fR x) / ln 2) <= fR x / ln 2 <= Rabs (fR x) / ln 2).
    { unfold Rdiv. pose proof (Rle_abs (fR x)). pose proof (Rle_abs (- fR x)) as A. rewrite Rabs_Ropp in A. split; nra. }
    destruct (ffma_value bits nan_of x c (fneg bits (one_of bits)) Fx Fc G1) as [Va Fa].
    { apply small_fin. rewrite N1. apply Rle_trans with (1 := Rabs_triang _ _). rewrite Rabs_mult, (Rabs_pos_eq (fR c)), Rabs_Ropp, Rabs_R1 by lra. pose proof (Rabs_pos (fR x)). nra. }
    destruct (ffma_value bits nan_of x (fneg bits c) (fneg bits (one_of bits)) Fx Gc G1) as [Vb Fb].
    { apply small_fin. rewrite N1, Nc. apply Rle_trans with (1 := Rabs_triang _ _). rewrite Rabs_mult, !Rabs_Ropp, (Rabs_pos_eq (fR c)), Rabs_R1 by lra. pose proof (Rabs_pos (fR x)). nra. }
    rewrite N1 in Va, Vb. rewrite Nc in Vb.
    destruct (exp2_at (sinh_a bits nan_of c x) (fR x) 1 1 Fa X) as (p & Rp & Fp & Op); try lra.
    { apply Rabs_R1. } { unfold sinh_a. rewrite Va. f_equal. ring. }
    destruct (exp2_at (sinh_b bits nan_of c x) (fR x) (-1) 1 Fb X) as (q & Rq & Fq & Oq); try lra.
    { rewrite Rabs_left; lra. } { unfold sinh_b. rewrite Vb. f_equal. ring. }
    exists p, q. split; [exact Rp|]. split; [exact Rq|]. split; [exact Fp|]. split; [exact Fq|].
    rewrite Rmult_1_l, Rpower_half in Op. replace (-1 * (fR x / ln 2) - 1) with ((- fR x) / ln 2 - 1) in Oq by (unfold Rdiv; ring). rewrite Rpower_half in Oq.
    split; assumption.
  Qed.
  Lemma joined (x p q g : R) : Rabs x <= 1000 -> Rabs x / ln 2 <= IZR (emax bits) - 3 -> Rabs g = 1 ->
    Rabs (p - exp x / 2) <= theta x 1 * (exp x / 2) -> Rabs (q - exp (- x) / 2) <= theta x 1 * (exp (- x) / 2) ->
    Rabs (RN bits (p + g * q)) < bpow radix2 (emax bits) /\
    Rabs (RN bits (p + g * q) - (exp x + g * exp (- x)) / 2) <= (theta x 1 + 1.03 * ep) * cosh x.
  Proof.
    intros X L G Hp Hq. pose proof (theta_small x 1 X ltac:(lra)) as T. pose proof ep_small as P. pose proof et_small as U.
    assert (I : 0 < / ln 2) by (apply Rinv_0_lt_compat; pose proof ln2_tight; lra).
    assert (B : - (Rabs x / ln 2) <= x / ln 2 <= Rabs x / ln 2).
    { unfold Rdiv. pose proof (Rle_abs x). pose proof (Rle_abs (- x)) as A. rewrite Rabs_Ropp in A. split; nra. }
    pose proof (power_bound (x / ln 2 - 1) ltac:(lra)) as B1. rewrite Rpower_half in B1.
    pose proof (power_bound (- x / ln 2 - 1) ltac:(unfold Rdiv in *; lra)) as B2. rewrite Rpower_half in B2.
    pose proof (exp_pos x) as E1. pose proof (exp_pos (- x)) as E2.
    assert (Cm : 1 <= cosh x).
    { unfold cosh. assert (A : exp x * exp (- x) = 1) by (rewrite <- exp_plus, Rplus_opp_r; apply exp_0). set (a := exp x) in *. set (b := exp (- x)) in *. clearbody a b.
      assert (0 <= (a - b) * (a - b)) by apply Rle_0_sqr. nra. }
    assert (D : Rabs (p + g * q - (exp x + g * exp (- x)) / 2) <= theta x 1 * cosh x).
    { replace (p + g * q - (exp x + g * exp (- x)) / 2) with ((p - exp x / 2) + g * (q - exp (- x) / 2)) by field.
      apply Rle_trans with (1 := Rabs_triang _ _). rewrite Rabs_mult, G. unfold cosh. lra. }
    assert (Hc : Rabs ((exp x + g * exp (- x)) / 2) <= cosh x).
    { unfold cosh, Rdiv. rewrite Rabs_mult, (Rabs_pos_eq (/ 2)) by lra. apply Rmult_le_compat_r; [lra|]. apply Rle_trans with (1 := Rabs_triang _ _).
      rewrite Rabs_mult, G, !Rabs_pos_eq by lra. lra. }
    assert (Cb : cosh x <= bpow radix2 (emax bits) / 8) by (unfold cosh; lra).
    set (v := p + g * q) in *. set (w := (exp x + g * exp (- x)) / 2) in *. set (k := cosh x) in *. set (th := theta x 1) in *. set (M := bpow radix2 (emax bits)) in *.
    pose proof (RN_err bits v HB) as RE. unfold eps in RE. fold ep et in RE.
    assert (Hv : Rabs v <= (1 + th) * k).
    { replace v with (w + (v - w)) by ring. apply Rle_trans with (1 := Rabs_triang _ _). lra. }
    clearbody v w k th M ep et.
    assert (V2 : (1 + th) * k <= 1.02 * k) by (apply Rmult_le_compat_r; lra).
    assert (RE2 : Rabs (RN bits v - v) <= 1.03 * ep * k).
    { apply Rle_trans with (1 := RE). assert (ep * Rabs v <= ep * (1.02 * k)) by (apply Rmult_le_compat_l; lra). assert (ep * 1 <= ep * k) by (apply Rmult_le_compat_l; lra). lra. }
    split.
    - replace (RN bits v) with ((RN bits v - v) + v) by ring. apply Rle_lt_trans with (1 := Rabs_triang _ _). assert (1.03 * ep * k <= 1 * k) by (apply Rmult_le_compat_r; lra). lra.
    - replace (RN bits v - w) with ((RN bits v - v) + (v - w)) by ring. apply Rle_trans with (1 := Rabs_triang _ _). lra.
  Qed.

  Theorem sinh_accuracy (x : flt bits) : H "sinh" -> finite x = true -> Rabs (fR x) <= 1000 -> lo + / 1024 < - (Rabs (fR x) / ln 2) - 1 ->
    Rabs (fR x) / ln 2 - 1 <= hi - / 1024 -> Rabs (fR x) / ln 2 <= IZR (emax bits) - 3 ->
    exists out, R' (S d) "sinh" [VFlt x] = Ok (VFlt out) /\ finite out = true /\
      Rabs (fR out - sinh (fR x)) <= (theta (fR x) 1 + 1.03 * ep) * cosh (fR x).
  Proof.
    intros he Fx X L1 L2 L3. destruct (halves x Fx X L1 L2) as (p & q & Rp & Rq & Fp & Fq & Op & Oq).
    destruct (joined (fR x) (fR p) (fR q) (-1) X L3 ltac:(rewrite Rabs_left; lra) Op Oq) as [J1 J2].
    replace (fR p + -1 * fR q) with (fR p - fR q) in J1, J2 by ring. replace ((exp (fR x) + -1 * exp (- fR x)) / 2) with (sinh (fR x)) in J2 by (unfold sinh, Rdiv; ring).
    destruct (fsub_value bits nan_of p q Fp Fq J1) as [V F]. exists (fsub bits nan_of p q). split; [|split; [exact F|rewrite V; exact J2]].
    exact (run_sinh bits sub lib HB nan_of std checked d x c p q hf he hc Rp Rq).
  Qed.
  Theorem cosh_accuracy (x : flt bits) : H "cosh" -> finite x = true -> Rabs (fR x) <= 1000 -> lo + / 1024 < - (Rabs (fR x) / ln 2) - 1 ->
    Rabs (fR x) / ln 2 - 1 <= hi - / 1024 -> Rabs (fR x) / ln 2 <= IZR (emax bits) - 3 ->
    exists out, R' (S d) "cosh" [VFlt x] = Ok (VFlt out) /\ finite out = true /\
      Rabs (fR out - cosh (fR x)) <= (theta (fR x) 1 + 1.03 * ep) * cosh (fR x).
  Proof.
    intros he Fx X L1 L2 L3. destruct (halves x Fx X L1 L2) as (p & q & Rp & Rq & Fp & Fq & Op & Oq).
    destruct (joined (fR x) (fR p) (fR q) 1 X L3 ltac:(apply Rabs_R1) Op Oq) as [J1 J2].
    replace (fR p + 1 * fR q) with (fR p + fR q) in J1, J2 by ring. replace ((exp (fR x) + 1 * exp (- fR x)) / 2) with (cosh (fR x)) in J2 by (unfold cosh, Rdiv; ring).
    destruct (fadd_value bits nan_of p q Fp Fq J1) as [V F]. exists (fadd bits nan_of p q). split; [|split; [exact F|rewrite V; exact J2]].
    exact (run_cosh bits sub lib HB nan_of std checked d x c p q hf he hc Rp Rq).
  Qed.
  (** *** tiny arguments of sinh: both exponents are exactly -1 *)
  Lemma gap_at_one z : generic_format radix2 (fx bits) z -> Rabs (z + 1) < ep -> z = -1.
  Proof.
    intros G D. pose proof ep_small as P. apply Rabs_lt_inv in D.
    assert (M : (0 <= mag radix2 z)%Z).
    { apply mag_ge_bpow. change (bpow radix2 (0 - 1)) with (/ 2). rewrite Rabs_left; lra. }
    assert (Ce : (- prec bits <= cexp radix2 (fx bits) z)%Z) by (unfold cexp, fx, FLT_exp; lia).
    unfold generic_format in G. set (m := Ztrunc (scaled_mantissa radix2 (fx bits) z)) in *. set (e := cexp radix2 (fx bits) z) in *.
    assert (Z1 : z * bpow radix2 (prec bits) = IZR (m * 2 ^ (e + prec bits))).
    { rewrite G at 1. unfold F2R. cbn [Fnum Fexp]. rewrite Rmult_assoc, <- bpow_plus, mult_IZR. f_equal. rewrite <- (IZR_Zpower radix2) by lia. reflexivity. }
    assert (Z2 : ep * bpow radix2 (prec bits) = 1) by (unfold ep; rewrite <- bpow_plus; replace (- prec bits + prec bits)%Z with 0%Z by ring; reflexivity).
    assert (Q : bpow radix2 (prec bits) = IZR (2 ^ prec bits)) by (symmetry; apply (IZR_Zpower radix2); pose proof (prec_pos bits); lia).
    pose proof (bpow_gt_0 radix2 (prec bits)) as B0. set (B := bpow radix2 (prec bits)) in *. clearbody B.
    assert (Z3 : -1 < IZR (m * 2 ^ (e + prec bits)) + IZR (2 ^ prec bits) < 1) by (rewrite <- Z1, <- Q; nra).
    rewrite <- plus_IZR in Z3. assert (Z4 : (m * 2 ^ (e + prec bits) + 2 ^ prec bits = 0)%Z).
    { destruct Z3 as [A1 A2]. change (-1) with (IZR (-1)) in A1. change 1 with (IZR 1) in A2. apply lt_IZR in A1. apply lt_IZR in A2. lia. }
    apply (f_equal IZR) in Z4. rewrite plus_IZR, <- Z1, <- Q in Z4. apply Rmult_eq_reg_r with B; lra.
  Qed.
  Lemma near_minus_one v : Rabs (v - -1) < ep / 2 -> RN bits v = -1.
  Proof.
    intros D. apply gap_at_one; [apply generic_format_round; [apply fx_valid|apply valid_rnd_N]|].
    assert (G : generic_format radix2 (fx bits) (-1)) by (apply (fmt_int bits (-1)); destruct HB as [-> | ->]; vm_compute; discriminate).
    pose proof (fx_valid bits) as VE. destruct (round_N_pt radix2 (fx bits) (fun t => negb (Z.even t)) v) as [_ N]. specialize (N _ G). fold (RN bits v) in N.
    replace (RN bits v + 1) with ((RN bits v - v) + (v - -1)) by ring. apply Rle_lt_trans with (1 := Rabs_triang _ _). rewrite Rabs_minus_sym in D.
    rewrite (Rabs_minus_sym v (-1)). lra.
  Qed.
  Theorem sinh_tiny (x : flt bits) : H "sinh" -> finite x = true -> lo < -1 <= hi -> Rabs (fR x) <= bpow radix2 (- prec bits - 2) ->
    R' (S d) "sinh" [VFlt x] = Ok (VFlt (B754_zero _ _ false)).
  Proof.
    intros he Fx L T. pose proof c_size as S. pose proof ep_small as P. destruct one_value as [V1 F1]. destruct (fneg_value bits (one_of bits)) as [N1 G1]. rewrite V1 in N1. rewrite F1 in G1.
    destruct (fneg_value bits c) as [Nc Gc]. rewrite Fc in Gc.
    assert (T2 : Rabs (fR x) <= ep / 4).
    { replace (- prec bits - 2)%Z with (- prec bits + -2)%Z in T by ring. rewrite bpow_plus in T. change (bpow radix2 (-2)) with (/ 4) in T. fold ep in T. lra. }
    assert (A1 : RN bits (fR x * fR c + - (1)) = -1).
    { apply near_minus_one. replace (fR x * fR c + - (1) - -1) with (fR x * fR c) by ring. rewrite Rabs_mult, (Rabs_pos_eq (fR c)) by lra. pose proof (Rabs_pos (fR x)). nra. }
    assert (A2 : RN bits (fR x * - fR c + - (1)) = -1).
    { apply near_minus_one. replace (fR x * - fR c + - (1) - -1) with (- (fR x * fR c)) by ring. rewrite Rabs_Ropp, Rabs_mult, (Rabs_pos_eq (fR c)) by lra. pose proof (Rabs_pos (fR x)). nra. }
    assert (Big : Rabs (-1) < bpow radix2 (emax bits)).
    { rewrite Rabs_left by lra. replace (- -1) with (bpow radix2 0) by (change (bpow radix2 0) with 1; lra). apply bpow_lt. destruct HB as [-> | ->]; reflexivity. }
    destruct (ffma_value bits nan_of x c (fneg bits (one_of bits)) Fx Fc G1) as [Va Fa]; [rewrite N1, A1; exact Big|].
    destruct (ffma_value bits nan_of x (fneg bits c) (fneg bits (one_of bits)) Fx Gc G1) as [Vb Fb]; [rewrite N1, Nc, A2; exact Big|].
    rewrite N1, A1 in Va. rewrite N1, Nc, A2 in Vb. fold (sinh_a bits nan_of c x) in Va, Fa. fold (sinh_b bits nan_of c x) in Vb, Fb.
    assert (Eab : sinh_b bits nan_of c x = sinh_a bits nan_of c x).
    { assert (SF : forall t : flt bits, finite t = true -> fR t = -1 -> Binary.is_finite_strict _ _ t = true).
      { intros t F V. destruct t as [s|s|s pl e|s m e b]; try discriminate; [|reflexivity]. cbn in V. lra. }
      apply Binary.B2R_inj; [apply SF; assumption|apply SF; assumption|]. etransitivity; [exact Vb|symmetry; exact Va]. }
    destruct (hexp2 (sinh_a bits nan_of c x) Fa) as (p & Rp & Fp & _); [rewrite Va; exact L|].
    rewrite (run_sinh bits sub lib HB nan_of std checked d x c p p hf he hc Rp); [|rewrite Eab; exact Rp]. do 2 f_equal.
    assert (Z0 : RN bits (fR p - fR p) = 0) by (rewrite Rminus_diag_eq by reflexivity; apply round_0, valid_rnd_N).
    pose proof (Binary.Bminus_correct _ _ (prec_gt bits) (prec_lt bits) (fun a b => nan_of [a; b]) mode_NE p p Fp Fp) as BM.
    assert (LB : Rabs (RN bits (fR p - fR p)) < bpow radix2 (emax bits)) by (rewrite Z0, Rabs_R0; apply bpow_gt_0).
    cbn [round_mode] in BM. rewrite Rlt_bool_true in BM by exact LB. destruct BM as (B1 & B2 & B3). rewrite Z0 in B1.
    rewrite Rcompare_Eq in B3 by (apply Rminus_diag_eq; reflexivity).
    unfold fsub. set (r := Bminus _ _ _ _ _ _ p p) in *. destruct r as [s|s|s pl e0|s m e0 b0]; try discriminate.
    - cbn in B3. destruct (Binary.Bsign (prec bits) (emax bits) p); cbn in B3; subst s; reflexivity.
    - exfalso. cbn in B1. apply (F2R_neq_0 radix2) in B1; [exact B1|]. destruct s; discriminate.
  Qed.

  (** *** tanh *)
  Lemma fdiv_value (x y : flt bits) : finite x = true -> fR y <> 0 -> Rabs (RN bits (fR x / fR y)) < bpow radix2 (emax bits) ->
    fR (fdiv bits nan_of x y) = RN bits (fR x / fR y) /\ finite (fdiv bits nan_of x y) = true.
  Proof.
    intros Fx Ny L. pose proof (Binary.Bdiv_correct _ _ (prec_gt bits) (prec_lt bits) (fun a b => nan_of [a; b]) mode_NE x y Ny) as BD.
    cbn [round_mode] in BD. rewrite Rlt_bool_true in BD by exact L. unfold fdiv. rewrite Fx in BD. tauto.
  Qed.
  Lemma two_value : fR (two_of bits) = 2 /\ finite (two_of bits) = true.
  Proof.
    assert (D : dreal (BD 20 1) = 2) by (rewrite dreal_rval, rval_eq; cbn [mant scale]; rewrite r10_num by lia; change (10 ^ 1)%Z with 10%Z; lra).
    assert (V : RN bits 2 = 2) by (apply (RN_int bits 2); destruct HB as [-> | ->]; vm_compute; discriminate).
    unfold two_of. destruct (of_decimal_nearest bits (BD 20 1)) as [A B].
    - rewrite D, V. rewrite Rabs_pos_eq by lra. change 2 with (bpow radix2 1). apply bpow_lt. destruct HB as [-> | ->]; reflexivity.
    - split; [rewrite A, D; exact V|exact B].
  Qed.
  Lemma twice_c : fR (fmul bits nan_of c (two_of bits)) = 2 * fR c /\ finite (fmul bits nan_of c (two_of bits)) = true.
  Proof.
    destruct two_value as [V2 F2]. pose proof c_size as S.
    assert (A : RN bits (fR c * fR (two_of bits)) = 2 * fR c).
    { rewrite V2, Rmult_comm. apply RN_fmt. rewrite Rmult_comm. change 2 with (bpow radix2 1). apply mult_bpow_pos_exact_FLT; [apply Binary.generic_format_B2R|lia]. }
    rewrite <- A. apply fmul_value; [exact Fc|exact F2|]. rewrite V2. apply small_fin. apply Rabs_le. lra.
  Qed.
  Lemma big_max : 4000 < bpow radix2 (emax bits).
  Proof.
    change 4000 with (IZR 4000). apply Rlt_le_trans with (bpow radix2 12); [change (bpow radix2 12) with 4096; lra|]. apply bpow_le.
    destruct HB as [-> | ->]; [change (emax 32) with 128%Z|change (emax 64) with 1024%Z]; lia.
  Qed.
  Theorem tanh_accuracy (x : flt bits) : H "tanh" -> finite x = true -> Rabs (fR x) <= 500 ->
    lo + / 1024 < 2 * fR x / ln 2 <= hi - / 1024 -> hi <= IZR (emax bits) - 1 ->
    exists out, R' (S d) "tanh" [VFlt x] = Ok (VFlt out) /\ finite out = true /\
      Rabs (fR out - tanh (fR x)) <= 0.514 * E + 4.53 * ep.
  Proof.
    intros he Fx X L HI. pose proof c_size as S. destruct twice_c as [V2 F2]. destruct one_value as [V1 F1]. pose proof ep_small as P. pose proof et_small as U.
    assert (X2 : Rabs (2 * fR x) <= 1000) by (rewrite Rabs_mult, (Rabs_pos_eq 2); lra).
    destruct (fmul_value bits nan_of x (fmul bits nan_of c (two_of bits)) Fx F2) as [V F].
    { apply small_fin. rewrite V2, Rabs_mult, (Rabs_pos_eq (2 * fR c)) by lra. pose proof (Rabs_pos (fR x)). nra. }
    fold (tanh_a bits nan_of c x) in V, F.
    destruct (exp2_at (tanh_a bits nan_of c x) (2 * fR x) 1 0 F X2) as (p & R & Fp & O); try lra.
    { apply Rabs_R1. } { rewrite V, V2. f_equal. ring. }
    replace (1 * (2 * fR x / ln 2) - 0) with (2 * fR x / ln 2) in O by ring.
    assert (PB : Rpower 2 (2 * fR x / ln 2) <= bpow radix2 (emax bits) / 2).
    { apply Rle_trans with (Rpower 2 (IZR (emax bits - 1))).
      - apply Rle_Rpower; [lra|]. rewrite minus_IZR. lra.
      - rewrite <- powerRZ_Rpower by lra. rewrite <- (bpow_powerRZ radix2). replace (emax bits - 1)%Z with (emax bits + -1)%Z by ring. rewrite bpow_plus. change (bpow radix2 (-1)) with (/ 2). lra. }
    rewrite Rpower_ln2 in O, PB. pose proof (theta_small (2 * fR x) 0 X2 ltac:(lra)) as T. destruct (bell (fR x)) as [Bl1 Bl2].
    rewrite tanh_exp. pose proof (exp_pos (2 * fR x)) as Sp. set (s := exp (2 * fR x)) in *. set (M := bpow radix2 (emax bits)) in *.
    assert (M1 : 4000 < M) by exact big_max.
    pose proof (Rabs_le_inv _ _ O) as O'. assert (T1 : 0.98 * s <= fR p <= 1.02 * s) by nra.
    assert (Sm : forall v, Rabs v <= fR p + 1 -> Rabs (RN bits v) < M).
    { intros v Hv. pose proof (RN_err bits v HB) as RE. unfold eps in RE. fold ep et in RE. replace (RN bits v) with ((RN bits v - v) + v) by ring. apply Rle_lt_trans with (1 := Rabs_triang _ _).
      assert (ep * Rabs v <= / 16777216 * (fR p + 1)) by (apply Rmult_le_compat; try lra; apply Rabs_pos). lra. }
    destruct (fsub_value bits nan_of p (one_of bits) Fp F1) as [Vn Fn]. { rewrite V1. apply Sm. apply Rabs_le. lra. }
    destruct (fadd_value bits nan_of p (one_of bits) Fp F1) as [Vm Fm]. { rewrite V1. apply Sm. apply Rabs_le. lra. }
    rewrite V1 in Vn, Vm. pose proof (RN_err bits (fR p - 1) HB) as En. pose proof (RN_err bits (fR p + 1) HB) as Em. unfold eps in En, Em. fold ep et in En, Em. rewrite <- Vn in En. rewrite <- Vm in Em.
    set (n := fsub bits nan_of p (one_of bits)) in *. set (m := fadd bits nan_of p (one_of bits)) in *.
    pose proof (RN_err bits (fR n / fR m) HB) as Ez. unfold eps in Ez. fold ep et in Ez.
    destruct (quotient_steps ep et s (fR p) (theta (2 * fR x) 0) (fR n) (fR m) (RN bits (fR n / fR m)) Sp T P U O En Em Ez) as (Mp & Q & Fin).
    destruct (fdiv_value n m Fn) as [Vz Fz]; [lra|apply small_fin; lra|].
    exists (fdiv bits nan_of n m). split; [exact (run_tanh bits sub lib HB nan_of std checked d x c p hf he hc R)|]. split; [exact Fz|].
    rewrite Vz. apply Rle_trans with (1 := Fin). unfold theta. rewrite Rabs_mult, (Rabs_pos_eq 2) by lra.
    set (b := s / ((s + 1) * (s + 1))) in *. assert (B0 : 0 <= b) by (unfold b; apply Rmult_le_pos; [lra|left; apply Rinv_0_lt_compat; nra]). clearbody b. set (a := Rabs (fR x)) in *. clearbody a.
    assert (E * b <= E * / 4) by (apply Rmult_le_compat_l; lra). assert (ep * b <= ep * / 4) by (apply Rmult_le_compat_l; lra). assert (ep * (a * b) <= ep * 0.1832) by (apply Rmult_le_compat_l; lra).
    replace (2.05 * (1.001 * E + (2.00426 * (2 * a) + 0.6946 * 0 + / 1000) * ep) * b) with (2.05 * 1.001 * (E * b) + 2.05 * 2.00426 * 2 * (ep * (a * b)) + 2.05 * / 1000 * (ep * b)) by ring. lra.
  Qed.

  Lemma positive_sign (t : flt bits) : finite t = true -> 0 < fR t -> sign t = false.
  Proof.
    intros F V. destruct t as [s|s|s pl e|s m e b]; try discriminate; [cbn in V; lra|]. destruct s; [|reflexivity]. exfalso.
    assert (N : F2R (Float radix2 (cond_Zopp true (Z.pos m)) e) < 0) by (apply F2R_lt_0; reflexivity). cbn in V, N. lra.
  Qed.
  Lemma negative_sign (t : flt bits) : finite t = true -> fR t < 0 -> sign t = true.
  Proof.
    intros F V. destruct t as [s|s|s pl e|s m e b]; try discriminate; [cbn in V; lra|]. destruct s; [reflexivity|]. exfalso.
    assert (N : 0 < F2R (Float radix2 (cond_Zopp false (Z.pos m)) e)) by (apply F2R_gt_0; reflexivity). cbn in V, N. lra.
  Qed.
  (** a product past [w] in absolute value, infinities included *)
  Lemma large_product (s : bool) (x y : flt bits) w : Binary.is_nan _ _ x = false -> sign x = s -> (finite x = true -> w <= Rabs (fR x) * fR y) -> finite y = true -> 0 < fR y -> 0 < w -> RN bits w = w ->
    let z := fmul bits nan_of x y in sign z = s /\ Binary.is_nan _ _ z = false /\ (finite z = true -> w <= sgn s * fR z).
  Proof.
    intros Nx Sx L Fy Y W0 RW z. pose proof (positive_sign y Fy Y) as Sy. destruct (finite x) eqn:Fx.
    2:{ destruct x as [s1|s1|s1 pl e|s1 m e b]; try discriminate. cbn in Sx. subst s1. unfold z, fmul. destruct y as [s2|s2|s2 pl e|s2 m e b]; try discriminate; [cbn in Y; lra|].
        cbn in Sy. subst s2. rewrite <- (xorb_false_r s) at 2. split; [|split]; [destruct s; reflexivity|reflexivity|discriminate]. }
    specialize (L eq_refl).
    assert (Vx : Rabs (fR x) = sgn s * fR x /\ fR x <> 0).
    { assert (NZ : fR x <> 0) by (intros Z0; rewrite Z0, Rabs_R0 in L; lra). split; [|exact NZ]. destruct (Rtotal_order (fR x) 0) as [N|[Z0|P]]; [|contradiction|].
      - rewrite (negative_sign x Fx N) in Sx. subst s. cbn [sgn]. rewrite Rabs_left by exact N. lra.
      - rewrite (positive_sign x Fx P) in Sx. subst s. cbn [sgn]. rewrite Rabs_pos_eq; lra. }
    destruct Vx as [Vx NZ]. assert (G : w <= sgn s * RN bits (fR x * fR y)).
    { rewrite Vx in L. pose proof (RN_le bits _ _ L) as M. rewrite RW in M. destruct s; cbn [sgn] in *.
      - assert (A : RN bits (-1 * fR x * fR y) = - RN bits (fR x * fR y)) by (rewrite <- round_NE_opp; f_equal; ring). lra.
      - replace (1 * fR x * fR y) with (fR x * fR y) in M by ring. lra. }
    destruct (Rlt_le_dec (Rabs (RN bits (fR x * fR y))) (bpow radix2 (emax bits))) as [S|S].
    - destruct (fmul_value bits nan_of x y Fx Fy S) as [V F]. fold z in V, F. rewrite <- V in G. split; [destruct s; cbn [sgn] in G; [apply negative_sign|apply positive_sign]; [exact F|lra|exact F|lra]|].
      split; [destruct z; [reflexivity|reflexivity|discriminate F|reflexivity]|auto].
    - pose proof (Binary.Bmult_correct _ _ (prec_gt bits) (prec_lt bits) (fun a b => nan_of [a; b]) mode_NE x y) as BM. cbn [round_mode] in BM.
      rewrite Rlt_bool_false in BM by exact S. unfold z, fmul. set (v := Bmult _ _ _ _ _ _ x y) in *.
      assert (Bx : Binary.Bsign _ _ x = s) by exact Sx. assert (By : Binary.Bsign _ _ y = false) by exact Sy.
      change (Binary.B2FF _ _ v = Binary.binary_overflow (prec bits) (emax bits) mode_NE (xorb (Binary.Bsign _ _ x) (Binary.Bsign _ _ y))) in BM.
      assert (O : Binary.B2FF _ _ v = Binary.F754_infinity s). { rewrite BM, Bx, By, xorb_false_r. reflexivity. }
      destruct v as [s1|s1|s1 pl e|s1 m e b]; try discriminate. injection O as ->. split; [reflexivity|]. split; [reflexivity|discriminate].
  Qed.
  Lemma RN_64th n : (0 <= n <= 2 * emax bits)%Z -> RN bits (IZR n + / 64) = IZR n + / 64.
  Proof.
    intros N. replace (IZR n + / 64) with (F2R (Float radix2 (64 * n + 1) (-6))).
    - apply RN_fmt. apply generic_format_FLT. apply (FLT_spec _ _ _ _ (Float radix2 (64 * n + 1) (-6)) eq_refl); cbn [Fnum Fexp].
      + assert (B : (0 < emax bits)%Z /\ (130 * emax bits < radix2 ^ prec bits)%Z) by (clear - HB; destruct HB as [-> | ->]; split; reflexivity). lia.
      + clear - HB. destruct HB as [-> | ->]; vm_compute; discriminate.
    - unfold F2R. cbn [Fnum Fexp]. rewrite plus_IZR, mult_IZR. change (bpow radix2 (-6)) with (/ 64). field.
  Qed.
  Notation inf s := (Binary.B754_infinity (prec bits) (emax bits) s).
  Notation zero := (Binary.B754_zero (prec bits) (emax bits) false).
  Definition any_poly : Prop := forall nan_of std checked lib call const env t, lookup bits "x" env = Some (VFlt t) -> exists p : flt bits, eval_g bits nan_of std checked lib call const env (sub "exp2") = Ok (VFlt p).
  Lemma exp2_far (s : bool) d' (x y : flt bits) : (forall n, In n exp2_needs -> H n) -> any_poly -> Binary.is_nan _ _ x = false -> sign x = s -> finite y = true -> 0 < fR y ->
    (finite x = true -> IZR (emax bits) - (if s then 0 else 1) + / 64 <= Rabs (fR x) * fR y) ->
    R' (S (S d')) "exp2" [VFlt (fmul bits nan_of x y)] = Ok (VFlt (if s then zero else inf false)).
  Proof.
    intros hh ap Nx Sx Fy Y L.
    assert (E1 : 1 <= IZR (emax bits)) by (apply IZR_le; clear - HB; destruct HB as [-> | ->]; discriminate).
    destruct (ap nan_of std checked lib (R' (S d')) C (exp2_env bits nan_of (fmul bits nan_of x y)) _ eq_refl) as (p & Hp).
    replace (IZR (emax bits) - (if s then 0 else 1)) with (IZR (emax bits - (if s then 0 else 1))) in L by (rewrite minus_IZR; destruct s; reflexivity).
    destruct (large_product s x y _ Nx Sx L Fy Y) as (Sz & Nz & Vz).
    - rewrite minus_IZR. destruct s; lra.
    - apply RN_64th. clear - HB; destruct HB as [-> | ->], s; vm_compute; split; discriminate.
    - rewrite minus_IZR in Vz. destruct s; cbn [sgn] in Vz.
      + apply (exp2_low bits sub lib HB nan_of std checked d' _ p); auto. intros F. specialize (Vz F). lra.
      + apply (exp2_high bits sub lib HB nan_of std checked d' _ p); auto. intros F. specialize (Vz F). lra.
  Qed.
  Theorem exp_far (s : bool) d' (x : flt bits) : H "exp" -> (forall n, In n exp2_needs -> H n) -> any_poly -> Binary.is_nan _ _ x = false -> sign x = s ->
    (finite x = true -> IZR (emax bits) - (if s then 0 else 1) + / 64 <= 1.4425 * Rabs (fR x)) ->
    R' (S (S (S d'))) "exp" [VFlt x] = Ok (VFlt (if s then zero else inf false)).
  Proof.
    intros he hh ap Nx Sx L. pose proof c_size as Cs. apply (run_exp bits sub lib HB nan_of std checked (S (S d')) x c _ hf he hc). apply exp2_far; auto; [lra|].
    intros Fx. apply Rle_trans with (1 := L Fx). rewrite Rmult_comm. apply Rmult_le_compat_l; [apply Rabs_pos|lra].
  Qed.
  Lemma low_quotient : let q := fdiv bits nan_of (fsub bits nan_of zero (one_of bits)) (fadd bits nan_of zero (one_of bits)) in finite q = true /\ fR q = -1.
  Proof.
    destruct one_value as [V1 F1]. assert (V0 : fR zero = 0) by reflexivity. assert (F0 : finite zero = true) by reflexivity.
    assert (B : (1 <= 2 ^ prec bits)%Z) by (clear - HB; destruct HB as [-> | ->]; discriminate).
    assert (I : forall z, (Z.abs z <= 1)%Z -> RN bits (IZR z) = IZR z) by (intros z Z1; apply RN_int; lia).
    pose proof (I (-1)%Z ltac:(lia)) as In. pose proof (I 1%Z ltac:(lia)) as Ip. clear I.
    destruct (fsub_value bits nan_of zero (one_of bits) F0 F1) as [Vn Fn].
    { apply small_fin. rewrite V0, V1. apply Rabs_le. lra. }
    destruct (fadd_value bits nan_of zero (one_of bits) F0 F1) as [Vm Fm].
    { apply small_fin. rewrite V0, V1. apply Rabs_le. lra. }
    rewrite V0, V1 in Vn, Vm. rewrite Rminus_0_l in Vn. rewrite Rplus_0_l, Ip in Vm.
    assert (M1 : - (1) = IZR (-1)) by lra. rewrite M1, In in Vn.
    set (n := fsub bits nan_of zero (one_of bits)) in *. set (m := fadd bits nan_of zero (one_of bits)) in *. clearbody n m.
    assert (Q : fR n / fR m = IZR (-1)) by (rewrite Vn, Vm; field).
    destruct (fdiv_value n m Fn) as [Vz Fz]; [lra|apply small_fin; rewrite Q; apply Rabs_le; lra|]. split; [exact Fz|]. rewrite Vz, Q. exact In.
  Qed.
  Lemma high_quotient : Binary.is_nan _ _ (fdiv bits nan_of (fsub bits nan_of (inf false) (one_of bits)) (fadd bits nan_of (inf false) (one_of bits))) = true.
  Proof.
    destruct one_value as [V1 F1]. set (u := one_of bits) in *. clearbody u.
    assert (A : fsub bits nan_of (inf false) u = inf false) by (destruct u; try discriminate; reflexivity).
    assert (B : fadd bits nan_of (inf false) u = inf false) by (destruct u; try discriminate; reflexivity).
    rewrite A, B. unfold fdiv, Binary.Bdiv. rewrite is_nan_BSN2B. reflexivity.
  Qed.
  Theorem tanh_far (s : bool) d' (x : flt bits) : H "tanh" -> (forall n, In n exp2_needs -> H n) -> any_poly -> Binary.is_nan _ _ x = false -> sign x = s ->
    (finite x = true -> IZR (emax bits) - (if s then 0 else 1) + / 64 <= 2.885 * Rabs (fR x)) ->
    exists out, R' (S (S (S d'))) "tanh" [VFlt x] = Ok (VFlt out) /\ if s then finite out = true /\ fR out = -1 else Binary.is_nan _ _ out = true.
  Proof.
    intros he hh ap Nx Sx L. destruct twice_c as [V2 F2]. pose proof c_size as Cs. destruct one_value as [V1 F1].
    eexists. split; [apply (run_tanh bits sub lib HB nan_of std checked (S (S d')) x c (if s then zero else inf false) hf he hc); apply (exp2_far s); auto; [rewrite V2; lra|]|].
    { intros Fx. apply Rle_trans with (1 := L Fx). rewrite Rmult_comm, V2. apply Rmult_le_compat_l; [apply Rabs_pos|lra]. }
    destruct s; [exact low_quotient|exact high_quotient].
  Qed.
End Acc.
