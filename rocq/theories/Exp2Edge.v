(** The generated exp2 at the two arguments next to 1/2 in absolute value,
    where the generated round is one off (C39). *)
From Coq Require Import List String Bool ZArith Reals Ascii Lia Lra.
From Flocq Require Import Core Relative IEEE754.BinarySingleNaN IEEE754.Binary IEEE754.Bits.
From Verif Require Import Res Dec DecFacts Syntax Item Functions GenCode GenSem FloatBits GenRun GenFloat GenFloat2 GenCodeFacts ExactFloats RFacts Exp2Approx.
From Flocq Require Import Core Relative.
Import ListNotations.
Open Scope string_scope.
Open Scope list_scope.
Open Scope R_scope.

Definition edge (bits : Z) (s : bool) : flt bits :=
  of_bits bits (if (bits =? 32)%Z then (if s then 0xBEFFFFFF else 0x3EFFFFFF)%Z else (if s then 0xBFDFFFFFFFFFFFFF else 0x3FDFFFFFFFFFFFFF)%Z).
Definition sgn (s : bool) : R := if s then -1 else 1.

Lemma fR_FF bits (x : flt bits) s m e : Binary.B2FF _ _ x = Binary.F754_finite s m e -> fR x = sgn s * IZR (Zpos m) * bpow radix2 e /\ finite x = true.
Proof. destruct x; cbn; try discriminate. intros E. injection E as -> -> ->. split; [|reflexivity]. unfold F2R. cbn [Fnum Fexp]. unfold sgn. destruct s; cbn [cond_Zopp]; rewrite ?opp_IZR; lra. Qed.

Lemma edge_value bits s : (bits = 32 \/ bits = 64)%Z -> fR (edge bits s) = sgn s * (1 / 2 - bpow radix2 (- prec bits - 1)) /\ finite (edge bits s) = true.
Proof.
  intros [-> | ->].
  - destruct (fR_FF 32 (edge 32 s) s 16777215 (-25)) as [V F]; [destruct s; vm_compute; reflexivity|]. split; [|exact F]. rewrite V.
    change (bpow radix2 (- prec 32 - 1)) with (/ 33554432). change (bpow radix2 (-25)) with (/ 33554432). lra.
  - destruct (fR_FF 64 (edge 64 s) s 9007199254740991 (-54)) as [V F]; [destruct s; vm_compute; reflexivity|]. split; [|exact F]. rewrite V.
    change (bpow radix2 (- prec 64 - 1)) with (/ 18014398509481984). change (bpow radix2 (-54)) with (/ 18014398509481984). lra.
Qed.

Lemma edge_round bits nan_of s : (bits = 32 \/ bits = 64)%Z ->
  let r := round_of bits nan_of (edge bits s) in let t := fsub bits nan_of (edge bits s) r in
  fR r = sgn s /\ finite r = true /\ fR t = - sgn s / 2 /\ finite t = true.
Proof.
  intros [-> | ->]; cbv zeta.
  - destruct (fR_FF 32 (round_of 32 nan_of (edge 32 s)) s 8388608 (-23)) as [V F]; [destruct s; vm_compute; reflexivity|].
    destruct (fR_FF 32 (fsub 32 nan_of (edge 32 s) (round_of 32 nan_of (edge 32 s))) (negb s) 8388608 (-24)) as [V2 F2]; [destruct s; vm_compute; reflexivity|].
    rewrite V, V2. change (bpow radix2 (-23)) with (/ 8388608). change (bpow radix2 (-24)) with (/ 16777216). repeat split; try assumption; destruct s; cbn [negb sgn]; lra.
  - destruct (fR_FF 64 (round_of 64 nan_of (edge 64 s)) s 4503599627370496 (-52)) as [V F]; [destruct s; vm_compute; reflexivity|].
    destruct (fR_FF 64 (fsub 64 nan_of (edge 64 s) (round_of 64 nan_of (edge 64 s))) (negb s) 4503599627370496 (-53)) as [V2 F2]; [destruct s; vm_compute; reflexivity|].
    rewrite V, V2. change (bpow radix2 (-52)) with (/ 4503599627370496). change (bpow radix2 (-53)) with (/ 9007199254740992). repeat split; try assumption; destruct s; cbn [negb sgn]; lra.
Qed.

Lemma edge_is bits (x : flt bits) : (bits = 32 \/ bits = 64)%Z -> Rabs (fR x) = 1 / 2 - bpow radix2 (- prec bits - 1) -> exists s, x = edge bits s.
Proof.
  intros HB E. assert (B : bpow radix2 (- prec bits - 1) <= / 4) by (change (/ 4) with (bpow radix2 (-2)); apply bpow_le; destruct HB as [-> | ->]; discriminate).
  exists (if Rle_dec 0 (fR x) then false else true). destruct (edge_value bits (if Rle_dec 0 (fR x) then false else true) HB) as [V _].
  assert (E2 : fR x = fR (edge bits (if Rle_dec 0 (fR x) then false else true))).
  { rewrite V. revert E. unfold Rabs. destruct (Rcase_abs _), (Rle_dec _ _); unfold sgn; lra. }
  assert (NZ : fR x <> 0) by (intros Z; rewrite Z, Rabs_R0 in E; lra).
  apply Binary.B2R_inj; [apply strict_nz; exact NZ|apply strict_nz; rewrite <- E2; exact NZ|exact E2].
Qed.

Lemma Rpower_shift d : Rabs d <= / 1024 -> Rabs (Rpower 2 d - 1) <= 0.6946 * Rabs d.
Proof.
  intros D. unfold Rpower. pose proof ln2_tight as L. set (u := d * ln 2).
  assert (U : Rabs u <= 0.6932 * Rabs d). { unfold u. rewrite Rabs_mult, (Rabs_pos_eq (ln 2)), Rmult_comm by lra. apply Rmult_le_compat_r; [apply Rabs_pos|lra]. }
  pose proof (Rabs_pos d) as D0.
  assert (LO : 1 + u <= exp u) by apply exp_ineq1_le. assert (HI : 1 - u <= exp (- u)) by (pose proof (exp_ineq1_le (- u)); lra).
  assert (UU : Rabs u <= / 1024) by lra. pose proof (Rabs_le_inv _ _ UU) as U1.
  assert (M : exp u * exp (- u) = 1) by (rewrite <- exp_plus, Rplus_opp_r; apply exp_0). pose proof (exp_pos u) as EP.
  assert (H2 : exp u * (1 - u) <= 1) by (rewrite <- M; apply Rmult_le_compat_l; lra).
  assert (E2 : exp u <= 1025 / 1023) by nra.
  assert (E3 : exp u - 1 <= u * exp u) by lra.
  apply Rabs_le. split.
  - assert (- Rabs u <= u) by (pose proof (Rle_abs (- u)); rewrite Rabs_Ropp in *; lra). lra.
  - assert (u * exp u <= Rabs u * (1025 / 1023)).
    { apply Rle_trans with (Rabs u * exp u); [apply Rmult_le_compat_r; [lra|apply Rle_abs]|]. apply Rmult_le_compat_l; [apply Rabs_pos|exact E2]. }
    lra.
Qed.
Lemma Rpower_sqrt2 : 0.7071 <= Rpower 2 (- / 2) <= 0.7072 /\ 1.4142 <= Rpower 2 (/ 2) <= 1.4143.
Proof.
  rewrite Rpower_Ropp, Rpower_sqrt by lra. assert (S : 1.4142 <= sqrt 2 <= 1.4143).
  { split; [rewrite <- (sqrt_square 1.4142) by lra|rewrite <- (sqrt_square 1.4143) by lra]; apply sqrt_le_1; lra. }
  split; [|exact S]. assert (I : / sqrt 2 = sqrt 2 / 2).
  { apply Rmult_eq_reg_l with (sqrt 2); [|lra]. rewrite Rinv_r by lra. unfold Rdiv. rewrite <- Rmult_assoc, sqrt_sqrt by lra. lra. }
  assert (S2 : 1.41421 <= sqrt 2 <= 1.41422).
  { split; [rewrite <- (sqrt_square 1.41421) by lra|rewrite <- (sqrt_square 1.41422) by lra]; apply sqrt_le_1; lra. }
  lra.
Qed.

Section Run.
  Context (bits : Z) (sub : string -> expr) (lib : list item) (HB : (bits = 32 \/ bits = 64)%Z).
  Context (nan_of : list (flt bits) -> { x : flt bits | Binary.is_nan _ _ x = true }) (std : string -> list (flt bits) -> option (flt bits)) (checked : bool).
  (** at the edge the polynomial is evaluated at 1/2 or -1/2 exactly *)
  Lemma exp2_edge (s : bool) (B : R -> R) d : (forall n, In n exp2_needs -> has bits sub lib n) ->
    (forall call const env t, lookup bits "x" env = Some (VFlt t) -> finite t = true -> Rabs (fR t) <= / 2 ->
      exists y, eval_g bits nan_of std checked lib call const env (sub "exp2") = Ok (VFlt y) /\ finite y = true /\ Rabs (fR y - Rpower 2 (fR t)) <= B (Rpower 2 (fR t))) ->
    (forall v, 7 / 10 <= v <= 71 / 50 -> B v <= v / 5) ->
    let v := Rpower 2 (if s then / 2 else - / 2) in let b := if s then / 2 else 2 in let u := b * v in
    exists r, run bits nan_of std checked lib (S (S d)) "exp2" [VFlt (edge bits s)] = Ok (VFlt r) /\ finite r = true /\
      Rabs (fR r - u) <= b * B v /\ Rabs (Rpower 2 (fR (edge bits s)) - u) <= 0.3473 * bpow radix2 (- prec bits) * u /\
      (if s then 0.7071 <= u <= 0.70715 else 1.4142 <= u <= 1.4144).
  Proof.
    intros hh HE HV v b u. destruct (edge_round bits nan_of s HB) as (Vr & Fr & Vt & Ft). destruct (edge_value bits s HB) as [Vx Fx].
    set (x := edge bits s) in *. set (r := round_of bits nan_of x) in *. set (t := fsub bits nan_of x r) in *.
    assert (T : fR t = if s then / 2 else - / 2) by (rewrite Vt; destruct s; unfold sgn; lra).
    assert (Lk : lookup bits "x" (exp2_env bits nan_of x) = Some (VFlt t)) by reflexivity.
    destruct (HE (run bits nan_of std checked lib (S d)) (const_of bits nan_of std checked lib) (exp2_env bits nan_of x) t Lk Ft) as (p & Hp & Fp & A).
    { rewrite T. apply Rabs_le. destruct s; lra. }
    rewrite T in A. fold v in A. pose proof Rpower_sqrt2 as SQ.
    assert (PH : 7 / 10 <= v <= 71 / 50) by (unfold v; destruct s; lra). specialize (HV v PH).
    set (k := if s then (-1)%Z else 1%Z).
    assert (EM : (100 < emax bits)%Z) by (clear -HB; destruct HB as [-> | ->]; reflexivity).
    assert (Vk : fR r = IZR k) by (rewrite Vr; unfold k; destruct s; reflexivity).
    destruct (exp2_mul_value bits nan_of r k HB Fr Vk ltac:(unfold k; destruct s; lia)) as [Fm Vm]. set (m := exp2_mul bits nan_of r) in *.
    assert (Bk : bpow radix2 k = b) by (unfold k, b; destruct s; reflexivity).
    assert (PB : 1 / 2 <= fR p < 9 / 5) by (apply Rabs_le_inv in A; lra).
    destruct (mul_pow2 bits nan_of p m k Fp Fm Vm ltac:(lra) ltac:(unfold k; destruct s; lia)) as [Fr2 Vr2].
    { rewrite Bk. apply Rlt_le_trans with (bpow radix2 7); [|apply bpow_le; lia]. change (bpow radix2 7) with 128. unfold b. destruct s; lra. }
    assert (B0 : 0 < b) by (unfold b; destruct s; lra).
    exists (fmul bits nan_of p m). split; [|split; [exact Fr2|split; [|split]]].
    - rewrite (run_exp2 bits sub lib HB nan_of std checked d x p hh Hp). fold r.
      destruct (min_value bits HB) as [V1 F1]. destruct (max_value bits HB) as [V2 F2].
      assert (XB : Rabs (fR x) <= 1).
      { rewrite Vx. assert (0 < bpow radix2 (- prec bits - 1) <= / 4) by (split; [apply bpow_gt_0|change (/ 4) with (bpow radix2 (-2)); apply bpow_le; clear -HB; destruct HB as [-> | ->]; discriminate]).
        apply Rabs_le. unfold sgn. destruct s; lra. }
      apply Rabs_le_inv in XB. apply IZR_lt in EM.
      rewrite (flt_lt_value bits _ _ Fr F1), (fgt_value bits _ _ Fx F2), V1, V2, !minus_IZR.
      rewrite !Rlt_bool_false; [reflexivity|lra|]. rewrite Vr. unfold sgn. destruct s; lra.
    - rewrite Vr2, Bk. unfold u. replace (fR p * b - b * v) with (b * (fR p - v)) by ring. rewrite Rabs_mult, (Rabs_pos_eq b) by lra. apply Rmult_le_compat_l; lra.
    - set (h := bpow radix2 (- prec bits - 1)) in *.
      assert (H : 0 < h <= / 1024) by (unfold h; split; [apply bpow_gt_0|change (/ 1024) with (bpow radix2 (-10)); apply bpow_le; clear -HB; destruct HB as [-> | ->]; discriminate]).
      assert (H2 : bpow radix2 (- prec bits) = 2 * h) by (unfold h; replace (- prec bits)%Z with (- prec bits - 1 + 1)%Z at 1 by lia; rewrite bpow_plus; change (bpow radix2 1) with 2; lra).
      assert (U : u = Rpower 2 (sgn s / 2)).
      { unfold u, b, v, sgn. destruct s.
        - replace (-1 / 2) with (- (1) + / 2) by lra. rewrite Rpower_plus, Rpower_Ropp, Rpower_1 by lra. reflexivity.
        - replace (1 / 2) with (1 + - / 2) by lra. rewrite Rpower_plus, Rpower_1 by lra. reflexivity. }
      replace (fR x) with (sgn s / 2 + - sgn s * h) by (rewrite Vx; lra). rewrite Rpower_plus, <- U.
      replace (u * Rpower 2 (- sgn s * h) - u) with (u * (Rpower 2 (- sgn s * h) - 1)) by ring.
      assert (U0 : 0 < u) by (rewrite U; apply exp_pos). rewrite Rabs_mult, (Rabs_pos_eq u) by lra.
      assert (SH : Rabs (- sgn s * h) = h) by (unfold sgn; destruct s; [rewrite Rabs_pos_eq; lra|rewrite Rabs_left; lra]).
      pose proof (Rpower_shift (- sgn s * h) ltac:(rewrite SH; lra)) as PS. rewrite SH in PS. rewrite H2, (Rmult_comm _ u). apply Rmult_le_compat_l; [lra|]. lra.
    - unfold u, b, v. destruct s; lra.
  Qed.
End Run.
