(** Exactness of the argument reductions and bit tricks of exp2, log2 and runif. *)
From Coq Require Import List String Bool ZArith Reals Ascii Lia Lra.
From Flocq Require Import Core IEEE754.BinarySingleNaN IEEE754.Binary IEEE754.Bits.
From Verif Require Import Res Dec DecStr Syntax Item Functions FunctionsFacts GenCode GenCodeFacts GenSem FloatBits GenRun GenFloat.
Import ListNotations.
Open Scope string_scope.
Open Scope list_scope.
Open Scope Z_scope.

(** ** The distance to the nearest integer is representable *)
Lemma near_exact bits y k : generic_format radix2 (fx bits) y -> (Rabs y < IZR (2 ^ mw bits))%R -> (Rabs (y - IZR k) <= 1 / 2)%R ->
  generic_format radix2 (fx bits) (y - IZR k).
Proof.
  intros F U N. destruct (Rlt_or_le (Rabs y) (1 / 2)) as [S|B].
  - assert (k = 0).
    { assert (Rabs (IZR k) < 1)%R. { replace (IZR k) with (y - (y - IZR k))%R by lra. eapply Rle_lt_trans; [apply Rabs_triang|]. rewrite Rabs_Ropp. lra. }
      rewrite <- abs_IZR in H. apply lt_IZR in H. lia. }
    subst k. rewrite Rminus_0_r. exact F.
  - set (e := cexp radix2 (fx bits) y). pose proof (emin_neg bits) as EN. pose proof (mw_pos bits) as MP. pose proof (prec_mw bits) as PM.
    assert (E0 : e <= 0).
    { unfold e, cexp, SpecFloat.fexp. assert (mag radix2 y <= mw bits).
      { apply mag_le_bpow; [intros ->; rewrite Rabs_R0 in B; lra|]. rewrite <- (IZR_Zpower radix2) by lia. exact U. }
      unfold emin in EN. unfold SpecFloat.emin. lia. }
    assert (V : (y - IZR k = IZR (Ztrunc (scaled_mantissa radix2 (fx bits) y) - k * 2 ^ (- e)) * bpow radix2 e)%R).
    { rewrite minus_IZR, mult_IZR, (IZR_Zpower radix2), Rmult_minus_distr_r by lia.
      rewrite (Rmult_assoc (IZR k)), <- bpow_plus. replace (- e + e) with 0 by lia. rewrite Rmult_1_r. f_equal. exact F. }
    destruct (Req_dec (y - IZR k) 0) as [Z0|NZ]; [rewrite Z0; apply generic_format_0|].
    rewrite V. apply generic_format_F2R. intros M. change (bpow radix2 e) with (bpow radix2 (Fexp (Float radix2 0 e))) in V. 
    replace (F2R {| Fnum := Ztrunc (scaled_mantissa radix2 (fx bits) y) - k * 2 ^ (- e); Fexp := e |}) with (y - IZR k)%R by exact V.
    unfold e, cexp. apply (FLT_exp_monotone (emin bits) (prec bits)). apply mag_le_abs; [exact NZ|]. lra.
Qed.

(** ** exp2 *)
Lemma one_value bits : bits = 32 \/ bits = 64 ->
  fR (exp2_one bits) = IZR ((emax bits - 1) * 2 ^ mw bits) /\ finite (exp2_one bits) = true.
Proof. intros [-> | ->]; [lit_value 16646144%positive 6|lit_value 8998403161718784%positive 9]. Qed.
Lemma scale_value bits : bits = 32 \/ bits = 64 -> fR (exp2_scale bits) = IZR (2 ^ mw bits) /\ finite (exp2_scale bits) = true.
Proof. intros [-> | ->]; [lit_value 8388608%positive 0|lit_value 4503599627370496%positive 0]. Qed.
Lemma max_value bits : bits = 32 \/ bits = 64 -> fR (exp2_max bits) = IZR (emax bits - 1) /\ finite (exp2_max bits) = true.
Proof. intros [-> | ->]; [lit_value 16646144%positive (-17)|lit_value 8998403161718784%positive (-43)]. Qed.
Lemma fneg_value bits (x : flt bits) : fR (fneg bits x) = (- fR x)%R /\ finite (fneg bits x) = finite x.
Proof. pose proof (negated_fneg bits x) as (_ & F & _ & V). auto. Qed.
Lemma min_value bits : bits = 32 \/ bits = 64 -> fR (exp2_min bits) = IZR (1 - emax bits) /\ finite (exp2_min bits) = true.
Proof.
  intros HB. unfold exp2_min. destruct (fneg_value bits (exp2_max bits)) as [V F]. destruct (max_value bits HB) as [V2 F2].
  rewrite V, F, V2, <- opp_IZR. split; [f_equal; lia|exact F2].
Qed.
Lemma exp2_fma bits nan_of (r : flt bits) k : bits = 32 \/ bits = 64 -> finite r = true -> fR r = IZR k ->
  1 - emax bits <= k <= emax bits -> 
  to_int bits (uty bits) (ffma bits nan_of r (exp2_scale bits) (exp2_one bits)) = (k + (emax bits - 1)) * 2 ^ mw bits.
Proof.
  intros HB F V K. destruct (one_value bits HB) as [V1 F1]. destruct (scale_value bits HB) as [V2 F2].
  assert (MP : 0 <= mw bits) by (pose proof (mw_pos bits); lia).
  assert (S : (fR r * fR (exp2_scale bits) + fR (exp2_one bits) = IZR (k + (emax bits - 1)) * bpow radix2 (mw bits))%R).
  { rewrite V, V1, V2, <- mult_IZR, <- plus_IZR, <- (IZR_Zpower radix2), <- mult_IZR by exact MP. apply f_equal.
    change (radix_val radix2) with 2. ring. }
  assert (B : 2 * emax bits < 2 ^ prec bits) by (destruct HB as [-> | ->]; reflexivity).
  assert (FM : generic_format radix2 (fx bits) (IZR (k + (emax bits - 1)) * bpow radix2 (mw bits))).
  { apply fmt; [lia|]. pose proof (emin_neg bits). pose proof (prec_mw bits). lia. }
  assert (S2 : (IZR (k + (emax bits - 1)) * bpow radix2 (mw bits) = IZR ((k + (emax bits - 1)) * 2 ^ mw bits))%R).
  { rewrite mult_IZR, (IZR_Zpower radix2) by exact MP. reflexivity. }
  destruct (ffma_value bits nan_of r _ _ F F2 F1) as [Vf Ff].
  { rewrite S, (RN_fmt _ _ FM), S2, <- abs_IZR, <- (IZR_Zpower radix2) by (unfold emax; apply Z.pow_nonneg; lia).
    assert (P0 : 0 < 2 ^ mw bits) by (apply Z.pow_pos_nonneg; lia).
    apply IZR_lt. rewrite Z.abs_eq by (apply Z.mul_nonneg_nonneg; lia). change (radix_val radix2) with 2.
    apply Z.le_lt_trans with (2 * emax bits * 2 ^ mw bits); [apply Z.mul_le_mono_nonneg_r; lia|].
    destruct HB as [-> | ->]; reflexivity. }
  rewrite S, (RN_fmt _ _ FM), S2 in Vf. rewrite to_int_small; [rewrite Vf; apply Ztrunc_IZR|exact Ff|].
  rewrite Vf. assert (P0 : 0 < 2 ^ mw bits) by (apply Z.pow_pos_nonneg; lia). split; apply IZR_le.
  - replace (imin (uty bits)) with 0 by (clear -HB; destruct HB as [-> | ->]; reflexivity). apply Z.mul_nonneg_nonneg; lia.
  - apply Z.le_trans with ((2 * emax bits - 1) * 2 ^ mw bits); [apply Z.mul_le_mono_nonneg_r; lia|].
    clear -HB. destruct HB as [-> | ->]; cbn; lia.
Qed.
Lemma exp2_mul_value bits nan_of (r : flt bits) k : bits = 32 \/ bits = 64 -> finite r = true -> fR r = IZR k ->
  1 - emax bits < k < emax bits -> finite (exp2_mul bits nan_of r) = true /\ fR (exp2_mul bits nan_of r) = bpow radix2 k.
Proof.
  intros HB F V K. unfold exp2_mul. rewrite (exp2_fma bits nan_of r k HB F V) by lia.
  assert (P0 : 0 < 2 ^ mw bits) by (apply Z.pow_pos_nonneg; pose proof (mw_pos bits); lia).
  assert (EM : 2 ^ ew bits = 2 * emax bits) by (unfold emax; rewrite <- Z.pow_succ_r; [f_equal; lia|pose proof (ew_pos bits); lia]).
  destruct (of_bits_fin bits ((k + (emax bits - 1)) * 2 ^ mw bits)) as (A & _ & B).
  { split; [apply Z.mul_nonneg_nonneg|apply Z.mul_lt_mono_pos_r]; lia. }
  split; [exact A|]. rewrite B. unfold scaled. rewrite Z.div_mul, Z_mod_mult by lia.
  destruct (Z.eqb_spec (k + (emax bits - 1)) 0) as [E|_]; [lia|]. rewrite Z.add_0_r, <- Z.pow_add_r by (pose proof (mw_pos bits); lia).
  rewrite (IZR_Zpower radix2), <- bpow_plus by (pose proof (mw_pos bits); lia). f_equal. unfold emin. rewrite prec_mw. lia.
Qed.
Lemma exp2_mul_zero bits nan_of (r : flt bits) : bits = 32 \/ bits = 64 -> finite r = true -> fR r = IZR (1 - emax bits) ->
  finite (exp2_mul bits nan_of r) = true /\ fR (exp2_mul bits nan_of r) = 0%R.
Proof.
  intros HB F V. unfold exp2_mul. rewrite (exp2_fma bits nan_of r _ HB F V) by (destruct HB as [-> | ->]; cbv; split; discriminate).
  replace ((1 - emax bits + (emax bits - 1)) * 2 ^ mw bits) with 0 by ring.
  destruct HB as [-> | ->]; split; reflexivity.
Qed.

Lemma flt_lt_value bits (x y : flt bits) : finite x = true -> finite y = true -> flt_lt bits x y = Rlt_bool (fR x) (fR y).
Proof.
  intros F G. unfold flt_lt, fcmp. rewrite Binary.Bcompare_correct by assumption. unfold Rlt_bool. destruct (Rcompare _ _); reflexivity.
Qed.
Lemma fgt_value bits (x y : flt bits) : finite x = true -> finite y = true -> fgt bits x y = Rlt_bool (fR y) (fR x).
Proof.
  intros F G. unfold fgt, fcmp. rewrite Binary.Bcompare_correct by assumption. unfold Rlt_bool. rewrite (Rcompare_sym (fR x)). destruct (Rcompare _ _); reflexivity.
Qed.

(** of_int never overflows on the integer types *)
Lemma of_int_value bits z : bits = 32 \/ bits = 64 -> imin (sty bits) <= z <= imax (sty bits) ->
  fR (of_int bits z) = RN bits (IZR z) /\ finite (of_int bits z) = true.
Proof.
  intros HB Z. unfold of_int. pose proof (Binary.binary_normalize_correct _ _ (prec_gt bits) (prec_lt bits) mode_NE z 0 false) as N.
  replace (F2R {| Fnum := z; Fexp := 0 |}) with (IZR z) in N by (unfold F2R; cbn; lra). cbn [round_mode] in N.
  rewrite Rlt_bool_true in N; [tauto|].
  destruct (sty_range bits HB) as [R1 R2]. rewrite R1, R2 in Z.
  assert (P : 0 <= bits - 1) by lia.
  assert (FM : generic_format radix2 (fx bits) (bpow radix2 (bits - 1))).
  { replace (bpow radix2 (bits - 1)) with (IZR 1 * bpow radix2 (bits - 1))%R by lra. apply fmt.
    - apply (Z.pow_gt_1 2); pose proof (prec_mw bits); pose proof (mw_pos bits); lia.
    - pose proof (emin_neg bits). pose proof (prec_mw bits). pose proof (mw_pos bits). lia. }
  apply Rle_lt_trans with (bpow radix2 (bits - 1)).
  - rewrite <- (RN_fmt bits _ FM). apply Rabs_le. rewrite <- round_NE_opp. rewrite <- (IZR_Zpower radix2) by exact P. change (radix_val radix2) with 2.
    rewrite <- opp_IZR. split; apply RN_le; apply IZR_le; lia.
  - apply bpow_lt. destruct HB as [-> | ->]; reflexivity.
Qed.
Lemma to_int_range bits t (x : flt bits) : imin t <= to_int bits t x <= imax t.
Proof.
  assert (imin t <= imax t) by (destruct t; cbn; lia).
  unfold to_int. destruct x as [s|[]|s pl e|s m e B]; lia.
Qed.
Lemma round_of_value bits nan_of (x : flt bits) : bits = 32 \/ bits = 64 -> finite (round_of bits nan_of x) = true /\
  fR (round_of bits nan_of x) = RN bits (IZR (to_int bits (sty bits) (fadd bits nan_of x (fcopysign bits (half bits) x)))).
Proof. intros HB. destruct (of_int_value bits _ HB (to_int_range bits (sty bits) (fadd bits nan_of x (fcopysign bits (half bits) x)))). auto. Qed.
Lemma half_not_inf bits (x : flt bits) : bits = 32 \/ bits = 64 -> exists m e B, fcopysign bits (half bits) x = Binary.B754_finite _ _ (sign x) m e B.
Proof.
  intros HB. destruct (half_value bits HB) as [V F]. unfold fcopysign, fsign.
  destruct (half bits) as [s|s|s pl e|s m e B]; try discriminate; [cbn in V; lra|]. cbn. eauto.
Qed.
Lemma trunc_value bits (x : flt bits) : Binary.Btrunc _ _ x = Ztrunc (fR x).
Proof. apply eq_IZR. rewrite Binary.Btrunc_correct, round_FIX_IZR. reflexivity. exact (prec_lt bits). Qed.
(** positive arguments (also infinity) round to non-negative values *)
Lemma round_of_pos bits nan_of (x : flt bits) : bits = 32 \/ bits = 64 -> sign x = false -> Binary.is_nan _ _ x = false ->
  (0 <= fR (round_of bits nan_of x))%R.
Proof.
  intros HB S N. destruct (round_of_value bits nan_of x HB) as [_ ->]. rewrite <- (RN_int bits 0) by (pose proof (P_pos bits); lia).
  apply RN_le. apply IZR_le. set (y := fadd _ _ _ _).
  assert (I0 : imin (sty bits) <= 0 <= imax (sty bits)) by (destruct (sty_range bits HB) as [-> ->]; destruct HB as [-> | ->]; cbn; lia).
  assert (A : y = inf bits \/ finite y = true /\ (0 <= fR y)%R).
  { destruct (half_not_inf bits x HB) as (m & e & B & Eh). destruct (copysign_half bits x HB) as [Vh Fh]. rewrite S in Eh, Vh.
    destruct (finite x) eqn:Fx.
    - pose proof (Binary.Bplus_correct _ _ (prec_gt bits) (prec_lt bits) (fun a b => nan_of [a; b]) mode_NE x (fcopysign bits (half bits) x) Fx Fh) as C.
      cbn [round_mode] in C.
      destruct (Rlt_bool_spec (Rabs (RN bits (fR x + fR (fcopysign bits (half bits) x)))) (bpow radix2 (emax bits))) as [L2|G].
      + right. destruct C as (V & F & _). split; [exact F|]. unfold y, fadd. rewrite V. rewrite <- (RN_int bits 0) at 1 by (pose proof (P_pos bits); lia).
        apply RN_le. pose proof (sign_le bits x Fx) as SL. rewrite S in SL. rewrite Vh. lra.
      + left. destruct C as [C _]. unfold y, fadd, inf. rewrite S in C. revert C. generalize (Bplus (prec bits) (emax bits) (prec_gt bits) (prec_lt bits) (fun a b => nan_of [a; b]) mode_NE x (fcopysign bits (half bits) x)).
        intros z C. destruct z as [s|s|s pl e2|s m2 e2 B2]; try discriminate. cbn in C. inversion C. reflexivity.
    - destruct x as [s|s|s pl e'|s m' e' B']; try discriminate; cbn in S; subst s. left. unfold y. rewrite Eh. reflexivity. }
  destruct A as [-> | [F P]]; [cbn; lia|].
  assert (T : 0 <= Binary.Btrunc _ _ y) by (rewrite trunc_value, <- (Ztrunc_IZR 0); apply Ztrunc_le; exact P).
  unfold to_int. destruct y; try discriminate; lia.
Qed.
(** very negative arguments (also minus infinity) *)
Lemma round_of_neg bits nan_of (x : flt bits) : bits = 32 \/ bits = 64 -> sign x = true -> Binary.is_nan _ _ x = false ->
  (finite x = true -> fR x <= - IZR (2 ^ mw bits))%R -> (fR (round_of bits nan_of x) <= - IZR (2 ^ mw bits))%R.
Proof.
  intros HB S N L. destruct (round_of_value bits nan_of x HB) as [_ ->].
  pose proof (mw_pos bits) as MP. pose proof (prec_mw bits) as PM.
  assert (PP : 2 ^ prec bits = 2 * 2 ^ mw bits) by (rewrite PM, Z.pow_add_r by lia; lia).
  assert (MW : 0 < 2 ^ mw bits) by (apply Z.pow_pos_nonneg; lia).
  rewrite <- opp_IZR. rewrite <- (RN_int bits (- 2 ^ mw bits)) by lia.
  apply RN_le. apply IZR_le. set (y := fadd _ _ _ _).
  assert (I0 : imin (sty bits) <= - 2 ^ mw bits <= imax (sty bits)) by (destruct (sty_range bits HB) as [-> ->]; clear -HB; destruct HB as [-> | ->]; cbn; lia).
  assert (A : y = Binary.B754_infinity _ _ true \/ finite y = true /\ (fR y <= IZR (- 2 ^ mw bits))%R).
  { destruct (half_not_inf bits x HB) as (m & e & B & Eh). destruct (copysign_half bits x HB) as [Vh Fh]. rewrite S in Eh, Vh.
    destruct (finite x) eqn:Fx.
    - specialize (L eq_refl).
      pose proof (Binary.Bplus_correct _ _ (prec_gt bits) (prec_lt bits) (fun a b => nan_of [a; b]) mode_NE x (fcopysign bits (half bits) x) Fx Fh) as C.
      cbn [round_mode] in C.
      destruct (Rlt_bool_spec (Rabs (RN bits (fR x + fR (fcopysign bits (half bits) x)))) (bpow radix2 (emax bits))) as [L2|G].
      + right. destruct C as (V & F & _). split; [exact F|]. unfold y, fadd. rewrite V. rewrite <- (RN_int bits (- 2 ^ mw bits)) by lia.
        apply RN_le. rewrite Vh, opp_IZR. lra.
      + left. destruct C as [C _]. unfold y, fadd. rewrite S in C. revert C. generalize (Bplus (prec bits) (emax bits) (prec_gt bits) (prec_lt bits) (fun a b => nan_of [a; b]) mode_NE x (fcopysign bits (half bits) x)).
        intros z C. destruct z as [s|s|s pl e2|s m2 e2 B2]; try discriminate. cbn in C. inversion C. reflexivity.
    - destruct x as [s|s|s pl e'|s m' e' B']; try discriminate; cbn in S; subst s. left. unfold y. rewrite Eh. reflexivity. }
  destruct A as [-> | [F P]]; [cbn; lia|].
  assert (T : Binary.Btrunc _ _ y <= - 2 ^ mw bits) by (rewrite trunc_value, <- (Ztrunc_IZR (- 2 ^ mw bits)); apply Ztrunc_le; exact P).
  unfold to_int. destruct y; try discriminate; lia.
Qed.

Lemma emax_mw bits : bits = 32 \/ bits = 64 -> 2 * emax bits < 2 ^ mw bits.
Proof. intros [-> | ->]; reflexivity. Qed.
Lemma tiny_half bits : (0 < bpow radix2 (- prec bits - 1) < 1 / 2)%R.
Proof.
  split; [apply bpow_gt_0|]. replace (1 / 2)%R with (bpow radix2 (-1)) by (cbn; lra). apply bpow_lt.
  pose proof (prec_mw bits); pose proof (mw_pos bits); lia.
Qed.
Lemma roundable_big bits (x : flt bits) : finite x = true -> (1 / 2 <= Rabs (fR x) < IZR (2 ^ mw bits))%R -> roundable x.
Proof. intros F [L U]. split; [exact F|]. split; [exact U|]. pose proof (tiny_half bits). lra. Qed.

(** the value of two to a real power *)
Definition pow2 (x : R) : R := exp (x * ln 2).
Lemma pow2_pos x : (0 < pow2 x)%R. Proof. apply exp_pos. Qed.
Lemma pow2_plus x y : pow2 (x + y) = (pow2 x * pow2 y)%R.
Proof. unfold pow2. rewrite Rmult_plus_distr_r. apply exp_plus. Qed.
Lemma pow2_IZR k : pow2 (IZR k) = bpow radix2 k.
Proof. rewrite bpow_exp. reflexivity. Qed.
Lemma pow2_half x : (Rabs x <= 1 / 2)%R -> (7 / 10 <= pow2 x <= 71 / 50)%R.
Proof.
  intros A. assert (S2 : (pow2 (1 / 2) * pow2 (1 / 2) = 2)%R).
  { rewrite <- pow2_plus. replace (1 / 2 + 1 / 2)%R with (IZR 1) by lra. rewrite pow2_IZR. reflexivity. }
  assert (SI : (pow2 (- (1 / 2)) * pow2 (1 / 2) = 1)%R).
  { rewrite <- pow2_plus. replace (- (1 / 2) + 1 / 2)%R with (IZR 0) by lra. rewrite pow2_IZR. reflexivity. }
  pose proof (pow2_pos (1 / 2)) as P. pose proof (pow2_pos (- (1 / 2))) as Q.
  assert (M : forall a b, (a <= b -> pow2 a <= pow2 b)%R).
  { intros a b [L|Eab]; [|subst; lra]. left. apply exp_increasing. apply Rmult_lt_compat_r; [|exact L]. rewrite <- ln_1. apply ln_increasing; lra. }
  assert (U : (pow2 (1 / 2) <= 71 / 50)%R) by (destruct (Rle_or_lt (pow2 (1 / 2)) (71 / 50)); [assumption|exfalso; nra]).
  assert (L : (7 / 10 <= pow2 (- (1 / 2)))%R) by nra.
  split; [apply Rle_trans with (1 := L)|apply Rle_trans with (2 := U)]; apply M; revert A; unfold Rabs; destruct (Rcase_abs x); lra.
Qed.

Section Exp2.
  Variables (bits : Z) (sub : string -> expr) (lib : list item).
  Hypothesis HB : bits = 32 \/ bits = 64.
  Variable nan_of : list (flt bits) -> { x : flt bits | Binary.is_nan (prec bits) (emax bits) x = true }.
  Variable std : string -> list (flt bits) -> option (flt bits).
  Variable checked : bool.
  Notation H := (has bits sub lib).
  Notation R := (run bits nan_of std checked lib).
  Notation C := (const_of bits nan_of std checked lib).
  Notation E := (eval_g bits nan_of std checked lib).
  Theorem exp2_low d (x : flt bits) p : (forall n, In n exp2_needs -> H n) -> E (R (S d)) C (exp2_env bits nan_of x) (sub "exp2") = Ok (VFlt p) ->
    sign x = true -> Binary.is_nan _ _ x = false -> (finite x = true -> fR x < 1 / 2 - IZR (emax bits))%R ->
    R (S (S d)) "exp2" [VFlt x] = Ok (VFlt (Binary.B754_zero _ _ false)).
  Proof.
    intros hh hp S N L. rewrite (run_exp2 bits sub lib HB nan_of std checked d x p hh hp).
    assert (A : flt_lt bits (round_of bits nan_of x) (exp2_min bits) = true).
    { destruct (round_of_value bits nan_of x HB) as [F _]. destruct (min_value bits HB) as [Vm Fm].
      rewrite (flt_lt_value bits _ _ F Fm). apply Rlt_bool_true. rewrite Vm, minus_IZR.
      pose proof (emax_mw bits HB) as B. apply IZR_lt in B. rewrite mult_IZR in B.
      assert (E1 : (1 < IZR (emax bits))%R) by (apply IZR_lt; clear -HB; destruct HB as [-> | ->]; reflexivity).
      destruct (finite x) eqn:Fx.
      - specialize (L eq_refl). destruct (Rlt_or_le (fR x) (- IZR (2 ^ mw bits))) as [G|G].
        + pose proof (round_of_neg bits nan_of x HB S N ltac:(intros _; lra)). lra.
        + destruct (Req_dec (fR x) (- IZR (2 ^ mw bits))) as [Eq|Ne].
          { pose proof (round_of_neg bits nan_of x HB S N ltac:(intros _; lra)). lra. }
          destruct (round_value bits nan_of x HB) as (k & V & _ & [K1 _] & _).
          { apply roundable_big; [exact Fx|]. rewrite Rabs_left by lra. lra. }
          rewrite V. assert (K2 : (IZR k < 1 - IZR (emax bits))%R); [|lra].
          revert K1. unfold Rabs. destruct (Rcase_abs _); lra.
      - pose proof (round_of_neg bits nan_of x HB S N ltac:(congruence)). lra. }
    rewrite A. reflexivity.
  Qed.
  Theorem exp2_high d (x : flt bits) p : (forall n, In n exp2_needs -> H n) -> E (R (S d)) C (exp2_env bits nan_of x) (sub "exp2") = Ok (VFlt p) ->
    sign x = false -> Binary.is_nan _ _ x = false -> (finite x = true -> IZR (emax bits) - 1 < fR x)%R ->
    R (S (S d)) "exp2" [VFlt x] = Ok (VFlt (inf bits)).
  Proof.
    intros hh hp S N L. rewrite (run_exp2 bits sub lib HB nan_of std checked d x p hh hp).
    assert (E1 : (1 < IZR (emax bits))%R) by (apply IZR_lt; clear -HB; destruct HB as [-> | ->]; reflexivity).
    assert (A : flt_lt bits (round_of bits nan_of x) (exp2_min bits) = false).
    { destruct (round_of_value bits nan_of x HB) as [F _]. destruct (min_value bits HB) as [Vm Fm].
      rewrite (flt_lt_value bits _ _ F Fm). apply Rlt_bool_false. rewrite Vm, minus_IZR.
      pose proof (round_of_pos bits nan_of x HB S N). lra. }
    rewrite A. assert (B : fgt bits x (exp2_max bits) = true); [|rewrite B; reflexivity].
    destruct (max_value bits HB) as [Vm Fm]. destruct (finite x) eqn:Fx.
    - rewrite (fgt_value bits _ _ Fx Fm). apply Rlt_bool_true. rewrite Vm, minus_IZR. exact (L eq_refl).
    - destruct x as [s|s|s pl e|s m e B]; try discriminate. cbn in S. subst s. unfold fgt, fcmp.
      destruct (exp2_max bits) as [s|s|s pl e|s m e B]; try discriminate; reflexivity.
  Qed.
  Lemma local_value (x : flt bits) k : roundable x -> fR (round_of bits nan_of x) = IZR k -> finite (round_of bits nan_of x) = true ->
    nearest_away (fR x) k -> finite (fsub bits nan_of x (round_of bits nan_of x)) = true /\ fR (fsub bits nan_of x (round_of bits nan_of x)) = (fR x - IZR k)%R.
  Proof.
    intros (F & U & _) V Fr [N _]. pose proof (near_exact bits (fR x) k (fmt_flt bits x) U N) as FM.
    destruct (fsub_value bits nan_of x (round_of bits nan_of x) F Fr) as [V2 F2].
    - rewrite V, (RN_fmt bits _ FM). apply Rle_lt_trans with (1 := N). apply Rlt_trans with 1%R; [lra|].
      apply (prec_lt_pow bits 1). split; [lia|]. apply (Z.pow_le_mono_r 2 0); [lia|]. pose proof (prec_mw bits); pose proof (mw_pos bits); lia.
    - rewrite V, (RN_fmt bits _ FM) in V2. auto.
  Qed.
  (** in between: the product of the polynomial at the reduced argument and a power of two *)
  Theorem exp2_mid (x : flt bits) : (forall n, In n exp2_needs -> H n) -> roundable x -> (3 / 2 - IZR (emax bits) < fR x <= IZR (emax bits) - 1)%R ->
    exists k (t m : flt bits) env, nearest_away (fR x) k /\ 1 - emax bits < k < emax bits /\ finite t = true /\ fR t = (fR x - IZR k)%R /\
      finite m = true /\ fR m = bpow radix2 k /\ lookup bits "x" env = Some (VFlt t) /\ env = exp2_env bits nan_of x /\
      forall d p, E (R (S d)) C env (sub "exp2") = Ok (VFlt p) -> R (S (S d)) "exp2" [VFlt x] = Ok (VFlt (fmul bits nan_of p m)).
  Proof.
    intros hh Rd [L U]. destruct (round_value bits nan_of x HB Rd) as (k & V & F & N & _).
    destruct (local_value x k Rd V F N) as [Ft Vt].
    assert (K : 1 - emax bits < k < emax bits).
    { destruct N as [N _]. split; apply lt_IZR; rewrite ?minus_IZR; revert N; unfold Rabs; destruct (Rcase_abs _); lra. }
    destruct (exp2_mul_value bits nan_of (round_of bits nan_of x) k HB F V K) as [Fm Vm].
    exists k, (fsub bits nan_of x (round_of bits nan_of x)), (exp2_mul bits nan_of (round_of bits nan_of x)), (exp2_env bits nan_of x).
    do 6 (split; [assumption|]). split; [reflexivity|]. split; [reflexivity|].
    intros d p hp. rewrite (run_exp2 bits sub lib HB nan_of std checked d x p hh hp).
    destruct (min_value bits HB) as [V1 F1]. destruct (max_value bits HB) as [V2 F2]. destruct Rd as (Fx & _).
    rewrite (flt_lt_value bits _ _ F F1), (fgt_value bits _ _ Fx F2), V, V1, V2.
    rewrite !Rlt_bool_false; [reflexivity|rewrite minus_IZR; lra|apply IZR_le; lia].
  Qed.
  (** ... and that product is exact in the normal range *)
  Lemma mul_pow2 (p m : flt bits) k : finite p = true -> finite m = true -> fR m = bpow radix2 k -> (1 / 2 <= fR p < 2)%R ->
    3 - emax bits <= k < emax bits -> (fR p * bpow radix2 k < bpow radix2 (emax bits))%R ->
    finite (fmul bits nan_of p m) = true /\ fR (fmul bits nan_of p m) = (fR p * bpow radix2 k)%R.
  Proof.
    intros Fp Fm Vm P K U.
    assert (FM : generic_format radix2 (fx bits) (fR p * bpow radix2 k)).
    { destruct (mag_mult bits (fR p) 0 (fmt_flt bits p)) as (n & Hn).
      { rewrite Rabs_pos_eq by lra. cbn. lra. }
      rewrite Hn, Rmult_assoc, <- bpow_plus. 
      pose proof (emin_neg bits) as EN.
      apply (generic_format_FLT radix2 (emin bits) (prec bits)).
      assert (PB : 0 <= prec bits) by (pose proof (prec_mw bits); pose proof (mw_pos bits); lia).
      assert (N1 : 0 <= n < 2 * 2 ^ prec bits).
      { assert (HH : (IZR n = fR p * IZR (2 ^ prec bits))%R).
        { rewrite Hn, (IZR_Zpower radix2), Rmult_assoc, <- bpow_plus by exact PB. replace (0 - prec bits + prec bits) with 0 by lia. cbn. lra. }
        assert (0 < IZR (2 ^ prec bits))%R by (apply IZR_lt, Z.pow_pos_nonneg; lia).
        split; [apply le_IZR|apply lt_IZR; rewrite mult_IZR]; rewrite HH; nra. }
      (* n even or small *)
      destruct (Rlt_or_le (fR p) 1) as [L1|G1].
      - assert (N2 : n < 2 ^ prec bits).
        { apply lt_IZR. rewrite (IZR_Zpower radix2) by exact PB. apply Rmult_lt_reg_r with (bpow radix2 (0 - prec bits)); [apply bpow_gt_0|].
          rewrite <- Hn, <- bpow_plus. replace (prec bits + (0 - prec bits)) with 0 by lia. exact L1. }
        exists (Float radix2 n (0 - prec bits + k)); cbn [Fnum Fexp]; [reflexivity|change (radix_val radix2) with 2; lia|unfold emin; lia].
      - destruct (mag_mult bits (fR p) 1 (fmt_flt bits p)) as (n' & Hn').
        { rewrite Rabs_pos_eq by lra. cbn. lra. }
        assert (N2 : 0 <= n' < 2 ^ prec bits).
        { split; [apply le_IZR|apply lt_IZR; rewrite (IZR_Zpower radix2) by exact PB];
            (apply Rmult_le_reg_r with (bpow radix2 (1 - prec bits)) || apply Rmult_lt_reg_r with (bpow radix2 (1 - prec bits))); try apply bpow_gt_0; rewrite <- Hn'; [lra|].
          rewrite <- bpow_plus. replace (prec bits + (1 - prec bits)) with 1 by lia. change (bpow radix2 1) with 2%R. lra. }
        exists (Float radix2 n' (1 - prec bits + k)); cbn [Fnum Fexp]; [|change (radix_val radix2) with 2; lia|unfold emin; lia].
        rewrite bpow_plus, <- Rmult_assoc, <- Hn. rewrite Hn' at 1. rewrite Rmult_assoc, <- bpow_plus. reflexivity. }
    assert (B0 : (0 < bpow radix2 k)%R) by apply bpow_gt_0.
    destruct (fmul_value bits nan_of p m Fp Fm) as [V F].
    - rewrite Vm, (RN_fmt bits _ FM), Rabs_pos_eq by nra. exact U.
    - rewrite Vm, (RN_fmt bits _ FM) in V. auto.
  Qed.
  (** the result is as accurate, relative to its size, as the polynomial *)
  Theorem exp2_accuracy (x : flt bits) : (forall n, In n exp2_needs -> H n) -> roundable x ->
    (5 / 2 - IZR (emax bits) < fR x <= IZR (emax bits) - 1)%R ->
    exists (t : flt bits) env, lookup bits "x" env = Some (VFlt t) /\ finite t = true /\ (Rabs (fR t) <= 1 / 2)%R /\ env = exp2_env bits nan_of x /\
      forall d p eps, E (R (S d)) C env (sub "exp2") = Ok (VFlt p) -> finite p = true -> (eps <= 1 / 5)%R ->
        (Rabs (fR p - pow2 (fR t)) <= eps * pow2 (fR t))%R ->
        exists r, R (S (S d)) "exp2" [VFlt x] = Ok (VFlt r) /\ finite r = true /\ (Rabs (fR r - pow2 (fR x)) <= eps * pow2 (fR x))%R.
  Proof.
    intros hh Rd [L U]. destruct (exp2_mid x hh Rd ltac:(lra)) as (k & t & m & env & [N _] & K & Ft & Vt & Fm & Vm & Lk & Ee & Run).
    exists t, env. split; [exact Lk|]. split; [exact Ft|]. rewrite Vt. split; [exact N|]. split; [exact Ee|].
    intros d p eps hp Fp Ep A.
    assert (K3 : 3 - emax bits <= k).
    { assert (2 - emax bits < k); [|lia]. apply lt_IZR. rewrite minus_IZR. revert N. unfold Rabs. destruct (Rcase_abs _); lra. }
    pose proof (pow2_half _ N) as [P1 P2].
    assert (PB : (1 / 2 <= fR p < 9 / 5)%R) by (revert A; unfold Rabs; destruct (Rcase_abs _); nra).
    assert (B0 : (0 < bpow radix2 k)%R) by apply bpow_gt_0.
    destruct (mul_pow2 p m k Fp Fm Vm ltac:(lra) ltac:(lia)) as [Fr Vr].
    { apply Rlt_le_trans with (bpow radix2 (1 + k)); [|apply bpow_le; lia]. rewrite bpow_plus. change (bpow radix2 1) with 2%R. nra. }
    exists (fmul bits nan_of p m). split; [apply Run; exact hp|]. split; [exact Fr|]. rewrite Vr.
    assert (Ex : (pow2 (fR x) = pow2 (fR x - IZR k) * bpow radix2 k)%R).
    { rewrite <- pow2_IZR, <- pow2_plus. f_equal. lra. }
    rewrite Ex, <- Rmult_minus_distr_r, Rabs_mult, (Rabs_pos_eq (bpow radix2 k)) by lra. 
    rewrite <- Rmult_assoc. apply Rmult_le_compat_r; [lra|exact A].
  Qed.
End Exp2.
