(** The generated sqrt (recip_sqrt.rs:7-27, auxfuncs.rs:347-377, [code_sqrt]
    and [code_sqrt_approx] in GenCode.v): what running it computes, and its sign for small arguments. *)
From Coq Require Import List String Bool ZArith Reals Ascii Lia.
From Flocq Require Import Core Relative IEEE754.BinarySingleNaN IEEE754.Binary.
From Verif Require Import Res Dec DecStr Syntax Item FloatBits NumberTypeFacts GenCode GenCodeFacts GenSem GenRun GenFloat GenFloat2 GenFloat4 ExpFloat SignFacts GenSym Hypot.
From Coq Require Import Lra.
Import ListNotations.
Open Scope string_scope.
Open Scope list_scope.
Open Scope R_scope.

#[local] Arguments bin_op bits nan_of checked !op !a !b /.
#[local] Arguments declare bits !t !a /.
#[local] Arguments cast bits !t !a /.
#[local] Arguments method bits nan_of std m !recv args /.
Section Sqrt.
  Variables (bits : Z) (sub : string -> expr) (lib : list item).
  Hypothesis HB : (bits = 32 \/ bits = 64)%Z.
  Notation H := (has bits sub lib).
  Variable nan_of : list (flt bits) -> { x : flt bits | Binary.is_nan (prec bits) (emax bits) x = true }.
  Variable std : string -> list (flt bits) -> option (flt bits).
  Variable checked : bool.
  Notation R := (run bits nan_of std checked lib).
  Ltac go := cbn [eval_g lookup String.eqb Ascii.eqb Bool.eqb rbind method flts_of flt_of bin_op un_op flt_op is_rel
    hd_error code bind_params].
  Notation half := (of_decimal bits (BD 5 1)).
  Notation shift := (of_decimal bits (BD 8 2)).
  Definition sqrt_bits (a : flt bits) : flt bits :=
    of_bits bits (to_int bits (uty bits) (ffma bits nan_of (of_int bits (to_bits a)) half (fmul bits nan_of (exp2_one bits) half))).
  Definition sqrt_start (a : flt bits) : flt bits := fsub bits nan_of (sqrt_bits a) shift.
  Definition sqrt_step (x r : flt bits) : flt bits :=
    fadd bits nan_of r (fdiv bits nan_of (fsub bits nan_of x (fmul bits nan_of r r)) (fmul bits nan_of (two_of bits) r)).
  Lemma start_is a : sqrt_start a = fsub bits nan_of (of_bits bits (to_int bits (uty bits) (ffma bits nan_of (of_int bits (to_bits a)) half (fmul bits nan_of (exp2_one bits) half)))) shift.
  Proof. unfold sqrt_start, sqrt_bits. reflexivity. Qed.
  Lemma run_sqrt_approx d x : H "fty" -> H "uty" -> H "EXP2_ONE" -> H "sqrt_approx" -> R (S d) "sqrt_approx" [VFlt x] = Ok (VFlt (sqrt_start (fabs bits x))).
  Proof.
    intros hf hu h1 hs. rewrite run_S, hs. go. unfold code_sqrt_approx. go. rewrite (res_fty bits sub lib HB hf), decl_flt. go. rewrite cast_of_int. go.
    change (literal bits (LFloat "0.5" "")) with (@Ok (val bits) (VLitF half)).
    change (literal bits (LFloat "0.08" "")) with (@Ok (val bits) (VLitF shift)). go.
    rewrite (c_one bits sub lib HB nan_of std checked h1). go. rewrite (res_uty bits sub lib HB hu). cbn [cast]. go. rewrite Z.eqb_refl, uty_eq, ity_eqb_refl. cbn [andb rbind].
    rewrite decl_flt. go. rewrite decl_flt, start_is. reflexivity.
  Qed.
  Lemma step_is x r : sqrt_step x r = fadd bits nan_of r (fdiv bits nan_of (fsub bits nan_of x (fmul bits nan_of r r)) (fmul bits nan_of (two_of bits) r)).
  Proof. unfold sqrt_step. reflexivity. Qed.
  Lemma run_sqrt d x : H "fty" -> H "uty" -> H "EXP2_ONE" -> H "sqrt_approx" -> H "sqrt" ->
    R (S (S d)) "sqrt" [VFlt x] = Ok (VFlt (sqrt_step x (sqrt_start (fabs bits x)))).
  Proof.
    intros hf hu h1 ha hs. rewrite run_S, hs. go. unfold code_sqrt. go. rewrite (res_fty bits sub lib HB hf), decl_flt. go. rewrite (run_sqrt_approx d x hf hu h1 ha). go. rewrite decl_flt. go.
    change (literal bits (LFloat "2.0" "")) with (@Ok (val bits) (VLitF (two_of bits))). go. rewrite decl_flt. go. rewrite decl_flt. rewrite step_is. reflexivity.
  Qed.
  Notation K k := ((k + (emax bits - 1)) * 2 ^ mw bits)%Z.
  Lemma pow_bits k : (1 - emax bits < k < emax bits)%Z -> fin_bits bits (K k) /\ IZR (scaled bits (K k)) * bpow radix2 (emin bits) = bpow radix2 k.
  Proof.
    intros Kk. assert (P0 : (0 < 2 ^ mw bits)%Z) by (apply Z.pow_pos_nonneg; pose proof (mw_pos bits); lia).
    assert (EM : (2 ^ ew bits = 2 * emax bits)%Z) by (unfold emax; rewrite <- Z.pow_succ_r; [f_equal; lia|pose proof (ew_pos bits); lia]).
    split; [split; [apply Z.mul_nonneg_nonneg|apply Z.mul_lt_mono_pos_r]; lia|].
    unfold scaled. rewrite Z.div_mul, Z_mod_mult by lia.
    destruct (Z.eqb_spec (k + (emax bits - 1)) 0) as [E|_]; [lia|]. rewrite Z.add_0_r, <- Z.pow_add_r by (pose proof (mw_pos bits); lia).
    rewrite (IZR_Zpower radix2), <- bpow_plus by (pose proof (mw_pos bits); lia). f_equal. unfold emin. rewrite prec_mw. lia.
  Qed.
  Lemma bits_below (a : flt bits) k : finite a = true -> sign a = false -> (1 - emax bits < k < emax bits)%Z -> fR a <= bpow radix2 k -> (0 <= to_bits a <= K k)%Z.
  Proof.
    intros F S Kk L. pose proof (to_bits_fin bits a F S) as B. split; [apply B|]. destruct (pow_bits k Kk) as [FB V]. rewrite (to_bits_val bits a F S), <- V in L.
    destruct (Z.le_gt_cases (to_bits a) (K k)) as [Q|Q]; [exact Q|]. apply (scaled_lt bits) in Q; try assumption. apply IZR_lt in Q. apply Rmult_le_reg_r in L; [lra|apply bpow_gt_0].
  Qed.
  Lemma value_below n k : (1 - emax bits < k < emax bits)%Z -> (0 <= n <= K k)%Z -> finite (of_bits bits n) = true /\ 0 <= fR (of_bits bits n) <= bpow radix2 k.
  Proof.
    intros Kk N. destruct (pow_bits k Kk) as [FB V]. assert (FN : fin_bits bits n) by (destruct FB; split; lia). destruct (of_bits_fin bits n FN) as (F & _ & W). split; [exact F|].
    rewrite W, <- V. pose proof (bpow_gt_0 radix2 (emin bits)). split; [apply Rmult_le_pos; [apply IZR_le, scaled_nonneg; exact FN|lra]|]. apply Rmult_le_compat_r; [lra|]. apply IZR_le.
    destruct (Z.eq_dec n (K k)) as [->|Q]; [lia|]. apply Z.lt_le_incl, scaled_lt; try assumption. lia.
  Qed.
  Lemma half_value : fR half = / 2 /\ finite half = true.
  Proof.
    unfold of_decimal. destruct HB as [-> | ->]; (split; [rewrite <- Binary.FF2R_B2FF|vm_compute; reflexivity]).
    - replace (Binary.B2FF _ _ _) with (Binary.F754_finite false 8388608 (-24)) by (vm_compute; reflexivity). cbn [Binary.FF2R cond_Zopp]. unfold F2R. cbn [Fnum Fexp]. change (IZR 8388608) with (bpow radix2 23). rewrite <- bpow_plus. reflexivity.
    - replace (Binary.B2FF _ _ _) with (Binary.F754_finite false 4503599627370496 (-53)) by (vm_compute; reflexivity). cbn [Binary.FF2R cond_Zopp]. unfold F2R. cbn [Fnum Fexp]. change (IZR 4503599627370496) with (bpow radix2 52). rewrite <- bpow_plus. reflexivity.
  Qed.
  Lemma shift_value : 0.0799 <= fR shift <= 0.0801 /\ finite shift = true.
  Proof.
    unfold of_decimal. destruct HB as [-> | ->]; (split; [rewrite <- Binary.FF2R_B2FF|vm_compute; reflexivity]).
    - replace (Binary.B2FF _ _ _) with (Binary.F754_finite false 10737418 (-27)) by (vm_compute; reflexivity). cbn [Binary.FF2R cond_Zopp]. unfold F2R. cbn [Fnum Fexp]. change (bpow radix2 (-27)) with (/ 134217728). lra.
    - replace (Binary.B2FF _ _ _) with (Binary.F754_finite false 5764607523034235 (-56)) by (vm_compute; reflexivity). cbn [Binary.FF2R cond_Zopp]. unfold F2R. cbn [Fnum Fexp]. change (bpow radix2 (-56)) with (/ 72057594037927936). lra.
  Qed.
  Lemma RN_mult k : (0 <= k < 2 * emax bits)%Z -> RN bits (IZR (k * 2 ^ mw bits)) = IZR (k * 2 ^ mw bits).
  Proof.
    intros Kk. apply RN_fmt. rewrite mult_IZR, (IZR_Zpower radix2) by (pose proof (mw_pos bits); lia). apply fmt.
    - assert (B : (2 * emax bits < 2 ^ prec bits)%Z) by (destruct HB as [-> | ->]; reflexivity). lia.
    - pose proof (emin_neg bits). pose proof (prec_mw bits). pose proof (mw_pos bits). lia.
  Qed.
  (** up to 1/256 the estimate is below 1/16 *)
  Lemma bits_small (a : flt bits) : finite a = true -> sign a = false -> fR a <= / 256 -> finite (sqrt_bits a) = true /\ 0 <= fR (sqrt_bits a) <= / 16.
  Proof.
    intros F S L. unfold sqrt_bits. assert (BB : (10 < emax bits - 1)%Z) by (destruct HB as [-> | ->]; reflexivity).
    assert (B : (0 <= to_bits a <= K (-8))%Z) by (apply bits_below; [exact F|exact S|lia|exact L]). set (n := to_bits a) in *. clearbody n.
    assert (P0 : (0 < 2 ^ mw bits)%Z) by (apply Z.pow_pos_nonneg; pose proof (mw_pos bits); lia).
    assert (TB : IZR (K 0) < bpow radix2 (emax bits)). { rewrite <- (IZR_Zpower radix2) by lia. apply IZR_lt. destruct HB as [-> | ->]; reflexivity. }
    assert (M1 : 0 <= RN bits (IZR n) <= IZR (K (-8))).
    { split; [rewrite <- (RN_0 bits) at 1; apply RN_le, IZR_le; lia|]. rewrite <- (RN_mult (-8 + (emax bits - 1))) by lia. apply RN_le, IZR_le. lia. }
    destruct (GenFloat2.of_int_value bits n HB) as [Vi Fi].
    { split; [rewrite (proj1 (sty_range bits HB)); pose proof (Z.pow_nonneg 2 (bits - 1)); lia|]. apply Z.le_trans with (1 := proj2 B). destruct HB as [-> | ->]; vm_compute; discriminate. }
    destruct half_value as [Vh Fh]. destruct (GenFloat2.one_value bits HB) as [V1 F1].
    assert (E2 : fR (exp2_one bits) * fR half = IZR (emax bits - 1) * bpow radix2 (mw bits - 1)).
    { rewrite V1, Vh, mult_IZR, (IZR_Zpower radix2), Rmult_assoc by (pose proof (mw_pos bits); lia). f_equal. change (/ 2) with (bpow radix2 (-1)). rewrite <- bpow_plus. reflexivity. }
    assert (FM : RN bits (fR (exp2_one bits) * fR half) = fR (exp2_one bits) * fR half).
    { rewrite E2. apply RN_fmt, fmt; [assert (B2 : (2 * emax bits < 2 ^ prec bits)%Z) by (destruct HB as [-> | ->]; reflexivity); lia|pose proof (emin_neg bits); pose proof (prec_mw bits); pose proof (mw_pos bits); lia]. }
    assert (KP : 0 <= IZR (K 0)) by (apply IZR_le; lia).
    assert (E3 : fR (exp2_one bits) * fR half = IZR (K 0) / 2) by (rewrite V1, Vh, Z.add_0_l; reflexivity).
    destruct (fmul_value bits nan_of _ _ F1 Fh) as [Vm Fm]; [rewrite FM, E3, Rabs_pos_eq; lra|]. rewrite FM, E3 in Vm.
    assert (KK : (IZR (K (-8)) + IZR (K 0)) / 2 = IZR (K (-4))).
    { rewrite <- plus_IZR. replace (K (-8) + K 0)%Z with (2 * K (-4))%Z by ring. rewrite (mult_IZR 2). lra. }
    assert (M2 : 0 <= RN bits (RN bits (IZR n) * / 2 + IZR (K 0) / 2) <= IZR (K (-4))).
    { split; [rewrite <- (RN_0 bits) at 1; apply RN_le; lra|]. rewrite <- (RN_mult (-4 + (emax bits - 1))) by lia. apply RN_le. lra. }
    assert (K4 : IZR (K (-4)) <= IZR (K 0)) by (apply IZR_le, Z.mul_le_mono_nonneg_r; lia).
    destruct (ffma_value bits nan_of _ _ _ Fi Fh Fm) as [Vf Ff]; [rewrite Vi, Vh, Vm, Rabs_pos_eq; lra|]. rewrite Vi, Vh, Vm in Vf.
    apply (value_below _ (-4)); [lia|]. rewrite to_int_small; [|exact Ff|].
    - rewrite Vf. pose proof (Ztrunc_le (IZR 0) _ (proj1 M2)) as Z1. pose proof (Ztrunc_le _ _ (proj2 M2)) as Z2. rewrite Ztrunc_IZR in Z1, Z2. split; assumption.
    - rewrite Vf. replace (imin (uty bits)) with 0%Z by (clear -HB; destruct HB as [-> | ->]; reflexivity). split; [lra|]. apply Rle_trans with (1 := proj2 M2). apply IZR_le. clear -HB. destruct HB as [-> | ->]; vm_compute; discriminate.
  Qed.
  Notation u := (bpow radix2 (- prec bits)).
  Lemma two_value : fR (two_of bits) = 2 /\ finite (two_of bits) = true.
  Proof.
    unfold two_of, of_decimal. destruct HB as [-> | ->]; (split; [rewrite <- Binary.FF2R_B2FF|vm_compute; reflexivity]).
    - replace (Binary.B2FF _ _ _) with (Binary.F754_finite false 8388608 (-22)) by (vm_compute; reflexivity). cbn [Binary.FF2R cond_Zopp]. unfold F2R. cbn [Fnum Fexp]. change (IZR 8388608) with (bpow radix2 23). rewrite <- bpow_plus. reflexivity.
    - replace (Binary.B2FF _ _ _) with (Binary.F754_finite false 4503599627370496 (-51)) by (vm_compute; reflexivity). cbn [Binary.FF2R cond_Zopp]. unfold F2R. cbn [Fnum Fexp]. change (IZR 4503599627370496) with (bpow radix2 52). rewrite <- bpow_plus. reflexivity.
  Qed.
  Lemma one_top v : Rabs v <= 1 -> Rabs (RN bits v) <= 1 /\ Rabs (RN bits v) < bpow radix2 (emax bits).
  Proof.
    intros L. assert (Q : Rabs (RN bits v) <= 1) by (apply (RN_keep bits HB nan_of std v 1); [lia|exact L]). split; [exact Q|].
    apply Rle_lt_trans with (1 := Q). apply (below_top bits HB nan_of std 1). lia.
  Qed.
  Lemma near v : Rabs v <= 1 -> Rabs (RN bits v - v) <= / 1024 * Rabs v + / 1048576.
  Proof.
    intros L. pose proof (RN_near bits HB nan_of std v) as E. pose proof (u_small bits HB nan_of std) as U. assert (A : u * Rabs v <= / 1024 * Rabs v) by (apply Rmult_le_compat_r; [apply Rabs_pos|lra]).
    assert (B : u * u <= / 1024 * / 1024) by (apply Rmult_le_compat; lra). lra.
  Qed.
  (** one step from a negative estimate stays negative *)
  Lemma step_negative (x r : flt bits) : finite x = true -> finite r = true -> 0 <= fR x <= / 256 -> - 0.081 <= fR r <= - 0.016 ->
    finite (sqrt_step x r) = true /\ fR (sqrt_step x r) < 0.
  Proof.
    intros Fx Fr X Rr. rewrite step_is. set (v := fR r) in *. destruct two_value as [V2 F2].
    assert (VV : 0.000256 <= v * v <= 0.006561) by nra.
    destruct (one_top (v * v)) as [A1 A2]; [rewrite Rabs_pos_eq; lra|]. pose proof (near (v * v)) as A3. rewrite (Rabs_pos_eq (v * v)) in A3 by lra. specialize (A3 ltac:(lra)).
    destruct (fmul_value bits nan_of r r Fr Fr A2) as [Vm Fm]. fold v in Vm. set (m := fmul bits nan_of r r) in *. clearbody m. rewrite <- Vm in A3. apply Rabs_le_inv in A3.
    assert (MM : 0.0002 <= fR m <= 0.0067) by lra. assert (MV : fR m <= 1.01 * (v * v)) by lra.
    destruct (one_top (fR x - fR m)) as [B1 B2]; [apply Rabs_le; lra|].
    destruct (fsub_value bits nan_of x m Fx Fm B2) as [Vd Fd]. assert (D1 : - fR m <= RN bits (fR x - fR m)).
    { replace (- fR m) with (RN bits (- fR m)); [apply RN_le; lra|]. rewrite RN_opp. f_equal. apply RN_fmt. apply Binary.generic_format_B2R. }
    assert (D2 : RN bits (fR x - fR m) <= / 100).
    { pose proof (near (fR x - fR m)) as N. assert (AB : Rabs (fR x - fR m) <= 0.008) by (apply Rabs_le; lra). specialize (N ltac:(lra)). apply Rabs_le_inv in N. pose proof (Rabs_le_inv _ _ AB). lra. }
    set (dd := fsub bits nan_of x m) in *. clearbody dd. rewrite <- Vd in D1, D2.
    destruct (one_top (2 * v)) as [C1 C2]; [apply Rabs_le; lra|]. rewrite <- V2 in C2. destruct (fmul_value bits nan_of (two_of bits) r F2 Fr C2) as [Vt Ft]. fold v in Vt. rewrite V2 in Vt.
    pose proof (near (2 * v)) as N2. rewrite (Rabs_left (2 * v)) in N2 by lra. specialize (N2 ltac:(lra)). apply Rabs_le_inv in N2. set (t := fmul bits nan_of (two_of bits) r) in *. clearbody t. rewrite <- Vt in N2.
    assert (TV : 1.99 * v >= fR t) by lra. assert (T0 : fR t < -0.03) by lra.
    (* the quotient is at most 0.52 |v| *)
    assert (Q1 : fR dd / fR t <= 0.52 * - v).
    { apply (Rmult_le_reg_r (- fR t)); [lra|]. replace (fR dd / fR t * - fR t) with (- fR dd) by (field; lra). apply Rle_trans with (fR m); [lra|]. apply Rle_trans with (1.01 * (v * v)); [exact MV|]. nra. }
    assert (Q2 : - / 2 <= fR dd / fR t).
    { apply (Rmult_le_reg_r (- fR t)); [lra|]. replace (fR dd / fR t * - fR t) with (- fR dd) by (field; lra). lra. }
    destruct (one_top (fR dd / fR t)) as [E1 E2]; [apply Rabs_le; lra|]. destruct (quot_value bits HB nan_of dd t Fd ltac:(lra) E2) as [Vq Fq].
    assert (Q3 : RN bits (fR dd / fR t) <= 0.53 * - v).
    { pose proof (near (0.52 * - v)) as N. rewrite (Rabs_pos_eq (0.52 * - v)) in N by lra. specialize (N ltac:(lra)). apply Rabs_le_inv in N. apply Rle_trans with (RN bits (0.52 * - v)); [apply RN_le; exact Q1|]. lra. }
    apply Rabs_le_inv in E1. set (q := fdiv bits nan_of dd t) in *. clearbody q. rewrite <- Vq in Q3, E1.
    assert (Q4 : - 0.6 <= fR q). { rewrite Vq. pose proof (near (- / 2)) as N. rewrite (Rabs_left (- / 2)) in N by lra. specialize (N ltac:(lra)). apply Rabs_le_inv in N. apply Rle_trans with (RN bits (- / 2)); [lra|apply RN_le; exact Q2]. }
    destruct (one_top (v + fR q)) as [G1 G2]; [apply Rabs_le; lra|]. destruct (fadd_value bits nan_of r q Fr Fq G2) as [Vs Fs]. fold v in Vs. split; [exact Fs|]. rewrite Vs.
    apply Rle_lt_trans with (RN bits (- 0.007)); [apply RN_le; lra|]. pose proof (near (- 0.007)) as N. rewrite (Rabs_left (- 0.007)) in N by lra. specialize (N ltac:(lra)). apply Rabs_le_inv in N. lra.
  Qed.
  Theorem sqrt_small (x : flt bits) : finite x = true -> 0 <= fR x <= / 256 ->
    finite (sqrt_step x (sqrt_start (fabs bits x))) = true /\ fR (sqrt_step x (sqrt_start (fabs bits x))) < 0.
  Proof.
    intros F X. destruct (fabs_value bits x) as [Va Fa]. rewrite F in Fa. rewrite Rabs_pos_eq in Va by lra. assert (S : sign (fabs bits x) = false) by (destruct x; reflexivity).
    destruct (bits_small (fabs bits x) Fa S ltac:(lra)) as [Fb Vb]. destruct shift_value as [Vs Fs].
    destruct (one_top (fR (sqrt_bits (fabs bits x)) - fR shift)) as [A1 A2]; [apply Rabs_le; lra|]. destruct (fsub_value bits nan_of _ _ Fb Fs A2) as [Vr Fr].
    apply step_negative; [exact F|exact Fr|exact X|]. unfold sqrt_start. rewrite Vr.
    assert (AB : Rabs (fR (sqrt_bits (fabs bits x)) - fR shift) <= 0.0801) by (apply Rabs_le; lra).
    pose proof (near (fR (sqrt_bits (fabs bits x)) - fR shift) ltac:(lra)) as N. apply Rabs_le_inv in N. lra.
  Qed.
End Sqrt.

(** ** for every generated library *)
Lemma sqrt_lib_run bits sub lib nan_of std checked d (x : flt bits) : generated bits sub lib ["fty"; "uty"; "EXP2_ONE"; "sqrt_approx"; "sqrt"] ->
  run bits nan_of std checked lib (S (S d)) "sqrt" [VFlt x] = Ok (VFlt (sqrt_step bits nan_of x (sqrt_start bits nan_of (fabs bits x)))).
Proof.
  intros G. pose proof (generated_has _ _ _ _ G) as h. destruct G as (HB & _).
  apply (run_sqrt bits sub lib HB nan_of std checked d x); apply h; cbn; tauto.
Qed.
(** a library to try the theorems on *)
Definition sqrt_lib (sub : string -> expr) : list item := match library 32 sub ["EXP2_ONE"; "sqrt"] [] with Some l => l | None => [] end.
Lemma sqrt_lib_generated sub : generated 32 sub (sqrt_lib sub) ["fty"; "uty"; "EXP2_ONE"; "sqrt_approx"; "sqrt"].
Proof.
  split; [left; reflexivity|]. split.
  - exists ["EXP2_ONE"; "sqrt"], []. unfold sqrt_lib. destruct (library_exists 32 sub ["EXP2_ONE"; "sqrt"] []) as (l & E). rewrite E. reflexivity.
  - intros n I. assert (A : forallb (fun n => existsb (fun i => match item_name i with Some m => String.eqb m n | None => false end) (sqrt_lib sub)) ["fty"; "uty"; "EXP2_ONE"; "sqrt_approx"; "sqrt"] = true) by (vm_compute; reflexivity).
    rewrite forallb_forall in A. specialize (A n I). apply existsb_exists in A. destruct A as (it & I2 & N). exists it. split; [exact I2|].
    destruct (item_name it); [|discriminate]. apply String.eqb_eq in N. congruence.
Qed.
