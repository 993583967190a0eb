(** Properties C60 and C61: the polynomials of [mul_add_polynomial] in floating
    point, and the generated exp2.  Theorems only.
    [F] are the float routines of the Rust library that use_number_type calls: [reads_back F], a printed float
    reads back as itself; [powi_within F k], 10f64.powi(n) has a relative error of at most k for |n| <= 300.
    [working kind bits]: kind is "decimal", or "hex" with 32 bits.  [ordinary bits c]: c is 0 or well within the range
    of the float type.  [rpoly ts t] is the polynomial with the coefficients ts, lowest first, at t.
    [fR x] is the real value of a finite float x, [RN] rounding to nearest even. *)
From Coq Require Import List String Bool ZArith QArith Reals Ascii Lia Lra.
From Flocq Require Import Core Relative IEEE754.BinarySingleNaN IEEE754.Binary IEEE754.Bits.
From Verif Require Import Res Dec DecFacts DecStr Syntax Trans Item Functions FunctionsFacts GenCode GenCodeFacts GenSem FloatBits GenRun GenFloat GenFloat2 GenFloat4
  DecimalLit UseNumberType RFacts NumberTypeFacts ExactFloats NumberTypeCases Poly MulAddFacts ApproxFacts Exp2Approx Exp2Numbers HornerFloat HornerParity Exp2Float P_Library P_Generated.
From Flocq Require Import Core Relative.
Import ListNotations.
Open Scope string_scope.
Open Scope list_scope.
Open Scope R_scope.

(** ** C60 Horner's rule in floats *)

(** The polynomial [mul_add_polynomial] writes, once retyped, evaluates in floats to the value of the wanted part of the
    polynomial up to this bound, for every parity.  [part p ts]: the coefficients whose exponent has parity p, the others
    made 0. *)
Theorem C60_horner :
  forall F kind bits k name p ts e, working kind bits -> reads_back F -> powi_within F k -> 0 <= k <= 1 / 1024 ->
  Forall (fun c => (0 <= scale c)%Z /\ ordinary bits c) (part p ts) -> (List.length ts <= 1001)%nat ->
  rpoly (map dabs (part p ts)) 1 <= bpow radix2 99 ->
  mul_add_polynomial ts [name] p = Ok e ->
  let unit := if (bits =? 32)%Z then bpow radix2 (-24) * (1 + / 64) else 3 * bpow radix2 (-53) in
  exists e', use_number_type F kind bits e = Ok e' /\
  forall nan_of std checked lib call const env (t : flt bits),
    lookup bits name env = Some (VFlt t) -> finite t = true -> Rabs (fR t) <= 1 ->
    exists y, eval_g bits nan_of std checked lib call const env e' = Ok (VFlt y) /\ finite y = true /\
      Rabs (fR y - rpoly (part p ts) (fR t)) <=
        ((1 + (k + unit)) * (1 + bpow radix2 (- prec bits)) ^ (List.length ts - 1) - 1) * rpoly (map dabs (part p ts)) (Rabs (fR t)) +
        INR (List.length ts) * (4 * (1 + rpoly (map dabs (part p ts)) 1) * bpow radix2 (3 - emax bits)).
Proof. intros F kind bits k name p ts e W RB PW HK HT HL HS ME unit. exact (parity_float F kind bits k W RB PW HK p name ts e HT HL HS ME). Qed.
Print Assumptions C60_horner.

(** 1.5 - 0.25 x + 2 x^2, and its even part 1.5 + 2 x^2 *)
Example C60_case : let ts := [BD 15 1; BD (-25) 2; BD 2 0] in
  (forall nans, reads_back (exact_floats nans) /\ powi_within (exact_floats nans) (bpow radix2 (-53))) /\
  working "decimal" 32 /\ Forall (fun c => (0 <= scale c)%Z /\ ordinary 32 c) ts /\ rpoly (map dabs ts) 1 <= bpow radix2 99 /\
  mul_add_polynomial ts ["x"] PNeither =
    Ok (EMethodCall (EMethodCall (EParen (ELit (LInt "2" ""))) "mul_add" None [EPath ["x"]; EUnary UNeg (ELit (LFloat "0.25" ""))])
          "mul_add" None [EPath ["x"]; ELit (LFloat "1.5" "")]) /\
  part PEven ts = [BD 15 1; BD 0 0; BD 2 0] /\
  mul_add_polynomial ts ["x"] PEven =
    Ok (EMethodCall (EParen (ELit (LInt "2" ""))) "mul_add" None [EBinary BMul (EPath ["x"]) (EPath ["x"]); ELit (LFloat "1.5" "")]).
Proof.
  assert (V : forall m s, (0 <= s)%Z -> rval (BD m s) = IZR m * / IZR (10 ^ s)) by (intros m s H; rewrite rval_eq; cbn [mant scale]; rewrite r10_num by exact H; reflexivity).
  assert (T : forall c r1 r2, rval c = IZR r1 / IZR r2 -> (0 < r2)%Z -> (Z.abs r1 <= 2 * r2)%Z -> Rabs (rval c) <= 2).
  { intros c r1 r2 -> P A. apply (IZR_lt 0) in P. apply IZR_le in A. rewrite abs_IZR, mult_IZR in A. unfold Rdiv. rewrite Rabs_mult, (Rabs_pos_eq (/ _)) by (left; apply Rinv_0_lt_compat; exact P).
    apply Rmult_le_reg_r with (IZR r2); [exact P|]. rewrite Rmult_assoc, Rinv_l by lra. lra. }
  cbv zeta. split; [intros nans; split; [apply exact_reads_back|apply exact_powi]|]. split; [left; auto|]. split; [|split; [|split; [|split]]].
  - assert (O : forall c, (0 <= scale c <= 20)%Z -> Rabs (rval c) <= 2 -> (0 <= scale c)%Z /\ ordinary 32 c) by (intros c S A; split; [lia|apply (ordinary_grid 32 20); [exact S|lia|exact A]]).
    apply Forall_cons; [|apply Forall_cons; [|apply Forall_cons; [|apply Forall_nil]]]; (apply O; [cbn [scale]; lia|]).
    + apply (T _ 15 10)%Z; try lia. rewrite V by lia. reflexivity.
    + apply (T _ (-25) 100)%Z; try lia. rewrite V by lia. reflexivity.
    + apply (T _ 2 1)%Z; try lia. rewrite V by lia. reflexivity.
  - cbn [map rpoly]. rewrite !rval_dabs, !V by lia. apply Rle_trans with (bpow radix2 7); [|apply bpow_le; lia].
    change (10 ^ 1)%Z with 10%Z. change (10 ^ 2)%Z with 100%Z. change (10 ^ 0)%Z with 1%Z. change (bpow radix2 7) with 128.
    rewrite !Rabs_mult, !(Rabs_pos_eq (/ _)), <- !abs_IZR by lra. cbn [Z.abs]. lra.
  - vm_compute. reflexivity.
  - reflexivity.
  - vm_compute. reflexivity.
Qed.

(** ** C61 exp2 *)

(** The polynomial of gen_exp2 exists, is retyped, and in the generated library gives 2^x for every argument from -125.5
    to 127, within 2.67 half units of the last place (2.33 except at the two arguments where round is one off); on (n-1, n] the error is below 2^-23 times 2^n, which for
    n = 0 and n = 1 is the limit in the tests of exp2 that are generated. *)
Theorem C61_exp2_32 :
  forall F kind k o xmin xmax, working kind 32 -> reads_back F -> powi_within F k -> 0 <= k <= bpow radix2 (-27) ->
  rval xmin = - / 2 -> rval xmax = / 2 ->
  exists fuel0, forall fuel, (fuel0 <= fuel)%nat -> exists r e',
    approx o fuel (two_pow ["x"]) 8 xmin xmax ["x"] PNeither 20 = Ok r /\ use_number_type F kind 32 r = Ok e' /\
    forall sub lib nan_of std checked (x : flt 32) d,
      generated 32 sub lib ["fty"; "uty"; "ity"; "round"; "EXP2_ONE"; "EXP2_SCALE"; "EXP2_MIN"; "EXP2_MAX"; "INFINITY"; "exp2"] -> sub "exp2" = e' ->
      finite x = true -> -125.5 < fR x <= 127 ->
      exists y, run 32 nan_of std checked lib (S (S d)) "exp2" [VFlt x] = Ok (VFlt y) /\ finite y = true /\
        Rabs (fR y - Rpower 2 (fR x)) <= (2.67 * bpow radix2 (-24) + 0.6 * k) * Rpower 2 (fR x) /\
        (Rabs (fR x) <> 1 / 2 - bpow radix2 (-25) -> Rabs (fR y - Rpower 2 (fR x)) <= (2.33 * bpow radix2 (-24) + 0.6 * k) * Rpower 2 (fR x)) /\
        forall n, fR x <= IZR n -> Rabs (fR y - Rpower 2 (fR x)) <= bpow radix2 n * bpow radix2 (-23).
Proof.
  intros F kind k o xmin xmax W RB PW HK Ea Eb. destruct (exp2_generated_32 F kind k o xmin xmax W RB PW HK Ea Eb) as (f0 & H). exists f0. intros fuel Hf.
  destruct (H fuel Hf) as (r & e' & A & U & G). exists r, e'. split; [exact A|]. split; [exact U|].
  intros sub lib nan_of std checked x d Gn Hs Fx X. apply (G sub); auto. exact (generated_has _ _ _ _ Gn).
Qed.
Print Assumptions C61_exp2_32.

Theorem C61_exp2_64 :
  forall F kind k o xmin xmax, working kind 64 -> reads_back F -> powi_within F k -> 0 <= k <= / 1024 ->
  rval xmin = - / 2 -> rval xmax = / 2 ->
  exists fuel0, forall fuel, (fuel0 <= fuel)%nat -> exists r e',
    approx o fuel (two_pow ["x"]) 12 xmin xmax ["x"] PNeither 40 = Ok r /\ use_number_type F kind 64 r = Ok e' /\
    forall sub lib nan_of std checked (x : flt 64) d,
      generated 64 sub lib ["fty"; "uty"; "ity"; "round"; "EXP2_ONE"; "EXP2_SCALE"; "EXP2_MIN"; "EXP2_MAX"; "INFINITY"; "exp2"] -> sub "exp2" = e' ->
      finite x = true -> -1021.5 < fR x <= 1023 ->
      exists y, run 64 nan_of std checked lib (S (S d)) "exp2" [VFlt x] = Ok (VFlt y) /\ finite y = true /\
        Rabs (fR y - Rpower 2 (fR x)) <= (8.21 * bpow radix2 (-53) + 2.03 * k) * Rpower 2 (fR x).
Proof.
  intros F kind k o xmin xmax W RB PW HK Ea Eb. destruct (exp2_generated_64 F kind k o xmin xmax W RB PW HK Ea Eb) as (f0 & H). exists f0. intros fuel Hf.
  destruct (H fuel Hf) as (r & e' & A & U & G). exists r, e'. split; [exact A|]. split; [exact U|].
  intros sub lib nan_of std checked x d Gn Hs Fx X. apply (G sub); auto. exact (generated_has _ _ _ _ Gn).
Qed.
Print Assumptions C61_exp2_64.

(** With a correctly rounded powi, exp2(1.5f32) of the whole library is within 2^-21 of 2^1.5. *)
Definition exp2_lib (e : expr) : list item := match library 32 (fun _ => e) ["libm"; "all"] [] with Some l => l | None => [] end.
Lemma exp2_lib_generated e : generated 32 (fun _ => e) (exp2_lib e) exp2_needs.
Proof.
  split; [left; reflexivity|]. split.
  - exists ["libm"; "all"], []. unfold exp2_lib. destruct (library_exists 32 (fun _ => e) ["libm"; "all"] []) as (l & E). rewrite E. reflexivity.
  - intros n I.
    assert (A : forallb (fun n => existsb (fun i => match item_name i with Some m => String.eqb m n | None => false end) (exp2_lib e)) exp2_needs = true) by (vm_compute; reflexivity).
    rewrite forallb_forall in A. specialize (A n I). apply existsb_exists in A. destruct A as (it & I2 & N). exists it. split; [exact I2|].
    destruct (item_name it); [|discriminate]. apply String.eqb_eq in N. congruence.
Qed.
Example C61_case : forall o nans nan_of, exists fuel0, forall fuel, (fuel0 <= fuel)%nat -> exists r e' y,
  approx o fuel (two_pow ["x"]) 8 (BD (-5) 1) (BD 5 1) ["x"] PNeither 20 = Ok r /\
  use_number_type (exact_floats nans) "decimal" 32 r = Ok e' /\
  fR (of_bits 32 0x3FC00000) = 3 / 2 /\
  run 32 nan_of (no_std 32) true (exp2_lib e') 2 "exp2" [VFlt (of_bits 32 0x3FC00000)] = Ok (VFlt y) /\
  Rabs (fR y - Rpower 2 (3 / 2)) <= bpow radix2 (-21).
Proof.
  intros o nans nan_of.
  assert (V : forall m, rval (BD m 1) = IZR m / 10) by (intros m; rewrite rval_eq; cbn [mant scale]; rewrite r10_num by lia; reflexivity).
  destruct (C61_exp2_32 (exact_floats nans) "decimal" (bpow radix2 (-53)) o (BD (-5) 1) (BD 5 1)) as (f0 & H);
    [left; auto|apply exact_reads_back|apply exact_powi|split; [apply bpow_ge_0|apply bpow_le; lia]|rewrite V; lra|rewrite V; lra|].
  exists f0. intros fuel Hf. destruct (H fuel Hf) as (r & e' & A & U & G). exists r, e'.
  assert (X : fR (of_bits 32 0x3FC00000) = 3 / 2).
  { rewrite <- Binary.FF2R_B2FF. assert (B : Binary.B2FF _ _ (of_bits 32 0x3FC00000) = Binary.F754_finite false 12582912 (-23)) by (vm_compute; reflexivity).
    rewrite B. cbn [Binary.FF2R]. unfold F2R. cbn [Fnum Fexp cond_Zopp]. change (bpow radix2 (-23)) with (/ 8388608). lra. }
  destruct (G (fun _ => e') (exp2_lib e') nan_of (no_std 32) true (of_bits 32 0x3FC00000) 0%nat (exp2_lib_generated e') eq_refl) as (y & R & Fy & _ & _ & L).
  - vm_compute. reflexivity.
  - rewrite X. lra.
  - exists y. split; [exact A|]. split; [exact U|]. split; [exact X|]. split; [exact R|].
    specialize (L 2%Z ltac:(rewrite X; lra)). rewrite X, <- bpow_plus in L. exact L.
Qed.
