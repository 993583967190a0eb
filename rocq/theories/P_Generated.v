(** Properties C34-C39, C49: what the generated functions compute, run as
    Rust on IEEE floats.  Theorems only.  [generated bits sub lib needs]:
    [lib] is a library generated in 32- or 64-bit mode that has the items
    named in [needs]; [sub] gives the spliced approximations.  [nan_of],
    [std], [checked]: which NaN an operation returns, the methods of the
    platform's libm, and whether overflow checks are on; all arbitrary. *)
From Coq Require Import List String Bool ZArith Reals Ascii Lia Lra.
From Flocq Require Import Core IEEE754.BinarySingleNaN IEEE754.Binary IEEE754.Bits.
From Verif Require Import Res Dec DecStr Syntax Item Functions FunctionsFacts GenCode GenCodeFacts GenSem FloatBits GenRun GenFloat GenFloat2 GenFloat3 GenFloat4 P_Library.
Import ListNotations.
Open Scope string_scope.
Open Scope list_scope.
Open Scope Z_scope.

(** ** Instances for the examples *)
Lemma one_payload bits : Binary.nan_pl (prec bits) 1 = true.
Proof. unfold prec, mw. destruct (bits =? 32); reflexivity. Qed.
Definition one_nan (bits : Z) (_ : list (flt bits)) : { x : flt bits | Binary.is_nan (prec bits) (emax bits) x = true } :=
  exist _ (Binary.B754_nan (prec bits) (emax bits) false 1 (one_payload bits)) eq_refl.
Definition no_std (bits : Z) (_ : string) (_ : list (flt bits)) : option (flt bits) := None.
Definition all_lib (bits : Z) : list item := match library bits some_sub ["libm"; "all"; "negate_on_odd"; "nextafter"] [] with Some l => l | None => [] end.
Lemma all_generated bits needs : bits = 32 \/ bits = 64 ->
  forallb (fun n => existsb (fun i => match item_name i with Some m => String.eqb m n | None => false end) (all_lib bits)) needs = true ->
  generated bits some_sub (all_lib bits) needs.
Proof.
  intros HB A. split; [exact HB|]. split.
  - exists ["libm"; "all"; "negate_on_odd"; "nextafter"], []. unfold all_lib. destruct (library_exists bits some_sub ["libm"; "all"; "negate_on_odd"; "nextafter"] []) as (l & E). rewrite E. reflexivity.
  - intros n I. rewrite forallb_forall in A. specialize (A n I). apply existsb_exists in A. destruct A as (it & I2 & N). exists it. split; [exact I2|].
    destruct (item_name it); [|discriminate]. apply String.eqb_eq in N. congruence.
Qed.
Definition show {bits} (r : res (val bits)) : option Z := match r with Ok (VFlt x) => Some (to_bits x) | _ => None end.
Lemma show_inv bits (r : res (val bits)) n : show r = Some n -> r = Ok (VFlt (of_bits bits n)).
Proof. destruct r as [[x| | | | |]| |]; try discriminate. cbn. intros E. injection E as <-. rewrite of_to_bits. reflexivity. Qed.
Definition call (bits : Z) (f : string) (args : list (val bits)) : res (val bits) := run bits (one_nan bits) (no_std bits) true (all_lib bits) 4 f args.
Definition f64 (n : Z) : val 64 := VFlt (of_bits 64 n).

(** ** C34 runif *)

(** [w]: the mixed 64-bit word *)
Theorem C34_runif :
  exists w : Z -> Z, (forall i j, 0 <= i < 2 ^ 64 - 1 -> 0 <= j < 2 ^ 64 - 1 -> w i = w j -> i = j) /\
  forall sub lib nan_of std checked d i (a b : flt 64), generated 64 sub lib ["fty"; "uty"; "ONE_BITS"; "runif"] ->
  0 <= i < 2 ^ 64 - 1 -> finite a = true -> fR a = 0%R -> finite b = true -> fR b = 1%R ->
  exists r, run 64 nan_of std checked lib (S d) "runif" [VInt USize i; VFlt a; VFlt b] = Ok (VFlt r) /\ finite r = true /\
    fR r = (IZR (w i / 4 mod 2 ^ 52) / IZR (2 ^ 52))%R /\ (0 <= fR r < 1)%R.
Proof.
  exists splitmix. split; [exact splitmix_inj|]. intros sub lib nan_of std checked d i a b G I Fa Va Fb Vb.
  destruct (lib_runif sub lib nan_of std checked d i a b G I Fa Va Fb Vb) as (r & E & F & V). exists r. split; [exact E|]. split; [exact F|].
  split; [exact V|]. rewrite V. pose proof (Z.mod_pos_bound (splitmix i / 4) (2 ^ 52) ltac:(reflexivity)) as [L U]. apply IZR_le in L. apply IZR_lt in U.
  assert (P : (0 < IZR (2 ^ 52))%R) by (apply IZR_lt; reflexivity). split.
  - apply Rmult_le_pos; [exact L|left; apply Rinv_0_lt_compat; exact P].
  - apply Rmult_lt_reg_r with (1 := P). unfold Rdiv. rewrite Rmult_assoc, Rinv_l, Rmult_1_r, Rmult_1_l by lra. exact U.
Qed.
Print Assumptions C34_runif.

Example C34_example : generated 64 some_sub (all_lib 64) ["fty"; "uty"; "ONE_BITS"; "runif"] /\
  show (call 64 "runif" [VInt USize 0; f64 0; f64 0x3FF0000000000000]) = Some 0x3FE0541CBD8EE6D6 /\
  call 64 "runif" [VInt USize (2 ^ 64 - 1); f64 0; f64 0x3FF0000000000000] = Panic.
Proof. split; [apply all_generated; [right; reflexivity|vm_compute; reflexivity]|split; vm_compute; reflexivity]. Qed.

(** ** C49 runif(i, min, max) *)

Theorem C49_not_below_partial :
  forall sub lib nan_of std checked d i (a b : flt 64), generated 64 sub lib ["fty"; "uty"; "ONE_BITS"; "runif"] ->
  0 <= i < 2 ^ 64 - 1 -> finite a = true -> finite b = true -> (fR a <= fR b)%R ->
  (Rabs (fR a) <= IZR (2 ^ 53))%R -> (Rabs (fR b) <= IZR (2 ^ 53))%R ->
  exists r, run 64 nan_of std checked lib (S d) "runif" [VInt USize i; VFlt a; VFlt b] = Ok (VFlt r) /\ finite r = true /\ (fR a <= fR r)%R.
Proof. exact lib_runif_min. Qed.
Print Assumptions C49_not_below_partial.

(** The range is not half open: between 1 and the next float. *)
Theorem C49_refuted : exists i (a b : flt 64), finite a = true /\ finite b = true /\ fcmp 64 a b = Some Lt /\
  call 64 "runif" [VInt USize i; VFlt a; VFlt b] = Ok (VFlt b).
Proof.
  exists 0, (of_bits 64 0x3FF0000000000000), (of_bits 64 0x3FF0000000000001).
  split; [reflexivity|]. split; [reflexivity|]. split; [reflexivity|].
  apply show_inv. vm_compute. reflexivity.
Qed.
Print Assumptions C49_refuted.

(** ** C35 exp2 *)

(** Reduced argument and power of two are exact, and the result is the
    polynomial's value times that power. *)
Theorem C35_scaling :
  forall bits sub lib nan_of std checked (x : flt bits),
  generated bits sub lib ["fty"; "uty"; "ity"; "round"; "EXP2_ONE"; "EXP2_SCALE"; "EXP2_MIN"; "EXP2_MAX"; "INFINITY"; "exp2"] ->
  roundable x -> (3 / 2 - IZR (emax bits) < fR x <= IZR (emax bits) - 1)%R ->
  exists k (t m : flt bits) env, nearest_away (fR x) k /\ 1 - emax bits < k < emax bits /\ finite t = true /\ fR t = (fR x - IZR k)%R /\
    finite m = true /\ fR m = bpow radix2 k /\ lookup bits "x" env = Some (VFlt t) /\
    forall d p, eval_g bits nan_of std checked lib (run bits nan_of std checked lib (S d)) (const_of bits nan_of std checked lib) env (sub "exp2") = Ok (VFlt p) ->
      run bits nan_of std checked lib (S (S d)) "exp2" [VFlt x] = Ok (VFlt (fmul bits nan_of p m)).
Proof.
  intros bits sub lib nan_of std checked x G R X. pose proof (generated_has _ _ _ _ G) as H. destruct G as (HB & _).
  destruct (exp2_mid bits sub lib HB nan_of std checked x H R X) as (k & t & m & env & A1 & A2 & A3 & A4 & A5 & A6 & A7 & _ & A8).
  exists k, t, m, env. auto 10.
Qed.
Print Assumptions C35_scaling.

(** So the relative error is that of the polynomial on [-1/2, 1/2]. *)
Theorem C35_accuracy :
  forall bits sub lib nan_of std checked (x : flt bits),
  generated bits sub lib ["fty"; "uty"; "ity"; "round"; "EXP2_ONE"; "EXP2_SCALE"; "EXP2_MIN"; "EXP2_MAX"; "INFINITY"; "exp2"] ->
  roundable x -> (5 / 2 - IZR (emax bits) < fR x <= IZR (emax bits) - 1)%R ->
  exists (t : flt bits) env, lookup bits "x" env = Some (VFlt t) /\ finite t = true /\ (Rabs (fR t) <= 1 / 2)%R /\
    forall d p eps, eval_g bits nan_of std checked lib (run bits nan_of std checked lib (S d)) (const_of bits nan_of std checked lib) env (sub "exp2") = Ok (VFlt p) ->
      finite p = true -> (eps <= 1 / 5)%R -> (Rabs (fR p - exp (fR t * ln 2)) <= eps * exp (fR t * ln 2))%R ->
      exists r, run bits nan_of std checked lib (S (S d)) "exp2" [VFlt x] = Ok (VFlt r) /\ finite r = true /\
        (Rabs (fR r - exp (fR x * ln 2)) <= eps * exp (fR x * ln 2))%R.
Proof.
  intros bits sub lib nan_of std checked x G R X. pose proof (generated_has _ _ _ _ G) as H. destruct G as (HB & _).
  destruct (exp2_accuracy bits sub lib HB nan_of std checked x H R X) as (t & env & A1 & A2 & A3 & _ & A4). exists t, env. auto.
Qed.
Print Assumptions C35_accuracy.

(** Out of range, infinities included; [p] is whatever the polynomial gives. *)
Theorem C35_too_small :
  forall bits sub lib nan_of std checked d (x p : flt bits),
  generated bits sub lib ["fty"; "uty"; "ity"; "round"; "EXP2_ONE"; "EXP2_SCALE"; "EXP2_MIN"; "EXP2_MAX"; "INFINITY"; "exp2"] ->
  eval_g bits nan_of std checked lib (run bits nan_of std checked lib (S d)) (const_of bits nan_of std checked lib) (exp2_env bits nan_of x) (sub "exp2") = Ok (VFlt p) ->
  sign x = true -> Binary.is_nan _ _ x = false -> (finite x = true -> fR x < 1 / 2 - IZR (emax bits))%R ->
  run bits nan_of std checked lib (S (S d)) "exp2" [VFlt x] = Ok (VFlt (Binary.B754_zero _ _ false)).
Proof.
  intros bits sub lib nan_of std checked d x p G P S N L. pose proof (generated_has _ _ _ _ G) as H. destruct G as (HB & _).
  exact (exp2_low bits sub lib HB nan_of std checked d x p H P S N L).
Qed.
Print Assumptions C35_too_small.
Theorem C35_too_large :
  forall bits sub lib nan_of std checked d (x p : flt bits),
  generated bits sub lib ["fty"; "uty"; "ity"; "round"; "EXP2_ONE"; "EXP2_SCALE"; "EXP2_MIN"; "EXP2_MAX"; "INFINITY"; "exp2"] ->
  eval_g bits nan_of std checked lib (run bits nan_of std checked lib (S d)) (const_of bits nan_of std checked lib) (exp2_env bits nan_of x) (sub "exp2") = Ok (VFlt p) ->
  sign x = false -> Binary.is_nan _ _ x = false -> (finite x = true -> IZR (emax bits) - 1 < fR x)%R ->
  run bits nan_of std checked lib (S (S d)) "exp2" [VFlt x] = Ok (VFlt (Binary.B754_infinity _ _ false)).
Proof.
  intros bits sub lib nan_of std checked d x p G P S N L. pose proof (generated_has _ _ _ _ G) as H. destruct G as (HB & _).
  exact (exp2_high bits sub lib HB nan_of std checked d x p H P S N L).
Qed.
Print Assumptions C35_too_large.

(** With the stand-in approximation x*x + x: 3.25 gives (1/16 + 1/4) * 8. *)
Example C35_example : generated 64 some_sub (all_lib 64) exp2_needs /\
  show (call 64 "exp2" [f64 0x400A000000000000]) = Some 0x4004000000000000 /\
  show (call 64 "exp2" [f64 0x408FFC0000000000]) = Some 0x7FF0000000000000 /\
  show (call 64 "exp2" [f64 0xC0A0000000000000]) = Some 0.
Proof. split; [apply all_generated; [right; reflexivity|vm_compute; reflexivity]|repeat split; vm_compute; reflexivity]. Qed.

(** ** C36 log2 *)

Theorem C36_split :
  forall bits sub lib nan_of std checked (x : flt bits),
  generated bits sub lib ["fty"; "uty"; "ity"; "LOG2_SHIFT"; "LOG2_OFFSET"; "ONE_MASK"; "ONE_BITS"; "NAN"; "MIN_POSITIVE"; "INFINITY"; "log2"] ->
  finite x = true -> (bpow radix2 (2 - emax bits) <= fR x)%R ->
  exists e m (t : flt bits) env, fR x = (bpow radix2 e * m)%R /\ (1 <= m < 2)%R /\ finite t = true /\ fR t = (m - 3 / 2)%R /\
    lookup bits "x" env = Some (VFlt t) /\
    forall d p, eval_g bits nan_of std checked lib (run bits nan_of std checked lib d) (const_of bits nan_of std checked lib) env (sub "log2") = Ok (VFlt p) ->
      run bits nan_of std checked lib (S d) "log2" [VFlt x] = Ok (VFlt (fadd bits nan_of p (of_int bits e))).
Proof.
  intros bits sub lib nan_of std checked x G F X. pose proof (generated_has _ _ _ _ G) as H. destruct G as (HB & _).
  destruct (log2_split bits sub lib HB nan_of std checked x H (conj F X)) as (e & m & t & env & A1 & A2 & A3 & A4 & A5 & _ & A6).
  exists e, m, t, env. auto 10.
Qed.
Print Assumptions C36_split.

(** So the error is that of the polynomial on [1, 2) plus one rounding. *)
Theorem C36_accuracy :
  forall bits sub lib nan_of std checked (x : flt bits),
  generated bits sub lib ["fty"; "uty"; "ity"; "LOG2_SHIFT"; "LOG2_OFFSET"; "ONE_MASK"; "ONE_BITS"; "NAN"; "MIN_POSITIVE"; "INFINITY"; "log2"] ->
  finite x = true -> (bpow radix2 (2 - emax bits) <= fR x)%R ->
  exists (t : flt bits) env, lookup bits "x" env = Some (VFlt t) /\ finite t = true /\ (-1 / 2 <= fR t < 1 / 2)%R /\
    forall d p eps, eval_g bits nan_of std checked lib (run bits nan_of std checked lib d) (const_of bits nan_of std checked lib) env (sub "log2") = Ok (VFlt p) ->
      finite p = true -> (eps <= 1)%R -> (Rabs (fR p - ln (fR t + 3 / 2) / ln 2) <= eps)%R ->
      exists r, run bits nan_of std checked lib (S d) "log2" [VFlt x] = Ok (VFlt r) /\ finite r = true /\
        (Rabs (fR r - ln (fR x) / ln 2) <= eps + bpow radix2 (- prec bits) * (Rabs (ln (fR x) / ln 2) + eps))%R.
Proof.
  intros bits sub lib nan_of std checked x G F X. pose proof (generated_has _ _ _ _ G) as H. destruct G as (HB & _).
  destruct (log2_accuracy bits sub lib HB nan_of std checked x H (conj F X)) as (t & env & A1 & A2 & A3 & _ & A4). exists t, env. auto.
Qed.
Print Assumptions C36_accuracy.

(** 12 = 2^3 * 1.5: x = 0, the stand-in gives 0, plus 3. *)
Example C36_example : generated 64 some_sub (all_lib 64) log2_needs /\ show (call 64 "log2" [f64 0x4028000000000000]) = Some 0x4008000000000000.
Proof. split; [apply all_generated; [right; reflexivity|vm_compute; reflexivity]|vm_compute; reflexivity]. Qed.

(** ** C37 negate_on_odd *)

Theorem C37_in_range_partial :
  forall bits sub lib nan_of std checked d (x y : flt bits), generated bits sub lib ["fty"; "uty"; "ity"; "negate_on_odd"] ->
  finite x = true -> (Rabs (fR x) < IZR (2 ^ (bits - 1)))%R ->
  exists z, run bits nan_of std checked lib (S d) "negate_on_odd" [VFlt x; VFlt y] = Ok (VFlt z) /\
    if Z.odd (Ztrunc (fR x)) then negated y z else z = y.
Proof. exact lib_negate. Qed.
Print Assumptions C37_in_range_partial.

(** 2^63 is even, but saturates to the odd 2^63 - 1. *)
Theorem C37_refuted : exists x : flt 64, finite x = true /\ fR x = IZR (2 ^ 63) /\
  forall sub lib nan_of std checked d y, generated 64 sub lib ["fty"; "uty"; "ity"; "negate_on_odd"] ->
  exists z, run 64 nan_of std checked lib (S d) "negate_on_odd" [VFlt x; VFlt y] = Ok (VFlt z) /\ negated y z.
Proof.
  exists (of_bits 64 0x43E0000000000000). split; [reflexivity|]. split.
  { destruct (of_bits_fin 64 0x43E0000000000000) as (_ & _ & V); [split; [lia|reflexivity]|]. rewrite V. unfold scaled.
    change (0x43E0000000000000 / 2 ^ mw 64) with 1086. change (0x43E0000000000000 mod 2 ^ mw 64) with 0. cbn [Z.eqb]. 
    change (emin 64) with (-1074). rewrite Z.add_0_r, <- Z.pow_add_r by (cbv; discriminate). rewrite !(IZR_Zpower radix2), <- bpow_plus by (cbv; discriminate). reflexivity. }
  intros sub lib nan_of std checked d y G. pose proof (generated_has _ _ _ _ G) as H.
  pose proof (run_negate 64 sub lib (or_intror eq_refl) nan_of std checked d (of_bits 64 0x43E0000000000000) y) as E.
  eexists. split; [apply E; apply H; cbn; tauto|].
  replace (Z.odd (to_int 64 (sty 64) (of_bits 64 0x43E0000000000000))) with true by (vm_compute; reflexivity).
  change (64 - 1) with (mw 64 + ew 64). rewrite flip_bits, of_to_bits. apply negated_fneg.
Qed.
Print Assumptions C37_refuted.

Example C37_example : generated 64 some_sub (all_lib 64) ["fty"; "uty"; "ity"; "negate_on_odd"] /\
  show (call 64 "negate_on_odd" [f64 0xC008000000000000; f64 0x3FF0000000000000]) = Some 0xBFF0000000000000 /\
  show (call 64 "negate_on_odd" [f64 0x4010000000000000; f64 0x3FF0000000000000]) = Some 0x3FF0000000000000.
Proof. split; [apply all_generated; [right; reflexivity|vm_compute; reflexivity]|repeat split; vm_compute; reflexivity]. Qed.

(** ** C38 nextafter *)

Theorem C38_positive_partial :
  forall bits sub lib nan_of std checked d (x : flt bits), generated bits sub lib ["fty"; "nextafter"] ->
  finite x = true -> sign x = false ->
  exists y, run bits nan_of std checked lib (S d) "nextafter" [VFlt x] = Ok (VFlt y) /\ least_above x y.
Proof. exact lib_nextafter. Qed.
Print Assumptions C38_positive_partial.

(** After -1 comes the next float below. *)
Theorem C38_refuted : exists x y : flt 64, finite x = true /\ finite y = true /\ fcmp 64 y x = Some Lt /\
  call 64 "nextafter" [VFlt x] = Ok (VFlt y).
Proof.
  exists (of_bits 64 0xBFF0000000000000), (of_bits 64 0xBFF0000000000001).
  split; [reflexivity|]. split; [reflexivity|]. split; [reflexivity|].
  apply show_inv. vm_compute. reflexivity.
Qed.
Print Assumptions C38_refuted.

Example C38_example : generated 64 some_sub (all_lib 64) ["fty"; "nextafter"] /\
  show (call 64 "nextafter" [f64 0x7FEFFFFFFFFFFFFF]) = Some 0x7FF0000000000000.
Proof. split; [apply all_generated; [right; reflexivity|vm_compute; reflexivity]|vm_compute; reflexivity]. Qed.

(** ** C39 round *)

(** [roundable]: finite, below 2^52 (2^23) and not the float before 1/2. *)
Theorem C39_nearest_partial :
  forall bits sub lib nan_of std checked d (x : flt bits), generated bits sub lib ["fty"; "ity"; "round"] ->
  finite x = true -> (Rabs (fR x) < IZR (2 ^ mw bits))%R -> Rabs (fR x) <> (1 / 2 - bpow radix2 (- prec bits - 1))%R ->
  exists r k, run bits nan_of std checked lib (S d) "round" [VFlt x] = Ok (VFlt r) /\ finite r = true /\ fR r = IZR k /\ nearest_away (fR x) k.
Proof. intros bits sub lib nan_of std checked d x G F U N. exact (lib_round bits sub lib nan_of std checked d x G (conj F (conj U N))). Qed.
Print Assumptions C39_nearest_partial.

(** The float before 1/2 goes to 1; 2^52 + 1 goes to 2^52 + 2. *)
Theorem C39_refuted :
  (exists x y : flt 64, fcmp 64 x (half 64) = Some Lt /\ fcmp 64 (of_int 64 0) x = Some Lt /\ call 64 "round" [VFlt x] = Ok (VFlt y) /\ y = of_int 64 1) /\
  call 64 "round" [VFlt (of_int 64 (2 ^ 52 + 1))] = Ok (VFlt (of_bits 64 0x4330000000000002)) /\ of_bits 64 0x4330000000000002 = of_int 64 (2 ^ 52 + 2).
Proof.
  split.
  - exists (of_bits 64 0x3FDFFFFFFFFFFFFF), (of_bits 64 0x3FF0000000000000). split; [reflexivity|]. split; [reflexivity|]. split.
    + apply show_inv. vm_compute. reflexivity.
    + rewrite <- (of_to_bits 64 (of_int 64 1)). apply f_equal. vm_compute. reflexivity.
  - split; [apply show_inv; vm_compute; reflexivity|]. rewrite <- (of_to_bits 64 (of_int 64 (2 ^ 52 + 2))). apply f_equal. vm_compute. reflexivity.
Qed.
Print Assumptions C39_refuted.

Example C39_example : generated 32 some_sub (all_lib 32) ["fty"; "ity"; "round"] /\
  show (call 64 "round" [f64 0xC004000000000000]) = Some 0xC008000000000000.
Proof. split; [apply all_generated; [left; reflexivity|vm_compute; reflexivity]|vm_compute; reflexivity]. Qed.
