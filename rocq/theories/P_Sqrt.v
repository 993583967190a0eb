(** Property C74: the generated sqrt.  Theorems only.
    [fR x]: the real value of the float x. *)
From Coq Require Import List String Bool ZArith Reals Lra Ascii.
From Flocq Require Import Core IEEE754.Binary.
From Verif Require Import Res Dec Syntax Item GenCode GenCodeFacts GenSem FloatBits GenRun GenFloat GenFloat2 GenFloat4 SignFacts Sqrt.
Import ListNotations.
Open Scope string_scope.
Open Scope list_scope.
Open Scope R_scope.

(** ** C74: the generated sqrt gives the square root *)

(** False for every argument up to 1/256: the estimate it starts from has 0.08
    subtracted from it (auxfuncs.rs:375), which is then more than the estimate. *)
Theorem C74_small :
  forall bits sub lib nan_of std checked, generated bits sub lib ["fty"; "uty"; "EXP2_ONE"; "sqrt_approx"; "sqrt"] ->
  forall d (x : flt bits), finite x = true -> 0 <= fR x <= / 256 ->
    exists z, run bits nan_of std checked lib (S (S d)) "sqrt" [VFlt x] = Ok (VFlt z) /\ finite z = true /\ fR z < 0.
Proof.
  intros bits sub lib nan_of std checked G d x F X. eexists. split; [exact (sqrt_lib_run bits sub lib nan_of std checked d x G)|]. exact (sqrt_small bits (proj1 G) nan_of std x F X).
Qed.
Print Assumptions C74_small.

(** So it is not within a thousandth of the square root at every argument. *)
Theorem C74_refuted :
  forall sub nan_of std checked, exists lib (x z : flt 32), generated 32 sub lib ["fty"; "uty"; "EXP2_ONE"; "sqrt_approx"; "sqrt"] /\
    finite x = true /\ 0 < fR x /\ run 32 nan_of std checked lib 2 "sqrt" [VFlt x] = Ok (VFlt z) /\ ~ Rabs (fR z - sqrt (fR x)) <= / 1000 * sqrt (fR x).
Proof.
  intros sub nan_of std checked. set (x := of_bits 32 (119 * 2 ^ 23)). assert (V : fR x = / 256 /\ finite x = true).
  { split; [|vm_compute; reflexivity]. unfold x. rewrite <- Binary.FF2R_B2FF. replace (Binary.B2FF _ _ _) with (Binary.F754_finite false 8388608 (-31)) by (vm_compute; reflexivity).
    unfold Binary.FF2R, F2R. cbn [cond_Zopp Fnum Fexp]. change (bpow radix2 (-31)) with (/ 2147483648). lra. }
  destruct V as [V F]. exists (sqrt_lib sub), x. destruct (C74_small 32 sub _ nan_of std checked (sqrt_lib_generated sub) 0 x F ltac:(lra)) as (z & E & _ & N). exists z.
  repeat (split; [first [exact (sqrt_lib_generated sub)|exact F|exact E|lra]|]). rewrite V. replace (/ 256) with (/ 16 * / 16) by lra. rewrite sqrt_square by lra. intros A. apply Rabs_le_inv in A. lra.
Qed.
Print Assumptions C74_refuted.

(** A NaN gives NaN. *)
Theorem C74_nan :
  forall bits sub lib nan_of std checked, generated bits sub lib ["fty"; "uty"; "EXP2_ONE"; "sqrt_approx"; "sqrt"] ->
  forall d (x : flt bits), Binary.is_nan _ _ x = true ->
    exists z, run bits nan_of std checked lib (S (S d)) "sqrt" [VFlt x] = Ok (VFlt z) /\ Binary.is_nan _ _ z = true.
Proof.
  intros bits sub lib nan_of std checked G d x N. eexists. split; [exact (sqrt_lib_run bits sub lib nan_of std checked d x G)|].
  unfold sqrt_step. apply fadd_nan. right. apply fdiv_nan. left. apply fsub_nan. left. exact N.
Qed.
Print Assumptions C74_nan.

(** Infinity gives NaN too (C and Rust give infinity). *)
Theorem C74_infinite :
  forall bits sub lib nan_of std checked, generated bits sub lib ["fty"; "uty"; "EXP2_ONE"; "sqrt_approx"; "sqrt"] ->
  forall d, exists z, run bits nan_of std checked lib (S (S d)) "sqrt" [VFlt (Binary.B754_infinity _ _ false)] = Ok (VFlt z) /\ Binary.is_nan _ _ z = true.
Proof.
  intros bits sub lib nan_of std checked G d. eexists. split; [exact (sqrt_lib_run bits sub lib nan_of std checked d _ G)|].
  destruct G as (HB & _). clear - HB. destruct HB as [-> | ->]; vm_compute; reflexivity.
Qed.
Print Assumptions C74_infinite.

(** Values in a 32-bit library: sqrt(0) = -0.04, sqrt(16) = 4.000816, sqrt(f32::MAX) is minus infinity, sqrt(-1) = -0.0835 and not NaN. *)
Example C74_values : forall sub nan_of std checked,
  map (fun n => match run 32 nan_of std checked (sqrt_lib sub) 2 "sqrt" [VFlt (of_bits 32 n)] with Ok (VFlt z) => Some (to_bits z) | _ => None end) [0x0; 0x41800000; 0x7f7fffff; 0xbf800000]%Z
  = [Some 0xbd23d70a; Some 0x408006b0; Some 0xff800000; Some 0xbdaaf6a8]%Z.
Proof. intros sub nan_of std checked. cbn [map]. rewrite !(sqrt_lib_run 32 sub _ nan_of std checked 0 _ (sqrt_lib_generated sub)). vm_compute. reflexivity. Qed.
(** A request for sqrt alone leaves out EXP2_ONE, which sqrt_approx names (functions.rs:272). *)
Example C74_alone : forall sub nan_of std checked, exists lib, library 32 sub ["sqrt"] [] = Some lib /\ map item_name lib = [Some "fty"; Some "uty"; Some "sqrt_approx"; Some "sqrt"] /\
  forall z, run 32 nan_of std checked lib 2 "sqrt" [VFlt (of_bits 32 0x41800000)] <> Ok z.
Proof. intros sub nan_of std checked. eexists. split; [vm_compute; reflexivity|]. split; [reflexivity|]. intros z E. vm_compute in E. discriminate E. Qed.
(** The arguments of C74_nan, C74_infinite exist: 0x7fc00000, 0x7f800000. *)
Example C74_special : Binary.is_nan _ _ (of_bits 32 0x7fc00000) = true /\ of_bits 32 0x7f800000 = Binary.B754_infinity _ _ false.
Proof. split; reflexivity. Qed.
