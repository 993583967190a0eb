(** Properties C63, C64 and C65: exp, sinh, cosh and tanh of the generated library.  Theorems only.
    [exp_parts F kind bits o xmin xmax fuel sub]: sub gives the polynomial of exp2 and the constant LOG2_E as the generator
    computes them.  [F] are the float routines of the Rust library that use_number_type calls: [reads_back F], a printed
    float reads back as itself; [powi_within F k], 10f64.powi(n) has a relative error of at most k for |n| <= 300.
    [fR x] is the real value of a finite float x. *)
From Coq Require Import List String Bool ZArith QArith Reals Ascii Lia Lra.
From Flocq Require Import Core Relative IEEE754.BinarySingleNaN IEEE754.Binary IEEE754.Bits.
From Verif Require Import Res Dec DecFacts DecStr Syntax Trans BdMath Eval Item Functions FunctionsFacts GenCode GenCodeFacts GenSem FloatBits GenRun GenFloat GenFloat2 GenFloat4
  DecimalLit UseNumberType RFacts NumberTypeFacts ExactFloats Poly ApproxFacts Exp2Approx Exp2Float TestTable ConstSource Constants ExpFloat ExpGen P_Library P_Generated.
From Flocq Require Import Core Relative.
From Coq Require Import Lra.
Import ListNotations.
Open Scope string_scope.
Open Scope list_scope.
Open Scope R_scope.

(** ** C63 exp *)

(** From -86.98 to 88.02 (f64: -708.03 to 709.07) exp is within (2.68 + 2.005 |x|) half units of the last place
    (f64: 8.23 + 2.005 |x|). *)
Theorem C63_exp :
  forall F kind bits k o xmin xmax, (bits = 32 \/ bits = 64)%Z -> working kind bits -> reads_back F -> powi_within F k ->
  0 <= k <= (if (bits =? 32)%Z then bpow radix2 (-27) else / 1024) -> rval xmin = - / 2 -> rval xmax = / 2 ->
  exists fuel0, forall fuel, (fuel0 <= fuel)%nat -> (exists sub, exp_parts F kind bits o xmin xmax fuel sub) /\
    forall sub lib nan_of std checked (x : flt bits) d, exp_parts F kind bits o xmin xmax fuel sub ->
      generated bits sub lib ["fty"; "uty"; "ity"; "round"; "EXP2_ONE"; "EXP2_SCALE"; "EXP2_MIN"; "EXP2_MAX"; "INFINITY"; "exp2"; "LOG2_E"; "exp"] ->
      finite x = true -> (if (bits =? 32)%Z then -86.98 <= fR x <= 88.02 else -708.03 <= fR x <= 709.07) ->
      exists y, run bits nan_of std checked lib (S (S (S d))) "exp" [VFlt x] = Ok (VFlt y) /\ finite y = true /\
        Rabs (fR y - exp (fR x)) <=
          (if (bits =? 32)%Z then (2.68 + 2.005 * Rabs (fR x)) * bpow radix2 (-24) + 0.61 * k
           else (8.23 + 2.005 * Rabs (fR x)) * bpow radix2 (-53) + 2.04 * k) * exp (fR x).
Proof.
  intros F kind bits k o xmin xmax HB W RB PW HK Ea Eb. destruct (exp_facts F kind bits k o xmin xmax Ea Eb HB W RB PW HK) as (f0 & H). exists f0. intros fuel Hf.
  destruct (H fuel Hf) as [Ex All]. split; [exact Ex|]. intros sub lib nan_of std checked x d EP Gn Fx X. pose proof (generated_has _ _ _ _ Gn) as hh.
  destruct (All sub EP) as [AP Al]. destruct (Al lib nan_of std checked d) as (c & E2 & Cc & Fc & Vc); [intros n I; apply hh; cbn in I |- *; tauto|].
  pose proof (exp_error_small bits k HB HK) as ES. assert (hf : has bits sub lib "fty") by (apply hh; cbn; tauto). assert (he : has bits sub lib "exp") by (apply hh; cbn; tauto).
  destruct (exp_accuracy bits sub lib HB nan_of std checked (exp_error bits k) (exp_low bits) (exp_high bits) (S (S d)) ES E2 c Cc Fc Vc hf x he Fx) as (y & R & Fy & O).
  - apply Rabs_le. destruct HB as [-> | ->]; cbn [Z.eqb Pos.eqb] in X; lra.
  - destruct HB as [-> | ->]; unfold exp_low, exp_high; cbn [Z.eqb Pos.eqb] in *.
    + pose proof (quot_low (-125.495) (fR x) ltac:(lra) ltac:(lra)). pose proof (quot_high 126.99 (fR x) ltac:(lra) ltac:(lra)). lra.
    + pose proof (quot_low (-1021.49) (fR x) ltac:(lra) ltac:(lra)). pose proof (quot_high 1022.985 (fR x) ltac:(lra) ltac:(lra)). lra.
  - exists y. split; [exact R|]. split; [exact Fy|]. apply Rle_trans with (1 := O). apply Rmult_le_compat_r; [left; apply exp_pos|].
    unfold theta, exp_error. pose proof (Rabs_pos (fR x)). set (a := Rabs (fR x)) in *. clearbody a. destruct HB as [-> | ->]; cbn [Z.eqb Pos.eqb] in *; [change (prec 32) with 24%Z|change (prec 64) with 53%Z].
    + pose proof (bpow_gt_0 radix2 (-24)) as B. change (- (24))%Z with (-24)%Z. set (e := bpow radix2 (-24)) in *. clearbody e. nra.
    + pose proof (bpow_gt_0 radix2 (-53)) as B. change (- (53))%Z with (-53)%Z. set (e := bpow radix2 (-53)) in *. clearbody e. nra.
Qed.
Print Assumptions C63_exp.

(** From 88.06 (f64: 709.2) on exp gives infinity, although e^x is representable up to 88.72 (709.78); up to -88.75
    (-709.9) it gives 0.  Infinite arguments included. *)
Theorem C63_far :
  forall F kind bits k o xmin xmax, (bits = 32 \/ bits = 64)%Z -> working kind bits -> reads_back F -> powi_within F k ->
  0 <= k <= (if (bits =? 32)%Z then bpow radix2 (-27) else / 1024) -> rval xmin = - / 2 -> rval xmax = / 2 ->
  exists fuel0, forall fuel, (fuel0 <= fuel)%nat -> (exists sub, exp_parts F kind bits o xmin xmax fuel sub) /\
    forall sub lib nan_of std checked (x : flt bits) d, exp_parts F kind bits o xmin xmax fuel sub ->
      generated bits sub lib ["fty"; "uty"; "ity"; "round"; "EXP2_ONE"; "EXP2_SCALE"; "EXP2_MIN"; "EXP2_MAX"; "INFINITY"; "exp2"; "LOG2_E"; "exp"] ->
      Binary.is_nan _ _ x = false ->
      (sign x = false -> (finite x = true -> (if (bits =? 32)%Z then 88.06 else 709.2) <= fR x) ->
        run bits nan_of std checked lib (S (S (S d))) "exp" [VFlt x] = Ok (VFlt (Binary.B754_infinity _ _ false))) /\
      (sign x = true -> (finite x = true -> fR x <= - (if (bits =? 32)%Z then 88.75 else 709.9)) ->
        run bits nan_of std checked lib (S (S (S d))) "exp" [VFlt x] = Ok (VFlt (Binary.B754_zero _ _ false))).
Proof.
  intros F kind bits k o xmin xmax HB W RB PW HK Ea Eb. destruct (exp_facts F kind bits k o xmin xmax Ea Eb HB W RB PW HK) as (f0 & H). exists f0. intros fuel Hf.
  destruct (H fuel Hf) as [Ex All]. split; [exact Ex|]. intros sub lib nan_of std checked x d EP Gn Nx. pose proof (generated_has _ _ _ _ Gn) as hh.
  destruct (All sub EP) as [AP Al]. destruct (Al lib nan_of std checked d) as (c & E2 & Cc & Fc & Vc); [intros n I; apply hh; cbn in I |- *; tauto|].
  pose proof (exp_error_small bits k HB HK) as ES. assert (hf : has bits sub lib "fty") by (apply hh; cbn; tauto). assert (he : has bits sub lib "exp") by (apply hh; cbn; tauto).
  assert (h2 : forall n, In n exp2_needs -> has bits sub lib n) by (intros n I; apply hh; cbn in I |- *; tauto).
  assert (EM : IZR (emax bits) = if (bits =? 32)%Z then 128 else 1024) by (destruct HB as [-> | ->]; reflexivity).
  split; intros Sx L; [apply (exp_far bits sub lib HB nan_of std checked (exp_error bits k) (exp_low bits) (exp_high bits) (S (S d)) E2 c Cc Fc Vc hf false d x he h2 AP Nx Sx)|apply (exp_far bits sub lib HB nan_of std checked (exp_error bits k) (exp_low bits) (exp_high bits) (S (S d)) E2 c Cc Fc Vc hf true d x he h2 AP Nx Sx)]; intros Fx; specialize (L Fx); rewrite EM;
    [rewrite Rabs_pos_eq|rewrite Rabs_left]; destruct (bits =? 32)%Z; lra.
Qed.
Print Assumptions C63_far.

(** The library of every function for f32, with 10f64.powi correctly rounded. *)
Definition exp_lib (sub : string -> expr) : list item := match library 32 sub ["libm"; "all"] [] with Some l => l | None => [] end.
Definition exp_names' : list string := exp_names ++ ["exp"; "sinh"; "cosh"; "tanh"].
Lemma exp_lib_generated sub ns : (forall n, In n ns -> In n exp_names') -> generated 32 sub (exp_lib sub) ns.
Proof.
  intros Sn. split; [left; reflexivity|]. split.
  - exists ["libm"; "all"], []. unfold exp_lib. destruct (library_exists 32 sub ["libm"; "all"] []) as (l & E). rewrite E. reflexivity.
  - intros n I. apply Sn in I.
    assert (A : forallb (fun n => existsb (fun i => match item_name i with Some m => String.eqb m n | None => false end) (exp_lib sub)) exp_names' = true) by (vm_compute; reflexivity).
    rewrite forallb_forall in A. specialize (A n I). apply existsb_exists in A. destruct A as (it & I2 & N). exists it. split; [exact I2|].
    destruct (item_name it); [|discriminate]. apply String.eqb_eq in N. congruence.
Qed.
Lemma exact_case nans : working "decimal" 32 /\ reads_back (exact_floats nans) /\ powi_within (exact_floats nans) (bpow radix2 (-53)) /\
  0 <= bpow radix2 (-53) <= bpow radix2 (-27) /\ rval (BD (-5) 1) = - / 2 /\ rval (BD 5 1) = / 2.
Proof.
  assert (V : forall m, rval (BD m 1) = IZR m / 10) by (intros m; rewrite rval_eq; cbn [mant scale]; rewrite r10_num by lia; reflexivity).
  split; [left; auto|]. split; [apply exact_reads_back|]. split; [apply exact_powi|]. split; [split; [apply bpow_ge_0|apply bpow_le; lia]|]. rewrite !V. lra.
Qed.
Lemma value_of b m e : Binary.B2FF _ _ (of_bits 32 b) = Binary.F754_finite false m e -> fR (of_bits 32 b) = IZR (Z.pos m) * bpow radix2 e.
Proof. intros B. rewrite <- Binary.FF2R_B2FF, B. reflexivity. Qed.
Notation f32 := (of_bits 32).

Example C63_case : forall o nans nan_of, exists fuel0, forall fuel, (fuel0 <= fuel)%nat -> exists sub,
  exp_parts (exact_floats nans) "decimal" 32 o (BD (-5) 1) (BD 5 1) fuel sub /\ let call f x := run 32 nan_of (no_std 32) true (exp_lib sub) 3 f [VFlt (f32 x)] in
  fR (f32 0x3F800000) = 1 /\ (exists y, call "exp" 0x3F800000%Z = Ok (VFlt y) /\ Rabs (fR y - exp 1) <= bpow radix2 (-20)) /\
  fR (f32 0x42B20000) = 89 /\ call "exp" 0x42B20000%Z = Ok (VFlt (f32 0x7F800000)) /\ call "exp" 0xFF800000%Z = Ok (VFlt (f32 0)).
Proof.
  intros o nans nan_of. destruct (exact_case nans) as (W & RB & PW & HK & Ea & Eb).
  destruct (C63_exp (exact_floats nans) "decimal" 32 (bpow radix2 (-53)) o (BD (-5) 1) (BD 5 1) ltac:(left; reflexivity) W RB PW HK Ea Eb) as (f0 & H0).
  destruct (C63_far (exact_floats nans) "decimal" 32 (bpow radix2 (-53)) o (BD (-5) 1) (BD 5 1) ltac:(left; reflexivity) W RB PW HK Ea Eb) as (f1 & H1).
  exists (Nat.max f0 f1). intros fuel Hf. destruct (H0 fuel ltac:(lia)) as [(sub & EP) A0]. destruct (H1 fuel ltac:(lia)) as [_ A1]. exists sub. split; [exact EP|]. cbv zeta.
  assert (X : fR (f32 0x3F800000) = 1). { rewrite (value_of _ 8388608 (-23)) by (vm_compute; reflexivity). change (bpow radix2 (-23)) with (/ 8388608). lra. }
  assert (X2 : fR (f32 0x42B20000) = 89). { rewrite (value_of _ 11665408 (-17)) by (vm_compute; reflexivity). change (bpow radix2 (-17)) with (/ 131072). lra. }
  split; [exact X|]. split; [|split; [exact X2|]].
  - destruct (A0 sub (exp_lib sub) nan_of (no_std 32) true (f32 0x3F800000) 0%nat EP ltac:(apply exp_lib_generated; cbn; tauto) ltac:(vm_compute; reflexivity)) as (y & R & _ & B); [cbn [Z.eqb Pos.eqb]; rewrite X; lra|].
    exists y. split; [exact R|]. rewrite X in B. cbn [Z.eqb Pos.eqb] in B. rewrite Rabs_R1 in B. apply Rle_trans with (1 := B). pose proof exp_le_3.
    change (bpow radix2 (-24)) with (/ 16777216). change (bpow radix2 (-20)) with (/ 1048576).
    assert (0 < bpow radix2 (-53) <= bpow radix2 (-27)) by (split; [apply bpow_gt_0|apply bpow_le; lia]). change (bpow radix2 (-27)) with (/ 134217728) in *. pose proof (exp_pos 1). nra.
  - split; apply (A1 sub (exp_lib sub) nan_of (no_std 32) true _ 0%nat EP ltac:(apply exp_lib_generated; cbn; tauto)); try (vm_compute; reflexivity).
    + intros _. cbn [Z.eqb Pos.eqb]. rewrite X2. lra.
    + intros D. vm_compute in D. discriminate D.
Qed.

(** ** C64 sinh and cosh *)

(** Up to 86.28 (f64: 707.34) both are within (4.4 + 2.005 |x|) half units of the last place of cosh x (f64: 9.95 + 2.005 |x|). *)
Theorem C64_cosh :
  forall F kind bits k o xmin xmax, (bits = 32 \/ bits = 64)%Z -> working kind bits -> reads_back F -> powi_within F k ->
  0 <= k <= (if (bits =? 32)%Z then bpow radix2 (-27) else / 1024) -> rval xmin = - / 2 -> rval xmax = / 2 ->
  exists fuel0, forall fuel, (fuel0 <= fuel)%nat -> (exists sub, exp_parts F kind bits o xmin xmax fuel sub) /\
    forall sub lib nan_of std checked (x : flt bits) d, exp_parts F kind bits o xmin xmax fuel sub ->
      generated bits sub lib ["fty"; "uty"; "ity"; "round"; "EXP2_ONE"; "EXP2_SCALE"; "EXP2_MIN"; "EXP2_MAX"; "INFINITY"; "exp2"; "LOG2_E"; "cosh"] ->
      finite x = true -> Rabs (fR x) <= (if (bits =? 32)%Z then 86.28 else 707.34) ->
      exists y, run bits nan_of std checked lib (S (S (S d))) "cosh" [VFlt x] = Ok (VFlt y) /\ finite y = true /\
        Rabs (fR y - cosh (fR x)) <=
          (if (bits =? 32)%Z then (4.4 + 2.005 * Rabs (fR x)) * bpow radix2 (-24) + 0.61 * k
           else (9.95 + 2.005 * Rabs (fR x)) * bpow radix2 (-53) + 2.04 * k) * cosh (fR x).
Proof.
  intros F kind bits k o xmin xmax HB W RB PW HK Ea Eb. destruct (exp_facts F kind bits k o xmin xmax Ea Eb HB W RB PW HK) as (f0 & H). exists f0. intros fuel Hf.
  destruct (H fuel Hf) as [Ex All]. split; [exact Ex|]. intros sub lib nan_of std checked x d EP Gn Fx X. pose proof (generated_has _ _ _ _ Gn) as hh.
  destruct (All sub EP) as [AP Al]. destruct (Al lib nan_of std checked d) as (c & E2 & Cc & Fc & Vc); [intros n I; apply hh; cbn in I |- *; tauto|].
  pose proof (exp_error_small bits k HB HK) as ES. assert (hf : has bits sub lib "fty") by (apply hh; cbn; tauto). assert (he : has bits sub lib "cosh") by (apply hh; cbn; tauto).
  assert (EM : IZR (emax bits) = if (bits =? 32)%Z then 128 else 1024) by (destruct HB as [-> | ->]; reflexivity).
  assert (Q : Rabs (fR x) / ln 2 <= if (bits =? 32)%Z then 124.48 else 1020.488) by (apply quot_high; destruct (bits =? 32)%Z; lra).
  destruct (cosh_accuracy bits sub lib HB nan_of std checked (exp_error bits k) (exp_low bits) (exp_high bits) (S (S d)) ES E2 c Cc Fc Vc hf x he Fx) as (y & R & Fy & O).
  - destruct (bits =? 32)%Z; lra.
  - unfold exp_low. destruct (bits =? 32)%Z; lra.
  - unfold exp_high. destruct (bits =? 32)%Z; lra.
  - rewrite EM. destruct (bits =? 32)%Z; lra.
  - exists y. split; [exact R|]. split; [exact Fy|]. apply Rle_trans with (1 := O).
    apply Rmult_le_compat_r; [unfold cosh; pose proof (exp_pos (fR x)); pose proof (exp_pos (- fR x)); lra|].
    unfold theta, exp_error. pose proof (Rabs_pos (fR x)). set (a := Rabs (fR x)) in *. clearbody a. destruct HB as [-> | ->]; cbn [Z.eqb Pos.eqb] in *; [change (prec 32) with 24%Z|change (prec 64) with 53%Z].
    + pose proof (bpow_gt_0 radix2 (-24)) as B. change (- (24))%Z with (-24)%Z. set (e := bpow radix2 (-24)) in *. clearbody e. nra.
    + pose proof (bpow_gt_0 radix2 (-53)) as B. change (- (53))%Z with (-53)%Z. set (e := bpow radix2 (-53)) in *. clearbody e. nra.
Qed.
Print Assumptions C64_cosh.
Theorem C64_sinh :
  forall F kind bits k o xmin xmax, (bits = 32 \/ bits = 64)%Z -> working kind bits -> reads_back F -> powi_within F k ->
  0 <= k <= (if (bits =? 32)%Z then bpow radix2 (-27) else / 1024) -> rval xmin = - / 2 -> rval xmax = / 2 ->
  exists fuel0, forall fuel, (fuel0 <= fuel)%nat -> (exists sub, exp_parts F kind bits o xmin xmax fuel sub) /\
    forall sub lib nan_of std checked (x : flt bits) d, exp_parts F kind bits o xmin xmax fuel sub ->
      generated bits sub lib ["fty"; "uty"; "ity"; "round"; "EXP2_ONE"; "EXP2_SCALE"; "EXP2_MIN"; "EXP2_MAX"; "INFINITY"; "exp2"; "LOG2_E"; "sinh"] ->
      finite x = true -> Rabs (fR x) <= (if (bits =? 32)%Z then 86.28 else 707.34) ->
      exists y, run bits nan_of std checked lib (S (S (S d))) "sinh" [VFlt x] = Ok (VFlt y) /\ finite y = true /\
        Rabs (fR y - sinh (fR x)) <=
          (if (bits =? 32)%Z then (4.4 + 2.005 * Rabs (fR x)) * bpow radix2 (-24) + 0.61 * k
           else (9.95 + 2.005 * Rabs (fR x)) * bpow radix2 (-53) + 2.04 * k) * cosh (fR x).
Proof.
  intros F kind bits k o xmin xmax HB W RB PW HK Ea Eb. destruct (exp_facts F kind bits k o xmin xmax Ea Eb HB W RB PW HK) as (f0 & H). exists f0. intros fuel Hf.
  destruct (H fuel Hf) as [Ex All]. split; [exact Ex|]. intros sub lib nan_of std checked x d EP Gn Fx X. pose proof (generated_has _ _ _ _ Gn) as hh.
  destruct (All sub EP) as [AP Al]. destruct (Al lib nan_of std checked d) as (c & E2 & Cc & Fc & Vc); [intros n I; apply hh; cbn in I |- *; tauto|].
  pose proof (exp_error_small bits k HB HK) as ES. assert (hf : has bits sub lib "fty") by (apply hh; cbn; tauto). assert (he : has bits sub lib "sinh") by (apply hh; cbn; tauto).
  assert (EM : IZR (emax bits) = if (bits =? 32)%Z then 128 else 1024) by (destruct HB as [-> | ->]; reflexivity).
  assert (Q : Rabs (fR x) / ln 2 <= if (bits =? 32)%Z then 124.48 else 1020.488) by (apply quot_high; destruct (bits =? 32)%Z; lra).
  destruct (sinh_accuracy bits sub lib HB nan_of std checked (exp_error bits k) (exp_low bits) (exp_high bits) (S (S d)) ES E2 c Cc Fc Vc hf x he Fx) as (y & R & Fy & O).
  - destruct (bits =? 32)%Z; lra.
  - unfold exp_low. destruct (bits =? 32)%Z; lra.
  - unfold exp_high. destruct (bits =? 32)%Z; lra.
  - rewrite EM. destruct (bits =? 32)%Z; lra.
  - exists y. split; [exact R|]. split; [exact Fy|]. apply Rle_trans with (1 := O).
    apply Rmult_le_compat_r; [unfold cosh; pose proof (exp_pos (fR x)); pose proof (exp_pos (- fR x)); lra|].
    unfold theta, exp_error. pose proof (Rabs_pos (fR x)). set (a := Rabs (fR x)) in *. clearbody a. destruct HB as [-> | ->]; cbn [Z.eqb Pos.eqb] in *; [change (prec 32) with 24%Z|change (prec 64) with 53%Z].
    + pose proof (bpow_gt_0 radix2 (-24)) as B. change (- (24))%Z with (-24)%Z. set (e := bpow radix2 (-24)) in *. clearbody e. nra.
    + pose proof (bpow_gt_0 radix2 (-53)) as B. change (- (53))%Z with (-53)%Z. set (e := bpow radix2 (-53)) in *. clearbody e. nra.
Qed.
Print Assumptions C64_sinh.

(** The bound is relative to cosh, not to sinh, for a reason: for small arguments sinh gives exactly 0. *)
Theorem C64_sinh_tiny :
  forall F kind bits k o xmin xmax, (bits = 32 \/ bits = 64)%Z -> working kind bits -> reads_back F -> powi_within F k ->
  0 <= k <= (if (bits =? 32)%Z then bpow radix2 (-27) else / 1024) -> rval xmin = - / 2 -> rval xmax = / 2 ->
  exists fuel0, forall fuel, (fuel0 <= fuel)%nat -> (exists sub, exp_parts F kind bits o xmin xmax fuel sub) /\
    forall sub lib nan_of std checked (x : flt bits) d, exp_parts F kind bits o xmin xmax fuel sub ->
      generated bits sub lib ["fty"; "uty"; "ity"; "round"; "EXP2_ONE"; "EXP2_SCALE"; "EXP2_MIN"; "EXP2_MAX"; "INFINITY"; "exp2"; "LOG2_E"; "sinh"] ->
      finite x = true -> Rabs (fR x) <= (if (bits =? 32)%Z then bpow radix2 (-26) else bpow radix2 (-55)) ->
      run bits nan_of std checked lib (S (S (S d))) "sinh" [VFlt x] = Ok (VFlt (Binary.B754_zero _ _ false)).
Proof.
  intros F kind bits k o xmin xmax HB W RB PW HK Ea Eb. destruct (exp_facts F kind bits k o xmin xmax Ea Eb HB W RB PW HK) as (f0 & H). exists f0. intros fuel Hf.
  destruct (H fuel Hf) as [Ex All]. split; [exact Ex|]. intros sub lib nan_of std checked x d EP Gn Fx X. pose proof (generated_has _ _ _ _ Gn) as hh.
  destruct (All sub EP) as [AP Al]. destruct (Al lib nan_of std checked d) as (c & E2 & Cc & Fc & Vc); [intros n I; apply hh; cbn in I |- *; tauto|].
  pose proof (exp_error_small bits k HB HK) as ES. assert (hf : has bits sub lib "fty") by (apply hh; cbn; tauto). assert (he : has bits sub lib "sinh") by (apply hh; cbn; tauto).
  apply (sinh_tiny bits sub lib HB nan_of std checked (exp_error bits k) (exp_low bits) (exp_high bits) (S (S d)) ES E2 c Cc Fc Vc hf x he Fx).
  - unfold exp_low, exp_high. destruct (bits =? 32)%Z; lra.
  - destruct HB as [-> | ->]; exact X.
Qed.
Print Assumptions C64_sinh_tiny.

Example C64_case : forall o nans nan_of, exists fuel0, forall fuel, (fuel0 <= fuel)%nat -> exists sub,
  exp_parts (exact_floats nans) "decimal" 32 o (BD (-5) 1) (BD 5 1) fuel sub /\ let call f x := run 32 nan_of (no_std 32) true (exp_lib sub) 3 f [VFlt (f32 x)] in
  fR (f32 0x3F800000) = 1 /\ (exists y, call "cosh" 0x3F800000%Z = Ok (VFlt y) /\ Rabs (fR y - cosh 1) <= bpow radix2 (-20)) /\
  (exists y, call "sinh" 0x3F800000%Z = Ok (VFlt y) /\ Rabs (fR y - sinh 1) <= bpow radix2 (-20)) /\
  fR (f32 0x32000000) = bpow radix2 (-27) /\ call "sinh" 0x32000000%Z = Ok (VFlt (f32 0)).
Proof.
  intros o nans nan_of. destruct (exact_case nans) as (W & RB & PW & HK & Ea & Eb).
  destruct (C64_cosh (exact_floats nans) "decimal" 32 (bpow radix2 (-53)) o (BD (-5) 1) (BD 5 1) ltac:(left; reflexivity) W RB PW HK Ea Eb) as (f0 & H0).
  destruct (C64_sinh (exact_floats nans) "decimal" 32 (bpow radix2 (-53)) o (BD (-5) 1) (BD 5 1) ltac:(left; reflexivity) W RB PW HK Ea Eb) as (f1 & H1).
  destruct (C64_sinh_tiny (exact_floats nans) "decimal" 32 (bpow radix2 (-53)) o (BD (-5) 1) (BD 5 1) ltac:(left; reflexivity) W RB PW HK Ea Eb) as (f2 & H2).
  exists (Nat.max f0 (Nat.max f1 f2)). intros fuel Hf. destruct (H0 fuel ltac:(lia)) as [(sub & EP) A0]. destruct (H1 fuel ltac:(lia)) as [_ A1]. destruct (H2 fuel ltac:(lia)) as [_ A2]. exists sub. split; [exact EP|]. cbv zeta.
  assert (X : fR (f32 0x3F800000) = 1). { rewrite (value_of _ 8388608 (-23)) by (vm_compute; reflexivity). change (bpow radix2 (-23)) with (/ 8388608). lra. }
  assert (X2 : fR (f32 0x32000000) = bpow radix2 (-27)). { rewrite (value_of _ 8388608 (-50)) by (vm_compute; reflexivity). change 8388608%Z with (radix2 ^ 23)%Z. rewrite IZR_Zpower, <- bpow_plus by lia. reflexivity. }
  assert (C1 : cosh 1 <= 2). { unfold cosh. pose proof exp_le_3. assert (exp (-1) <= exp 0) by (left; apply exp_increasing; lra). rewrite exp_0 in *. change (- (1)) with (-1). lra. }
  assert (P : 0 < bpow radix2 (-53) <= bpow radix2 (-27)) by (split; [apply bpow_gt_0|apply bpow_le; lia]). change (bpow radix2 (-27)) with (/ 134217728) in P.
  assert (C0 : 0 < cosh 1) by (unfold cosh; pose proof (exp_pos 1); pose proof (exp_pos (- (1))); lra).
  split; [exact X|]. split; [|split; [|split; [exact X2|]]].
  - destruct (A0 sub (exp_lib sub) nan_of (no_std 32) true (f32 0x3F800000) 0%nat EP ltac:(apply exp_lib_generated; cbn; tauto) ltac:(vm_compute; reflexivity)) as (y & R & _ & B); [cbn [Z.eqb Pos.eqb]; rewrite X, Rabs_R1; lra|].
    exists y. split; [exact R|]. rewrite X in B. cbn [Z.eqb Pos.eqb] in B. rewrite Rabs_R1 in B. apply Rle_trans with (1 := B).
    change (bpow radix2 (-24)) with (/ 16777216). change (bpow radix2 (-20)) with (/ 1048576). nra.
  - destruct (A1 sub (exp_lib sub) nan_of (no_std 32) true (f32 0x3F800000) 0%nat EP ltac:(apply exp_lib_generated; cbn; tauto) ltac:(vm_compute; reflexivity)) as (y & R & _ & B); [cbn [Z.eqb Pos.eqb]; rewrite X, Rabs_R1; lra|].
    exists y. split; [exact R|]. rewrite X in B. cbn [Z.eqb Pos.eqb] in B. rewrite Rabs_R1 in B. apply Rle_trans with (1 := B).
    change (bpow radix2 (-24)) with (/ 16777216). change (bpow radix2 (-20)) with (/ 1048576). nra.
  - apply (A2 sub (exp_lib sub) nan_of (no_std 32) true _ 0%nat EP ltac:(apply exp_lib_generated; cbn; tauto)); [vm_compute; reflexivity|].
    cbn [Z.eqb Pos.eqb]. rewrite X2, Rabs_pos_eq by apply bpow_ge_0. apply bpow_le. lia.
Qed.

(** ** C65 tanh *)

(** From -43.49 to 44.01 (f64: -354.01 to 354.53) tanh is within 5.91 half units of the last place of 1 (f64: 8.75). *)
Theorem C65_tanh :
  forall F kind bits k o xmin xmax, (bits = 32 \/ bits = 64)%Z -> working kind bits -> reads_back F -> powi_within F k ->
  0 <= k <= (if (bits =? 32)%Z then bpow radix2 (-27) else / 1024) -> rval xmin = - / 2 -> rval xmax = / 2 ->
  exists fuel0, forall fuel, (fuel0 <= fuel)%nat -> (exists sub, exp_parts F kind bits o xmin xmax fuel sub) /\
    forall sub lib nan_of std checked (x : flt bits) d, exp_parts F kind bits o xmin xmax fuel sub ->
      generated bits sub lib ["fty"; "uty"; "ity"; "round"; "EXP2_ONE"; "EXP2_SCALE"; "EXP2_MIN"; "EXP2_MAX"; "INFINITY"; "exp2"; "LOG2_E"; "tanh"] ->
      finite x = true -> (if (bits =? 32)%Z then -43.49 <= fR x <= 44.01 else -354.01 <= fR x <= 354.53) ->
      exists y, run bits nan_of std checked lib (S (S (S d))) "tanh" [VFlt x] = Ok (VFlt y) /\ finite y = true /\
        Rabs (fR y - tanh (fR x)) <= (if (bits =? 32)%Z then 5.91 * bpow radix2 (-24) + 0.31 * k else 8.75 * bpow radix2 (-53) + 1.05 * k).
Proof.
  intros F kind bits k o xmin xmax HB W RB PW HK Ea Eb. destruct (exp_facts F kind bits k o xmin xmax Ea Eb HB W RB PW HK) as (f0 & H). exists f0. intros fuel Hf.
  destruct (H fuel Hf) as [Ex All]. split; [exact Ex|]. intros sub lib nan_of std checked x d EP Gn Fx X. pose proof (generated_has _ _ _ _ Gn) as hh.
  destruct (All sub EP) as [AP Al]. destruct (Al lib nan_of std checked d) as (c & E2 & Cc & Fc & Vc); [intros n I; apply hh; cbn in I |- *; tauto|].
  pose proof (exp_error_small bits k HB HK) as ES. assert (hf : has bits sub lib "fty") by (apply hh; cbn; tauto). assert (he : has bits sub lib "tanh") by (apply hh; cbn; tauto).
  destruct (tanh_accuracy bits sub lib HB nan_of std checked (exp_error bits k) (exp_low bits) (exp_high bits) (S (S d)) ES E2 c Cc Fc Vc hf x he Fx) as (y & R & Fy & O).
  - apply Rabs_le. destruct HB as [-> | ->]; cbn [Z.eqb Pos.eqb] in X; lra.
  - destruct HB as [-> | ->]; unfold exp_low, exp_high; cbn [Z.eqb Pos.eqb] in *.
    + pose proof (quot_low (-125.49) (2 * fR x) ltac:(lra) ltac:(lra)). pose proof (quot_high 126.99 (2 * fR x) ltac:(lra) ltac:(lra)). lra.
    + pose proof (quot_low (-1021.49) (2 * fR x) ltac:(lra) ltac:(lra)). pose proof (quot_high 1022.985 (2 * fR x) ltac:(lra) ltac:(lra)). lra.
  - rewrite (high_ok bits HB). lra.
  - exists y. split; [exact R|]. split; [exact Fy|]. apply Rle_trans with (1 := O).
    unfold exp_error. destruct HB as [-> | ->]; cbn [Z.eqb Pos.eqb] in *; [change (prec 32) with 24%Z|change (prec 64) with 53%Z].
    + pose proof (bpow_gt_0 radix2 (-24)) as B. change (- (24))%Z with (-24)%Z. set (e := bpow radix2 (-24)) in *. clearbody e. lra.
    + pose proof (bpow_gt_0 radix2 (-53)) as B. change (- (53))%Z with (-53)%Z. set (e := bpow radix2 (-53)) in *. clearbody e. lra.
Qed.
Print Assumptions C65_tanh.

(** Left of -44.38 (f64: -354.95) tanh is -1; right of 44.03 (f64: 354.6), infinity included, it is not a number. *)
Theorem C65_far :
  forall F kind bits k o xmin xmax, (bits = 32 \/ bits = 64)%Z -> working kind bits -> reads_back F -> powi_within F k ->
  0 <= k <= (if (bits =? 32)%Z then bpow radix2 (-27) else / 1024) -> rval xmin = - / 2 -> rval xmax = / 2 ->
  exists fuel0, forall fuel, (fuel0 <= fuel)%nat -> (exists sub, exp_parts F kind bits o xmin xmax fuel sub) /\
    forall sub lib nan_of std checked (x : flt bits) d, exp_parts F kind bits o xmin xmax fuel sub ->
      generated bits sub lib ["fty"; "uty"; "ity"; "round"; "EXP2_ONE"; "EXP2_SCALE"; "EXP2_MIN"; "EXP2_MAX"; "INFINITY"; "exp2"; "LOG2_E"; "tanh"] ->
      Binary.is_nan _ _ x = false ->
      (sign x = true -> (finite x = true -> fR x <= - (if (bits =? 32)%Z then 44.38 else 354.95)) ->
        exists y, run bits nan_of std checked lib (S (S (S d))) "tanh" [VFlt x] = Ok (VFlt y) /\ finite y = true /\ fR y = -1) /\
      (sign x = false -> (finite x = true -> (if (bits =? 32)%Z then 44.03 else 354.6) <= fR x) ->
        exists y, run bits nan_of std checked lib (S (S (S d))) "tanh" [VFlt x] = Ok (VFlt y) /\ Binary.is_nan _ _ y = true).
Proof.
  intros F kind bits k o xmin xmax HB W RB PW HK Ea Eb. destruct (exp_facts F kind bits k o xmin xmax Ea Eb HB W RB PW HK) as (f0 & H). exists f0. intros fuel Hf.
  destruct (H fuel Hf) as [Ex All]. split; [exact Ex|]. intros sub lib nan_of std checked x d EP Gn Nx. pose proof (generated_has _ _ _ _ Gn) as hh.
  destruct (All sub EP) as [AP Al]. destruct (Al lib nan_of std checked d) as (c & E2 & Cc & Fc & Vc); [intros n I; apply hh; cbn in I |- *; tauto|].
  pose proof (exp_error_small bits k HB HK) as ES. assert (hf : has bits sub lib "fty") by (apply hh; cbn; tauto). assert (he : has bits sub lib "tanh") by (apply hh; cbn; tauto).
  assert (h2 : forall n, In n exp2_needs -> has bits sub lib n) by (intros n I; apply hh; cbn in I |- *; tauto).
  assert (EM : IZR (emax bits) = if (bits =? 32)%Z then 128 else 1024) by (destruct HB as [-> | ->]; reflexivity).
  split; intros Sx L; [apply (tanh_far bits sub lib HB nan_of std checked (exp_error bits k) (exp_low bits) (exp_high bits) (S (S d)) ES E2 c Cc Fc Vc hf true d x he h2 AP Nx Sx)|apply (tanh_far bits sub lib HB nan_of std checked (exp_error bits k) (exp_low bits) (exp_high bits) (S (S d)) ES E2 c Cc Fc Vc hf false d x he h2 AP Nx Sx)]; intros Fx; specialize (L Fx); rewrite EM;
    [rewrite Rabs_left|rewrite Rabs_pos_eq]; destruct (bits =? 32)%Z; lra.
Qed.
Print Assumptions C65_far.

Example C65_case : forall o nans nan_of, exists fuel0, forall fuel, (fuel0 <= fuel)%nat -> exists sub,
  exp_parts (exact_floats nans) "decimal" 32 o (BD (-5) 1) (BD 5 1) fuel sub /\ let call f x := run 32 nan_of (no_std 32) true (exp_lib sub) 3 f [VFlt (f32 x)] in
  fR (f32 0x3F800000) = 1 /\ (exists y, call "tanh" 0x3F800000%Z = Ok (VFlt y) /\ Rabs (fR y - tanh 1) <= bpow radix2 (-21)) /\
  fR (f32 0x42340000) = 45 /\ (exists y, call "tanh" 0x42340000%Z = Ok (VFlt y) /\ Binary.is_nan _ _ y = true) /\
  (exists y, call "tanh" 0xFF800000%Z = Ok (VFlt y) /\ fR y = -1).
Proof.
  intros o nans nan_of. destruct (exact_case nans) as (W & RB & PW & HK & Ea & Eb).
  destruct (C65_tanh (exact_floats nans) "decimal" 32 (bpow radix2 (-53)) o (BD (-5) 1) (BD 5 1) ltac:(left; reflexivity) W RB PW HK Ea Eb) as (f0 & H0).
  destruct (C65_far (exact_floats nans) "decimal" 32 (bpow radix2 (-53)) o (BD (-5) 1) (BD 5 1) ltac:(left; reflexivity) W RB PW HK Ea Eb) as (f1 & H1).
  exists (Nat.max f0 f1). intros fuel Hf. destruct (H0 fuel ltac:(lia)) as [(sub & EP) A0]. destruct (H1 fuel ltac:(lia)) as [_ A1]. exists sub. split; [exact EP|]. cbv zeta.
  assert (X : fR (f32 0x3F800000) = 1). { rewrite (value_of _ 8388608 (-23)) by (vm_compute; reflexivity). change (bpow radix2 (-23)) with (/ 8388608). lra. }
  assert (X2 : fR (f32 0x42340000) = 45). { rewrite (value_of _ 11796480 (-18)) by (vm_compute; reflexivity). change (bpow radix2 (-18)) with (/ 262144). lra. }
  split; [exact X|]. split; [|split; [exact X2|split]].
  - destruct (A0 sub (exp_lib sub) nan_of (no_std 32) true (f32 0x3F800000) 0%nat EP ltac:(apply exp_lib_generated; cbn; tauto) ltac:(vm_compute; reflexivity)) as (y & R & _ & B); [cbn [Z.eqb Pos.eqb]; rewrite X; lra|].
    exists y. split; [exact R|]. rewrite X in B. cbn [Z.eqb Pos.eqb] in B. apply Rle_trans with (1 := B).
    change (bpow radix2 (-24)) with (/ 16777216). change (bpow radix2 (-21)) with (/ 2097152).
    assert (0 < bpow radix2 (-53) <= bpow radix2 (-27)) by (split; [apply bpow_gt_0|apply bpow_le; lia]). change (bpow radix2 (-27)) with (/ 134217728) in *. lra.
  - apply (A1 sub (exp_lib sub) nan_of (no_std 32) true _ 0%nat EP ltac:(apply exp_lib_generated; cbn; tauto)); try (vm_compute; reflexivity). intros _. cbn [Z.eqb Pos.eqb]. rewrite X2. lra.
  - destruct (A1 sub (exp_lib sub) nan_of (no_std 32) true (f32 0xFF800000) 0%nat EP ltac:(apply exp_lib_generated; cbn; tauto) ltac:(vm_compute; reflexivity)) as [B _].
    destruct B as (y & R & _ & V); [vm_compute; reflexivity|intros D; vm_compute in D; discriminate D|]. exists y. auto.
Qed.
