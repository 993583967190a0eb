(** Property C72: the generated functions at arguments of opposite sign.  Theorems only.
    [same x y]: equal, or both NaN.  [negative x y]: y is x with its sign flipped, or both are NaN.  [opposite x y]: negative,
    or both are zeros of whatever signs.  [poly_of F kind bits v p e]: e is a polynomial in v of parity p as the generator emits it.
    [made_constant o bits n e]: e is the value of the constant n as the generator computes it. *)
From Coq Require Import List String Bool ZArith Ascii.
From Flocq Require Import Core IEEE754.Binary.
From Verif Require Import Res Dec Syntax Poly BdMath AccEval UseNumberType NumberTypeFacts ExactFloats Item GenCode GenCodeFacts GenSem FloatBits GenRun GenFloat GenFloat4
  Spliced SplicedExample SignFacts GenSym SymLib.
Import ListNotations.
Open Scope string_scope.
Open Scope list_scope.
Open Scope Z_scope.

(** ** C72 *)

(** sin is odd. *)
Theorem C72_sin :
  forall F o kind bits sub lib nan_of std checked, working kind bits -> reads_back F ->
  generated bits sub lib ["fty"; "ity"; "round"; "RECIP_2PI"; "sin"] -> made_constant o bits "RECIP_2PI" (sub "RECIP_2PI") -> poly_of F kind bits "x" POdd (sub "sin") ->
  forall d (x : flt bits), exists y y', run bits nan_of std checked lib (S (S d)) "sin" [VFlt x] = Ok (VFlt y) /\
    run bits nan_of std checked lib (S (S d)) "sin" [VFlt (fneg bits x)] = Ok (VFlt y') /\ opposite y y'.
Proof. intros F o kind bits sub lib nan_of std checked W RB G M P d x. exact (lib_sin F o kind bits sub lib nan_of std checked W RB d x G M P). Qed.
Print Assumptions C72_sin.

(** cos is even. *)
Theorem C72_cos :
  forall F o kind bits sub lib nan_of std checked, working kind bits -> reads_back F ->
  generated bits sub lib ["fty"; "ity"; "round"; "RECIP_2PI"; "cos"] -> made_constant o bits "RECIP_2PI" (sub "RECIP_2PI") -> poly_of F kind bits "x" PEven (sub "cos") ->
  forall d (x : flt bits), exists y y', run bits nan_of std checked lib (S (S d)) "cos" [VFlt x] = Ok (VFlt y) /\
    run bits nan_of std checked lib (S (S d)) "cos" [VFlt (fneg bits x)] = Ok (VFlt y') /\ same y y'.
Proof. intros F o kind bits sub lib nan_of std checked W RB G M P d x. exact (lib_cos F o kind bits sub lib nan_of std checked W RB d x G M P). Qed.
Print Assumptions C72_cos.

(** tan is odd. *)
Theorem C72_tan :
  forall F o kind bits sub lib nan_of std checked, working kind bits -> reads_back F ->
  generated bits sub lib ["fty"; "ity"; "round"; "RECIP_PI"; "tan"] -> made_constant o bits "RECIP_PI" (sub "RECIP_PI") -> poly_of F kind bits "x" POdd (sub "tan") ->
  forall d (x : flt bits), exists y y', run bits nan_of std checked lib (S (S d)) "tan" [VFlt x] = Ok (VFlt y) /\
    run bits nan_of std checked lib (S (S d)) "tan" [VFlt (fneg bits x)] = Ok (VFlt y') /\ opposite y y'.
Proof. intros F o kind bits sub lib nan_of std checked W RB G M P d x. exact (lib_tan F o kind bits sub lib nan_of std checked W RB d x G M P). Qed.
Print Assumptions C72_tan.

(** asin is odd. *)
Theorem C72_asin :
  forall F o kind bits sub lib nan_of std checked, working kind bits -> reads_back F ->
  generated bits sub lib ["fty"; "PI_BY_2"; "asin"] -> made_constant o bits "PI_BY_2" (sub "PI_BY_2") -> poly_of F kind bits "x" POdd (sub "asin") ->
  forall d (x : flt bits), exists y y', run bits nan_of std checked lib (S d) "asin" [VFlt x] = Ok (VFlt y) /\
    run bits nan_of std checked lib (S d) "asin" [VFlt (fneg bits x)] = Ok (VFlt y') /\ opposite y y'.
Proof. intros F o kind bits sub lib nan_of std checked W RB G M P d x. exact (lib_asin F o kind bits sub lib nan_of std checked W RB d x G M P). Qed.
Print Assumptions C72_asin.

(** atan is odd. *)
Theorem C72_atan :
  forall F o kind bits sub lib nan_of std checked, working kind bits -> reads_back F ->
  generated bits sub lib ["fty"; "PI_BY_2"; "atan"] -> made_constant o bits "PI_BY_2" (sub "PI_BY_2") -> poly_of F kind bits "x" POdd (sub "atan") ->
  forall d (x : flt bits), exists y y', run bits nan_of std checked lib (S d) "atan" [VFlt x] = Ok (VFlt y) /\
    run bits nan_of std checked lib (S d) "atan" [VFlt (fneg bits x)] = Ok (VFlt y') /\ opposite y y'.
Proof. intros F o kind bits sub lib nan_of std checked W RB G M P d x. exact (lib_atan F o kind bits sub lib nan_of std checked W RB d x G M P). Qed.
Print Assumptions C72_atan.

(** sinh is odd. *)
Theorem C72_sinh :
  forall F o kind bits sub lib nan_of std checked, working kind bits -> reads_back F ->
  generated bits sub lib ["fty"; "uty"; "ity"; "round"; "EXP2_ONE"; "EXP2_SCALE"; "EXP2_MIN"; "EXP2_MAX"; "INFINITY"; "exp2"; "LOG2_E"; "sinh"] -> made_constant o bits "LOG2_E" (sub "LOG2_E") -> poly_of F kind bits "x" PNeither (sub "exp2") ->
  forall d (x : flt bits), exists y y', run bits nan_of std checked lib (S (S (S d))) "sinh" [VFlt x] = Ok (VFlt y) /\
    run bits nan_of std checked lib (S (S (S d))) "sinh" [VFlt (fneg bits x)] = Ok (VFlt y') /\ opposite y y'.
Proof. intros F o kind bits sub lib nan_of std checked W RB G M P d x. exact (lib_sinh F o kind bits sub lib nan_of std checked W RB d x G M P). Qed.
Print Assumptions C72_sinh.

(** cosh is even. *)
Theorem C72_cosh :
  forall F o kind bits sub lib nan_of std checked, working kind bits -> reads_back F ->
  generated bits sub lib ["fty"; "uty"; "ity"; "round"; "EXP2_ONE"; "EXP2_SCALE"; "EXP2_MIN"; "EXP2_MAX"; "INFINITY"; "exp2"; "LOG2_E"; "cosh"] -> made_constant o bits "LOG2_E" (sub "LOG2_E") -> poly_of F kind bits "x" PNeither (sub "exp2") ->
  forall d (x : flt bits), exists y y', run bits nan_of std checked lib (S (S (S d))) "cosh" [VFlt x] = Ok (VFlt y) /\
    run bits nan_of std checked lib (S (S (S d))) "cosh" [VFlt (fneg bits x)] = Ok (VFlt y') /\ same y y'.
Proof. intros F o kind bits sub lib nan_of std checked W RB G M P d x. exact (lib_cosh F o kind bits sub lib nan_of std checked W RB d x G M P). Qed.
Print Assumptions C72_cosh.

(** cbrt is odd, zeros included. *)
Theorem C72_cbrt :
  forall kind bits sub lib nan_of std checked, working kind bits ->
  generated bits sub lib ["fty"; "uty"; "EXP2_ONE"; "ONE_THIRD"; "TWO_THIRDS"; "cbrt"] ->
  forall d (x : flt bits), exists y, run bits nan_of std checked lib (S d) "cbrt" [VFlt x] = Ok (VFlt y) /\
    run bits nan_of std checked lib (S d) "cbrt" [VFlt (fneg bits x)] = Ok (VFlt (fneg bits y)).
Proof. intros kind bits sub lib nan_of std checked W G d x. exact (lib_cbrt kind bits sub lib nan_of std checked W d x G). Qed.
Print Assumptions C72_cbrt.

(** recip is odd, zeros included. *)
Theorem C72_recip :
  forall kind bits sub lib nan_of std checked, working kind bits ->
  generated bits sub lib ["fty"; "uty"; "EXP2_ONE"; "recip_approx"; "recip"] ->
  forall d (x : flt bits), exists y y', run bits nan_of std checked lib (S (S d)) "recip" [VFlt x] = Ok (VFlt y) /\
    run bits nan_of std checked lib (S (S d)) "recip" [VFlt (fneg bits x)] = Ok (VFlt y') /\ negative y y'.
Proof. intros kind bits sub lib nan_of std checked W G d x. exact (lib_recip kind bits sub lib nan_of std checked W d x G). Qed.
Print Assumptions C72_recip.

(** atan2 is odd in its first argument when that is not zero. *)
Theorem C72_atan2 :
  forall F o kind bits sub lib nan_of std checked, working kind bits -> reads_back F ->
  generated bits sub lib ["fty"; "TAN_PI_BY_8"; "PI_BY_8"; "PI_BY_2"; "PI"; "atan2"] ->
  (forall n, In n ["TAN_PI_BY_8"; "PI_BY_8"; "PI_BY_2"; "PI"] -> made_constant o bits n (sub n)) -> poly_of F kind bits "z" PNeither (sub "atan2") ->
  forall d (y x : flt bits), Binary.is_nan _ _ y = false -> (forall s, y <> Binary.B754_zero _ _ s) ->
  exists r, run bits nan_of std checked lib (S d) "atan2" [VFlt y; VFlt x] = Ok (VFlt r) /\
    run bits nan_of std checked lib (S d) "atan2" [VFlt (fneg bits y); VFlt x] = Ok (VFlt (fneg bits r)).
Proof. intros F o kind bits sub lib nan_of std checked W RB G M P d y x. apply (lib_atan2 F o kind bits sub lib nan_of std checked W RB d y x G M P). Qed.
Print Assumptions C72_atan2.

(** At zero it is not: both zeros give the same angle. *)
Theorem C72_atan2_zero :
  forall F o kind bits sub lib nan_of std checked, working kind bits -> reads_back F ->
  generated bits sub lib ["fty"; "TAN_PI_BY_8"; "PI_BY_8"; "PI_BY_2"; "PI"; "atan2"] ->
  (forall n, In n ["TAN_PI_BY_8"; "PI_BY_8"; "PI_BY_2"; "PI"] -> made_constant o bits n (sub n)) -> poly_of F kind bits "z" PNeither (sub "atan2") ->
  forall d (x : flt bits), exists r, forall s, run bits nan_of std checked lib (S d) "atan2" [VFlt (Binary.B754_zero _ _ s); VFlt x] = Ok (VFlt r).
Proof. intros F o kind bits sub lib nan_of std checked W RB G M P d x. apply (lib_atan2 F o kind bits sub lib nan_of std checked W RB d x x G M P). Qed.
Print Assumptions C72_atan2_zero.

(** The normal density is the same with its argument and its mean exchanged. *)
Theorem C72_dnorm :
  forall F o kind bits sub lib nan_of std checked, working kind bits -> reads_back F ->
  generated bits sub lib ["fty"; "uty"; "ity"; "round"; "EXP2_ONE"; "EXP2_SCALE"; "EXP2_MIN"; "EXP2_MAX"; "INFINITY"; "exp2"; "LOG2_E"; "SQRT_RECIP_2PI"; "dnorm"] ->
  (forall n, In n ["LOG2_E"; "SQRT_RECIP_2PI"] -> made_constant o bits n (sub n)) -> poly_of F kind bits "x" PNeither (sub "exp2") ->
  forall d (x m s : flt bits), exists y y', run bits nan_of std checked lib (S (S (S d))) "dnorm" [VFlt x; VFlt m; VFlt s] = Ok (VFlt y) /\
    run bits nan_of std checked lib (S (S (S d))) "dnorm" [VFlt m; VFlt x; VFlt s] = Ok (VFlt y') /\ same y y'.
Proof. intros F o kind bits sub lib nan_of std checked W RB G M P d x m s. exact (lib_dnorm F o kind bits sub lib nan_of std checked W RB d x m s G M P). Qed.
Print Assumptions C72_dnorm.

(** A library of every function for f32; 0x40400000 is 3.0 and 0xC0400000 is -3.0. *)
Notation f32 := (of_bits 32).
Example C72_case : forall (nans : forall bits, list (flt bits) -> { x : flt bits | Binary.is_nan _ _ x = true }) std, exists sub, let call f l := run 32 (nans 32) std true (sym_lib sub) 3 f (map (fun b => VFlt (f32 b)) l) in
  f32 0xC0400000 = fneg 32 (f32 0x40400000) /\
  (exists y y', call "sin" [0x40400000] = Ok (VFlt y) /\ call "sin" [0xC0400000] = Ok (VFlt y') /\ opposite y y') /\
  (exists y y', call "cos" [0x40400000] = Ok (VFlt y) /\ call "cos" [0xC0400000] = Ok (VFlt y') /\ same y y') /\
  (exists y y', call "tan" [0x40400000] = Ok (VFlt y) /\ call "tan" [0xC0400000] = Ok (VFlt y') /\ opposite y y') /\
  (exists y y', call "asin" [0x40400000] = Ok (VFlt y) /\ call "asin" [0xC0400000] = Ok (VFlt y') /\ opposite y y') /\
  (exists y y', call "atan" [0x40400000] = Ok (VFlt y) /\ call "atan" [0xC0400000] = Ok (VFlt y') /\ opposite y y') /\
  (exists y y', call "sinh" [0x40400000] = Ok (VFlt y) /\ call "sinh" [0xC0400000] = Ok (VFlt y') /\ opposite y y') /\
  (exists y y', call "cosh" [0x40400000] = Ok (VFlt y) /\ call "cosh" [0xC0400000] = Ok (VFlt y') /\ same y y') /\
  (exists y, call "cbrt" [0x40400000] = Ok (VFlt y) /\ call "cbrt" [0xC0400000] = Ok (VFlt (fneg 32 y))) /\
  (exists y y', call "recip" [0x40400000] = Ok (VFlt y) /\ call "recip" [0xC0400000] = Ok (VFlt y') /\ negative y y') /\
  (exists r, call "atan2" [0x40400000; 0x3F800000] = Ok (VFlt r) /\ call "atan2" [0xC0400000; 0x3F800000] = Ok (VFlt (fneg 32 r))) /\
  (exists r, call "atan2" [0; 0xBF800000] = Ok (VFlt r) /\ call "atan2" [0x80000000; 0xBF800000] = Ok (VFlt r)) /\
  (exists y y', call "dnorm" [0x40400000; 0x3F800000; 0x3F800000] = Ok (VFlt y) /\ call "dnorm" [0x3F800000; 0x40400000; 0x3F800000] = Ok (VFlt y') /\ same y y').
Proof.
  intros nans std. destruct (sym_exists nans) as (sub & Ho & He & Hn & Hz & Hc). exists sub. cbv zeta.
  assert (W : working "decimal" 32) by (left; auto). pose proof (exact_reads_back nans) as RB. cbn [map].
  assert (E : f32 0xC0400000 = fneg 32 (f32 0x40400000)) by (apply (Binary.B2FF_inj 24 128); vm_compute; reflexivity). split; [exact E|]. rewrite E.
  pose proof (sym_lib_generated sub) as G.
  assert (M : forall n, In n constant_names -> made_constant sqrt_oracles 32 n (sub n)) by exact Hc.
  split; [exact (C72_sin _ _ _ 32 sub (sym_lib sub) (nans 32) std true W RB ltac:(apply G; reflexivity) (M "RECIP_2PI" ltac:(cbn; tauto)) (Ho "sin" ltac:(cbn; tauto)) 1%nat (f32 0x40400000))|].
  split; [exact (C72_cos _ _ _ 32 sub (sym_lib sub) (nans 32) std true W RB ltac:(apply G; reflexivity) (M "RECIP_2PI" ltac:(cbn; tauto)) He 1%nat (f32 0x40400000))|].
  split; [exact (C72_tan _ _ _ 32 sub (sym_lib sub) (nans 32) std true W RB ltac:(apply G; reflexivity) (M "RECIP_PI" ltac:(cbn; tauto)) (Ho "tan" ltac:(cbn; tauto)) 1%nat (f32 0x40400000))|].
  split; [exact (C72_asin _ _ _ 32 sub (sym_lib sub) (nans 32) std true W RB ltac:(apply G; reflexivity) (M "PI_BY_2" ltac:(cbn; tauto)) (Ho "asin" ltac:(cbn; tauto)) 2%nat (f32 0x40400000))|].
  split; [exact (C72_atan _ _ _ 32 sub (sym_lib sub) (nans 32) std true W RB ltac:(apply G; reflexivity) (M "PI_BY_2" ltac:(cbn; tauto)) (Ho "atan" ltac:(cbn; tauto)) 2%nat (f32 0x40400000))|].
  split; [exact (C72_sinh _ _ _ 32 sub (sym_lib sub) (nans 32) std true W RB ltac:(apply G; reflexivity) (M "LOG2_E" ltac:(cbn; tauto)) Hn 0%nat (f32 0x40400000))|].
  split; [exact (C72_cosh _ _ _ 32 sub (sym_lib sub) (nans 32) std true W RB ltac:(apply G; reflexivity) (M "LOG2_E" ltac:(cbn; tauto)) Hn 0%nat (f32 0x40400000))|].
  split; [exact (C72_cbrt _ 32 sub (sym_lib sub) (nans 32) std true W ltac:(apply G; reflexivity) 2%nat (f32 0x40400000))|].
  split; [exact (C72_recip _ 32 sub (sym_lib sub) (nans 32) std true W ltac:(apply G; reflexivity) 1%nat (f32 0x40400000))|].
  assert (G2 : forall n, In n ["TAN_PI_BY_8"; "PI_BY_8"; "PI_BY_2"; "PI"] -> made_constant sqrt_oracles 32 n (sub n)) by (intros n I; apply M; cbn in I |- *; tauto).
  split; [|split].
  - apply (C72_atan2 _ _ _ 32 sub (sym_lib sub) (nans 32) std true W RB ltac:(apply G; reflexivity) G2 Hz 2%nat); [reflexivity|].
    intros s D. assert (K : Binary.is_finite_strict _ _ (f32 0x40400000) = false) by (rewrite D; reflexivity). vm_compute in K. discriminate K.
  - destruct (C72_atan2_zero _ _ _ 32 sub (sym_lib sub) (nans 32) std true W RB ltac:(apply G; reflexivity) G2 Hz 2%nat (f32 0xBF800000)) as (r & H). exists r. split; [exact (H false)|exact (H true)].
  - apply (C72_dnorm _ sqrt_oracles _ 32 sub (sym_lib sub) (nans 32) std true W RB ltac:(apply G; reflexivity)); [|exact Hn]. intros n I. apply M. cbn in I |- *. tauto.
Qed.
