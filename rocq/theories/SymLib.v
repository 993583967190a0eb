(** The facts about opposite arguments for generated libraries, and a library to try them on. *)
From Coq Require Import List String Bool ZArith Reals Ascii Lia.
From Flocq Require Import Core IEEE754.BinarySingleNaN IEEE754.Binary.
From Verif Require Import Res Dec DecStr DecStrFacts Syntax Poly BdMath Eval AccEval UseNumberType NumberTypeFacts ExactFloats HornerFloat FloatBits
  ConstSource Constants Item Functions FunctionsFacts GenCode GenCodeFacts GenSem GenRun GenFloat GenFloat2 GenFloat4 GenTypeLib ExpFloat Spliced SplicedOk SplicedExample SignFacts GenSym GenSym2.
Import ListNotations.
Open Scope string_scope.
Open Scope list_scope.
Open Scope Z_scope.

Lemma made_value o bits sub lib nan_of std checked n : (bits = 32 \/ bits = 64) -> made_constant o bits n (sub n) -> has bits sub lib n ->
  exists c, const_of bits nan_of std checked lib n = Ok (VFlt c).
Proof.
  intros HB M h. destruct (constant_number _ _ _ _ M) as (x & E). destruct (parse_dec_repr x) as (y & P & _).
  exists (of_decimal bits y). apply (const_literal bits sub lib nan_of std checked n _ y HB) with (3 := E); [|exact h|rewrite list_ascii_of_string_of_list_ascii; exact P].
  destruct M as (e & f & S & _). assert (I : In n constant_names) by (apply source_names; congruence). clear - I. cbn in I |- *. tauto.
Qed.

Section Lib.
  Context (F : floats) (o : oracles) (kind : string) (bits : Z) (sub : string -> expr) (lib : list item)
    (nan_of : list (flt bits) -> { x : flt bits | Binary.is_nan (prec bits) (emax bits) x = true })
    (std : string -> list (flt bits) -> option (flt bits)) (checked : bool) (W : working kind bits) (RB : reads_back F).
  Notation R := (run bits nan_of std checked lib).
  Notation HB := (working_bits kind bits W).
  Ltac has_all Gn := pose proof (generated_has _ _ _ _ Gn) as hh.
  Ltac has := match goal with hh : forall n, _ |- _ => apply hh; cbn; tauto end.
  Ltac has_in := let I := fresh in intros ? I; match goal with hh : forall n, _ |- _ => apply hh; cbn in I |- *; tauto end.
  Theorem lib_sin d x : generated bits sub lib ["fty"; "ity"; "round"; "RECIP_2PI"; "sin"] -> made_constant o bits "RECIP_2PI" (sub "RECIP_2PI") -> poly_of F kind bits "x" POdd (sub "sin") ->
    exists y y', R (S (S d)) "sin" [VFlt x] = Ok (VFlt y) /\ R (S (S d)) "sin" [VFlt (fneg bits x)] = Ok (VFlt y') /\ opposite y y'.
  Proof.
    intros Gn M hp. has_all Gn. destruct (made_value o bits sub lib nan_of std checked _ HB M ltac:(has)) as (c & hc). destruct (odd_value F kind bits W RB _ _ hp) as (h & l & D).
    pose proof (sin_like bits sub lib HB nan_of std checked "sin" "RECIP_2PI" (fun t => fmul bits nan_of (squares bits nan_of h l t) t) d x c ltac:(auto) ltac:(has) ltac:(has) ltac:(has) ltac:(has) hc (fun call env t => D nan_of std checked lib call _ env t)) as Y.
    destruct (sin_odd bits sub lib HB nan_of std checked F kind W RB d x _ ltac:(has) ltac:(has) ltac:(has) ltac:(has) hp Y) as (y' & A & B). eauto.
  Qed.
  Theorem lib_cos d x : generated bits sub lib ["fty"; "ity"; "round"; "RECIP_2PI"; "cos"] -> made_constant o bits "RECIP_2PI" (sub "RECIP_2PI") -> poly_of F kind bits "x" PEven (sub "cos") ->
    exists y y', R (S (S d)) "cos" [VFlt x] = Ok (VFlt y) /\ R (S (S d)) "cos" [VFlt (fneg bits x)] = Ok (VFlt y') /\ same y y'.
  Proof.
    intros Gn M hp. has_all Gn. destruct (made_value o bits sub lib nan_of std checked _ HB M ltac:(has)) as (c & hc). destruct (even_value F kind bits W RB _ _ hp) as (h & l & D).
    pose proof (sin_like bits sub lib HB nan_of std checked "cos" "RECIP_2PI" (squares bits nan_of h l) d x c ltac:(auto) ltac:(has) ltac:(has) ltac:(has) ltac:(has) hc (fun call env t => D nan_of std checked lib call _ env t)) as Y.
    destruct (cos_even bits sub lib HB nan_of std checked F kind W RB d x _ ltac:(has) ltac:(has) ltac:(has) ltac:(has) hp Y) as (y' & A & B). eauto.
  Qed.
  Theorem lib_tan d x : generated bits sub lib ["fty"; "ity"; "round"; "RECIP_PI"; "tan"] -> made_constant o bits "RECIP_PI" (sub "RECIP_PI") -> poly_of F kind bits "x" POdd (sub "tan") ->
    exists y y', R (S (S d)) "tan" [VFlt x] = Ok (VFlt y) /\ R (S (S d)) "tan" [VFlt (fneg bits x)] = Ok (VFlt y') /\ opposite y y'.
  Proof.
    intros Gn M hp. has_all Gn. destruct (made_value o bits sub lib nan_of std checked _ HB M ltac:(has)) as (c & hc). destruct (odd_value F kind bits W RB _ _ hp) as (h & l & D).
    pose proof (run_tan bits sub lib HB nan_of std checked (fun t => fmul bits nan_of (squares bits nan_of h l t) t) d x c ltac:(has) ltac:(has) ltac:(has) ltac:(has) hc (fun call env t => D nan_of std checked lib call _ env t)) as Y.
    destruct (tan_odd bits sub lib HB nan_of std checked F kind W RB d x _ ltac:(has) ltac:(has) ltac:(has) ltac:(has) hp Y) as (y' & A & B). eauto.
  Qed.
  Definition exp_uses : list string := ["fty"; "uty"; "ity"; "round"; "EXP2_ONE"; "EXP2_SCALE"; "EXP2_MIN"; "EXP2_MAX"; "INFINITY"; "exp2"].
  Theorem lib_cosh d x : generated bits sub lib (exp_uses ++ ["LOG2_E"; "cosh"]) -> made_constant o bits "LOG2_E" (sub "LOG2_E") -> poly_of F kind bits "x" PNeither (sub "exp2") ->
    exists y y', R (S (S (S d))) "cosh" [VFlt x] = Ok (VFlt y) /\ R (S (S (S d))) "cosh" [VFlt (fneg bits x)] = Ok (VFlt y') /\ same y y'.
  Proof.
    intros Gn M hp. has_all Gn. destruct (made_value o bits sub lib nan_of std checked _ HB M ltac:(has)) as (c & hc). assert (h2 : forall n, In n exp2_needs -> has bits sub lib n) by has_in.
    destruct (exp2_some bits sub lib HB nan_of std checked F kind W RB d (sinh_a bits nan_of c x) h2 hp) as (p & Rp). destruct (exp2_some bits sub lib HB nan_of std checked F kind W RB d (sinh_b bits nan_of c x) h2 hp) as (q & Rq).
    pose proof (run_cosh bits sub lib HB nan_of std checked _ x c p q ltac:(has) ltac:(has) hc Rp Rq) as Y.
    destruct (cosh_even bits sub lib HB nan_of std checked F kind W RB d x _ h2 ltac:(has) hp Y) as (y' & A & B). eauto.
  Qed.
  Theorem lib_sinh d x : generated bits sub lib (exp_uses ++ ["LOG2_E"; "sinh"]) -> made_constant o bits "LOG2_E" (sub "LOG2_E") -> poly_of F kind bits "x" PNeither (sub "exp2") ->
    exists y y', R (S (S (S d))) "sinh" [VFlt x] = Ok (VFlt y) /\ R (S (S (S d))) "sinh" [VFlt (fneg bits x)] = Ok (VFlt y') /\ opposite y y'.
  Proof.
    intros Gn M hp. has_all Gn. destruct (made_value o bits sub lib nan_of std checked _ HB M ltac:(has)) as (c & hc). assert (h2 : forall n, In n exp2_needs -> has bits sub lib n) by has_in.
    destruct (exp2_some bits sub lib HB nan_of std checked F kind W RB d (sinh_a bits nan_of c x) h2 hp) as (p & Rp). destruct (exp2_some bits sub lib HB nan_of std checked F kind W RB d (sinh_b bits nan_of c x) h2 hp) as (q & Rq).
    pose proof (run_sinh bits sub lib HB nan_of std checked _ x c p q ltac:(has) ltac:(has) hc Rp Rq) as Y.
    destruct (sinh_odd bits sub lib HB nan_of std checked F kind W RB d x _ h2 ltac:(has) hp Y) as (y' & A & B). eauto.
  Qed.
  Theorem lib_cbrt d x : generated bits sub lib ["fty"; "uty"; "EXP2_ONE"; "ONE_THIRD"; "TWO_THIRDS"; "cbrt"] ->
    exists y, R (S d) "cbrt" [VFlt x] = Ok (VFlt y) /\ R (S d) "cbrt" [VFlt (fneg bits x)] = Ok (VFlt (fneg bits y)).
  Proof. intros Gn. exact (cbrt_odd bits sub lib HB nan_of std checked kind d x (generated_has _ _ _ _ Gn)). Qed.
  Theorem lib_recip d x : generated bits sub lib ["fty"; "uty"; "EXP2_ONE"; "recip_approx"; "recip"] ->
    exists y y', R (S (S d)) "recip" [VFlt x] = Ok (VFlt y) /\ R (S (S d)) "recip" [VFlt (fneg bits x)] = Ok (VFlt y') /\ negative y y'.
  Proof. intros Gn. exact (recip_odd bits sub lib HB nan_of std checked kind d x (generated_has _ _ _ _ Gn)). Qed.
  Theorem lib_atan2 d y x : generated bits sub lib ["fty"; "TAN_PI_BY_8"; "PI_BY_8"; "PI_BY_2"; "PI"; "atan2"] ->
    (forall n, In n ["TAN_PI_BY_8"; "PI_BY_8"; "PI_BY_2"; "PI"] -> made_constant o bits n (sub n)) -> poly_of F kind bits "z" PNeither (sub "atan2") ->
    (Binary.is_nan _ _ y = false -> (forall s, y <> Binary.B754_zero _ _ s) ->
      exists r, R (S d) "atan2" [VFlt y; VFlt x] = Ok (VFlt r) /\ R (S d) "atan2" [VFlt (fneg bits y); VFlt x] = Ok (VFlt (fneg bits r))) /\
    exists r, forall s, R (S d) "atan2" [VFlt (Binary.B754_zero _ _ s); VFlt x] = Ok (VFlt r).
  Proof.
    intros Gn M hp. has_all Gn. apply (atan2_odd bits sub lib HB nan_of std checked F kind W RB d y x); [has|has| |exact hp].
    intros n I. eapply (made_value o); [exact HB|exact (M n I)|]. apply hh. cbn in I |- *. tauto.
  Qed.
  Theorem lib_atan d x : generated bits sub lib ["fty"; "PI_BY_2"; "atan"] -> made_constant o bits "PI_BY_2" (sub "PI_BY_2") -> poly_of F kind bits "x" POdd (sub "atan") ->
    exists y y', R (S d) "atan" [VFlt x] = Ok (VFlt y) /\ R (S d) "atan" [VFlt (fneg bits x)] = Ok (VFlt y') /\ opposite y y'.
  Proof. intros Gn M hp. has_all Gn. apply (atan_odd bits sub lib HB nan_of std checked F kind W RB); [has|has| |exact hp]. eapply (made_value o); [exact HB|exact M|has]. Qed.
  Theorem lib_asin d x : generated bits sub lib ["fty"; "PI_BY_2"; "asin"] -> made_constant o bits "PI_BY_2" (sub "PI_BY_2") -> poly_of F kind bits "x" POdd (sub "asin") ->
    exists y y', R (S d) "asin" [VFlt x] = Ok (VFlt y) /\ R (S d) "asin" [VFlt (fneg bits x)] = Ok (VFlt y') /\ opposite y y'.
  Proof. intros Gn M hp. has_all Gn. apply (asin_odd bits sub lib HB nan_of std checked F kind W RB); [has|has| |exact hp]. eapply (made_value o); [exact HB|exact M|has]. Qed.
  Theorem lib_dnorm d x m s : generated bits sub lib (exp_uses ++ ["LOG2_E"; "SQRT_RECIP_2PI"; "dnorm"]) ->
    (forall n, In n ["LOG2_E"; "SQRT_RECIP_2PI"] -> made_constant o bits n (sub n)) -> poly_of F kind bits "x" PNeither (sub "exp2") ->
    exists y y', R (S (S (S d))) "dnorm" [VFlt x; VFlt m; VFlt s] = Ok (VFlt y) /\ R (S (S (S d))) "dnorm" [VFlt m; VFlt x; VFlt s] = Ok (VFlt y') /\ same y y'.
  Proof.
    intros Gn M hp. has_all Gn. apply (dnorm_swap bits sub lib HB nan_of std checked F kind W RB); [has_in|has| |exact hp].
    intros n I. eapply (made_value o); [exact HB|exact (M n I)|]. apply hh. cbn in I |- *. tauto.
  Qed.
End Lib.

(** ** A library of every function for f32 *)
Definition odd_names : list string := ["sin"; "tan"; "asin"; "atan"].
Theorem sym_exists nans : exists sub, (forall n, In n odd_names -> poly_of (exact_floats nans) "decimal" 32 "x" POdd (sub n)) /\
  poly_of (exact_floats nans) "decimal" 32 "x" PEven (sub "cos") /\ poly_of (exact_floats nans) "decimal" 32 "x" PNeither (sub "exp2") /\
  poly_of (exact_floats nans) "decimal" 32 "z" PNeither (sub "atan2") /\ forall n, In n constant_names -> made_constant sqrt_oracles 32 n (sub n).
Proof.
  assert (L : forall v p, v = "x" \/ v = "z" -> exists e, poly_of (exact_floats nans) "decimal" 32 v p e).
  { intros v p [-> | ->]; destruct p; eexists; [exists [BD 0 0; BD 25 2] | exists [BD 25 2; BD 0 0; BD 5 1] | exists [BD 25 2; BD (-15) 1] | exists [BD 0 0; BD 25 2] | exists [BD 25 2; BD 0 0; BD 5 1] | exists [BD 25 2; BD (-15) 1]]; eexists; (split; [vm_compute; reflexivity|]); vm_compute; reflexivity. }
  destruct (L "x" POdd (or_introl eq_refl)) as (eo & Ho). destruct (L "x" PEven (or_introl eq_refl)) as (ee & He). destruct (L "x" PNeither (or_introl eq_refl)) as (en & Hn). destruct (L "z" PNeither (or_intror eq_refl)) as (ez & Hz).
  destruct (choose (fun m c => m = "" \/ made_constant sqrt_oracles 32 m c) constant_names en (or_introl eq_refl)) as (f & Hf).
  { intros m I. destruct (constant_made m I) as (c & C). exists c. auto. }
  exists (fun n => if existsb (String.eqb n) odd_names then eo else if String.eqb n "cos" then ee else if String.eqb n "exp2" then en else if String.eqb n "atan2" then ez else f n).
  repeat split; try assumption; cbn.
  - intros n I. cbn in I. destruct I as [<-|[<-|[<-|[<-|[]]]]]; exact Ho.
  - intros n I. assert (Hc : made_constant sqrt_oracles 32 n (f n)).
    { destruct (Hf n I) as [->|H]; [|exact H]. exfalso. cbn in I. repeat (destruct I as [I|I]; [discriminate|]). destruct I. }
    cbn in I. repeat (destruct I as [<-|I]; [exact Hc|]). destruct I.
Qed.
Definition sym_lib (sub : string -> expr) : list item := match library 32 sub ["libm"; "all"] [] with Some l => l | None => [] end.
Definition sym_names : list string := exp_uses ++ constant_names ++ ["ONE_THIRD"; "TWO_THIRDS"; "sin"; "cos"; "tan"; "asin"; "atan"; "atan2"; "cosh"; "sinh"; "cbrt"; "recip_approx"; "recip"; "dnorm"].
Lemma sym_lib_generated sub ns : forallb (fun n => existsb (String.eqb n) sym_names) ns = true -> generated 32 sub (sym_lib sub) ns.
Proof.
  intros Sn. split; [left; reflexivity|]. split.
  - exists ["libm"; "all"], []. unfold sym_lib. destruct (library_exists 32 sub ["libm"; "all"] []) as (l & E). rewrite E. reflexivity.
  - intros n I. rewrite forallb_forall in Sn. specialize (Sn n I). apply existsb_exists in Sn. destruct Sn as (k & J & Q). apply String.eqb_eq in Q. subst k.
    assert (A : forallb (fun n => existsb (fun i => match item_name i with Some m => String.eqb m n | None => false end) (sym_lib sub)) sym_names = true) by (vm_compute; reflexivity).
    rewrite forallb_forall in A. specialize (A n J). apply existsb_exists in A. destruct A as (it & I2 & N). exists it. split; [exact I2|].
    destruct (item_name it); [|discriminate]. apply String.eqb_eq in N. congruence.
Qed.
