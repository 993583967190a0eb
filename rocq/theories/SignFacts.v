(** Float operations and the signs of their operands: which results change
    sign, or not at all, when operands do. *)
From Coq Require Import List String Bool ZArith Reals Lia Lra.
From Flocq Require Import Core IEEE754.BinarySingleNaN IEEE754.Binary.
From Verif Require Import Res Syntax GenSem FloatBits GenRun GenFloat GenFloat2 HornerFloat.
Import ListNotations.
Open Scope list_scope.
Open Scope Z_scope.

Notation isnan := (Binary.is_nan _ _).
(** The same float, or both NaN. *)
Definition same {bits} (x y : flt bits) : Prop := x = y \/ isnan x = true /\ isnan y = true.
(** The float with the other sign, or both NaN. *)
Definition negative {bits} (x y : flt bits) : Prop := y = fneg bits x \/ isnan x = true /\ isnan y = true.
(** Likewise, but zeros of any sign. *)
Definition opposite {bits} (x y : flt bits) : Prop := negative x y \/ exists s t, x = Binary.B754_zero _ _ s /\ y = Binary.B754_zero _ _ t.

Lemma top_int bits : bits = 32 \/ bits = 64 -> of_int bits (imax (sty bits)) = fneg bits (of_int bits (imin (sty bits))).
Proof. intros [-> | ->]; apply Binary.B2FF_inj; vm_compute; reflexivity. Qed.
Section Signs.
  Variable bits : Z.
  Variable nan_of : list (flt bits) -> { x : flt bits | Binary.is_nan (prec bits) (emax bits) x = true }.
  Notation flt := (flt bits).
  Notation fneg := (fneg bits).
  Notation fmul := (fmul bits nan_of). Notation fadd := (fadd bits nan_of). Notation fsub := (fsub bits nan_of).
  Notation fdiv := (fdiv bits nan_of). Notation ffma := (ffma bits nan_of).
  Notation infinity s := (Binary.B754_infinity (prec bits) (emax bits) s).
  Notation zero s := (Binary.B754_zero (prec bits) (emax bits) s).

  Lemma fneg_fneg (x : flt) : fneg (fneg x) = x.
  Proof. destruct x as [s|s|s pl H|s m e H]; cbn; rewrite negb_involutive; reflexivity. Qed.
  Lemma fneg_nan (x : flt) : isnan (fneg x) = isnan x.
  Proof. destruct x; reflexivity. Qed.
  Lemma fneg_sign (x : flt) : sign (fneg x) = negb (sign x).
  Proof. destruct x; reflexivity. Qed.
  Lemma same_refl (x : flt) : same x x. Proof. left. reflexivity. Qed.
  Lemma same_sym (x y : flt) : same x y -> same y x. Proof. intros [->|[]]; [left|right]; auto. Qed.
  Lemma same_trans (x y z : flt) : same x y -> same y z -> same x z.
  Proof. intros [->|[A B]] [->|[C D]]; [left|right|right|right]; auto. Qed.
  Lemma negative_fneg (x : flt) : negative x (fneg x). Proof. left. reflexivity. Qed.
  Lemma negative_same (x y z : flt) : negative x y -> same y z -> negative x z.
  Proof. intros [->|[A B]] [<-|[C D]]; [left|right|right|right]; auto. rewrite fneg_nan in C. auto. Qed.
  Lemma same_negative (x y z : flt) : same x y -> negative y z -> negative x z.
  Proof. intros [<-|[A B]] [->|[C D]]; [left|right|right|right]; auto. rewrite fneg_nan. auto. Qed.
  Lemma opposite_nan (x y : flt) : opposite x y -> isnan x = isnan y.
  Proof. intros [[->|[A B]]|(s & t & -> & ->)]; [symmetry; apply fneg_nan|congruence|reflexivity]. Qed.

  (** ** Results determined by a real number and a sign *)
  Definition rounded (v : R) (s : bool) (r : flt) : Prop :=
    if Rlt_bool (Rabs v) (bpow radix2 (emax bits)) then finite r = true /\ fR r = v /\ sign r = s else r = infinity s.
  Lemma rounded_unique v s r r' : rounded v s r -> rounded v s r' -> r = r'.
  Proof.
    unfold rounded. destruct (Rlt_bool _ _); [|congruence]. intros (A & B & C) (D & E & G). apply Binary.B2R_Bsign_inj; congruence.
  Qed.
  Lemma rounded_neg v s r : rounded v s r -> rounded (- v) (negb s) (fneg r).
  Proof.
    unfold rounded. rewrite Rabs_Ropp. destruct (Rlt_bool _ _); [|intros ->; reflexivity]. intros (A & B & C).
    destruct (fneg_value bits r) as [V F]. rewrite V, F, fneg_sign, B, C. auto.
  Qed.
  Lemma overflow_inf (r : flt) s : Binary.B2FF _ _ r = Binary.binary_overflow (prec bits) (emax bits) mode_NE s -> r = infinity s.
  Proof. destruct r as [t|t|t pl H|t m e H]; intros E; cbn in E; inversion E. reflexivity. Qed.
  Lemma RN_opp v : RN bits (- v) = (- RN bits v)%R.
  Proof. apply round_NE_opp. Qed.
  Lemma finite_nan (x : flt) : finite x = true -> isnan x = false.
  Proof. destruct x; (reflexivity || discriminate). Qed.

  Lemma fmul_rounded x y : finite x = true -> finite y = true -> rounded (RN bits (fR x * fR y)) (xorb (sign x) (sign y)) (fmul x y).
  Proof.
    intros Fx Fy. pose proof (Binary.Bmult_correct _ _ (prec_gt bits) (prec_lt bits) (fun a b => nan_of [a; b]) mode_NE x y) as C. cbn [round_mode] in C.
    unfold rounded, GenSem.fmul. destruct (Rlt_bool _ _).
    - rewrite Fx, Fy in C. destruct C as (A & B & D). split; [exact B|]. split; [exact A|]. apply D, finite_nan, B.
    - apply overflow_inf, C.
  Qed.
  Lemma fdiv_rounded x y : finite x = true -> fR y <> 0%R -> rounded (RN bits (fR x / fR y)) (xorb (sign x) (sign y)) (fdiv x y).
  Proof.
    intros Fx Ny. pose proof (Binary.Bdiv_correct _ _ (prec_gt bits) (prec_lt bits) (fun a b => nan_of [a; b]) mode_NE x y Ny) as C. cbn [round_mode] in C.
    unfold rounded, GenSem.fdiv. destruct (Rlt_bool _ _).
    - rewrite Fx in C. destruct C as (A & B & D). split; [exact B|]. split; [exact A|]. apply D, finite_nan, B.
    - apply overflow_inf, C.
  Qed.
  Lemma fadd_rounded x y : finite x = true -> finite y = true ->
    rounded (RN bits (fR x + fR y)) (match Rcompare (fR x + fR y) 0 with Eq => sign x && sign y | Lt => true | Gt => false end) (fadd x y).
  Proof.
    intros Fx Fy. pose proof (Binary.Bplus_correct _ _ (prec_gt bits) (prec_lt bits) (fun a b => nan_of [a; b]) mode_NE x y Fx Fy) as C. cbn [round_mode] in C.
    unfold rounded, GenSem.fadd. destruct (Rlt_bool_spec (Rabs (RN bits (fR x + fR y))) (bpow radix2 (emax bits))) as [L|L]; [tauto|].
    destruct C as [C S]. rewrite (overflow_inf _ _ C). f_equal. pose proof (sign_le bits x Fx) as Sx. pose proof (sign_le bits y Fy) as Sy. rewrite <- S in Sy.
    destruct (Rcompare_spec (fR x + fR y) 0) as [K|K|K].
    - destruct (Bsign _ _ x); [reflexivity|lra].
    - rewrite <- S. destruct (Bsign _ _ x); reflexivity.
    - destruct (Bsign _ _ x); [lra|reflexivity].
  Qed.
  Lemma fma_rounded x y z : finite x = true -> finite y = true -> finite z = true ->
    rounded (RN bits (fR x * fR y + fR z)) (match Rcompare (fR x * fR y + fR z) 0 with Eq => xorb (sign x) (sign y) && sign z | Lt => true | Gt => false end) (ffma x y z).
  Proof.
    intros Fx Fy Fz. pose proof (Binary.Bfma_correct _ _ (prec_gt bits) (prec_lt bits) (fun a b c => nan_of [a; b; c]) mode_NE x y z Fx Fy Fz) as C. cbv zeta in C. cbn [round_mode] in C.
    unfold rounded, GenSem.ffma. destruct (Rlt_bool_spec (Rabs (RN bits (fR x * fR y + fR z))) (bpow radix2 (emax bits))) as [L|L].
    - destruct C as (A & B & D). split; [exact B|]. split; [exact A|]. rewrite D. destruct (Rcompare _ _); try reflexivity.
      clear A B D L. destruct x as [sx|sx|sx px hx|sx mx ex hx]; try discriminate; destruct y as [sy|sy|sy py hy|sy my ey hy]; try discriminate;
        destruct z as [sz|sz|sz pz hz|sz mz ez hz]; try discriminate; destruct sx, sy, sz; reflexivity.
    - rewrite (overflow_inf _ _ C). f_equal. unfold Rlt_bool. destruct (Rcompare_spec (fR x * fR y + fR z) 0) as [K|K|K]; try reflexivity.
      exfalso. rewrite K, round_0, Rabs_R0 in L by auto with typeclass_instances. pose proof (bpow_gt_0 radix2 (emax bits)). lra.
  Qed.

  (** ** Two operands *)
  Lemma nan_is (l : list flt) : isnan (proj1_sig (nan_of l)) = true. Proof. apply (proj2_sig (nan_of l)). Qed.
  Ltac nan_case := first [reflexivity | apply nan_is | (cbn; unfold Binary.build_nan; match goal with |- context [nan_of ?l] => destruct (nan_of l) as [[?|?|? ? ?|? ? ? ?] ?]; try discriminate; reflexivity end)].
  Ltac special := first [left; reflexivity | right; split; nan_case].
  Lemma fmul_nan x y : isnan x = true \/ isnan y = true -> isnan (fmul x y) = true.
  Proof. unfold GenSem.fmul, Binary.Bmult. destruct x, y; cbn; intros [A|A]; try discriminate; nan_case. Qed.
  Lemma fdiv_nan x y : isnan x = true \/ isnan y = true -> isnan (fdiv x y) = true.
  Proof. unfold GenSem.fdiv, Binary.Bdiv. destruct x, y; cbn; intros [A|A]; try discriminate; nan_case. Qed.
  Lemma fadd_nan x y : isnan x = true \/ isnan y = true -> isnan (fadd x y) = true.
  Proof. unfold GenSem.fadd, Binary.Bplus. destruct x, y; cbn; intros [A|A]; try discriminate; nan_case. Qed.
  Lemma fsub_nan x y : isnan x = true \/ isnan y = true -> isnan (fsub x y) = true.
  Proof. unfold GenSem.fsub, Binary.Bminus. destruct x, y; cbn; intros [A|A]; try discriminate; nan_case. Qed.
  Lemma fma_nan x y z : isnan x = true \/ isnan y = true \/ isnan z = true -> isnan (ffma x y z) = true.
  Proof. unfold GenSem.ffma, Binary.Bfma. destruct x, y, z; cbn; intros [A|[A|A]]; try discriminate; nan_case. Qed.
  Lemma fmul_same x x' y y' : same x x' -> same y y' -> same (fmul x y) (fmul x' y').
  Proof. intros [<-|[A B]] [<-|[C D]]; [left; reflexivity|right|right|right]; split; apply fmul_nan; auto. Qed.
  Lemma fdiv_same x x' y y' : same x x' -> same y y' -> same (fdiv x y) (fdiv x' y').
  Proof. intros [<-|[A B]] [<-|[C D]]; [left; reflexivity|right|right|right]; split; apply fdiv_nan; auto. Qed.
  Lemma fadd_same x x' y y' : same x x' -> same y y' -> same (fadd x y) (fadd x' y').
  Proof. intros [<-|[A B]] [<-|[C D]]; [left; reflexivity|right|right|right]; split; apply fadd_nan; auto. Qed.
  Lemma fsub_same x x' y y' : same x x' -> same y y' -> same (fsub x y) (fsub x' y').
  Proof. intros [<-|[A B]] [<-|[C D]]; [left; reflexivity|right|right|right]; split; apply fsub_nan; auto. Qed.
  Lemma fma_same x x' y y' z z' : same x x' -> same y y' -> same z z' -> same (ffma x y z) (ffma x' y' z').
  Proof. intros [<-|[A B]] [<-|[C D]] [<-|[G K]]; [left; reflexivity|right..]; split; apply fma_nan; auto. Qed.

  Lemma fin_finite s m e H : finite (Binary.B754_finite (prec bits) (emax bits) s m e H) = true. Proof. reflexivity. Qed.
  Lemma fin_nonzero s m e H : fR (Binary.B754_finite (prec bits) (emax bits) s m e H) <> 0%R.
  Proof. cbn. apply F2R_neq_0. destruct s; discriminate. Qed.
  Lemma fmul_neg x y : negative (fmul x y) (fmul (fneg x) y).
  Proof.
    destruct (finite x) eqn:Fx; [destruct (finite y) eqn:Fy|].
    - left. destruct (fneg_value bits x) as [V F]. apply (rounded_unique (- RN bits (fR x * fR y)) (negb (xorb (sign x) (sign y)))).
      + rewrite <- RN_opp. replace (- (fR x * fR y))%R with (fR (fneg x) * fR y)%R by (rewrite V; ring).
        replace (negb (xorb (sign x) (sign y))) with (xorb (sign (fneg x)) (sign y)) by (rewrite fneg_sign; destruct (sign x), (sign y); reflexivity).
        apply fmul_rounded; congruence.
      + apply rounded_neg, fmul_rounded; assumption.
    - unfold GenSem.fmul, Binary.Bmult. destruct x as [s|s|s pl H|s m e H]; try discriminate; destruct y as [t|t|t pl' H'|t m' e' H']; try discriminate; try (destruct s, t; special).
    - unfold GenSem.fmul, Binary.Bmult. destruct x as [s|s|s pl H|s m e H]; try discriminate; destruct y as [t|t|t pl' H'|t m' e' H']; destruct s, t; special.
  Qed.
  Lemma fmul_comm x y : same (fmul x y) (fmul y x).
  Proof.
    destruct (finite x) eqn:Fx; [destruct (finite y) eqn:Fy|].
    - left. apply (rounded_unique (RN bits (fR x * fR y)) (xorb (sign x) (sign y))); [apply fmul_rounded; assumption|]. rewrite Rmult_comm, xorb_comm. apply fmul_rounded; assumption.
    - unfold GenSem.fmul, Binary.Bmult. destruct x as [s|s|s pl H|s m e H]; try discriminate; destruct y as [t|t|t pl' H'|t m' e' H']; try discriminate; try (destruct s, t; special).
    - unfold GenSem.fmul, Binary.Bmult. destruct x as [s|s|s pl H|s m e H]; try discriminate; destruct y as [t|t|t pl' H'|t m' e' H']; destruct s, t; special.
  Qed.
  Lemma fdiv_neg x y : negative (fdiv x y) (fdiv (fneg x) y) /\ negative (fdiv x y) (fdiv x (fneg y)).
  Proof.
    destruct x as [s|s|s pl H|s m e H]; [destruct y as [t|t|t pl' H'|t m' e' H']; split; unfold GenSem.fdiv, Binary.Bdiv; destruct s, t; special..|].
    destruct y as [t|t|t pl' H'|t m' e' H']; [split; unfold GenSem.fdiv, Binary.Bdiv; destruct s, t; special..|].
    set (x := Binary.B754_finite _ _ s m e H). set (y := Binary.B754_finite _ _ t m' e' H').
    pose proof (fin_nonzero t m' e' H' : fR y <> 0%R) as Ny. assert (Fx : finite x = true) by reflexivity.
    destruct (fneg_value bits x) as [V F]. destruct (fneg_value bits y) as [V' F'].
    split; left; apply (rounded_unique (- RN bits (fR x / fR y)) (negb (xorb (sign x) (sign y)))); try (apply rounded_neg, fdiv_rounded; assumption); rewrite <- RN_opp.
    - replace (- (fR x / fR y))%R with (fR (fneg x) / fR y)%R by (rewrite V; field; exact Ny).
      replace (negb (xorb (sign x) (sign y))) with (xorb (sign (fneg x)) (sign y)) by (rewrite fneg_sign; destruct (sign x), (sign y); reflexivity).
      apply fdiv_rounded; congruence.
    - replace (- (fR x / fR y))%R with (fR x / fR (fneg y))%R by (rewrite V'; field; exact Ny).
      replace (negb (xorb (sign x) (sign y))) with (xorb (sign x) (sign (fneg y))) by (rewrite fneg_sign; destruct (sign x), (sign y); reflexivity).
      apply fdiv_rounded; [exact Fx|]. rewrite V'. lra.
  Qed.
  Lemma fadd_comm x y : same (fadd x y) (fadd y x).
  Proof.
    destruct (finite x) eqn:Fx; [destruct (finite y) eqn:Fy|].
    - left. eapply rounded_unique; [apply fadd_rounded; assumption|]. rewrite Rplus_comm, andb_comm. apply fadd_rounded; assumption.
    - unfold GenSem.fadd, Binary.Bplus. destruct x as [s|s|s pl H|s m e H]; try discriminate; destruct y as [t|t|t pl' H'|t m' e' H']; try discriminate; try (destruct s, t; special).
    - unfold GenSem.fadd, Binary.Bplus. destruct x as [s|s|s pl H|s m e H]; try discriminate; destruct y as [t|t|t pl' H'|t m' e' H']; destruct s, t; special.
  Qed.
  Lemma fsub_fadd x y : same (fsub x y) (fadd x (fneg y)).
  Proof.
    destruct (finite x) eqn:Fx; [destruct (finite y) eqn:Fy|].
    - left. unfold GenSem.fsub, GenSem.fadd.
      destruct (fneg_value bits y) as [V F]. apply (rounded_unique (RN bits (fR x + fR (fneg y))) (match Rcompare (fR x + fR (fneg y)) 0 with Eq => sign x && sign (fneg y) | Lt => true | Gt => false end));
        [|apply fadd_rounded; congruence].
      pose proof (Binary.Bminus_correct _ _ (prec_gt bits) (prec_lt bits) (fun a b => nan_of [a; b]) mode_NE x y Fx Fy) as C. cbn [round_mode] in C.
      replace (fR x + fR (fneg y))%R with (fR x - fR y)%R by (rewrite V; ring). rewrite fneg_sign. unfold rounded.
      destruct (Rlt_bool_spec (Rabs (RN bits (fR x - fR y))) (bpow radix2 (emax bits))) as [L|L]; [tauto|].
      destruct C as [C S]. rewrite (overflow_inf _ _ C). f_equal. pose proof (sign_le bits x Fx) as Sx. pose proof (sign_le bits y Fy) as Sy.
      assert (Sn : sign y = negb (sign x)) by (rewrite S, negb_involutive; reflexivity). rewrite Sn in *. rewrite negb_involutive.
      destruct (Rcompare_spec (fR x - fR y) 0) as [K|K|K]; destruct (Bsign _ _ x); cbn [negb andb] in *; (reflexivity || lra).
    - unfold GenSem.fadd, GenSem.fsub, Binary.Bplus, Binary.Bminus. destruct x as [s|s|s pl H|s m e H]; try discriminate; destruct y as [t|t|t pl' H'|t m' e' H']; try discriminate; try (destruct s, t; special).
    - unfold GenSem.fadd, GenSem.fsub, Binary.Bplus, Binary.Bminus. destruct x as [s|s|s pl H|s m e H]; try discriminate; destruct y as [t|t|t pl' H'|t m' e' H']; destruct s, t; special.
  Qed.

  (** ** Numbers that are opposite up to the sign of zero *)
  Lemma opposite_values (x y : flt) : finite x = true -> finite y = true -> fR y = (- fR x)%R -> opposite x y.
  Proof.
    intros Fx Fy V. destruct (Req_dec (fR x) 0) as [Z|Z].
    - right. rewrite Z, Ropp_0 in V. destruct x as [s|s|s pl H|s m e H]; try discriminate; [|exfalso; exact (fin_nonzero _ _ _ _ Z)].
      destruct y as [t|t|t pl' H'|t m' e' H']; try discriminate; [|exfalso; exact (fin_nonzero _ _ _ _ V)]. eauto.
    - left. left. destruct (fneg_value bits x) as [V' F']. apply Binary.B2R_Bsign_inj; [exact Fy|rewrite F'; exact Fx|congruence|].
      pose proof (sign_le bits x Fx) as Sx. pose proof (sign_le bits y Fy) as Sy. rewrite fneg_sign. unfold fsign in *. destruct (Bsign _ _ x), (Bsign _ _ y); try reflexivity; lra.
  Qed.
  Lemma opposite_cases (x y : flt) : opposite x y -> isnan x = true /\ isnan y = true \/
    finite x = true /\ finite y = true /\ fR y = (- fR x)%R \/ exists s, x = infinity s /\ y = infinity (negb s).
  Proof.
    intros [[->|[A B]]|(s & t & -> & ->)]; [|auto|].
    - destruct (fneg_value bits x) as [V F]. destruct x as [s|s|s pl H|s m e H]; [right; left; auto..| | |]; [right; right; exists s; auto|left; auto|right; left; auto].
    - right. left. cbn. repeat split. lra.
  Qed.
  Lemma opposite_sym (x y : flt) : opposite x y -> opposite y x.
  Proof.
    intros [[->|[A B]]|(s & t & -> & ->)]; [left; left; symmetry; apply fneg_fneg|left; right; auto|right; eauto].
  Qed.
  Lemma negative_opposite (x y : flt) : negative x y -> opposite x y. Proof. left. assumption. Qed.
  Lemma opposite_same (x y z : flt) : opposite x y -> same y z -> opposite x z.
  Proof.
    intros [N|(s & t & -> & ->)] S; [left; exact (negative_same _ _ _ N S)|]. destruct S as [<-|[A _]]; [right; eauto|discriminate A].
  Qed.
  Lemma same_opposite (x y z : flt) : same x y -> opposite y z -> opposite x z.
  Proof.
    intros S [N|(s & t & -> & ->)]; [left; exact (same_negative _ _ _ S N)|]. destruct S as [->|[_ A]]; [right; eauto|discriminate A].
  Qed.
  Lemma fneg_opposite (x y : flt) : opposite x y -> opposite (fneg x) (fneg y).
  Proof.
    intros [[->|[A B]]|(s & t & -> & ->)]; [left; left; reflexivity|left; right; rewrite !fneg_nan; auto|right; cbn; eauto].
  Qed.
  Lemma fneg_same (x y : flt) : same x y -> same (fneg x) (fneg y).
  Proof. intros [->|[A B]]; [left; reflexivity|right; rewrite !fneg_nan; auto]. Qed.
  Lemma rounded_finite v s r : (Rabs v < bpow radix2 (emax bits))%R -> rounded v s r -> finite r = true /\ fR r = v.
  Proof. intros L. unfold rounded. rewrite Rlt_bool_true by exact L. tauto. Qed.
  Lemma rounded_inf v s r : (bpow radix2 (emax bits) <= Rabs v)%R -> rounded v s r -> r = infinity s.
  Proof. intros L. unfold rounded. rewrite Rlt_bool_false by exact L. auto. Qed.
  Lemma fadd_opposite (x x' y y' : flt) : opposite x x' -> opposite y y' -> opposite (fadd x y) (fadd x' y').
  Proof.
    intros Ox Oy. destruct (opposite_cases x x' Ox) as [[A B]|[(Fx & Fx' & V)|(s & -> & ->)]].
    - left. right. split; apply fadd_nan; auto.
    - destruct (opposite_cases y y' Oy) as [[A B]|[(Fy & Fy' & V')|(s & -> & ->)]].
      + left. right. split; apply fadd_nan; auto.
      + pose proof (fadd_rounded x y Fx Fy) as R1. pose proof (fadd_rounded x' y' Fx' Fy') as R2.
        replace (fR x' + fR y')%R with (- (fR x + fR y))%R in R2 by (rewrite V, V'; ring). rewrite RN_opp in R2.
        destruct (Rlt_or_le (Rabs (RN bits (fR x + fR y))) (bpow radix2 (emax bits))) as [L|L].
        * destruct (rounded_finite _ _ _ L R1) as [F1 V1]. rewrite <- Rabs_Ropp in L. destruct (rounded_finite _ _ _ L R2) as [F2 V2]. apply opposite_values; congruence.
        * rewrite (rounded_inf _ _ _ L R1). rewrite <- Rabs_Ropp in L. rewrite (rounded_inf _ _ _ L R2). left. left.
          destruct (Rcompare_spec (fR x + fR y) 0) as [K|K|K]; [rewrite Rcompare_Gt by lra; reflexivity| |rewrite Rcompare_Lt by lra; reflexivity].
          exfalso. rewrite K, round_0, Ropp_0, Rabs_R0 in L by auto with typeclass_instances. pose proof (bpow_gt_0 radix2 (emax bits)). lra.
      + left. left. destruct x as [sx|sx|sx px hx|sx mx ex hx]; try discriminate Fx; destruct x' as [sx'|sx'|sx' px' hx'|sx' mx' ex' hx']; try discriminate Fx'; reflexivity.
    - destruct (opposite_cases y y' Oy) as [[A B]|[(Fy & Fy' & V')|(t & -> & ->)]].
      + left. right. split; apply fadd_nan; auto.
      + left. left. destruct y as [sx|sx|sx px hx|sx mx ex hx]; try discriminate Fy; destruct y' as [sx'|sx'|sx' px' hx'|sx' mx' ex' hx']; try discriminate Fy'; reflexivity.
      + left. unfold GenSem.fadd, Binary.Bplus. destruct s, t; special.
  Qed.
  Lemma fsub_opposite (x x' y y' : flt) : opposite x x' -> opposite y y' -> opposite (fsub x y) (fsub x' y').
  Proof.
    intros Ox Oy. apply same_opposite with (1 := fsub_fadd x y). apply opposite_same with (2 := same_sym _ _ (fsub_fadd x' y')).
    apply fadd_opposite; [exact Ox|apply fneg_opposite, Oy].
  Qed.
  Lemma fsub_swap (x y : flt) : opposite (fsub x y) (fsub y x).
  Proof.
    apply same_opposite with (1 := fsub_fadd x y). apply opposite_same with (2 := same_sym _ _ (fsub_fadd y x)).
    apply opposite_same with (2 := fadd_comm _ _). apply fadd_opposite; left; left; [reflexivity|symmetry; apply fneg_fneg].
  Qed.
  Lemma fmul_negative (x x' y y' : flt) : negative x x' -> same y y' -> negative (fmul x y) (fmul x' y').
  Proof.
    intros [->|[A B]] S; [|right; split; apply fmul_nan; auto]. apply negative_same with (1 := fmul_neg x y). apply fmul_same; [left; reflexivity|exact S].
  Qed.
  Lemma fmul_negative_r (x x' y y' : flt) : same x x' -> negative y y' -> negative (fmul x y) (fmul x' y').
  Proof.
    intros S N. apply same_negative with (1 := fmul_comm x y). apply negative_same with (2 := fmul_comm y' x'). apply fmul_negative; assumption.
  Qed.
  Lemma negative_twice (x y z : flt) : negative x y -> negative y z -> same x z.
  Proof. intros [->|[A B]] [->|[C D]]; [left; symmetry; apply fneg_fneg|right|right|right]; rewrite ?fneg_nan in *; auto. Qed.
  Lemma fmul_both (x x' y y' : flt) : negative x x' -> negative y y' -> same (fmul x y) (fmul x' y').
  Proof. intros N M. apply negative_twice with (fmul x' y); [apply fmul_negative; [exact N|left; reflexivity]|apply fmul_negative_r; [left; reflexivity|exact M]]. Qed.
  Lemma fmul_opposite (x x' y y' : flt) : opposite x x' -> same y y' -> opposite (fmul x y) (fmul x' y').
  Proof.
    intros [N|(s & t & -> & ->)] S; [left; apply fmul_negative; assumption|]. destruct S as [<-|[A B]]; [|left; right; split; apply fmul_nan; auto].
    destruct y as [u|u|u pl H|u m e H]; [right; cbn; eauto|left; unfold GenSem.fmul, Binary.Bmult; right; split; nan_case|left; right; split; apply fmul_nan; right; reflexivity|right; cbn; eauto].
  Qed.
  Lemma square_same (x x' : flt) : opposite x x' -> same (fmul x x) (fmul x' x').
  Proof. intros [N|(s & t & -> & ->)]; [apply fmul_both; exact N|left; destruct s, t; reflexivity]. Qed.
  Lemma fdiv_both (x x' y y' : flt) : negative x x' -> negative y y' -> same (fdiv x y) (fdiv x' y').
  Proof.
    intros [->|[A B]] [->|[C D]]; [|right; split; apply fdiv_nan; auto..].
    apply negative_twice with (fdiv (fneg x) y); [apply fdiv_neg|apply fdiv_neg].
  Qed.
  Lemma fdiv_negative (x x' y y' : flt) : negative x x' -> same y y' -> negative (fdiv x y) (fdiv x' y').
  Proof.
    intros [->|[A B]] S; [|right; split; apply fdiv_nan; auto]. apply negative_same with (1 := proj1 (fdiv_neg x y)). apply fdiv_same; [left; reflexivity|exact S].
  Qed.
  Lemma fdiv_negative_r (x x' y y' : flt) : same x x' -> negative y y' -> negative (fdiv x y) (fdiv x' y').
  Proof.
    intros S [->|[A B]]; [|right; split; apply fdiv_nan; auto]. apply negative_same with (1 := proj2 (fdiv_neg x y)). apply fdiv_same; [exact S|left; reflexivity].
  Qed.
  Lemma fma_move x y z : same (ffma (fneg x) y z) (ffma x (fneg y) z).
  Proof.
    destruct (finite x) eqn:Fx; [destruct (finite y) eqn:Fy; [destruct (finite z) eqn:Fz|]|].
    - left. destruct (fneg_value bits x) as [V F]. destruct (fneg_value bits y) as [V' F']. eapply rounded_unique; [apply fma_rounded; congruence|].
      replace (fR (fneg x) * fR y)%R with (fR x * fR (fneg y))%R by (rewrite V, V'; ring). rewrite !fneg_sign.
      replace (xorb (negb (sign x)) (sign y)) with (xorb (sign x) (sign (fneg y))) by (rewrite fneg_sign; destruct (sign x), (sign y); reflexivity). apply fma_rounded; congruence.
    - unfold GenSem.ffma, Binary.Bfma. destruct x as [s|s|s pl H|s m e H]; try discriminate; destruct y as [t|t|t pl' H'|t m' e' H']; try discriminate; destruct z as [u|u|u pl2 H2|u m2 e2 H2]; try discriminate; destruct s, t, u; special.
    - unfold GenSem.ffma, Binary.Bfma. destruct x as [s|s|s pl H|s m e H]; try discriminate; destruct y as [t|t|t pl' H'|t m' e' H']; try discriminate; destruct z as [u|u|u pl2 H2|u m2 e2 H2]; destruct s, t, u; special.
    - unfold GenSem.ffma, Binary.Bfma. destruct x as [s|s|s pl H|s m e H]; try discriminate; destruct y as [t|t|t pl' H'|t m' e' H']; destruct z as [u|u|u pl2 H2|u m2 e2 H2]; destruct s, t, u; special.
  Qed.

  (** ** Rounding to an integer *)
  Hypothesis HB : bits = 32 \/ bits = 64.
  Lemma of_int_opposite z z' : z' = - z \/ z = imax (sty bits) /\ z' = imin (sty bits) \/ z = imin (sty bits) /\ z' = imax (sty bits) ->
    imin (sty bits) <= z <= imax (sty bits) -> imin (sty bits) <= z' <= imax (sty bits) -> opposite (of_int bits z) (of_int bits z').
  Proof.
    intros C R R'. destruct (of_int_value bits z HB R) as [V F]. destruct (of_int_value bits z' HB R') as [V' F']. apply opposite_values; try assumption. rewrite V, V', <- RN_opp.
    assert (I : forall a, RN bits (IZR a) = fR (of_int bits a) \/ ~ (imin (sty bits) <= a <= imax (sty bits))).
    { intros a. destruct (Z_le_dec (imin (sty bits)) a); [|right; lia]. destruct (Z_le_dec a (imax (sty bits))); [|right; lia]. left. symmetry. apply of_int_value; auto. }
    assert (TOP : RN bits (IZR (imax (sty bits))) = (- RN bits (IZR (imin (sty bits))))%R).
    { destruct (I (imax (sty bits))) as [->|N]; [|exfalso; lia]. destruct (I (imin (sty bits))) as [->|N]; [|exfalso; lia].
      rewrite <- (proj1 (fneg_value bits _)). f_equal. apply top_int, HB. }
    destruct C as [->|[[-> ->]|[-> ->]]].
    - rewrite opp_IZR. reflexivity.
    - rewrite RN_opp. lra.
    - rewrite RN_opp. lra.
  Qed.
  Lemma to_int_opposite (x x' : flt) : opposite x x' -> isnan x = false ->
    let z := to_int bits (sty bits) x in let z' := to_int bits (sty bits) x' in
    z' = - z \/ z = imax (sty bits) /\ z' = imin (sty bits) \/ z = imin (sty bits) /\ z' = imax (sty bits).
  Proof.
    intros O N. cbv zeta. destruct (opposite_cases x x' O) as [[A _]|[(F & F' & V)|(s & -> & ->)]]; [congruence| |destruct s; cbn; auto].
    assert (T : Binary.Btrunc _ _ x' = - Binary.Btrunc _ _ x) by (rewrite !trunc_value, V; apply Ztrunc_opp).
    destruct (sty_range bits HB) as [R1 R2].
    assert (E : forall y : flt, finite y = true -> to_int bits (sty bits) y = Z.max (imin (sty bits)) (Z.min (imax (sty bits)) (Binary.Btrunc _ _ y))) by (intros [s|s|s pl H|s m e H] Fy; try discriminate; reflexivity).
    rewrite (E x F), (E x' F'), T. assert (P : 0 < 2 ^ (bits - 1)) by (apply Z.pow_pos_nonneg; [reflexivity|destruct HB; lia]). lia.
  Qed.
  Lemma round_zero s : round_of bits nan_of (zero s) = zero false.
  Proof.
    assert (H0 : forall (h : flt), finite h = true -> (Rabs (fR h) = / 2)%R -> of_int bits (to_int bits (sty bits) h) = zero false).
    { intros h F V. assert (T : Binary.Btrunc _ _ h = 0).
      { rewrite trunc_value. destruct (Rcase_abs (fR h)) as [L|L]; [rewrite Rabs_left in V by exact L|rewrite Rabs_right in V by exact L].
        - rewrite Ztrunc_ceil by lra. apply Zceil_imp. cbn. lra.
        - rewrite Ztrunc_floor by lra. apply Zfloor_imp. cbn. lra. }
      assert (E : to_int bits (sty bits) h = 0).
      { destruct (sty_range bits HB) as [R1 R2]. assert (P : 0 < 2 ^ (bits - 1)) by (apply Z.pow_pos_nonneg; [reflexivity|destruct HB; lia]).
        unfold to_int. rewrite T. destruct h; try discriminate; lia. }
      rewrite E. reflexivity. }
    unfold round_of. destruct (copysign_half bits (zero s) HB) as [V F]. destruct (half_not_inf bits (zero s) HB) as (m & e & B & Eh).
    assert (EA : fadd (zero s) (fcopysign bits (half bits) (zero s)) = fcopysign bits (half bits) (zero s)) by (rewrite Eh; reflexivity).
    rewrite EA. apply H0; [exact F|]. rewrite V. cbn. destruct s; [rewrite Rabs_left by lra|rewrite Rabs_right by lra]; lra.
  Qed.
  Lemma round_opposite (x x' : flt) : opposite x x' -> isnan x = false -> opposite (round_of bits nan_of x) (round_of bits nan_of x').
  Proof.
    intros [[->|[A _]]|(s & t & -> & ->)] N; [|congruence|rewrite !round_zero; right; eauto].
    unfold round_of. set (h := fcopysign bits (half bits) x).
    assert (Eh : fcopysign bits (half bits) (fneg x) = fneg h).
    { unfold h, fcopysign, fsign. rewrite fneg_sign. destruct (half bits) as [u|u|u pl H|u m e H]; reflexivity. }
    rewrite Eh. assert (O : opposite (fadd x h) (fadd (fneg x) (fneg h))) by (apply fadd_opposite; left; left; reflexivity).
    apply of_int_opposite; try apply to_int_range. apply to_int_opposite; [exact O|].
    destruct (half_not_inf bits x HB) as (m & e & B & E). fold h in E.
    destruct (finite x) eqn:Fx.
    - destruct (copysign_half bits x HB) as [_ Fh]. fold h in Fh. pose proof (fadd_rounded x h Fx Fh) as R. unfold rounded in R.
      destruct (Rlt_bool _ _); [apply finite_nan; tauto|rewrite R; reflexivity].
    - rewrite E. destruct x as [u|u|u pl H|u m' e' H]; try discriminate. reflexivity.
  Qed.
  Lemma reduce_opposite (x x' : flt) : opposite x x' -> opposite (fsub x (round_of bits nan_of x)) (fsub x' (round_of bits nan_of x')).
  Proof.
    intros O. destruct (isnan x) eqn:N.
    - pose proof (opposite_nan _ _ O) as E. rewrite N in E. left. right. split; apply fsub_nan; auto.
    - apply fsub_opposite; [exact O|]. apply round_opposite; assumption.
  Qed.

  (** ** Horner's rule *)
  Lemma horner_same t t' h l : same t t' ->
    same (HornerFloat.horner (fun a c => ffma a t c) h l) (HornerFloat.horner (fun a c => ffma a t' c) h l).
  Proof. intros S. induction l as [|c l IH]; cbn [HornerFloat.horner fold_right]; [left; reflexivity|]. apply fma_same; [exact IH|exact S|left; reflexivity]. Qed.
End Signs.
