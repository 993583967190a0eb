(** A float printer and a [powi] meeting the assumptions of the theorems about
    [use_number_type]: exact decimal expansions and correctly rounded powers. *)
From Coq Require Import List String Bool ZArith QArith Qreals Reals Ascii Lia Lra.
From Flocq Require Import Core IEEE754.BinarySingleNaN IEEE754.Binary IEEE754.Bits.
From Verif Require Import Res Dec DecFacts DecStr DecStrFacts RFacts Syntax GenSem FloatBits GenFloat DecimalLit UseNumberType NumberTypeFacts.
Import ListNotations.
Open Scope string_scope.
Open Scope list_scope.
Open Scope Z_scope.

Definition exact_dec (m e : Z) : bd := if 0 <=? e then BD (m * 2 ^ e) 0 else BD (m * 5 ^ (- e)) (- e).
Definition exact_show (bits : Z) (x : flt bits) : string :=
  string_of_list_ascii
    match x with
    | Binary.B754_finite _ _ _ m e _ => dec_repr (exact_dec (Z.pos m) e)
    | _ => ["0"%char]
    end.
Definition exact_floats (nan_for : forall bits, list (flt bits) -> { x : flt bits | Binary.is_nan _ _ x = true }) : floats :=
  Floats (fun n => of_decimal 64 (BD 1 (- n))) exact_show nan_for.

Lemma dreal_rval d : dreal d = rval d.
Proof. rewrite rval_eq. unfold dreal, r10. rewrite bpow_powerRZ. reflexivity. Qed.
Lemma dreal_Q x y : (dval x == dval y)%Q -> dreal x = dreal y.
Proof. intros E. rewrite !dreal_rval. unfold rval. apply Qeq_eqR. exact E. Qed.
Lemma exact_value m e : dreal (exact_dec m e) = (IZR m * bpow radix2 e)%R.
Proof.
  unfold exact_dec, dreal. destruct (Z.leb_spec 0 e) as [H|H]; cbn [mant scale].
  - rewrite mult_IZR. cbn [Z.opp bpow]. rewrite (IZR_Zpower radix2) by exact H. ring.
  - replace (- - e) with (- (- e)) by lia. rewrite bpow_opp, bpow10 by lia. rewrite mult_IZR.
    replace (bpow radix2 e) with (/ bpow radix2 (- e))%R by (rewrite <- bpow_opp; f_equal; lia).
    rewrite <- (IZR_Zpower radix2) by lia. cbn [radix_val radix2]. replace (10 ^ (- e)) with (5 ^ (- e) * 2 ^ (- e)).
    2:{ rewrite <- Z.pow_mul_l. reflexivity. }
    assert (IZR (5 ^ (- e)) <> 0)%R by (apply IZR_neq; pose proof (Z.pow_pos_nonneg 5 (- e)); lia).
    assert (IZR (2 ^ (- e)) <> 0)%R by (apply IZR_neq; pose proof (Z.pow_pos_nonneg 2 (- e)); lia).
    rewrite mult_IZR. field. auto.
Qed.
Lemma strict_nz bits (x : flt bits) : fR x <> 0%R -> Binary.is_finite_strict _ _ x = true.
Proof. destruct x; cbn; intros H; try reflexivity; contradiction H; reflexivity. Qed.
Lemma of_decimal_flt bits (x : flt bits) d : finite x = true -> sign x = false -> fR x <> 0%R -> dreal d = fR x ->
  of_decimal bits d = x.
Proof.
  intros FX SX NX E. destruct (of_decimal_nearest bits d) as [V F1].
  { rewrite E, RN_fmt by apply fmt_flt. apply Binary.abs_B2R_lt_emax. }
  rewrite E, RN_fmt in V by apply fmt_flt.
  apply Binary.B2R_inj; [apply strict_nz; rewrite V; exact NX|apply strict_nz; exact NX|exact V].
Qed.
Lemma no_point l : all_digits l -> existsb (Ascii.eqb ".") l = false.
Proof.
  intros A. induction A as [|c l Hc _ IH]; [reflexivity|]. cbn [existsb]. rewrite IH, orb_false_r.
  destruct (digit_not c Hc) as (_ & D & _). rewrite Ascii.eqb_sym. exact D.
Qed.
Lemma text_literal bits d : bits = 32 \/ bits = 64 -> 0 <= mant d ->
  exists n, (dval n == dval d)%Q /\
  literal bits (text_lit (string_of_list_ascii (dec_repr d)) (float_suffix bits)) = Ok (VFlt (of_decimal bits n)).
Proof.
  intros B M. destruct (dec_repr_plain d) as (b & a & E & Hn & Hb & Ha & V).
  pose proof (parse_plain false b a Hn Hb Ha) as P.
  destruct (Z.ltb_spec (mant d) 0); [lia|].
  exists (BD (digits_val (b ++ a)) (Z.of_nat (Datatypes.length a))). split.
  { rewrite V. unfold dabs, dval. cbn [mant scale]. rewrite Z.abs_eq by exact M. reflexivity. }
  rewrite E. unfold text_lit, has_point. rewrite list_ascii_of_string_of_list_ascii.
  destruct a as [|c a].
  - unfold plain_text. cbn [app]. rewrite app_nil_r, no_point by exact Hb. unfold literal.
    rewrite list_ascii_of_string_of_list_ascii. unfold plain_text in P. cbn [app] in P. rewrite !app_nil_r in P.
    rewrite P. cbn [scale mant Datatypes.length Z.of_nat]. rewrite Z.mul_1_l.
    destruct B as [-> | ->]; unfold of_decimal; cbn [scale mant Z.leb Z.compare Z.opp Z.pow Z.eqb Pos.eqb negb float_suffix];
    cbn [String.eqb Ascii.eqb Bool.eqb prim Z.eqb]; rewrite ?app_nil_r, ?Z.mul_1_r; reflexivity.
  - assert (HP : existsb (Ascii.eqb ".") (plain_text false b (c :: a)) = true).
    { apply existsb_exists. exists "."%char. split; [|reflexivity]. unfold plain_text. apply in_or_app. right. apply in_or_app. right. left. reflexivity. }
    rewrite HP. unfold literal. rewrite list_ascii_of_string_of_list_ascii, P. rewrite Z.mul_1_l.
    destruct B as [-> | ->]; reflexivity.
Qed.

Theorem exact_reads_back nans : reads_back (exact_floats nans).
Proof.
  intros bits x B FX SX. cbn [show exact_floats]. unfold exact_show.
  destruct x as [s|s|s pl H|s m e H]; try discriminate; cbn in SX; subst s.
  - destruct B as [-> | ->]; reflexivity.
  - destruct (text_literal bits (exact_dec (Z.pos m) e) B) as (n & E & L).
    { unfold exact_dec. destruct (0 <=? e) eqn:E; cbn [mant]; apply Z.mul_nonneg_nonneg; try lia; apply Z.pow_nonneg; lia. }
    rewrite L. do 2 f_equal. apply of_decimal_flt; try reflexivity.
    + cbn. apply Rgt_not_eq. apply F2R_gt_0. reflexivity.
    + rewrite (dreal_Q _ _ E), exact_value. reflexivity.
Qed.

Theorem exact_powi nans : powi_within (exact_floats nans) (bpow radix2 (-53)).
Proof.
  intros n N. cbn [powi10 exact_floats].
  assert (E : dreal (BD 1 (- n)) = bpow radix10 n) by (unfold dreal; cbn [mant scale]; rewrite Z.opp_involutive; ring).
  assert (BB : (bpow radix2 (-1000) <= bpow radix10 n <= bpow radix2 1000)%R).
  { assert (H300 : (bpow radix10 300 <= bpow radix2 1000)%R).
    { rewrite <- (IZR_Zpower radix2), bpow10 by lia. apply IZR_le. apply Z.leb_le. vm_compute. reflexivity. }
    split.
    - apply Rle_trans with (bpow radix10 (-300)); [|apply bpow_le; lia].
      change (-1000) with (- (1000)). change (-300) with (- (300)). rewrite !bpow_opp. apply Rinv_le; [apply bpow_gt_0|exact H300].
    - eapply Rle_trans; [apply bpow_le; instantiate (1 := 300); lia|exact H300]. }
  destruct (of_decimal_nearest 64 (BD 1 (- n))) as [V F1].
  { rewrite E. apply Rle_lt_trans with (bpow radix2 1001); [apply RN_lt|apply bpow_lt].
    - change (prec 64) with 53. change (emax 64) with 1024. lia.
    - rewrite Rabs_pos_eq by apply bpow_ge_0. eapply Rle_lt_trans; [apply BB|apply bpow_lt; lia].
    - change (emax 64) with 1024. lia. }
  split; [exact F1|]. rewrite V, E. destruct (RN_rel 64 (bpow radix10 n)) as (a & A & EA).
  { rewrite Rabs_pos_eq by apply bpow_ge_0. eapply Rle_trans; [|apply BB]. apply bpow_le. change (emax 64) with 1024. lia. }
  rewrite EA. replace (bpow radix10 n * (1 + a) - bpow radix10 n)%R with (bpow radix10 n * a)%R by ring.
  rewrite Rabs_mult, Rabs_pos_eq by apply bpow_ge_0. rewrite Rmult_comm. apply Rmult_le_compat_r; [apply bpow_ge_0|exact A].
Qed.
