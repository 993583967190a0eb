(** The conversions of [round_ieee], and the tables read as floats. *)
From Coq Require Import ZArith List Bool String QArith Qabs Qreals Reals Ascii Lia Lra.
From Flocq Require Import Core IEEE754.BinarySingleNaN IEEE754.Binary IEEE754.Bits.
From Verif Require Import Res Dec DecFacts DecStr RFacts Syntax Visitor Trans BdMath Eval EvalFacts GenSem FloatBits GenFloat DecimalLit UseNumberType NumberTypeFacts ExactFloats NumberTypeCases Harness HarnessFacts TestTable TestTableFacts.
From Flocq Require Import Core Relative Mult_error.
Import ListNotations.
Open Scope string_scope.
Open Scope list_scope.
Open Scope Z_scope.

Lemma float_dec_value m e : dreal (float_dec m e) = (IZR m * bpow radix2 e)%R.
Proof. exact (exact_value m e). Qed.
Lemma float_dec_pos m e : 0 < m -> 0 < mant (float_dec m e).
Proof.
  intros M. unfold float_dec. destruct (Z.leb_spec 0 e); cbn [mant].
  - pose proof (Z.pow_pos_nonneg 2 e). lia.
  - pose proof (Z.pow_pos_nonneg 5 (- e)). lia.
Qed.

(** the decimal chosen is the nearest with [p + 1] digits *)
Lemma scientific_close p d : 0 <= p -> 0 < mant d ->
  0 < mant (scientific p d) /\ (Rabs (dreal (scientific p d) - dreal d) <= / 2 * bpow radix10 (- p) * dreal d)%R.
Proof.
  intros P M. destruct (ndigits_spec (mant d) M) as (N1 & N2 & N3). unfold scientific.
  set (L := ndigits (mant d)) in *. set (drop := L - (p + 1)).
  assert (Q0 : (0 < / 2 * bpow radix10 (- p) * dreal d)%R).
  { unfold dreal. repeat apply Rmult_lt_0_compat; try lra; try apply bpow_gt_0. apply IZR_lt. exact M. }
  destruct (Z.leb_spec drop 0) as [D|D].
  - cbn [mant]. split; [pose proof (Z.pow_pos_nonneg 10 (- drop)); nia|].
    unfold dreal at 1. cbn [mant scale]. rewrite mult_IZR, (IZR_Zpower radix10) by lia. rewrite Rmult_assoc, <- bpow_plus.
    replace (- drop + - (scale d - drop)) with (- scale d) by lia. fold (dreal d). rewrite Rminus_eq_0, Rabs_R0. lra.
  - set (u := 10 ^ drop). set (q := mant d / u). set (r := mant d mod u).
    assert (U : 0 < u) by (apply Z.pow_pos_nonneg; lia).
    pose proof (Z.div_mod (mant d) u ltac:(lia)) as E. fold q r in E. pose proof (Z.mod_pos_bound (mant d) u U) as R. fold r in R.
    set (q' := match 2 * r ?= u with Lt => q | Gt => q + 1 | Eq => if Z.even q then q else q + 1 end).
    assert (C : 2 * Z.abs (q' * u - mant d) <= u).
    { unfold q'. destruct (Z.compare_spec (2 * r) u); [destruct (Z.even q)| |]; rewrite E; nia. }
    assert (QL : 10 ^ p <= q).
    { unfold q. apply Z.div_le_lower_bound; [lia|]. unfold u. rewrite <- Z.pow_add_r by lia. replace (drop + p) with (L - 1) by (unfold drop; lia). exact N2. }
    assert (QP : 0 < 10 ^ p) by (apply Z.pow_pos_nonneg; lia).
    assert (Q'P : 0 < q'). { assert (q <= q'). { unfold q'. destruct (2 * r ?= u); [destruct (Z.even q)| |]; lia. } lia. }
    assert (V : dreal (if q' =? 10 ^ (p + 1) then BD (10 ^ p) (scale d - drop - 1) else BD q' (scale d - drop)) = (IZR (q' * u) * bpow radix10 (- scale d))%R /\
                0 < mant (if q' =? 10 ^ (p + 1) then BD (10 ^ p) (scale d - drop - 1) else BD q' (scale d - drop))).
    { rewrite mult_IZR. unfold u. rewrite (IZR_Zpower radix10) by lia. rewrite Rmult_assoc, <- bpow_plus.
      destruct (Z.eqb_spec q' (10 ^ (p + 1))) as [X|X]; cbn [mant scale]; split; auto; unfold dreal; cbn [mant scale].
      - rewrite X, !(IZR_Zpower radix10) by lia. rewrite <- !bpow_plus. f_equal. lia.
      - f_equal. f_equal. lia. }
    destruct V as [V1 V2]. split; [exact V2|]. rewrite V1. unfold dreal. rewrite <- Rmult_minus_distr_r, Rabs_mult, (Rabs_pos_eq (bpow _ _)) by apply bpow_ge_0.
    replace (/ 2 * bpow radix10 (- p) * (IZR (mant d) * bpow radix10 (- scale d)))%R with (/ 2 * bpow radix10 (- p) * IZR (mant d) * bpow radix10 (- scale d))%R by ring.
    apply Rmult_le_compat_r; [apply bpow_ge_0|]. rewrite <- minus_IZR, <- abs_IZR.
    apply Rmult_le_reg_l with (IZR (2 * 10 ^ p)); [apply IZR_lt; lia|].
    rewrite <- mult_IZR. rewrite mult_IZR with (n := 2). rewrite bpow_opp, <- (IZR_Zpower radix10) by lia. change (Z.pow radix10 p) with (10 ^ p).
    assert (IZR (10 ^ p) <> 0)%R by (apply IZR_neq; lia).
    replace (2 * IZR (10 ^ p) * (/ 2 * / IZR (10 ^ p) * IZR (mant d)))%R with (IZR (mant d)) by (field; auto). apply IZR_le.
    assert (u * 10 ^ p <= mant d) by (rewrite E; nia). nia.
Qed.

Lemma from_float_close {bits} p (x : flt bits) : 0 <= p -> finite x = true ->
  exists d, from_float p x = Some d /\ (Rabs (dreal d - fR x) <= / 2 * bpow radix10 (- p) * Rabs (fR x))%R.
Proof.
  intros P FX. destruct x as [s|s|s pl H|s m e H]; try discriminate.
  - exists (BD 0 p). split; [reflexivity|]. unfold dreal. cbn [mant B2R fR]. rewrite Rmult_0_l, Rminus_0_r, Rabs_R0. lra.
  - cbn [from_float]. destruct (scientific_close p (float_dec (Z.pos m) e) P (float_dec_pos (Z.pos m) e eq_refl)) as [M C].
    eexists. split; [reflexivity|]. rewrite float_dec_value in C. set (d := scientific p (float_dec (Z.pos m) e)) in *.
    set (w := (IZR (Z.pos m) * bpow radix2 e)%R) in *.
    assert (W : (0 < w)%R) by (apply Rmult_lt_0_compat; [apply IZR_lt; reflexivity|apply bpow_gt_0]).
    assert (FV : fR (Binary.B754_finite _ _ s m e H : flt bits) = (if s then - w else w)%R).
    { unfold fR, w. cbn [Binary.B2R]. unfold F2R. cbn [Fnum Fexp]. destruct s; cbn [cond_Zopp]; [|reflexivity].
      change (Z.opp (Z.pos m)) with (- Z.pos m). rewrite opp_IZR. ring. }
    assert (DV : dreal (BD (cond_Zopp s (mant d)) (scale d)) = (if s then - dreal d else dreal d)%R).
    { unfold dreal. cbn [mant scale]. destruct s; cbn [cond_Zopp]; [|reflexivity]. rewrite opp_IZR. ring. }
    rewrite FV, DV. destruct s.
    + rewrite Rabs_Ropp, (Rabs_pos_eq w) by lra. rewrite <- Rabs_Ropp. replace (- (- dreal d - - w))%R with (dreal d - w)%R by ring. exact C.
    + rewrite (Rabs_pos_eq w) by lra. exact C.
Qed.
Lemma from_float_none {bits} p (x : flt bits) : from_float p x = None <-> finite x = false.
Proof. destruct x; cbn; split; intros H; congruence. Qed.

(** the digits of the texts: [f32::DIGITS] and [f64::DIGITS] *)
Definition text_digits (bits : Z) : Z := if bits =? 32 then 6 else 15.
Lemma round_ieee_is F o bits v : bits = 32 \/ bits = 64 ->
  bround_ieee (ieee_oracles F o) v (BD bits 0) = ok_or Overflow (from_float (text_digits bits) (converted F bits v)).
Proof. intros [-> | ->]; reflexivity. Qed.
Lemma round_ieee_close F k o bits v : bits = 32 \/ bits = 64 -> powi_within F k -> (0 <= k <= 1 / 1024)%R -> ordinary bits v ->
  exists y, bround_ieee (ieee_oracles F o) v (BD bits 0) = Ok y /\
    (Rabs (dreal y - dreal v) <= (k + unit_of bits + bpow radix10 (- text_digits bits)) * Rabs (dreal v))%R.
Proof.
  intros B PW HK O. destruct (converted_close F k bits v B PW HK O) as [FX C].
  rewrite (round_ieee_is F o bits v B).
  destruct (from_float_close (text_digits bits) (converted F bits v)) as (y & E & D); [unfold text_digits; destruct (bits =? 32); lia|exact FX|].
  exists y. rewrite E. split; [reflexivity|]. set (x := fR (converted F bits v)) in *. set (t := bpow radix10 (- text_digits bits)) in *.
  assert (T : (0 < t)%R) by apply bpow_gt_0. set (a := (k + unit_of bits)%R) in *. pose proof (Rabs_pos (dreal v)) as V.
  assert (A : (0 <= a <= 1)%R).
  { unfold a, unit_of. destruct (small_pow2 (-23) ltac:(lia)). destruct (small_pow2 (-53) ltac:(lia)). destruct (bits =? 32); lra. }
  assert (X : (Rabs x <= (1 + a) * Rabs (dreal v))%R).
  { replace x with ((x - dreal v) + dreal v)%R by ring. eapply Rle_trans; [apply Rabs_triang|]. lra. }
  replace (dreal y - dreal v)%R with ((dreal y - x) + (x - dreal v))%R by ring. eapply Rle_trans; [apply Rabs_triang|].
  assert (/ 2 * t * Rabs x <= / 2 * t * ((1 + a) * Rabs (dreal v)))%R by (apply Rmult_le_compat_l; [lra|exact X]).
  assert (t * (a * Rabs (dreal v)) <= t * Rabs (dreal v))%R by (apply Rmult_le_compat_l; [lra|]; rewrite <- (Rmult_1_l (Rabs (dreal v))) at 2; apply Rmult_le_compat_r; lra).
  lra.
Qed.

(** ** Literals as floats *)
Definition big (bits : Z) : R := bpow radix2 (emax bits - 1).
Definition tiny (bits : Z) : R := bpow radix2 (2 - emax bits - prec bits).
Lemma of_decimal_close bits d : (Rabs (dreal d) < big bits)%R ->
  finite (of_decimal bits d) = true /\
  (Rabs (fR (of_decimal bits d) - dreal d) <= bpow radix2 (- prec bits) * Rabs (dreal d) + tiny bits)%R.
Proof.
  intros L. pose proof (prec_pos bits) as PP.
  assert (PE : prec bits < emax bits - 1) by (unfold prec, emax, mw, ew; destruct (bits =? 32); reflexivity).
  destruct (of_decimal_nearest bits d) as [V FX].
  { eapply Rle_lt_trans; [apply (RN_lt bits (dreal d) (emax bits - 1)); [lia|exact L]|]. apply bpow_lt. lia. }
  split; [exact FX|]. rewrite V.
  destruct (error_N_FLT radix2 (3 - emax bits - prec bits) (prec bits) (prec_gt bits) (fun t => negb (Z.even t)) (dreal d)) as (a & b & A & B & _ & E).
  assert (E' : RN bits (dreal d) = (dreal d * (1 + a) + b)%R) by exact E. rewrite E'. replace (dreal d * (1 + a) + b - dreal d)%R with (a * dreal d + b)%R by ring.
  eapply Rle_trans; [apply Rabs_triang|]. rewrite Rabs_mult. apply Rplus_le_compat.
  - apply Rmult_le_compat_r; [apply Rabs_pos|]. eapply Rle_trans; [exact A|]. rewrite bpow_plus. cbn [bpow]. change (Z.pow_pos radix2 1) with 2. lra.
  - eapply Rle_trans; [exact B|]. unfold tiny. replace (3 - emax bits - prec bits) with (1 + (2 - emax bits - prec bits)) by lia. rewrite bpow_plus. cbn [bpow]. change (Z.pow_pos radix2 1) with 2. lra.
Qed.

Section Rows.
  Variables (bits : Z) (o : oracles) (fuel : nat) (nd : Z) (refe tmin tmax : expr).
  Hypothesis B : 0 <= bits.
  (** the compiled table *)
  Definition compiled (rows : list (expr * expr * expr)) (frows : list (flt bits * flt bits * flt bits)) : Prop :=
    Forall2 (fun r fr => float_row bits r = Some fr) rows frows.
  Lemma Forall2_nth {A C} (P : A -> C -> Prop) l m i a : Forall2 P l m -> nth_error l i = Some a -> exists c, nth_error m i = Some c /\ P a c.
  Proof.
    intros F. revert i. induction F as [|x y l m H F IH]; intros [|i] E; try discriminate E.
    - inversion E. subst. exists y. auto.
    - apply IH. exact E.
  Qed.
  Lemma rows_compile n rows : table_rows o fuel nd bits refe tmin tmax n = Ok rows -> exists frows, compiled rows frows.
  Proof.
    intros H. destruct (rows_nth _ _ _ _ _ _ _ _ _ H) as [L G].
    assert (K : forall r, In r rows -> exists fr, float_row bits r = Some fr).
    { intros [[xe ye] ee] I. destruct (In_nth_error _ _ I) as [i Hi].
      assert (Li : (i < n)%nat). { rewrite <- L. apply nth_error_Some. congruence. }
      destruct (G i Li) as (r & R & T). assert (r = (xe, ye, ee)) by congruence. subst r.
      destruct (row_inv _ _ _ _ _ _ _ _ _ _ _ _ B T) as ((g & x' & x & _ & _ & X & _) & s & ve & v & y' & y & e & _ & _ & _ & _ & Y & _ & E & _).
      unfold float_row, entry. rewrite X, Y, E. eauto. }
    clear - K. induction rows as [|r rows IH]; [exists []; constructor|].
    destruct (K r (or_introl eq_refl)) as [fr Fr]. destruct IH as [frs F]; [intros; apply K; right; assumption|].
    exists (fr :: frs). constructor; assumption.
  Qed.

  Lemma passing_test n rows frows nan_of f limit :
    table_rows o fuel nd bits refe tmin tmax n = Ok rows -> compiled rows frows ->
    test_passes bits nan_of f frows limit = true -> finite limit = true ->
    forall i xe ye ee, nth_error rows i = Some (xe, ye, ee) ->
    exists X s ve v y e, entry bits xe = Some X /\ subst [(["x"], xe)] refe = Ok s /\ eval o fuel nd s = Ok ve /\
      bd_of_expr ve = Ok v /\ bd_of_expr ye = Ok y /\ bd_of_expr ee = Ok e /\
      (finite (f X) = true -> (Rabs (dreal y) < big bits)%R -> (Rabs (dreal e) < big bits)%R ->
       (Rabs (fR (f X) - dreal v) <=
        (1 + bpow radix2 (- prec bits)) ^ 2 * fR limit + bpow radix2 (- prec bits) * (Rabs (dreal y) + 3 * Rabs (dreal e)) + 3 * tiny bits)%R).
  Proof.
    intros H C TP FL i xe ye ee Nx. destruct (rows_nth _ _ _ _ _ _ _ _ _ H) as [L G].
    assert (Li : (i < n)%nat). { rewrite <- L. apply nth_error_Some. congruence. }
    destruct (G i Li) as (r & R & T). assert (r = (xe, ye, ee)) by congruence. subst r.
    destruct (row_inv _ _ _ _ _ _ _ _ _ _ _ _ B T) as ((g & x' & x & _ & _ & X & _) & s & ve & v & y' & y & e & Su & Ev & Vv & _ & Y & _ & E & Sum).
    destruct (Forall2_nth _ _ _ _ _ C Nx) as (fr & Nf & Fr). unfold float_row, entry in Fr. rewrite X, Y, E in Fr. inversion Fr. subst fr. clear Fr.
    exists (of_decimal bits x), s, ve, v, y, e. unfold entry. rewrite X. repeat (split; [auto|]). intros FF YB EB.
    destruct (of_decimal_close bits y YB) as [FY CY]. destruct (of_decimal_close bits e EB) as [FE CE].
    pose proof (finite_error bits nan_of f frows limit TP FL _ _ _ (nth_error_In _ _ Nf) FF FY FE) as FErr.
    assert (S : dreal v = (dreal y + dreal e)%R).
    { rewrite !dreal_rval. unfold rval. rewrite <- Q2R_plus. apply Qeq_eqR. symmetry. exact Sum. }
    rewrite S. set (Yf := fR (of_decimal bits y)) in *. set (Ef := fR (of_decimal bits e)) in *. set (u := bpow radix2 (- prec bits)) in *.
    assert (U : (0 < u <= 1)%R).
    { split; [apply bpow_gt_0|]. change 1%R with (bpow radix2 0). apply bpow_le. pose proof (prec_pos bits). lia. }
    assert (T0 : (0 < tiny bits)%R) by apply bpow_gt_0. pose proof (Rabs_pos (dreal e)) as E0.
    assert (EA : (Rabs Ef <= 2 * Rabs (dreal e) + tiny bits)%R).
    { replace Ef with ((Ef - dreal e) + dreal e)%R by ring. eapply Rle_trans; [apply Rabs_triang|].
      assert (u * Rabs (dreal e) <= 1 * Rabs (dreal e))%R by (apply Rmult_le_compat_r; lra). lra. }
    assert (u * Rabs Ef <= u * (2 * Rabs (dreal e) + tiny bits))%R by (apply Rmult_le_compat_l; lra).
    assert (u * tiny bits <= 1 * tiny bits)%R by (apply Rmult_le_compat_r; lra).
    replace (fR (f (of_decimal bits x)) - (dreal y + dreal e))%R with
      ((fR (f (of_decimal bits x)) - (Yf + Ef)) + ((Yf - dreal y) + (Ef - dreal e)))%R by ring.
    eapply Rle_trans; [apply Rabs_triang|]. eapply Rle_trans; [apply Rplus_le_compat; [exact FErr|apply Rabs_triang]|]. lra.
  Qed.
End Rows.

(** ** One tenth *)
Lemma pow2_mod5 k : 0 <= k -> 2 ^ k mod 5 <> 0.
Proof.
  intros K. revert k K. apply natlike_ind; [discriminate|]. intros k K IH. rewrite Z.pow_succ_r by exact K.
  intros E. apply IH. apply Z.mod_divide in E; [|lia]. apply Z.mod_divide; [lia|]. apply (Z.gauss 5 2); [exact E|reflexivity].
Qed.
Lemma tenth_no_float bits (x : flt bits) : fR x <> (1 / 10)%R.
Proof.
  assert (K : forall m e, (IZR m * bpow radix2 e)%R <> (1 / 10)%R).
  { intros m e E. destruct (Z.le_gt_cases 0 e) as [H|H].
    - rewrite <- (IZR_Zpower radix2), <- mult_IZR in E by exact H. assert (IZR (10 * (m * radix2 ^ e)) = 1)%R by (rewrite mult_IZR, E; lra).
      apply eq_IZR in H0. lia.
    - assert (Q : (IZR (10 * m) = IZR (2 ^ (- e)))%R).
      { change (2 ^ (- e)) with (Z.pow radix2 (- e)). rewrite (IZR_Zpower radix2) by lia. rewrite mult_IZR, bpow_opp.
        apply Rmult_eq_reg_r with (bpow radix2 e); [|apply Rgt_not_eq, bpow_gt_0]. rewrite Rmult_assoc, E, Rinv_l; [lra|apply Rgt_not_eq, bpow_gt_0]. }
      apply eq_IZR in Q. apply (pow2_mod5 (- e) ltac:(lia)). rewrite <- Q. replace (10 * m) with (2 * m * 5) by lia. apply Z.mod_mul. lia. }
  destruct x as [s|s|s pl H|s m e H]; unfold fR; cbn [Binary.B2R]; try lra. apply K.
Qed.
Lemma tenth_rounded F o : powi10 F (-1) = of_decimal 64 (BD 1 1) ->
  bround_ieee (ieee_oracles F o) (BD 1 1) (BD 64 0) = Ok (BD 1000000000000000 16) /\
  bround_ieee (ieee_oracles F o) (BD 1 1) (BD 32 0) = Ok (BD 1000000 7).
Proof.
  intros P. rewrite !round_ieee_is by auto. change (converted F 64 (BD 1 1)) with (to_f64 F (BD 1 1)).
  change (converted F 32 (BD 1 1)) with (to_f32 F (BD 1 1)). unfold to_f32, to_f64. cbn [mant scale]. change (wrap I32 (- (1))) with (-1). rewrite P.
  split; vm_compute; reflexivity.
Qed.
Lemma dreal_int m k : 0 <= k -> dreal (BD m k) = (IZR m / IZR (10 ^ k))%R.
Proof. intros K. unfold dreal. cbn [mant scale]. rewrite bpow_opp, <- (IZR_Zpower radix10) by exact K. reflexivity. Qed.
Lemma tenth64 : dreal (BD 1000000000000000 16) = (1 / 10)%R.
Proof. rewrite dreal_int by lia. change (10 ^ 16) with 10000000000000000. lra. Qed.
Lemma tenth32 : dreal (BD 1000000 7) = (1 / 10)%R.
Proof. rewrite dreal_int by lia. change (10 ^ 7) with 10000000. lra. Qed.
Lemma rounded_again F o : powi10 F (-16) = of_decimal 64 (BD 1 16) ->
  bround_ieee (ieee_oracles F o) (BD 1000000000000000 16) (BD 64 0) = Ok (BD 9999999999999999 17).
Proof.
  intros P. rewrite !round_ieee_is by auto. change (converted F 64 ?d) with (to_f64 F d). unfold to_f64. cbn [mant scale]. change (wrap I32 (- (16))) with (-16). rewrite P.
  vm_compute. reflexivity.
Qed.

(** a table: the identity on [0, 1) in ten steps *)
Definition plain_oracles : oracles := Oracles (fun _ => None) (fun x => x) (fun _ => None) (fun _ => None).
Definition table_oracles : oracles := ieee_oracles (exact_floats some_nan) plain_oracles.
Definition flit (t : string) : expr := ELit (LFloat t "").
Lemma tenth_row : exists r0 rest, max_abs_rows table_oracles 0 64 (EPath ["x"]) (flit "0") (flit "1") 10 =
  Ok (r0 :: (flit "0.1000000000000000", flit "0.09999999999999999", flit "0.00000000000000001") :: rest).
Proof. eexists _, _. vm_compute. reflexivity. Qed.
Lemma uncompensated : (bpow radix2 (-56) * (1 / 10) <=
  Rabs (fR (of_decimal 64 (BD 9999999999999999 17)) + fR (of_decimal 64 (BD 1 17)) - 1 / 10))%R.
Proof.
  assert (V1 : B2FF _ _ (of_decimal 64 (BD 9999999999999999 17)) = F754_finite false 7205759403792793 (-56)) by (vm_compute; reflexivity).
  assert (V2 : B2FF _ _ (of_decimal 64 (BD 1 17)) = F754_finite false 6490371073168535 (-109)) by (vm_compute; reflexivity).
  destruct (value_of _ _ _ _ _ V1) as [-> _]. destruct (value_of _ _ _ _ _ V2) as [-> _]. cbn [cond_Zopp].
  replace (bpow radix2 (-56)) with (bpow radix2 (-109) * 9007199254740992)%R.
  2:{ replace (-56) with (-109 + 53) by lia. rewrite bpow_plus. f_equal. }
  assert (E : (bpow radix2 (-109) * 649037107316853453566312041152512 = 1)%R).
  { replace 649037107316853453566312041152512%R with (bpow radix2 109) by (cbn; lra). rewrite <- bpow_plus. reflexivity. }
  assert (P : (0 < bpow radix2 (-109))%R) by apply bpow_gt_0. set (b := bpow radix2 (-109)) in *.
  rewrite Rabs_pos_eq; lra.
Qed.

(** ** The limits *)
Lemma pow2_bits k : -1000 <= k < 0 -> finite (of_bits 64 ((k + 1023) * 2 ^ 52)) = true /\ fR (of_bits 64 ((k + 1023) * 2 ^ 52)) = bpow radix2 k.
Proof.
  intros K. destruct (of_bits_fin 64 ((k + 1023) * 2 ^ 52)) as (A & _ & B).
  { split; [apply Z.mul_nonneg_nonneg; lia|]. change (2 ^ ew 64 - 1) with 2047. change (mw 64) with 52. apply Z.mul_lt_mono_pos_r; lia. }
  split; [exact A|]. rewrite B. unfold scaled. change (mw 64) with 52. rewrite Z.div_mul, Z_mod_mult by lia.
  destruct (Z.eqb_spec (k + 1023) 0) as [E|_]; [lia|]. rewrite Z.add_0_r, <- Z.pow_add_r by lia.
  rewrite (IZR_Zpower radix2), <- bpow_plus by lia. f_equal. change (emin 64) with (-1074). lia.
Qed.
Lemma scaled_limit nan_of (x : flt 64) k : finite x = true -> (fR x = 0 \/ bpow radix2 (-900) <= Rabs (fR x))%R -> -100 <= k < 0 ->
  let r := fmul 64 nan_of x (of_bits 64 ((k + 1023) * 2 ^ 52)) in finite r = true /\ fR r = (fR x * bpow radix2 k)%R.
Proof.
  intros F S K. destruct (pow2_bits k ltac:(lia)) as [Fm Vm].
  assert (FM : generic_format radix2 (fx 64) (fR x * bpow radix2 k)).
  { destruct S as [Z|S]; [rewrite Z, Rmult_0_l; apply generic_format_0|].
    apply (mult_bpow_exact_FLT radix2 (emin 64) (prec 64)); [apply fmt_flt|].
    assert (-900 < mag radix2 (fR x)) by (apply (mag_gt_bpow radix2); exact S). change (emin 64) with (-1074). change (prec 64) with 53.
    set (m := mag_val _ _ (mag radix2 (fR x))) in *. change (-900 < m) in H. change (-1074 + 53 - m <= k). clearbody m. clear - H K. lia. }
  destruct (fmul_value 64 nan_of x _ F Fm) as [V G].
  - rewrite Vm, (RN_fmt 64 _ FM), Rabs_mult, (Rabs_pos_eq (bpow _ _)) by apply bpow_ge_0.
    apply Rle_lt_trans with (Rabs (fR x) * 1)%R; [apply Rmult_le_compat_l; [apply Rabs_pos|change 1%R with (bpow radix2 0); apply bpow_le; lia]|].
    rewrite Rmult_1_r. apply abs_B2R_lt_emax.
  - rewrite Vm, (RN_fmt 64 _ FM) in V. auto.
Qed.
Lemma test_limit_value nan_of bits (b32 b64 : flt 64) : bits = 32 \/ bits = 64 ->
  let b := if bits =? 32 then b32 else b64 in
  finite b = true -> (fR b = 0 \/ bpow radix2 (-900) <= Rabs (fR b))%R ->
  finite (test_limit nan_of bits b32 b64) = true /\ fR (test_limit nan_of bits b32 b64) = (fR b * bpow radix2 (if bits =? 32 then -23 else -53))%R.
Proof.
  intros [-> | ->]; cbn [Z.eqb Pos.eqb]; intros F S.
  - exact (scaled_limit nan_of b32 (-23) F S ltac:(lia)).
  - exact (scaled_limit nan_of b64 (-53) F S ltac:(lia)).
Qed.
