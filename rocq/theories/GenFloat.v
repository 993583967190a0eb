(** Bit-level facts about the generated functions. *)
From Coq Require Import List String Bool ZArith Reals Ascii Lia Lra.
From Flocq Require Import Core IEEE754.BinarySingleNaN IEEE754.Binary IEEE754.Bits.
From Verif Require Import Res Dec DecStr Syntax Item Functions FunctionsFacts GenCode GenCodeFacts GenSem FloatBits GenRun.
Import ListNotations.
Open Scope string_scope.
Open Scope list_scope.
Open Scope Z_scope.

(** ** Specification *)
(** the least float above [x], infinity if there is no finite one *)
Definition least_above {bits} (x y : flt bits) : Prop :=
  (finite y = true /\ (fR x < fR y)%R /\ (forall z : flt bits, finite z = true -> (fR x < fR z)%R -> (fR y <= fR z)%R)) \/
  (y = inf bits /\ forall z : flt bits, finite z = true -> (fR z <= fR x)%R).
(** same magnitude (and NaN-ness), opposite sign bit *)
Definition negated {bits} (y z : flt bits) : Prop :=
  sign z = negb (sign y) /\ finite z = finite y /\ Binary.is_nan _ _ z = Binary.is_nan _ _ y /\ fR z = (- fR y)%R.
(** nearest integer, ties away from zero *)
Definition nearest_away (x : R) (k : Z) : Prop :=
  (Rabs (x - IZR k) <= 1 / 2 /\ (Rabs (x - IZR k) = 1 / 2 -> Rabs x < Rabs (IZR k)))%R.

(** ** Libraries have the generated items *)
Lemma lib_has bits sub names exclude lib n : bits = 32 \/ bits = 64 -> library bits sub names exclude = Some lib ->
  (exists it, In it lib /\ item_name it = Some n) -> has bits sub lib n.
Proof.
  intros HB HL HN. apply (lib_name bits sub HB names exclude lib HL) in HN. destruct HN as [Rn Y].
  unfold yields_name in Y. destruct (find_fn FUNCTIONS n 0) as [[i f]|] eqn:F; [|discriminate].
  apply find_fn_entry in F. destruct F as [En <-].
  destruct (code_yields bits sub HB f (entry_In _ _ En) Y) as (it & E & N). unfold has. rewrite E. cbn [hd_error].
  pose proof (library_names bits sub HB names exclude lib HL) as ND.
  assert (I : In it lib).
  { apply (lib_items bits sub HB names exclude lib HL). exists i, f. split; [exact En|]. split; [exact Rn|].
    split; [apply andb_prop in Y; tauto|rewrite E; left; reflexivity]. }
  unfold find_item. clear -I ND N. induction lib as [|j r IH]; [destruct I|]. cbn [find]. cbn [map] in ND. inversion ND as [|? ? D1 D2]; subst.
  destruct I as [->|I].
  - rewrite N, String.eqb_refl. reflexivity.
  - destruct (item_name j) as [m|] eqn:J; [|exact (IH D2 I)]. destruct (String.eqb_spec m (f_name f)) as [->|]; [|exact (IH D2 I)].
    exfalso. apply D1. apply in_map_iff. exists it. rewrite N. auto.
Qed.

(** ** nextafter *)
Lemma fin_or_top bits n : fin_bits bits n -> fin_bits bits (n + 1) \/ n + 1 = (2 ^ ew bits - 1) * 2 ^ mw bits.
Proof. unfold fin_bits. lia. Qed.
Lemma of_bits_inf bits : of_bits bits ((2 ^ ew bits - 1) * 2 ^ mw bits) = inf bits.
Proof.
  replace ((2 ^ ew bits - 1) * 2 ^ mw bits) with (to_bits (inf bits)); [apply of_to_bits|].
  unfold to_bits, bits_of_binary_float, inf, join_bits. rewrite Z.shiftl_mul_pow2 by (pose proof (mw_pos bits); lia). lia.
Qed.
Lemma neg_le_pos bits (x z : flt bits) : finite x = true -> sign x = false -> sign z = true -> finite z = true -> (fR z <= fR x)%R.
Proof.
  intros Fx Sx Sz Fz. apply Rle_trans with 0%R.
  - destruct z as [s|s|s pl e|s m e B]; cbn in *; try lra; try discriminate. subst s. apply Rlt_le, F2R_lt_0. reflexivity.
  - destruct x as [s|s|s pl e|s m e B]; cbn in *; try lra; try discriminate. subst s. apply Rlt_le, F2R_gt_0. reflexivity.
Qed.
Lemma fin_le bits (x z : flt bits) : finite x = true -> sign x = false -> finite z = true -> sign z = false ->
  (fR x < fR z)%R -> to_bits x < to_bits z.
Proof.
  intros Fx Sx Fz Sz L. rewrite (to_bits_val bits x Fx Sx), (to_bits_val bits z Fz Sz) in L.
  apply Rmult_lt_reg_r in L; [|apply bpow_gt_0]. apply lt_IZR in L.
  destruct (Z_lt_le_dec (to_bits x) (to_bits z)) as [Y|N]; [exact Y|]. exfalso.
  destruct (Z.eq_dec (to_bits x) (to_bits z)) as [Eq|Ne]; [rewrite Eq in L; lia|].
  pose proof (scaled_lt bits _ _ (to_bits_fin bits z Fz Sz) (to_bits_fin bits x Fx Sx) ltac:(lia)). lia.
Qed.
Lemma next_least bits (x : flt bits) : finite x = true -> sign x = false -> least_above x (of_bits bits (to_bits x + 1)).
Proof.
  intros F S. pose proof (to_bits_fin bits x F S) as B. destruct (fin_or_top bits _ B) as [B1|B1].
  - left. destruct (of_bits_fin bits _ B1) as (F1 & S1 & V1). split; [exact F1|]. split.
    + rewrite V1, (to_bits_val bits x F S). apply Rmult_lt_compat_r; [apply bpow_gt_0|]. apply IZR_lt.
      apply scaled_lt; [exact B|exact B1|lia].
    + intros z Fz L. destruct (sign z) eqn:Sz; [pose proof (neg_le_pos bits x z F S Sz Fz); lra|].
      pose proof (fin_le bits x z F S Fz Sz L) as Lb. rewrite V1, (to_bits_val bits z Fz Sz). apply Rmult_le_compat_r; [apply bpow_ge_0|].
      apply IZR_le. destruct (Z.eq_dec (to_bits x + 1) (to_bits z)) as [<-|Ne]; [lia|].
      apply Z.lt_le_incl, scaled_lt; [exact B1|apply to_bits_fin; assumption|lia].
  - right. split; [rewrite B1; apply of_bits_inf|]. intros z Fz. apply Rnot_lt_le. intros L.
    destruct (sign z) eqn:Sz; [pose proof (neg_le_pos bits x z F S Sz Fz); lra|].
    pose proof (fin_le bits x z F S Fz Sz L). pose proof (to_bits_fin bits z Fz Sz) as [_ U]. lia.
Qed.
Lemma fin_below_max bits n : bits = 32 \/ bits = 64 -> fin_bits bits n -> n < imax (uty bits).
Proof. intros [-> | ->] [_ U]; cbn in U |- *; lia. Qed.

Theorem nextafter_ok bits sub lib nan_of std checked d (x : flt bits) : bits = 32 \/ bits = 64 ->
  has bits sub lib "fty" -> has bits sub lib "nextafter" -> finite x = true -> sign x = false ->
  exists y, run bits nan_of std checked lib (S d) "nextafter" [VFlt x] = Ok (VFlt y) /\ least_above x y.
Proof.
  intros HB hf hn F S. exists (of_bits bits (to_bits x + 1)). split; [|apply next_least; assumption].
  apply (run_nextafter bits sub lib HB); auto. apply fin_below_max; [exact HB|]. apply to_bits_fin; assumption.
Qed.
(** negative numbers go the wrong way: everything with the sign bit except NaN *)
Lemma neg_bits bits (x : flt bits) : sign x = true -> to_bits x = 2 ^ (mw bits + ew bits) + to_bits (set_sign bits false x).
Proof.
  pose proof (mw_pos bits). pose proof (ew_pos bits).
  intros S. destruct x as [s|s|s pl e|s m e B]; cbn in S; subst; unfold to_bits, bits_of_binary_float, set_sign, join_bits.
  1-3: rewrite !Z.shiftl_mul_pow2, Z.pow_add_r by lia; ring.
  destruct (Zle_bool 0 (Z.pos m - 2 ^ mw bits)); rewrite !Z.shiftl_mul_pow2, Z.pow_add_r by lia; ring.
Qed.
Lemma pos_bits bits (x : flt bits) : sign x = false -> 0 <= to_bits x < 2 ^ (mw bits + ew bits).
Proof.
  intros S. pose proof (to_bits_range bits x) as [R1 R2]. split; [exact R1|].
  pose proof (mw_pos bits). pose proof (ew_pos bits).
  set (y := set_sign bits true x).
  assert (Sy : sign y = true) by (unfold y; destruct x; reflexivity).
  assert (E : set_sign bits false y = x) by (unfold y; destruct x as [s|s|s pl e|s m e B]; cbn in S; subst; reflexivity).
  pose proof (neg_bits bits y Sy) as N. rewrite E in N. pose proof (to_bits_range bits y) as [_ U].
  rewrite Z.pow_add_r in U by lia. change (2 ^ 1) with 2 in U. lia.
Qed.

(** ** negate_on_odd *)
Lemma lxor_top k n : 0 <= k -> 0 <= n < 2 ^ k -> Z.lxor (2 ^ k) n = 2 ^ k + n.
Proof.
  intros K N. symmetry. apply Z.add_nocarry_lxor. apply Z.bits_inj'. intros i I. rewrite Z.land_spec, Z.bits_0.
  rewrite Z.pow2_bits_eqb by exact K. destruct (Z.eqb_spec k i) as [->|]; [|reflexivity].
  cbn. destruct (Z.eq_dec n 0) as [->|Z0]; [apply Z.bits_0|]. apply Z.bits_above_log2; [lia|]. apply Z.log2_lt_pow2; lia.
Qed.
Lemma flip_bits bits (y : flt bits) : Z.lxor (2 ^ (mw bits + ew bits)) (to_bits y) = to_bits (fneg bits y).
Proof.
  pose proof (mw_pos bits) as M. pose proof (ew_pos bits) as W. unfold fneg, fsign. destruct (sign y) eqn:S; cbn [negb].
  - rewrite (neg_bits bits y S). set (z := set_sign bits false y).
    assert (Sz : sign z = false) by (unfold z; destruct y; reflexivity).
    rewrite <- (lxor_top _ (to_bits z)) by (try lia; apply pos_bits; exact Sz).
    rewrite <- Z.lxor_assoc, Z.lxor_nilpotent. reflexivity.
  - rewrite lxor_top by (try lia; apply pos_bits; exact S). set (z := set_sign bits true y).
    assert (Sz : sign z = true) by (unfold z; destruct y; reflexivity).
    rewrite (neg_bits bits z Sz). f_equal. f_equal. unfold z. destruct y as [s|s|s pl e|s m e B]; cbn in S; subst; reflexivity.
Qed.
Lemma negated_fneg bits (y : flt bits) : negated y (fneg bits y).
Proof.
  unfold negated, fneg, fsign. destruct y as [s|s|s pl e|s m e B]; cbn; repeat split; try reflexivity; try lra.
  rewrite <- F2R_Zopp. destruct s; reflexivity.
Qed.
Lemma to_int_small bits t (x : flt bits) : finite x = true -> (IZR (imin t) <= fR x <= IZR (imax t))%R ->
  to_int bits t x = Ztrunc (fR x).
Proof.
  intros F [L U].
  assert (T : Binary.Btrunc _ _ x = Ztrunc (fR x)).
  { apply eq_IZR. rewrite Binary.Btrunc_correct, round_FIX_IZR. reflexivity. exact (prec_lt bits). }
  assert (B : imin t <= Ztrunc (fR x) <= imax t).
  { split; [rewrite <- (Ztrunc_IZR (imin t)); apply Ztrunc_le; exact L|rewrite <- (Ztrunc_IZR (imax t)); apply Ztrunc_le; exact U]. }
  destruct x as [s|s|s pl e|s m e Bd]; try discriminate; unfold to_int; rewrite T; lia.
Qed.
Lemma sty_range bits : bits = 32 \/ bits = 64 -> imin (sty bits) = - 2 ^ (bits - 1) /\ imax (sty bits) = 2 ^ (bits - 1) - 1.
Proof. intros [-> | ->]; split; reflexivity. Qed.
Lemma bits_sum bits : bits = 32 \/ bits = 64 -> bits - 1 = mw bits + ew bits.
Proof. intros [-> | ->]; reflexivity. Qed.
Lemma to_int_sty bits (x : flt bits) : bits = 32 \/ bits = 64 -> finite x = true -> (Rabs (fR x) < IZR (2 ^ (bits - 1)))%R ->
  to_int bits (sty bits) x = Ztrunc (fR x).
Proof.
  intros HB F A. apply Rabs_def2 in A. destruct A as [U L].
  assert (T : Binary.Btrunc _ _ x = Ztrunc (fR x)).
  { apply eq_IZR. rewrite Binary.Btrunc_correct, round_FIX_IZR. reflexivity. exact (prec_lt bits). }
  destruct (sty_range bits HB) as [E1 E2].
  assert (B : imin (sty bits) <= Ztrunc (fR x) <= imax (sty bits)).
  { rewrite E1, E2. split.
    - rewrite <- (Ztrunc_IZR (- 2 ^ (bits - 1))). apply Ztrunc_le. rewrite opp_IZR. lra.
    - destruct (Rle_or_lt 0 (fR x)) as [P|N].
      + rewrite Ztrunc_floor by exact P. assert (Zfloor (fR x) < 2 ^ (bits - 1)); [|lia]. apply lt_IZR.
        eapply Rle_lt_trans; [apply Zfloor_lb|exact U].
      + assert (Ztrunc (fR x) <= 0) by (rewrite <- (Ztrunc_IZR 0); apply Ztrunc_le; lra).
        assert (0 < 2 ^ (bits - 1)) by (destruct HB as [-> | ->]; reflexivity). lia. }
  destruct x as [s|s|s pl e|s m e Bd]; try discriminate; unfold to_int; rewrite T; lia.
Qed.
Theorem negate_ok bits sub lib nan_of std checked d (x y : flt bits) : bits = 32 \/ bits = 64 ->
  has bits sub lib "fty" -> has bits sub lib "uty" -> has bits sub lib "ity" -> has bits sub lib "negate_on_odd" ->
  finite x = true -> (Rabs (fR x) < IZR (2 ^ (bits - 1)))%R ->
  exists z, run bits nan_of std checked lib (S d) "negate_on_odd" [VFlt x; VFlt y] = Ok (VFlt z) /\
    if Z.odd (Ztrunc (fR x)) then negated y z else z = y.
Proof.
  intros HB hf hu hi hn F A. pose proof (run_negate bits sub lib HB nan_of std checked d x y hf hu hi hn) as E.
  rewrite (to_int_sty bits x HB F A) in E. eexists. split; [exact E|]. destruct (Z.odd _).
  - rewrite (bits_sum bits HB), flip_bits, of_to_bits. apply negated_fneg.
  - rewrite Z.lxor_0_l. apply of_to_bits.
Qed.

(** ** Exact values and rounding *)
Notation fx bits := (SpecFloat.fexp (prec bits) (emax bits)).
Notation RN bits := (Generic_fmt.round radix2 (fx bits) ZnearestE).
#[global] Instance fx_valid bits : Valid_exp (fx bits) := FLT_exp_valid (emin bits) (prec bits).
Lemma fmt bits m e : Z.abs m < 2 ^ prec bits -> emin bits <= e -> generic_format radix2 (fx bits) (IZR m * bpow radix2 e).
Proof.
  intros M E. apply (generic_format_FLT radix2 (emin bits) (prec bits)). exists (Float radix2 m e); [reflexivity|exact M|exact E].
Qed.
Lemma emin_neg bits : emin bits < - prec bits.
Proof. unfold emin, emax, prec, ew, mw. destruct (bits =? 32); reflexivity. Qed.
Lemma emax_big bits : bits < emax bits \/ bits <> 32 /\ bits <> 64.
Proof.
  destruct (Z.eq_dec bits 32) as [->|]; [left; reflexivity|]. destruct (Z.eq_dec bits 64) as [->|]; [left; reflexivity|]. lia.
Qed.
Lemma fmt_int bits z : Z.abs z <= 2 ^ prec bits -> generic_format radix2 (fx bits) (IZR z).
Proof.
  intros A. pose proof (emin_neg bits). pose proof (prec_gt bits) as P. unfold FLX.Prec_gt_0 in P.
  destruct (Z.eq_dec (Z.abs z) (2 ^ prec bits)) as [Eq|Ne].
  - assert (z = 2 ^ prec bits \/ z = - 2 ^ prec bits) as [->| ->] by lia.
    + replace (IZR (2 ^ prec bits)) with (IZR 1 * bpow radix2 (prec bits))%R by (rewrite <- (IZR_Zpower radix2) by lia; cbn; lra).
      apply fmt; [|lia]. apply (Z.pow_gt_1 2); lia.
    + replace (IZR (- 2 ^ prec bits)) with (IZR (-1) * bpow radix2 (prec bits))%R by (rewrite opp_IZR, <- (IZR_Zpower radix2) by lia; cbn; lra).
      apply fmt; [|lia]. apply (Z.pow_gt_1 2); lia.
  - replace (IZR z) with (IZR z * bpow radix2 0)%R by (cbn; lra). apply fmt; lia.
Qed.
Lemma RN_int bits z : Z.abs z <= 2 ^ prec bits -> RN bits (IZR z) = IZR z.
Proof. intros A. apply round_generic; [apply valid_rnd_N|apply fmt_int; exact A]. Qed.
Lemma of_int_exact bits z : Z.abs z <= 2 ^ prec bits ->
  fR (of_int bits z) = IZR z /\ finite (of_int bits z) = true.
Proof.
  intros A. unfold of_int. pose proof (Binary.binary_normalize_correct _ _ (prec_gt bits) (prec_lt bits) mode_NE z 0 false) as N.
  replace (F2R {| Fnum := z; Fexp := 0 |}) with (IZR z) in N by (unfold F2R; cbn; lra). cbn [round_mode] in N.
  rewrite RN_int in N by exact A. rewrite Rlt_bool_true in N; [tauto|].
  rewrite <- abs_IZR, <- (IZR_Zpower radix2) by (unfold emax; apply Z.pow_nonneg; lia). apply IZR_lt.
  eapply Z.le_lt_trans; [exact A|]. apply Z.pow_lt_mono_r; [reflexivity|unfold emax; apply Z.pow_nonneg; lia|].
  exact (prec_emax bits).
Qed.

(** ** round *)
Ltac lit_value n e := rewrite <- !Binary.FF2R_B2FF, <- !Binary.is_finite_B2FF;
  match goal with |- context [B2FF _ _ ?t] => replace (B2FF _ _ t) with (F754_finite false n e) by (vm_compute; reflexivity) end;
  unfold FF2R, F2R; cbn; split; [lra|reflexivity].
Lemma half_value bits : bits = 32 \/ bits = 64 -> fR (half bits) = (1 / 2)%R /\ finite (half bits) = true.
Proof. intros [-> | ->]; [lit_value 8388608%positive (-24)|lit_value 4503599627370496%positive (-53)]. Qed.
Lemma copysign_half bits (x : flt bits) : bits = 32 \/ bits = 64 ->
  fR (fcopysign bits (half bits) x) = (if sign x then - (1 / 2) else 1 / 2)%R /\ finite (fcopysign bits (half bits) x) = true.
Proof.
  intros HB. destruct (half_value bits HB) as [V F]. unfold fcopysign, fsign.
  assert (S : sign (half bits) = false) by (destruct HB as [-> | ->]; vm_compute; reflexivity).
  destruct (half bits) as [s|s|s pl e|s m e B]; try discriminate; cbn in S; subst s; [cbn in V; lra|].
  cbn in V. destruct (sign x); cbn; split; try reflexivity; [|exact V]. rewrite <- V.
  rewrite <- F2R_Zopp. reflexivity.
Qed.

Lemma mag_mult bits y k : generic_format radix2 (fx bits) y -> (bpow radix2 (k - 1) <= Rabs y)%R ->
  exists m, y = (IZR m * bpow radix2 (k - prec bits))%R.
Proof.
  intros F L.
  assert (Z0 : y <> 0%R). { intros ->. rewrite Rabs_R0 in L. pose proof (bpow_gt_0 radix2 (k - 1)). lra. }
  assert (M : k <= mag radix2 y) by (apply mag_ge_bpow; exact L).
  assert (C : k - prec bits <= cexp radix2 (fx bits) y).
  { unfold cexp, SpecFloat.fexp. lia. }
  exists (Ztrunc (scaled_mantissa radix2 (fx bits) y) * 2 ^ (cexp radix2 (fx bits) y - (k - prec bits))).
  rewrite F at 1. unfold F2R. cbn [Fnum Fexp]. rewrite mult_IZR, (IZR_Zpower radix2) by lia.
  rewrite Rmult_assoc, <- bpow_plus. do 2 f_equal. lia.
Qed.
Lemma RN_le bits x y : (x <= y)%R -> (RN bits x <= RN bits y)%R.
Proof. apply round_le; [apply fx_valid|apply valid_rnd_N]. Qed.
Lemma RN_fmt bits x : generic_format radix2 (fx bits) x -> RN bits x = x.
Proof. apply round_generic, valid_rnd_N. Qed.
Lemma prec_mw bits : prec bits = mw bits + 1. Proof. reflexivity. Qed.

Lemma round_core bits y : generic_format radix2 (fx bits) y -> (0 <= y < IZR (2 ^ mw bits))%R ->
  y <> (1 / 2 - bpow radix2 (- prec bits - 1))%R -> Zfloor (RN bits (y + 1 / 2)) = Zfloor (y + 1 / 2).
Proof.
  intros F [P U] NP. set (n := Zfloor (y + 1 / 2)).
  pose proof (Zfloor_lb (y + 1 / 2)) as L. pose proof (Zfloor_ub (y + 1 / 2)) as G. fold n in L, G.
  pose proof (mw_pos bits) as MP. pose proof (prec_mw bits) as PM. pose proof (emin_neg bits) as EN.
  assert (PP : 2 ^ prec bits = 2 * 2 ^ mw bits) by (rewrite PM, Z.pow_add_r by lia; lia).
  assert (MW : 0 < 2 ^ mw bits) by (apply Z.pow_pos_nonneg; lia).
  assert (N0 : 0 <= n) by (apply Zfloor_lub; cbn; lra).
  assert (N1 : n <= 2 ^ mw bits).
  { assert (n < 2 ^ mw bits + 1); [|lia]. apply lt_IZR. rewrite plus_IZR. lra. }
  apply Zfloor_imp. rewrite plus_IZR. split.
  { rewrite <- (RN_int bits n) by lia. apply RN_le. exact L. }
  destruct (Z.eq_dec n 0) as [E0|E0].
  - rewrite E0 in *. clear L. 
    assert (Q : (bpow radix2 (- prec bits) * IZR (2 ^ prec bits) = 1)%R).
    { rewrite (IZR_Zpower radix2), <- bpow_plus by lia. replace (- prec bits + prec bits) with 0 by lia. reflexivity. }
    assert (BP : (0 < bpow radix2 (- prec bits))%R) by apply bpow_gt_0.
    assert (BH : (bpow radix2 (- prec bits) = 2 * bpow radix2 (- prec bits - 1))%R).
    { replace (- prec bits) with (1 + (- prec bits - 1)) at 1 by lia. rewrite bpow_plus. cbn. lra. }
    destruct (Rle_or_lt y (1 / 2 - bpow radix2 (- prec bits))) as [Le|Gt].
    + assert (FM : generic_format radix2 (fx bits) (1 - bpow radix2 (- prec bits))).
      { replace (1 - bpow radix2 (- prec bits))%R with (IZR (2 ^ prec bits - 1) * bpow radix2 (- prec bits))%R by (rewrite minus_IZR; lra).
        apply fmt; [|lia]. rewrite Z.abs_eq; lia. }
      apply Rle_lt_trans with (1 - bpow radix2 (- prec bits))%R; [|lra]. rewrite <- (RN_fmt bits _ FM). apply RN_le. lra.
    + exfalso. assert (Q4 : (bpow radix2 (- prec bits) <= 1 / 4)%R).
      { replace (1 / 4)%R with (bpow radix2 (-2)) by (cbn; lra). apply bpow_le. lia. }
      destruct (mag_mult bits y (-1) F) as (m & Hm).
      { rewrite Rabs_pos_eq by exact P. cbn. lra. }
      replace (-1 - prec bits) with (- prec bits - 1) in Hm by lia. set (b := bpow radix2 (- prec bits - 1)) in *.
      assert (Bb : (b * IZR (2 ^ prec bits) = 1 / 2)%R) by (rewrite BH in Q; lra). assert (B0 : (0 < b)%R) by lra.
      assert (M1 : m < 2 ^ prec bits).
      { apply lt_IZR. apply Rmult_lt_reg_r with b; [exact B0|]. lra. }
      assert (M2 : 2 ^ prec bits - 2 < m).
      { apply lt_IZR. rewrite minus_IZR. apply Rmult_lt_reg_r with b; [exact B0|]. lra. }
      assert (m = 2 ^ prec bits - 1) by lia. subst m. apply NP. rewrite Hm, minus_IZR. lra.
  - destruct (Rlt_or_le y (IZR n)) as [Lt|Ge].
    + destruct (Z.eq_dec n (2 ^ mw bits)) as [ET|ET].
      * assert (T1 : IZR (2 ^ mw bits) = bpow radix2 (mw bits)) by (apply (IZR_Zpower radix2); lia).
        destruct (mag_mult bits y (mw bits) F) as (m & Hm).
        { rewrite Rabs_pos_eq by exact P. rewrite ET, T1 in *. 
          assert (bpow radix2 (mw bits) = 2 * bpow radix2 (mw bits - 1))%R.
          { replace (mw bits) with (1 + (mw bits - 1)) at 1 by lia. rewrite bpow_plus. cbn. lra. }
          assert (1 <= bpow radix2 (mw bits - 1))%R by (apply (bpow_le radix2 0); lia). lra. }
        replace (mw bits - prec bits) with (-1) in Hm by lia. cbn in Hm.
        assert (m < 2 * n) by (apply lt_IZR; rewrite mult_IZR; lra).
        assert (IZR m <= IZR (2 * n - 1))%R by (apply IZR_le; lia). rewrite minus_IZR, mult_IZR in H0.
        apply Rle_lt_trans with (IZR n); [|lra]. rewrite <- (RN_int bits n) by lia. apply RN_le. lra.
      * assert (FM : generic_format radix2 (fx bits) (IZR n + 1 / 2)).
        { replace (IZR n + 1 / 2)%R with (IZR (2 * n + 1) * bpow radix2 (-1))%R by (rewrite plus_IZR, mult_IZR; cbn; lra).
          apply fmt; [|lia]. rewrite Z.abs_eq; lia. }
        apply Rle_lt_trans with (IZR n + 1 / 2)%R; [|lra]. rewrite <- (RN_fmt bits _ FM). apply RN_le. lra.
    + assert (N2 : n < 2 ^ mw bits) by (apply lt_IZR; lra).
      set (k := Z.log2 n + 1).
      assert (K : 2 ^ (k - 1) <= n < 2 ^ k).
      { unfold k. replace (Z.log2 n + 1 - 1) with (Z.log2 n) by lia. apply Z.log2_spec. lia. }
      assert (K0 : 0 <= Z.log2 n) by apply Z.log2_nonneg.
      assert (K1 : k <= mw bits).
      { assert (k - 1 < mw bits); [|lia]. apply (Z.pow_lt_mono_r_iff 2); lia. }
      destruct (mag_mult bits y k F) as (m & Hm).
      { rewrite Rabs_pos_eq by exact P. rewrite <- (IZR_Zpower radix2) by lia. apply Rle_trans with (IZR n); [|exact Ge].
        apply IZR_le. apply K. }
      set (b := bpow radix2 (k - prec bits)) in *. assert (B0 : (0 < b)%R) by apply bpow_gt_0.
      assert (Hh : (1 / 2 = IZR (2 ^ (prec bits - 1 - k)) * b)%R).
      { rewrite (IZR_Zpower radix2) by lia. unfold b. rewrite <- bpow_plus. replace (prec bits - 1 - k + (k - prec bits)) with (-1) by lia. cbn. lra. }
      assert (S : (y + 1 / 2 = IZR (m + 2 ^ (prec bits - 1 - k)) * b)%R) by (rewrite plus_IZR; lra).
      assert (FM : generic_format radix2 (fx bits) (y + 1 / 2)).
      { rewrite S. apply fmt; [|lia].
        assert (A0 : 0 <= m + 2 ^ (prec bits - 1 - k)).
        { apply le_IZR. apply Rmult_le_reg_r with b; [exact B0|]. lra. }
        rewrite Z.abs_eq by exact A0. apply lt_IZR. apply Rmult_lt_reg_r with b; [exact B0|]. rewrite <- S.
        rewrite (IZR_Zpower radix2) by lia. unfold b. rewrite <- bpow_plus. replace (prec bits + (k - prec bits)) with k by lia.
        rewrite <- (IZR_Zpower radix2) by lia. apply Rlt_le_trans with (IZR n + 1)%R; [exact G|]. rewrite <- (plus_IZR n 1). apply IZR_le. 
        change (radix_val radix2) with 2. lia. }
      rewrite (RN_fmt bits _ FM). exact G.
Qed.
Lemma sign_le bits (x : flt bits) : finite x = true -> if sign x then (fR x <= 0)%R else (0 <= fR x)%R.
Proof.
  intros F. destruct x as [s|s|s pl e|s m e B]; try discriminate; cbn; destruct s; try lra.
  - apply Rlt_le, F2R_lt_0. reflexivity.
  - apply Rlt_le, F2R_gt_0. reflexivity.
Qed.
Lemma fadd_value bits nan_of (x y : flt bits) : finite x = true -> finite y = true ->
  (Rabs (RN bits (fR x + fR y)) < bpow radix2 (emax bits))%R ->
  fR (fadd bits nan_of x y) = RN bits (fR x + fR y) /\ finite (fadd bits nan_of x y) = true.
Proof.
  intros Fx Fy L. pose proof (Binary.Bplus_correct _ _ (prec_gt bits) (prec_lt bits) (fun a b => nan_of [a; b]) mode_NE x y Fx Fy) as C.
  cbn [round_mode] in C. rewrite Rlt_bool_true in C by exact L. unfold fadd. tauto.
Qed.
Lemma fsub_value bits nan_of (x y : flt bits) : finite x = true -> finite y = true ->
  (Rabs (RN bits (fR x - fR y)) < bpow radix2 (emax bits))%R ->
  fR (fsub bits nan_of x y) = RN bits (fR x - fR y) /\ finite (fsub bits nan_of x y) = true.
Proof.
  intros Fx Fy L. pose proof (Binary.Bminus_correct _ _ (prec_gt bits) (prec_lt bits) (fun a b => nan_of [a; b]) mode_NE x y Fx Fy) as C.
  cbn [round_mode] in C. rewrite Rlt_bool_true in C by exact L. unfold fsub. tauto.
Qed.
Lemma fmul_value bits nan_of (x y : flt bits) : finite x = true -> finite y = true ->
  (Rabs (RN bits (fR x * fR y)) < bpow radix2 (emax bits))%R ->
  fR (fmul bits nan_of x y) = RN bits (fR x * fR y) /\ finite (fmul bits nan_of x y) = true.
Proof.
  intros Fx Fy L. pose proof (Binary.Bmult_correct _ _ (prec_gt bits) (prec_lt bits) (fun a b => nan_of [a; b]) mode_NE x y) as C.
  cbn [round_mode] in C. rewrite Rlt_bool_true in C by exact L. unfold fmul. rewrite Fx, Fy in C. tauto.
Qed.
Lemma ffma_value bits nan_of (x y z : flt bits) : finite x = true -> finite y = true -> finite z = true ->
  (Rabs (RN bits (fR x * fR y + fR z)) < bpow radix2 (emax bits))%R ->
  fR (ffma bits nan_of x y z) = RN bits (fR x * fR y + fR z) /\ finite (ffma bits nan_of x y z) = true.
Proof.
  intros Fx Fy Fz L. pose proof (Binary.Bfma_correct _ _ (prec_gt bits) (prec_lt bits) (fun a b c => nan_of [a; b; c]) mode_NE x y z Fx Fy Fz) as C.
  cbv zeta in C. cbn [round_mode] in C. rewrite Rlt_bool_true in C by exact L. unfold ffma. tauto.
Qed.
Lemma RN_bound bits x z : (Rabs x <= IZR z)%R -> 0 <= z <= 2 ^ prec bits -> (Rabs (RN bits x) <= IZR z)%R.
Proof.
  intros L Z. rewrite <- (RN_int bits z) by lia. apply Rabs_le. rewrite <- round_NE_opp. 
  assert (A : (- IZR z <= x <= IZR z)%R) by (apply Rabs_def2b || (split; [|]; revert L; unfold Rabs; destruct (Rcase_abs x); lra)).
  split; apply RN_le; lra.
Qed.
Lemma prec_lt_pow bits z : 0 <= z <= 2 ^ prec bits -> (IZR z < bpow radix2 (emax bits))%R.
Proof.
  intros Z. rewrite <- (IZR_Zpower radix2) by (unfold emax; apply Z.pow_nonneg; lia). apply IZR_lt.
  eapply Z.le_lt_trans; [apply Z|]. apply Z.pow_lt_mono_r; [reflexivity|unfold emax; apply Z.pow_nonneg; lia|exact (prec_emax bits)].
Qed.

(** the argument is finite, of fewer than [mw] integer bits and not next to one half *)
Definition roundable {bits} (x : flt bits) : Prop :=
  finite x = true /\ (Rabs (fR x) < IZR (2 ^ mw bits))%R /\ Rabs (fR x) <> (1 / 2 - bpow radix2 (- prec bits - 1))%R.
Lemma fmt_flt bits (x : flt bits) : generic_format radix2 (fx bits) (fR x).
Proof. apply Binary.generic_format_B2R. Qed.

Lemma round_value bits nan_of (x : flt bits) : bits = 32 \/ bits = 64 -> roundable x ->
  exists k, fR (round_of bits nan_of x) = IZR k /\ finite (round_of bits nan_of x) = true /\ nearest_away (fR x) k /\ Z.abs k <= 2 ^ mw bits.
Proof.
  intros HB (F & U & NP). destruct (copysign_half bits x HB) as [Vh Fh].
  pose proof (mw_pos bits) as MP. pose proof (prec_mw bits) as PM.
  assert (PP : 2 ^ prec bits = 2 * 2 ^ mw bits) by (rewrite PM, Z.pow_add_r by lia; lia).
  assert (MW : 0 < 2 ^ mw bits) by (apply Z.pow_pos_nonneg; lia).
  assert (Fy : generic_format radix2 (fx bits) (Rabs (fR x))) by (apply generic_format_abs, fmt_flt).
  set (y := Rabs (fR x)) in *. assert (P : (0 <= y)%R) by apply Rabs_pos.
  assert (V : (fR x + fR (fcopysign bits (half bits) x) = (if sign x then -1 else 1) * (y + 1 / 2))%R /\ fR x = ((if sign x then -1 else 1) * y)%R).
  { rewrite Vh. unfold y. pose proof (sign_le bits x F) as S. destruct (sign x); [rewrite Rabs_left1 by exact S|rewrite Rabs_pos_eq by exact S]; lra. }
  destruct V as [V Vx].
  assert (RV : RN bits (fR x + fR (fcopysign bits (half bits) x)) = ((if sign x then -1 else 1) * RN bits (y + 1 / 2))%R).
  { rewrite V. destruct (sign x).
    - replace (-1 * (y + 1 / 2))%R with (- (y + 1 / 2))%R by lra. rewrite round_NE_opp. lra.
    - rewrite !Rmult_1_l. reflexivity. }
  assert (U2 : (y + 1 / 2 < IZR (2 ^ mw bits + 1))%R) by (rewrite plus_IZR; lra).
  assert (B : (0 <= RN bits (y + 1 / 2) <= IZR (2 ^ mw bits + 1))%R).
  { split.
    - rewrite <- (RN_int bits 0) by lia. apply RN_le. lra.
    - rewrite <- (RN_int bits (2 ^ mw bits + 1)) by lia. apply RN_le. lra. }
  assert (AB : (Rabs (RN bits (fR x + fR (fcopysign bits (half bits) x))) <= IZR (2 ^ mw bits + 1))%R).
  { rewrite RV. destruct (sign x); [rewrite Rabs_left1 by lra|rewrite Rabs_pos_eq by lra]; lra. }
  destruct (fadd_value bits nan_of x _ F Fh) as [Va Fa].
  { eapply Rle_lt_trans; [exact AB|]. apply prec_lt_pow. lia. }
  set (n := Zfloor (y + 1 / 2)). pose proof (round_core bits y Fy (conj P U) NP) as RC. fold n in RC.
  pose proof (Zfloor_lb (y + 1 / 2)) as L. pose proof (Zfloor_ub (y + 1 / 2)) as G. fold n in L, G.
  assert (N0 : 0 <= n) by (apply Zfloor_lub; cbn; lra).
  assert (N1 : n <= 2 ^ mw bits). { assert (n < 2 ^ mw bits + 1); [|lia]. apply lt_IZR. lra. }
  set (k := if sign x then - n else n).
  assert (T : to_int bits (sty bits) (fadd bits nan_of x (fcopysign bits (half bits) x)) = k).
  { rewrite (to_int_sty bits _ HB Fa).
    - rewrite Va, RV. unfold k. destruct (sign x).
      + replace (-1 * RN bits (y + 1 / 2))%R with (- RN bits (y + 1 / 2))%R by lra. rewrite Ztrunc_opp, Ztrunc_floor by apply B. rewrite RC. reflexivity.
      + rewrite Rmult_1_l, Ztrunc_floor by apply B. exact RC.
    - rewrite Va. eapply Rle_lt_trans; [exact AB|]. apply IZR_lt. clear -HB. destruct HB as [-> | ->]; reflexivity. }
  exists k. unfold round_of. rewrite T.
  assert (KA : Z.abs k <= 2 ^ mw bits) by (unfold k; destruct (sign x); lia).
  destruct (of_int_exact bits k ltac:(lia)) as [E1 E2]. split; [exact E1|]. split; [exact E2|]. split; [|exact KA].
  assert (A : Rabs (fR x - IZR k) = Rabs (y - IZR n)).
  { rewrite Vx. unfold k. destruct (sign x); [|rewrite Rmult_1_l; reflexivity]. rewrite opp_IZR.
    replace (-1 * y - - IZR n)%R with (- (y - IZR n))%R by lra. apply Rabs_Ropp. }
  unfold nearest_away. rewrite A. split.
  - apply Rabs_le. lra.
  - intros T2. fold y. assert (Ek : Rabs (IZR k) = IZR n).
    { rewrite <- abs_IZR. f_equal. unfold k. destruct (sign x); lia. }
    rewrite Ek. revert T2. unfold Rabs. destruct (Rcase_abs (y - IZR n)); lra.
Qed.
Theorem round_ok bits sub lib nan_of std checked d (x : flt bits) : bits = 32 \/ bits = 64 ->
  has bits sub lib "fty" -> has bits sub lib "ity" -> has bits sub lib "round" -> roundable x ->
  exists r k, run bits nan_of std checked lib (S d) "round" [VFlt x] = Ok (VFlt r) /\ finite r = true /\ fR r = IZR k /\ nearest_away (fR x) k.
Proof.
  intros HB hf hi hr R. destruct (round_value bits nan_of x HB R) as (k & V & F & N & _).
  exists (round_of bits nan_of x), k. split; [apply (run_round bits sub lib HB); assumption|]. auto.
Qed.
