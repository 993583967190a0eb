(** log2 and runif. *)
From Coq Require Import List String Bool ZArith Reals Ascii Lia Lra.
From Flocq Require Import Core Relative Plus_error IEEE754.BinarySingleNaN IEEE754.Binary IEEE754.Bits.
From Verif Require Import Res Dec DecStr Syntax Item Functions FunctionsFacts GenCode GenCodeFacts GenSem FloatBits GenRun GenFloat GenFloat2.
Import ListNotations.
Open Scope string_scope.
Open Scope list_scope.
Open Scope Z_scope.

(** ** log2 *)
(** positive normal numbers *)
Definition normal {bits} (x : flt bits) : Prop := finite x = true /\ (bpow radix2 (2 - emax bits) <= fR x)%R.

Lemma normal_bits bits (x : flt bits) : normal x -> sign x = false /\ fin_bits bits (to_bits x) /\ 2 ^ mw bits <= to_bits x.
Proof.
  intros [F L]. assert (B0 : (0 < bpow radix2 (2 - emax bits))%R) by apply bpow_gt_0.
  assert (S : sign x = false). { pose proof (sign_le bits x F). destruct (sign x); [lra|reflexivity]. }
  split; [exact S|]. pose proof (to_bits_fin bits x F S) as FB. split; [exact FB|].
  destruct (Z_lt_le_dec (to_bits x) (2 ^ mw bits)) as [Lt|]; [exfalso|assumption].
  rewrite (to_bits_val bits x F S) in L. unfold scaled in L. destruct FB as [FB _].
  rewrite Z.div_small, Z.mod_small in L by lia. cbn [Z.eqb] in L.
  assert (L2 : (IZR (to_bits x) * bpow radix2 (emin bits) < bpow radix2 (2 - emax bits))%R).
  { replace (2 - emax bits) with (mw bits + emin bits) by (unfold emin; rewrite prec_mw; lia). rewrite bpow_plus.
    apply Rmult_lt_compat_r; [apply bpow_gt_0|]. rewrite <- (IZR_Zpower radix2) by (pose proof (mw_pos bits); lia). apply IZR_lt. exact Lt. }
  lra.
Qed.
Definition frac bits (n : Z) : R := (1 + IZR (n mod 2 ^ mw bits) * bpow radix2 (- mw bits))%R.
Lemma frac_range bits n : (1 <= frac bits n < 2)%R.
Proof.
  unfold frac. pose proof (mw_pos bits) as M. pose proof (Z.mod_pos_bound n (2 ^ mw bits) ltac:(apply Z.pow_pos_nonneg; lia)) as [L U].
  assert (B0 : (0 < bpow radix2 (- mw bits))%R) by apply bpow_gt_0.
  assert (B1 : (IZR (2 ^ mw bits) * bpow radix2 (- mw bits) = 1)%R).
  { rewrite (IZR_Zpower radix2), <- bpow_plus by lia. replace (mw bits + - mw bits) with 0 by lia. reflexivity. }
  apply IZR_le in L. apply IZR_lt in U. nra.
Qed.
Lemma scaled_frac bits n : 2 ^ mw bits <= n ->
  (IZR (scaled bits n) * bpow radix2 (emin bits) = bpow radix2 (n / 2 ^ mw bits - (emax bits - 1)) * frac bits n)%R.
Proof.
  intros N. pose proof (mw_pos bits) as M. assert (P : 0 < 2 ^ mw bits) by (apply Z.pow_pos_nonneg; lia).
  assert (D : 1 <= n / 2 ^ mw bits) by (apply Z.div_le_lower_bound; lia).
  unfold scaled. destruct (Z.eqb_spec (n / 2 ^ mw bits) 0) as [E|_]; [lia|].
  rewrite mult_IZR, plus_IZR, !(IZR_Zpower radix2) by lia.
  unfold frac. replace (n / 2 ^ mw bits - (emax bits - 1)) with (mw bits + (n / 2 ^ mw bits - 1) + emin bits) by (unfold emin; rewrite prec_mw; lia).
  rewrite !bpow_plus. replace (bpow radix2 (- mw bits)) with (/ bpow radix2 (mw bits))%R by (rewrite bpow_opp; reflexivity).
  assert (B0 : (bpow radix2 (mw bits) <> 0)%R) by (pose proof (bpow_gt_0 radix2 (mw bits)); lra).
  field. exact B0.
Qed.
Lemma mant_bits bits n : bits = 32 \/ bits = 64 ->
  let v := Z.lor (n mod 2 ^ mw bits) ((emax bits - 1) * 2 ^ mw bits) in
  fin_bits bits v /\ 2 ^ mw bits <= v /\ v mod 2 ^ mw bits = n mod 2 ^ mw bits /\ v / 2 ^ mw bits = emax bits - 1.
Proof.
  intros HB. pose proof (mw_pos bits) as M. assert (P : 0 < 2 ^ mw bits) by (apply Z.pow_pos_nonneg; lia).
  pose proof (Z.mod_pos_bound n (2 ^ mw bits) P) as B.
  assert (V : Z.lor (n mod 2 ^ mw bits) ((emax bits - 1) * 2 ^ mw bits) = n mod 2 ^ mw bits + (emax bits - 1) * 2 ^ mw bits).
  { symmetry. rewrite Z.add_nocarry_lxor; [apply Z.lxor_lor|]; rewrite <- Z.shiftl_mul_pow2 by lia;
      apply Z.bits_inj'; intros i I; rewrite Z.land_spec, Z.bits_0, <- Z.land_ones, Z.land_spec by lia;
      destruct (Z_lt_le_dec i (mw bits)) as [L|G].
    - rewrite Z.shiftl_spec_low by lia. apply andb_false_r.
    - rewrite Z.ones_spec_high by lia. rewrite andb_false_r. reflexivity.
    - rewrite Z.shiftl_spec_low by lia. apply andb_false_r.
    - rewrite Z.ones_spec_high by lia. rewrite andb_false_r. reflexivity. }
  cbv zeta. rewrite V. rewrite Z_mod_plus_full, Z.mod_mod, Z.div_add, (Z.div_small (n mod 2 ^ mw bits)) by lia.
  assert (E1 : 1 <= emax bits - 1 < 2 ^ ew bits - 2) by (clear -HB; destruct HB as [-> | ->]; cbn; lia).
  unfold fin_bits. repeat split; nia.
Qed.
Lemma frac_mod bits n m : n mod 2 ^ mw bits = m mod 2 ^ mw bits -> frac bits n = frac bits m.
Proof. intros E. unfold frac. rewrite E. reflexivity. Qed.
Lemma mant_value bits n : bits = 32 \/ bits = 64 ->
  let v := of_bits bits (Z.lor (n mod 2 ^ mw bits) ((emax bits - 1) * 2 ^ mw bits)) in
  finite v = true /\ fR v = frac bits n.
Proof.
  intros HB. destruct (mant_bits bits n HB) as (F & L & E1 & E2). destruct (of_bits_fin bits _ F) as (A & _ & V). cbv zeta.
  split; [exact A|]. rewrite V, scaled_frac by exact L. rewrite E2. replace (emax bits - 1 - (emax bits - 1)) with 0 by lia.
  change (bpow radix2 0) with 1%R. rewrite Rmult_1_l. apply frac_mod. exact E1.
Qed.
Lemma frac_sub bits n z : (0 <= IZR z <= 3)%R -> generic_format radix2 (fx bits) (frac bits n - IZR z / 2).
Proof.
  intros Z. pose proof (mw_pos bits) as M. pose proof (frac_range bits n) as FR.
  assert (V : (frac bits n - IZR z / 2 = IZR (2 ^ mw bits + n mod 2 ^ mw bits - z * 2 ^ (mw bits - 1)) * bpow radix2 (- mw bits))%R).
  { unfold frac. rewrite minus_IZR, plus_IZR, mult_IZR, !(IZR_Zpower radix2) by lia.
    rewrite !Rmult_minus_distr_r, !Rmult_plus_distr_r, Rmult_assoc, <- !bpow_plus.
    replace (mw bits + - mw bits) with 0 by lia. replace (mw bits - 1 + - mw bits) with (-1) by lia. cbn. lra. }
  rewrite V. apply fmt; [|pose proof (emin_neg bits); pose proof (prec_mw bits); lia].
  apply lt_IZR. rewrite abs_IZR. apply Rmult_lt_reg_r with (bpow radix2 (- mw bits)); [apply bpow_gt_0|].
  rewrite <- (Rabs_pos_eq (bpow radix2 (- mw bits))) at 1 by apply bpow_ge_0. rewrite <- Rabs_mult, <- V.
  rewrite (IZR_Zpower radix2), <- bpow_plus by (pose proof (prec_mw bits); lia).
  replace (prec bits + - mw bits) with 1 by (rewrite prec_mw; lia). change (bpow radix2 1) with 2%R.
  unfold Rabs. destruct (Rcase_abs _); lra.
Qed.
Lemma onehalf_value bits : bits = 32 \/ bits = 64 -> fR (of_decimal bits (BD 15 1)) = (3 / 2)%R /\ finite (of_decimal bits (BD 15 1)) = true.
Proof. intros [-> | ->]; [lit_value 12582912%positive (-23)|lit_value 6755399441055744%positive (-52)]. Qed.
Lemma unit_value bits : bits = 32 \/ bits = 64 -> fR (of_decimal bits (BD 10 1)) = 1%R /\ finite (of_decimal bits (BD 10 1)) = true.
Proof. intros [-> | ->]; [lit_value 8388608%positive (-23)|lit_value 4503599627370496%positive (-52)]. Qed.
Lemma small_lt_emax bits x : (Rabs x <= 1 -> Rabs x < bpow radix2 (emax bits))%R.
Proof.
  intros L. apply Rle_lt_trans with (1 := L). apply (prec_lt_pow bits 1). split; [lia|]. apply (Z.pow_le_mono_r 2 0); [lia|].
  pose proof (prec_mw bits); pose proof (mw_pos bits); lia.
Qed.
Definition log2R (x : R) : R := (ln x / ln 2)%R.
Lemma ln2_pos : (0 < ln 2)%R. Proof. rewrite <- ln_1. apply ln_increasing; lra. Qed.
Lemma log2R_scale e m : (0 < m)%R -> log2R (bpow radix2 e * m) = (IZR e + log2R m)%R.
Proof.
  intros M. unfold log2R. rewrite ln_mult by (try apply bpow_gt_0; exact M). rewrite bpow_exp, ln_exp. change (IZR radix2) with 2%R.
  field. pose proof ln2_pos. lra.
Qed.
Lemma log2R_12 m : (1 <= m < 2)%R -> (0 <= log2R m < 1)%R.
Proof.
  intros [L U]. unfold log2R. pose proof ln2_pos. split.
  - apply Rmult_le_pos; [|left; apply Rinv_0_lt_compat; assumption]. destruct L as [L|L]; [|rewrite <- L, ln_1; lra].
    left. rewrite <- ln_1. apply ln_increasing; lra.
  - apply Rmult_lt_reg_r with (ln 2); [assumption|]. unfold Rdiv. rewrite Rmult_assoc, Rinv_l, Rmult_1_r, Rmult_1_l by lra. apply ln_increasing; lra.
Qed.

Section Log2.
  Variables (bits : Z) (sub : string -> expr) (lib : list item).
  Hypothesis HB : bits = 32 \/ bits = 64.
  Variable nan_of : list (flt bits) -> { x : flt bits | Binary.is_nan (prec bits) (emax bits) x = true }.
  Variable std : string -> list (flt bits) -> option (flt bits).
  Variable checked : bool.
  Notation H := (has bits sub lib).
  Notation R := (run bits nan_of std checked lib).
  Notation C := (const_of bits nan_of std checked lib).
  Notation E := (eval_g bits nan_of std checked lib).
  Lemma log2_parts (x : flt bits) : normal x ->
    log2_exponent bits x = to_bits x / 2 ^ mw bits - (emax bits - 1) /\ finite (log2_mant bits x) = true /\ fR (log2_mant bits x) = frac bits (to_bits x) /\
    fR x = (bpow radix2 (log2_exponent bits x) * frac bits (to_bits x))%R.
  Proof.
    intros N. destruct (normal_bits bits x N) as (S & FB & L). pose proof (mw_pos bits) as M.
    assert (X : log2_exponent bits x = to_bits x / 2 ^ mw bits - (emax bits - 1)).
    { unfold log2_exponent. rewrite Z.shiftr_div_pow2 by lia. do 2 f_equal.
      pose proof (pos_bits bits x S) as P. rewrite <- (bits_sum bits HB) in P. unfold wrap.
      assert (I : isize (sty bits) = bits) by (clear -HB; destruct HB as [-> | ->]; reflexivity). rewrite I.
      assert (D : 2 ^ bits = 2 * 2 ^ (bits - 1)) by (rewrite <- Z.pow_succ_r by lia; f_equal; lia).
      rewrite Z.mod_small by lia. rewrite (proj2 (Z.leb_gt _ _)) by lia. rewrite andb_false_r. reflexivity. }
    destruct (mant_value bits (to_bits x) HB) as [F V]. unfold log2_mant.
    replace (2 ^ mw bits - 1) with (Z.ones (mw bits)) by (rewrite Z.ones_equiv; lia). rewrite Z.land_ones by lia.
    split; [exact X|]. split; [exact F|]. split; [exact V|]. rewrite X.
    destruct N as [Fx _]. rewrite (to_bits_val bits x Fx S). apply scaled_frac. exact L.
  Qed.
  Lemma log2_local (x : flt bits) : normal x -> finite (log2_x bits nan_of x) = true /\ fR (log2_x bits nan_of x) = (frac bits (to_bits x) - 3 / 2)%R.
  Proof.
    intros N. destruct (log2_parts x N) as (_ & F & V & _). destruct (onehalf_value bits HB) as [Vh Fh].
    pose proof (frac_sub bits (to_bits x) 3 ltac:(lra)) as FM. pose proof (frac_range bits (to_bits x)) as FR.
    destruct (fsub_value bits nan_of _ _ F Fh) as [V2 F2].
    - rewrite V, Vh, (RN_fmt bits _ FM). apply small_lt_emax. unfold Rabs. destruct (Rcase_abs _); lra.
    - rewrite V, Vh, (RN_fmt bits _ FM) in V2. split; [exact F2|exact V2].
  Qed.
  Lemma exponent_small (x : flt bits) : normal x -> 2 - emax bits <= log2_exponent bits x <= emax bits - 1.
  Proof.
    intros N. destruct (log2_parts x N) as (X & _). destruct (normal_bits bits x N) as (S & FB & L). destruct (fin_split bits _ FB) as ((E1 & E2) & _).
    assert (1 <= to_bits x / 2 ^ mw bits) by (apply Z.div_le_lower_bound; pose proof (mw_pos bits); [apply Z.pow_pos_nonneg; lia|lia]).
    assert (EM : 2 ^ ew bits = 2 * emax bits) by (unfold emax; rewrite <- Z.pow_succ_r; [f_equal; lia|pose proof (ew_pos bits); lia]). lia.
  Qed.
  Lemma normal_tests (x : flt bits) : normal x -> flt_lt bits x (of_decimal bits (BD 0 1)) = false /\ flt_lt bits x (min_positive bits) = false.
  Proof.
    intros [F L]. assert (Z0 : fR (of_decimal bits (BD 0 1)) = 0%R /\ finite (of_decimal bits (BD 0 1)) = true) by (split; reflexivity).
    assert (P : 0 < 2 ^ mw bits) by (apply Z.pow_pos_nonneg; pose proof (mw_pos bits); lia).
    assert (MP : fR (min_positive bits) = bpow radix2 (2 - emax bits) /\ finite (min_positive bits) = true).
    { unfold min_positive. destruct (of_bits_fin bits (2 ^ mw bits)) as (A & _ & V).
      { split; [lia|]. pose proof (Q_pos bits). nia. }
      split; [|exact A]. rewrite V, scaled_frac by lia. unfold frac. rewrite Z_mod_same_full, Z_div_same_full by lia.
      replace (1 - (emax bits - 1)) with (2 - emax bits) by lia. rewrite Rmult_0_l, Rplus_0_r, Rmult_1_r. reflexivity. }
    assert (B0 : (0 < bpow radix2 (2 - emax bits))%R) by apply bpow_gt_0.
    rewrite (flt_lt_value bits _ _ F (proj2 Z0)), (flt_lt_value bits _ _ F (proj2 MP)), (proj1 Z0), (proj1 MP).
    split; apply Rlt_bool_false; lra.
  Qed.
  Theorem log2_split (x : flt bits) : (forall n, In n log2_needs -> H n) -> normal x ->
    exists e m (t : flt bits) env, fR x = (bpow radix2 e * m)%R /\ (1 <= m < 2)%R /\ finite t = true /\ fR t = (m - 3 / 2)%R /\
      lookup bits "x" env = Some (VFlt t) /\ env = log2_env bits nan_of x /\
      forall d p, E (R d) C env (sub "log2") = Ok (VFlt p) -> R (S d) "log2" [VFlt x] = Ok (VFlt (fadd bits nan_of p (of_int bits e))).
  Proof.
    intros hh N. destruct (log2_parts x N) as (X & F & V & Vx). destruct (log2_local x N) as [Ft Vt].
    exists (log2_exponent bits x), (frac bits (to_bits x)), (log2_x bits nan_of x), (log2_env bits nan_of x).
    split; [exact Vx|]. split; [apply frac_range|]. split; [exact Ft|]. split; [exact Vt|]. split; [reflexivity|]. split; [reflexivity|].
    intros d p hp. rewrite (run_log2 bits sub lib HB nan_of std checked d x p hh hp).
    destruct (normal_tests x N) as [-> ->]. reflexivity.
  Qed.
  Theorem log2_accuracy (x : flt bits) : (forall n, In n log2_needs -> H n) -> normal x ->
    exists (t : flt bits) env, lookup bits "x" env = Some (VFlt t) /\ finite t = true /\ (-1 / 2 <= fR t < 1 / 2)%R /\ env = log2_env bits nan_of x /\
      forall d p eps, E (R d) C env (sub "log2") = Ok (VFlt p) -> finite p = true -> (eps <= 1)%R ->
        (Rabs (fR p - log2R (fR t + 3 / 2)) <= eps)%R ->
        exists r, R (S d) "log2" [VFlt x] = Ok (VFlt r) /\ finite r = true /\
          (Rabs (fR r - log2R (fR x)) <= eps + bpow radix2 (- prec bits) * (Rabs (log2R (fR x)) + eps))%R.
  Proof.
    intros hh N. destruct (log2_split x hh N) as (e & m & t & env & Vx & M & Ft & Vt & Lk & Ee & Run).
    exists t, env. split; [exact Lk|]. split; [exact Ft|]. split; [rewrite Vt; lra|]. split; [exact Ee|].
    intros d p eps hp Fp Ep A. replace (fR t + 3 / 2)%R with m in A by (rewrite Vt; lra).
    assert (X : 2 - emax bits <= e <= emax bits - 1).
    { pose proof (exponent_small x N) as X. destruct (log2_parts x N) as (_ & _ & _ & Vx2). pose proof (frac_range bits (to_bits x)) as FR.
      assert (e = log2_exponent bits x); [|subst; exact X].
      apply Z.le_antisymm; apply Z.lt_succ_r.
      - apply (lt_bpow radix2). unfold Z.succ. rewrite bpow_plus. change (bpow radix2 1) with 2%R.
        pose proof (bpow_gt_0 radix2 e). pose proof (bpow_gt_0 radix2 (log2_exponent bits x)). rewrite Vx in Vx2. nra.
      - apply (lt_bpow radix2). unfold Z.succ. rewrite bpow_plus. change (bpow radix2 1) with 2%R.
        pose proof (bpow_gt_0 radix2 e). pose proof (bpow_gt_0 radix2 (log2_exponent bits x)). rewrite Vx in Vx2. nra. }
    pose proof (log2R_12 m M) as LM.
    assert (EB : 2 * emax bits < 2 ^ prec bits) by (clear -HB; destruct HB as [-> | ->]; reflexivity).
    destruct (of_int_exact bits e ltac:(lia)) as [Ve Fe].
    assert (PB : (Rabs (fR p) <= 2)%R).
    { revert A. unfold Rabs. destruct (Rcase_abs _), (Rcase_abs _); lra. }
    destruct (fadd_value bits nan_of p (of_int bits e) Fp Fe) as [Vr Fr].
    { rewrite Ve. apply Rle_lt_trans with (IZR (emax bits + 1)); [apply RN_bound|apply prec_lt_pow; lia].
      - destruct X as [X1' X2']. apply IZR_le in X1', X2'. rewrite minus_IZR in X1', X2'. rewrite plus_IZR.
        revert PB. unfold Rabs. destruct (Rcase_abs _), (Rcase_abs _); lra.
      - lia. }
    exists (fadd bits nan_of p (of_int bits e)). split; [apply Run; exact hp|]. split; [exact Fr|]. rewrite Vr, Ve.
    rewrite Vx, (log2R_scale e m) by lra.
    destruct (FLT_plus_error_N_ex radix2 (emin bits) (prec bits) (fun z => negb (Z.even z)) (fR p) (IZR e)) as (eps2 & E2 & V2).
    { apply fmt_flt. } { rewrite <- Ve. apply fmt_flt. }
    change (Generic_fmt.round radix2 (FLT_exp (emin bits) (prec bits)) (Znearest (fun z => negb (Z.even z)))) with (RN bits) in V2.
    rewrite V2.
    assert (U : (u_ro radix2 (prec bits) = bpow radix2 (- prec bits))%R).
    { unfold u_ro. rewrite bpow_plus. change (bpow radix2 1) with 2%R. lra. }
    pose proof (u_rod1pu_ro_le_u_ro radix2 (prec bits)) as UL.
    assert (E3 : (Rabs eps2 <= bpow radix2 (- prec bits))%R) by lra.
    replace ((fR p + IZR e) * (1 + eps2) - (IZR e + log2R m))%R with ((fR p - log2R m) + eps2 * ((IZR e + log2R m) + (fR p - log2R m)))%R by ring.
    eapply Rle_trans; [apply Rabs_triang|]. apply Rplus_le_compat; [exact A|]. rewrite Rabs_mult.
    apply Rmult_le_compat; [apply Rabs_pos|apply Rabs_pos|exact E3|].
    eapply Rle_trans; [apply Rabs_triang|]. apply Rplus_le_compat_l. exact A.
  Qed.
End Log2.

(** ** runif *)
Lemma odd_mul_inj c d x y : 0 <= x < 2 ^ 64 -> 0 <= y < 2 ^ 64 -> c * d mod 2 ^ 64 = 1 -> x * c mod 2 ^ 64 = y * c mod 2 ^ 64 -> x = y.
Proof.
  intros X Y I E. assert (G : forall a, 0 <= a < 2 ^ 64 -> (a * c mod 2 ^ 64) * d mod 2 ^ 64 = a).
  { intros a A. rewrite Zmult_mod_idemp_l, <- Z.mul_assoc, <- Zmult_mod_idemp_r, I, Z.mul_1_r. apply Z.mod_small. exact A. }
  rewrite <- (G x X), <- (G y Y), E. reflexivity.
Qed.
Lemma xorshift_inj k x y : 0 < k -> 0 <= x -> 0 <= y -> Z.lxor x (Z.shiftr x k) = Z.lxor y (Z.shiftr y k) -> x = y.
Proof.
  intros K X Y E. set (d := Z.lxor x y).
  assert (D : d = Z.shiftr d k).
  { unfold d. rewrite Z.shiftr_lxor.
    assert (E2 : Z.lxor (Z.lxor x (Z.shiftr x k)) (Z.lxor y (Z.shiftr y k)) = 0) by (rewrite E; apply Z.lxor_nilpotent).
    apply Z.lxor_eq. rewrite <- E2. rewrite !Z.lxor_assoc. f_equal. rewrite <- !Z.lxor_assoc. f_equal. apply Z.lxor_comm. }
  assert (P : 0 <= d) by (apply Z.lxor_nonneg; lia). rewrite Z.shiftr_div_pow2 in D by lia.
  assert (D0 : d = 0).
  { destruct (Z.eq_dec d 0) as [|N]; [assumption|exfalso]. assert (d / 2 ^ k < d); [|lia].
    apply Z.div_lt; [lia|]. apply Z.pow_gt_1; lia. }
  apply Z.lxor_eq. exact D0.
Qed.
Lemma xor_range k z : 0 <= k -> 0 <= z < 2 ^ 64 -> 0 <= Z.lxor z (Z.shiftr z k) < 2 ^ 64.
Proof. intros K Z. apply lxor_range; [lia|exact Z|]. apply shiftr_range; assumption. Qed.
Theorem splitmix_inj i j : 0 <= i < 2 ^ 64 - 1 -> 0 <= j < 2 ^ 64 - 1 -> splitmix i = splitmix j -> i = j.
Proof.
  intros I J E. unfold splitmix in E.
  assert (M : forall z c, 0 <= z * c mod 2 ^ 64 < 2 ^ 64) by (intros; apply Z.mod_pos_bound; reflexivity).
  apply xorshift_inj in E; [|lia|apply M|apply M]. unfold mix2 in E.
  apply (odd_mul_inj _ 3573116690164977347) in E; [|apply xor_range; [lia|apply M]|apply xor_range; [lia|apply M]|reflexivity].
  apply xorshift_inj in E; [|lia|apply M|apply M]. unfold mix1 in E.
  apply (odd_mul_inj _ 10871156337175269513) in E; [|apply xor_range; [lia|apply M]|apply xor_range; [lia|apply M]|reflexivity].
  apply xorshift_inj in E; [|lia|apply M|apply M].
  apply (odd_mul_inj _ 17428512612931826493) in E; [|lia|lia|reflexivity]. lia.
Qed.
(** the 52 bits taken *)
Lemma unit_bits w : 0 <= w < 2 ^ 64 -> Z.lor (Z.shiftr w 2) ((emax 64 - 1) * 2 ^ mw 64) = Z.lor (w / 4 mod 2 ^ mw 64) ((emax 64 - 1) * 2 ^ mw 64).
Proof.
  intros W. rewrite Z.shiftr_div_pow2 by lia. change (2 ^ 2) with 4. apply Z.bits_inj'. intros i I. rewrite !Z.lor_spec.
  change ((emax 64 - 1) * 2 ^ mw 64) with (Z.shiftl (Z.ones 10) 52). change (mw 64) with 52. rewrite <- Z.land_ones, Z.land_spec by lia.
  destruct (Z_lt_le_dec i 52) as [L|G]; [rewrite Z.ones_spec_low by lia; rewrite andb_true_r; reflexivity|].
  rewrite Z.ones_spec_high by lia. rewrite andb_false_r. rewrite Z.shiftl_spec_high by lia.
  destruct (Z_lt_le_dec i 62) as [L2|G2].
  - rewrite Z.ones_spec_low by lia. rewrite orb_true_r. reflexivity.
  - rewrite Z.ones_spec_high by lia. rewrite orb_false_r. 
    assert (Q : 0 <= w / 4 < 2 ^ 62) by (split; [apply Z.div_pos; lia|apply Z.div_lt_upper_bound; lia]).
    destruct (Z.eq_dec (w / 4) 0) as [->|N]; [apply Z.bits_0|]. apply Z.bits_above_log2; [lia|].
    assert (Z.log2 (w / 4) < 62) by (apply Z.log2_lt_pow2; lia). lia.
Qed.
Theorem unit_ok nan_of i : finite (runif_unit nan_of i) = true /\
  fR (runif_unit nan_of i) = (IZR (splitmix i / 4 mod 2 ^ 52) / IZR (2 ^ 52))%R.
Proof.
  unfold runif_unit. rewrite (unit_bits _ (splitmix_range i)).
  destruct (mant_value 64 (splitmix i / 4) (or_intror eq_refl)) as [F V]. cbv zeta in F, V.
  destruct (unit_value 64 (or_intror eq_refl)) as [V1 F1].
  set (n := splitmix i / 4) in *. pose proof (frac_sub 64 n 2 ltac:(lra)) as FM. replace (IZR 2 / 2)%R with 1%R in FM by lra.
  pose proof (frac_range 64 n) as FR.
  destruct (fsub_value 64 nan_of _ _ F F1) as [V2 F2].
  - rewrite V, V1, (RN_fmt 64 _ FM). apply small_lt_emax. rewrite Rabs_pos_eq; lra.
  - rewrite V, V1, (RN_fmt 64 _ FM) in V2. split; [exact F2|]. rewrite V2. unfold frac. change (mw 64) with 52. 
    rewrite (IZR_Zpower radix2), bpow_opp by lia. unfold Rdiv. lra.
Qed.
