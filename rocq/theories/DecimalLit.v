(** Decimal literals denote the nearest float. *)
From Coq Require Import List String Bool ZArith Reals QArith Qreals Ascii Lia Lra.
From Flocq Require Import Core IEEE754.BinarySingleNaN IEEE754.Binary IEEE754.Bits Round_odd.
From Verif Require Import Res Dec GenSem FloatBits GenFloat.
Open Scope Z_scope.

Definition radix10 : radix := Build_radix 10 eq_refl.
(** the value of a decimal number *)
Definition dreal (d : bd) : R := (IZR (mant d) * bpow radix10 (- scale d))%R.

Section Odd.
  Variable bits k : Z.
  Definition fexpe (e : Z) : Z := Z.min (- k - 1) (e - prec bits - 2).
  Lemma prec_pos : 1 < prec bits. Proof. unfold prec, mw. destruct (bits =? 32); lia. Qed.
  Instance fexpe_valid : Valid_exp fexpe.
  Proof.
    intros e. pose proof prec_pos. unfold fexpe. split; [intros _; lia|]. intros L. exfalso. lia.
  Qed.
  Instance fexpe_NE : Exists_NE radix2 fexpe.
  Proof. right. intros e. pose proof prec_pos. unfold fexpe. split; [intros _; lia|lia]. Qed.
  Instance fx_valid : Valid_exp (fx bits).
  Proof. apply fexp_correct. exact (prec_gt bits). Qed.
  Instance fx_NE : Exists_NE radix2 (fx bits).
  Proof.
    change (fx bits) with (FLT_exp (SpecFloat.emin (prec bits) (emax bits)) (prec bits)).
    apply exists_NE_FLT. right. exact prec_pos.
  Qed.
  Lemma odd_twice x : RN bits (Generic_fmt.round radix2 fexpe Zrnd_odd x) = RN bits x.
  Proof.
    apply round_N_odd; try typeclasses eauto; [reflexivity|]. intros e. unfold fexpe, SpecFloat.fexp. lia.
  Qed.
End Odd.

Lemma odd_quotient N b : 0 < b -> Zrnd_odd (IZR (2 * N) / IZR b) = 2 * (N / b) + (if N mod b =? 0 then 0 else 1).
Proof.
  intros B. assert (B' : (0 < IZR b)%R) by (apply IZR_lt; exact B).
  pose proof (Z.div_mod N b ltac:(lia)) as D. pose proof (Z.mod_pos_bound N b B) as M.
  set (q := N / b) in *. set (r := N mod b) in *.
  assert (X : (IZR (2 * N) / IZR b = IZR (2 * q) + IZR (2 * r) / IZR b)%R).
  { rewrite D, !mult_IZR, plus_IZR, mult_IZR. field. lra. }
  rewrite X.
  assert (F : forall a, (IZR a * IZR b <= IZR (2 * r) < (IZR a + 1) * IZR b)%R -> Zfloor (IZR (2 * q) + IZR (2 * r) / IZR b) = 2 * q + a).
  { intros a [L U]. apply Zfloor_imp. rewrite !plus_IZR. split.
    - apply Rplus_le_compat_l. apply (Rmult_le_reg_r (IZR b)); [exact B'|]. unfold Rdiv. rewrite Rmult_assoc, Rinv_l by lra. lra.
    - rewrite Rplus_assoc. apply Rplus_lt_compat_l. apply (Rmult_lt_reg_r (IZR b)); [exact B'|]. unfold Rdiv. rewrite Rmult_assoc, Rinv_l by lra. lra. }
  unfold Zrnd_odd. destruct (Z.eqb_spec r 0) as [R0|R0].
  - rewrite (F 0).
    + rewrite R0. rewrite Z.mul_0_r, Z.add_0_r. unfold Rdiv. rewrite Rmult_0_l, Rplus_0_r.
      destruct (Req_EM_T _ _) as [_|C]; [reflexivity|contradiction].
    + rewrite R0. cbn [Z.mul]. split; lra.
  - destruct (Z.lt_ge_cases (2 * r) b) as [L|G].
    + rewrite (F 0).
      2:{ split; [rewrite Rmult_0_l; apply IZR_le; lia|]. rewrite Rplus_0_l, Rmult_1_l. apply IZR_lt; exact L. }
      rewrite Z.add_0_r. destruct (Req_EM_T _ _) as [E|NE].
      * exfalso. assert (IZR (2 * r) / IZR b = 0)%R by lra.
        assert (IZR (2 * r) = 0)%R. { apply (Rmult_eq_reg_r (/ IZR b)); [unfold Rdiv in H; lra|]. apply Rinv_neq_0_compat. lra. }
        apply eq_IZR in H0. lia.
      * rewrite Z.even_mul. cbn [Z.even orb].
        assert (F0 : Zfloor (IZR (2 * q) + IZR (2 * r) / IZR b) = 2 * q).
        { rewrite (F 0); [lia|]. split; [rewrite Rmult_0_l; apply IZR_le; lia|]. rewrite Rplus_0_l, Rmult_1_l. apply IZR_lt; exact L. }
        rewrite Zceil_floor_neq; rewrite F0; [reflexivity|]. intros C. apply NE. symmetry. exact C.
    + rewrite (F 1).
      2:{ split; [rewrite Rmult_1_l; apply IZR_le; lia|]. rewrite <- plus_IZR, <- mult_IZR. apply IZR_lt. lia. }
      destruct (Req_EM_T _ _) as [_|_]; [reflexivity|].
      rewrite Z.add_comm, Z.even_add, Z.even_mul. reflexivity.
Qed.

Lemma normalize_value bits m e s : (Rabs (RN bits (IZR m * bpow radix2 e)) < bpow radix2 (emax bits))%R ->
  fR (Binary.binary_normalize _ _ (prec_gt bits) (prec_lt bits) mode_NE m e s) = RN bits (IZR m * bpow radix2 e) /\
  finite (Binary.binary_normalize _ _ (prec_gt bits) (prec_lt bits) mode_NE m e s) = true.
Proof.
  intros L. pose proof (Binary.binary_normalize_correct _ _ (prec_gt bits) (prec_lt bits) mode_NE m e s) as C.
  cbn [round_mode] in C. unfold F2R in C. cbn [Fnum Fexp] in C. rewrite Rlt_bool_true in C by exact L. tauto.
Qed.
Lemma of_int_value bits z : (Rabs (RN bits (IZR z)) < bpow radix2 (emax bits))%R ->
  fR (of_int bits z) = RN bits (IZR z) /\ finite (of_int bits z) = true.
Proof.
  intros L. unfold of_int. pose proof (normalize_value bits z 0 false) as N. cbn [bpow] in N. rewrite Rmult_1_r in N.
  exact (N L).
Qed.
Lemma bpow10 n : 0 <= n -> bpow radix10 n = IZR (10 ^ n).
Proof. intros H. symmetry. exact (IZR_Zpower radix10 n H). Qed.

Theorem of_decimal_nearest bits d : (Rabs (RN bits (dreal d)) < bpow radix2 (emax bits))%R ->
  fR (of_decimal bits d) = RN bits (dreal d) /\ finite (of_decimal bits d) = true.
Proof.
  destruct d as [m s]. unfold of_decimal, dreal. cbn [mant scale]. destruct (Z.leb_spec s 0) as [S|S].
  - rewrite bpow10 by lia. rewrite <- mult_IZR. apply of_int_value.
  - rewrite bpow_opp, bpow10 by lia. set (b := 10 ^ s).
    assert (B : 0 < b) by (apply Z.pow_pos_nonneg; lia).
    assert (B' : (0 < IZR b)%R) by (apply IZR_lt; exact B).
    set (k := Z.log2 b + 128). pose proof (Z.log2_nonneg b) as LB.
    set (n := 2 * (m * 2 ^ k / b) + (if m * 2 ^ k mod b =? 0 then 0 else 1)).
    assert (E : RN bits (IZR n * bpow radix2 (- k - 1)) = RN bits (IZR m * / IZR b)).
    { destruct (Z.eq_dec m 0) as [->|M].
      - unfold n. rewrite Z.mul_0_l, Zdiv_0_l, Zmod_0_l. cbn [Z.mul Z.add Z.eqb]. rewrite !Rmult_0_l. reflexivity.
      - rewrite <- (odd_twice bits k (IZR m * / IZR b)). f_equal. unfold Generic_fmt.round, scaled_mantissa, cexp.
        set (x := (IZR m * / IZR b)%R).
        assert (X0 : x <> 0%R).
        { unfold x. apply Rmult_integral_contrapositive_currified; [apply IZR_neq; exact M|apply Rinv_neq_0_compat; lra]. }
        assert (MG : - Z.log2 b <= mag radix2 x).
        { apply mag_ge_bpow. unfold x. rewrite Rabs_mult, Rabs_inv, (Rabs_pos_eq (IZR b)) by lra.
          rewrite <- abs_IZR. apply (Rmult_le_reg_r (IZR b)); [exact B'|]. rewrite Rmult_assoc, Rinv_l, Rmult_1_r by lra.
          apply Rle_trans with 1%R; [|apply IZR_le; lia].
          replace (- Z.log2 b - 1) with (- (Z.log2 b + 1)) by lia. rewrite bpow_opp.
          apply (Rmult_le_reg_l (bpow radix2 (Z.log2 b + 1))); [apply bpow_gt_0|].
          rewrite <- Rmult_assoc, Rinv_r, Rmult_1_l, Rmult_1_r by (apply Rgt_not_eq, bpow_gt_0).
          rewrite <- (IZR_Zpower radix2) by lia. apply IZR_le. cbn [radix_val radix2].
          pose proof (Z.log2_spec b B) as G. rewrite <- Z.add_1_r in G. cbn in G |- *. lia. }
        assert (FE : fexpe bits k (mag radix2 x) = - k - 1).
        { unfold fexpe. assert (prec bits <= 53) by (unfold prec, mw; destruct (bits =? 32); lia). unfold k in *. lia. }
        rewrite FE. unfold F2R. cbn [Fnum Fexp]. f_equal. f_equal.
        unfold n. rewrite <- odd_quotient by exact B. f_equal. unfold x.
        replace (- (- k - 1)) with (k + 1) by lia. rewrite <- (IZR_Zpower radix2) by lia. cbn [radix_val radix2].
        rewrite Z.pow_add_r, !mult_IZR by lia. change (2 ^ 1) with 2. field. lra. }
    intros L. rewrite <- E in L |- *. exact (normalize_value bits n (- k - 1) false L).
Qed.
