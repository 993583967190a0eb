(** The generated exp2, from the polynomial that [approx] builds to the float
    that the function returns. *)
From Coq Require Import List String Bool ZArith QArith Qreals Reals Ascii Lia Lra.
From Flocq Require Import Core Relative IEEE754.BinarySingleNaN IEEE754.Binary IEEE754.Bits.
From Verif Require Import Res Dec DecFacts DecStr DecStrFacts Syntax Visitor Trans TransFacts Item Functions FunctionsFacts GenCode GenCodeFacts GenSem FloatBits GenRun GenFloat GenFloat2
  DecimalLit UseNumberType RFacts NumberTypeFacts ExactFloats Poly MulAddFacts ApproxFacts PolyExplicit ApproxExplicit Exp2Approx Exp2Numbers HornerFloat Exp2Edge.
From Flocq Require Import Core Relative.
Import ListNotations.
Open Scope string_scope.
Open Scope list_scope.
Open Scope R_scope.

(** ** Horner's rule on [-1/2, 1/2] *)
(** bounds of the value, and of the error in units of the conversion error
    and of the rounding error, from bounds of the coefficients *)
Fixpoint half_bound (H : R) (l : list R) : R * R * R :=
  match l with
  | [] => (H, H, 0)
  | C :: r => match half_bound H r with (s, a, b) => (C + s / 2, (a / 2 + C) * 1.001, 1.001 * (b / 2) + C + s / 2 + 0.001) end
  end.

Section Half.
  Context (bits : Z) (HB : (bits = 32 \/ bits = 64)%Z) (nan_of : list (flt bits) -> { x : flt bits | Binary.is_nan _ _ x = true }) (kap : R) (HK : 0 <= kap <= / 512).
  Definition coef_ok (x : flt bits) (cC : R * R) : Prop :=
    finite x = true /\ Rabs (fR x - fst cC) <= kap * Rabs (fst cC) /\ Rabs (fst cC) <= snd cC <= 2.
  Lemma half_error (t : flt bits) h hc xs cs : finite t = true -> Rabs (fR t) <= / 2 -> coef_ok h hc -> Forall2 coef_ok xs cs ->
    match half_bound (snd hc) (map snd cs) with (s, a, b) =>
      finite (hornerF bits nan_of t h xs) = true /\ Rabs (hornerR (fR t) (fst hc) (map fst cs)) <= s /\
      Rabs (fR (hornerF bits nan_of t h xs) - hornerR (fR t) (fst hc) (map fst cs)) <= a * kap + b * eps bits /\
      0 <= s <= 4 /\ 0 <= a <= 5 /\ 0 <= b <= 9
    end.
  Proof.
    intros Ft Ht (Fh & Eh & Bh) H. pose proof (eps_pos bits) as EP. pose proof (eps_small bits HB) as ES. pose proof (eta_pos bits) as TP. pose proof (eta_eps bits HB) as TE.
    assert (KA : forall c C, Rabs c <= C -> kap * Rabs c <= C * kap) by (intros; rewrite Rmult_comm; apply Rmult_le_compat_r; lra).
    induction H as [|x [c C] xs cs (Fx & Ex & Bx) H IH].
    - cbn [map half_bound hornerF hornerR horner fold_right]. pose proof (Rabs_pos (fst hc)) as P. pose proof (KA _ _ (proj1 Bh)).
      repeat split; try assumption; try lra.
    - cbn [map half_bound fst snd] in *. destruct (half_bound (snd hc) (map snd cs)) as [[s a] b]. destruct IH as (Fi & Ps & Er & S4 & A5 & B9).
      pose proof (Rabs_pos c) as C0. pose proof (Rabs_pos (fR t)) as T0. pose proof (KA _ _ (proj1 Bx)) as KC.
      set (p := hornerR (fR t) (fst hc) (map fst cs)) in *. set (y := hornerF bits nan_of t h xs) in *.
      assert (PT : Rabs (p * fR t) <= s / 2).
      { rewrite Rabs_mult. apply Rle_trans with (s * / 2); [|lra]. apply Rmult_le_compat; auto using Rabs_pos. }
      assert (PA : Rabs (p * fR t + c) <= C + s / 2) by (apply Rle_trans with (1 := Rabs_triang _ _); lra).
      set (d := a * kap + b * eps bits) in *.
      assert (D0 : 0 <= d) by (unfold d; apply Rplus_le_le_0_compat; apply Rmult_le_pos; lra).
      assert (DT : d * Rabs (fR t) <= d / 2) by (apply Rle_trans with (d * / 2); [apply Rmult_le_compat_l; lra|lra]).
      assert (D1 : d <= 1).
      { unfold d. apply Rle_trans with (5 * / 512 + 9 * / 16777216); [|lra]. apply Rplus_le_compat; apply Rmult_le_compat; lra. }
      assert (B101 : 100 <= bpow radix2 101).
      { apply Rle_trans with (bpow radix2 7); [cbn; lra|apply bpow_le; lia]. }
      assert (KM : C * kap <= 2 * / 512) by (apply Rmult_le_compat; lra).
      destruct (fma_step bits HB nan_of y t x p c d (kap * Rabs c) Fi Ft Fx Er Ex) as [Fr R]; [lra|]. cbv zeta in R.
      split; [exact Fr|]. split; [exact PA|]. split; [|lra].
      apply Rle_trans with (1 := R). 
      assert (EPA : eps bits * Rabs (p * fR t + c) <= eps bits * (C + s / 2)) by (apply Rmult_le_compat_l; lra).
      assert (M : (d * Rabs (fR t) + kap * Rabs c) * (1 + eps bits) <= (d / 2 + C * kap) * 1.001) by (apply Rmult_le_compat; [|lra|lra|lra]; apply Rplus_le_le_0_compat; apply Rmult_le_pos; lra).
      set (L := (d * Rabs (fR t) + kap * Rabs c) * (1 + eps bits)) in *. clearbody L. unfold d in M. lra.
  Qed.

  (** the last step, with the size of the value itself *)
  Lemma half_top (t : flt bits) x c d0 h hc xs cs s a b : finite t = true -> Rabs (fR t) <= / 2 -> coef_ok h hc -> Forall2 coef_ok xs cs ->
    half_bound (snd hc) (map snd cs) = (s, a, b) ->
    finite x = true -> Rabs (fR x - c) <= d0 <= 1 -> Rabs c <= 2 ->
    let p := hornerR (fR t) (fst hc) (c :: map fst cs) in
    let r := hornerF bits nan_of t h (x :: xs) in
    finite r = true /\ Rabs (fR r - p) <= (a / 2 * kap + b / 2 * eps bits + d0) * (1 + eps bits) + eps bits * Rabs p + eta bits.
  Proof.
    intros Ft Ht Hh H Hb Fx Ex Cx p r. pose proof (half_error t h hc xs cs Ft Ht Hh H) as G. rewrite Hb in G. destruct G as (Fi & Ps & Er & S4 & A5 & B9).
    pose proof (eps_pos bits) as EP. pose proof (eps_small bits HB) as ES.
    set (q := hornerR (fR t) (fst hc) (map fst cs)) in *. change p with (q * fR t + c). pose proof (Rabs_pos (fR t)) as T0.
    set (y := hornerF bits nan_of t h xs) in *. change r with (ffma bits nan_of y t x).
    assert (PT : Rabs (q * fR t) <= s / 2).
    { rewrite Rabs_mult. apply Rle_trans with (s * / 2); [|lra]. apply Rmult_le_compat; auto using Rabs_pos. }
    set (d := a * kap + b * eps bits) in *.
    assert (D0 : 0 <= d) by (unfold d; apply Rplus_le_le_0_compat; apply Rmult_le_pos; lra).
    assert (DT : d * Rabs (fR t) <= d / 2) by (apply Rle_trans with (d * / 2); [apply Rmult_le_compat_l; lra|lra]).
    assert (D1 : d <= 1).
    { unfold d. apply Rle_trans with (5 * / 512 + 9 * / 16777216); [|lra]. apply Rplus_le_compat; apply Rmult_le_compat; lra. }
    assert (B101 : 100 <= bpow radix2 101).
    { apply Rle_trans with (bpow radix2 7); [cbn; lra|apply bpow_le; lia]. }
    destruct (fma_step bits HB nan_of y t x q c d d0 Fi Ft Fx Er (proj1 Ex)) as [Fr R].
    { pose proof (Rabs_triang (q * fR t) c). lra. }
    split; [exact Fr|]. cbv zeta in R. apply Rle_trans with (1 := R). apply Rplus_le_compat_r, Rplus_le_compat_r, Rmult_le_compat_r; [lra|]. unfold d in *. lra.
  Qed.
End Half.

(** ** Numbers of few digits *)
Lemma ordinary_grid bits nd c : (0 <= scale c <= nd)%Z -> ((bits = 32 /\ nd <= 37) \/ (bits = 64 /\ nd <= 300))%Z -> Rabs (rval c) <= 2 -> ordinary bits c.
Proof.
  intros S B V.
  assert (T : Rabs (rval c) = IZR (Z.abs (mant c)) * / IZR (10 ^ scale c)).
  { rewrite rval_eq. replace (- scale c)%Z with (- (scale c))%Z by lia. rewrite r10_num by lia. rewrite Rabs_mult, abs_IZR, (Rabs_pos_eq (/ _)); [reflexivity|].
    left. apply Rinv_0_lt_compat. apply (IZR_lt 0). apply Z.pow_pos_nonneg; lia. }
  assert (P0 : 0 < IZR (10 ^ scale c)) by (apply (IZR_lt 0); apply Z.pow_pos_nonneg; lia).
  assert (S3 : (scale c <= 300)%Z) by lia.
  split; [lia|]. split.
  - assert (M : IZR (Z.abs (mant c)) <= IZR (2 * 10 ^ scale c)).
    { rewrite mult_IZR. apply Rmult_le_reg_r with (/ IZR (10 ^ scale c)); [apply Rinv_0_lt_compat; exact P0|]. rewrite Rmult_assoc, Rinv_r by lra. lra. }
    apply le_IZR in M. apply Z.le_trans with (1 := M). apply Z.le_trans with (2 * 10 ^ 300)%Z; [|apply Z.leb_le; reflexivity].
    apply Z.mul_le_mono_nonneg_l; [lia|]. apply Z.pow_le_mono_r; lia.
  - destruct (Z.eq_dec (mant c) 0) as [M|M]; [left; exact M|right]. cbv zeta. rewrite dreal_rval.
    assert (L : / IZR (10 ^ nd) <= Rabs (rval c)).
    { rewrite T. apply Rle_trans with (1 * / IZR (10 ^ scale c)).
      - rewrite Rmult_1_l. apply Rinv_le_contravar; [exact P0|]. apply IZR_le. apply Z.pow_le_mono_r; lia.
      - apply Rmult_le_compat_r; [left; apply Rinv_0_lt_compat; exact P0|]. apply IZR_le. lia. }
    assert (N0 : (0 <= nd)%Z) by lia.
    assert (G : forall r, (10 ^ nd <= 2 ^ r)%Z -> (1 <= r)%Z -> bpow radix2 (- r) <= Rabs (rval c) <= bpow radix2 r).
    { intros r Hr R1. split.
      - apply Rle_trans with (2 := L). rewrite bpow_opp. apply Rinv_le_contravar; [apply (IZR_lt 0); apply Z.pow_pos_nonneg; lia|].
        rewrite <- (IZR_Zpower radix2) by lia. apply IZR_le. exact Hr.
      - apply Rle_trans with (1 := V). change 2 with (bpow radix2 1). apply bpow_le. exact R1. }
    destruct B as [[-> B]|[-> B]].
    + apply (G 125%Z); [|lia]. apply Z.le_trans with (10 ^ 37)%Z; [apply Z.pow_le_mono_r; lia|apply Z.leb_le; reflexivity].
    + apply (G 1000%Z); [|lia]. apply Z.le_trans with (10 ^ 300)%Z; [apply Z.pow_le_mono_r; lia|apply Z.leb_le; reflexivity].
Qed.

Lemma eps32 : eps 32 = / 16777216. Proof. reflexivity. Qed.
Lemma eps64 : eps 64 = / 9007199254740992. Proof. reflexivity. Qed.

(** A number close to 1 becomes the float 1. *)
Lemma num_flt_one F k c : powi_within F k -> 0 <= k <= bpow radix2 (-27) -> ordinary 32 c -> Rabs (rval c - 1) <= bpow radix2 (-30) ->
  fR (num_flt F 32 c) = 1 /\ finite (num_flt F 32 c) = true.
Proof.
  change (bpow radix2 (-27)) with (/ 134217728). change (bpow radix2 (-30)) with (/ 1073741824).
  intros PW HK O C. pose proof (num_sign c) as SG. apply Rabs_le_inv in C.
  assert (M : (mant c <? 0)%Z = false).
  { destruct (mant c <? 0)%Z; [|reflexivity]. pose proof (Rabs_pos (rval c)). lra. }
  unfold num_flt. rewrite M in *. destruct (to_f32_value F k (dabs c) PW ltac:(lra) (ordinary_abs 32 c O)) as (Fi & w & W & V & _).
  change (converted F 32 (dabs c)) with (to_f32 F (dabs c)). split; [|exact Fi].
  rewrite dreal_dabs, <- SG in V. 
  assert (U : 3 * bpow radix2 (-53) <= / 1073741824).
  { apply Rle_trans with (4 * bpow radix2 (-53)); [pose proof (bpow_gt_0 radix2 (-53)); lra|]. change 4 with (bpow radix2 2). rewrite <- bpow_plus.
    change (/ 1073741824) with (bpow radix2 (-30)). apply bpow_le. lia. }
  set (v := rval c * w) in *. apply Rabs_le_inv in W.
  assert (D : Rabs (v - 1) < / 67108864).
  { apply Rabs_lt. unfold v. split; nra. }
  set (x := to_f32 F (dabs c)) in *.
  destruct (nearest_round 32 v x Fi V) as (_ & Nr).
  destruct (of_int_exact 32 1 ltac:(discriminate)) as [E1 F1].
  specialize (Nr (of_int 32 1) F1). rewrite E1 in Nr. rewrite (Rabs_minus_sym 1 v) in Nr.
  assert (X : Rabs (fR x - 1) < / 33554432).
  { replace (fR x - 1) with ((fR x - v) + (v - 1)) by ring. eapply Rle_lt_trans; [apply Rabs_triang|]. lra. }
  apply Rabs_lt_inv in X.
  destruct (GenFloat.mag_mult 32 (fR x) 0 (fmt_flt 32 x)) as (n & Hn).
  { rewrite Rabs_pos_eq by lra. change (bpow radix2 (0 - 1)) with (/ 2). lra. }
  change (bpow radix2 (0 - prec 32)) with (/ 16777216) in Hn.
  assert (n = 16777216)%Z.
  { assert (IZR n = fR x * 16777216) by (rewrite Hn; lra).
    assert (16777215 < n)%Z by (apply lt_IZR; lra). assert (n < 16777217)%Z by (apply lt_IZR; lra). lia. }
  subst n. rewrite Hn. lra.
Qed.

(** ** The polynomials of exp2 *)
Definition C8 : list R := [0.6931652; 0.2402814; 0.0556107; 0.0097506; 0.0014393; 0.000207].
Definition C12 : list R := [0.6931501; 0.2402285; 0.0555048; 0.0096184; 0.0013335; 0.0001541; 0.0000154; 0.0000014; 0.0000002; 0.0000001].
Lemma bound8 : match half_bound 0.0000305 C8 with (s, a, b) => a / 2 <= 0.4155 /\ b / 2 <= 0.4925 end.
Proof. unfold C8. cbn [half_bound]. lra. Qed.
Lemma bound12 : match half_bound 0.0000001 C12 with (s, a, b) => a / 2 <= 0.4155 /\ b / 2 <= 0.4925 end.
Proof. unfold C12. cbn [half_bound]. lra. Qed.

Lemma coef_le v j c C : Rabs (v - ln 2 ^ j / INR (fact j)) <= c -> 0.69315 ^ j / INR (fact j) + c <= C -> Rabs v <= C.
Proof.
  intros A B. destruct ln2_tight as (L1 & L2). pose proof (INR_fact_lt_0 j) as P.
  assert (0 <= ln 2 ^ j / INR (fact j) <= 0.69315 ^ j / INR (fact j)).
  { split; [apply Rmult_le_pos; [apply pow_le; lra|left; apply Rinv_0_lt_compat; exact P]|].
    apply Rmult_le_compat_r; [left; apply Rinv_0_lt_compat; exact P|]. apply pow_incr. lra. }
  apply Rabs_le_inv in A. apply Rabs_le. lra.
Qed.
Definition tab8 : list R := 1.0000019 :: C8 ++ [0.0000305].
Definition tab12 : list R := 1.0000001 :: C12 ++ [0.0000001].
Lemma tab8_ok j : (j <= 7)%nat -> 0.69315 ^ j / INR (fact j) + c8 j <= nth j tab8 0.
Proof. intros H. cases_to j H 8%nat; numerals; unfold c8, tab8, C8; cbn [nth app pow]; lra. Qed.
Lemma tab12_ok j : (j <= 11)%nat -> 0.69315 ^ j / INR (fact j) + c12 j <= nth j tab12 0.
Proof. intros H. cases_to j H 12%nat; numerals; unfold c12, tab12, C12; cbn [nth app pow]; lra. Qed.

Lemma Rpower_half t : Rabs t <= / 2 -> 7 / 10 <= Rpower 2 t <= 71 / 50.
Proof. intros H. apply pow2_half. lra. Qed.
Lemma rpoly_zero c l : rpoly (c :: l) 0 = rval c.
Proof. cbn [rpoly]. ring. Qed.
Lemma Rpower_zero : Rpower 2 0 = 1.
Proof. apply Rpower_O. lra. Qed.

Lemma conv32 : conv_unit 32 = / 16777216 * (1 + / 64). Proof. reflexivity. Qed.
Lemma conv64 : conv_unit 64 = 3 * / 9007199254740992. Proof. reflexivity. Qed.
Lemma final8 k a b p y v : 0 <= k <= / 134217728 -> a / 2 <= 0.4155 -> b / 2 <= 0.4925 -> 7 / 10 <= v <= 71 / 50 ->
  Rabs (p - v) <= 1.16 / 10000000000 ->
  Rabs (y - p) <= (a / 2 * (k + conv_unit 32) + b / 2 * eps 32 + 1.16 / 10000000000) * (1 + eps 32) + eps 32 * Rabs p + eta 32 ->
  Rabs (y - v) <= (0.93 + v) * / 16777216 + 0.416 * k.
Proof.
  intros HK Ba Bb RP PV R. assert (EB : eta 32 <= / 16777216 / 1048576) by (rewrite <- eps32; apply eta_eps; tauto).
  rewrite eps32, conv32 in R.
  assert (P1 : Rabs p <= v + 1.16 / 10000000000).
  { replace p with (v + (p - v)) by ring. apply Rle_trans with (1 := Rabs_triang _ _). rewrite (Rabs_pos_eq v) by lra. lra. }
  assert (A1 : a / 2 * (k + / 16777216 * (1 + / 64)) <= 0.4155 * (k + / 16777216 * (1 + / 64))) by (apply Rmult_le_compat_r; lra).
  replace (y - v) with ((y - p) + (p - v)) by ring. apply Rle_trans with (1 := Rabs_triang _ _). lra.
Qed.

Lemma final12 k a b p y v : 0 <= k <= / 1024 -> a / 2 <= 0.4155 -> b / 2 <= 0.4925 -> 7 / 10 <= v <= 71 / 50 ->
  Rabs (p - v) <= 8.8 / 1000000000000000000 ->
  Rabs (y - p) <= (a / 2 * (k + conv_unit 64) + b / 2 * eps 64 + (k + conv_unit 64) * (1 + 8.8 / 1000000000000000000)) * (1 + eps 64) + eps 64 * Rabs p + eta 64 ->
  Rabs (y - v) <= (4.85 + v) * / 9007199254740992 + 1.416 * k.
Proof.
  intros HK Ba Bb RP PV R. assert (EB : eta 64 <= / 9007199254740992 / 1048576) by (rewrite <- eps64; apply eta_eps; tauto).
  rewrite eps64, conv64 in R.
  assert (P1 : Rabs p <= v + 8.8 / 1000000000000000000).
  { replace p with (v + (p - v)) by ring. apply Rle_trans with (1 := Rabs_triang _ _). rewrite (Rabs_pos_eq v) by lra. lra. }
  assert (A1 : a / 2 * (k + 3 * / 9007199254740992) <= 0.4155 * (k + 3 * / 9007199254740992)) by (apply Rmult_le_compat_r; lra).
  replace (y - v) with ((y - p) + (p - v)) by ring. apply Rle_trans with (1 := Rabs_triang _ _). lra.
Qed.

Section Exp2.
  Context (F : floats) (kind : string) (k : R) (RB : reads_back F) (PW : powi_within F k).
  Let ev (bits : Z) (n : string) (e' : expr) (bound : R -> R) : Prop :=
    forall nan_of std checked lib call const env t, lookup bits n env = Some (VFlt t) -> finite t = true -> Rabs (fR t) <= / 2 ->
      exists y, eval_g bits nan_of std checked lib call const env e' = Ok (VFlt y) /\ finite y = true /\ Rabs (fR y - Rpower 2 (fR t)) <= bound (Rpower 2 (fR t)).

  Lemma two_eval_32 n ts e : working kind 32 -> 0 <= k <= bpow radix2 (-27) -> List.length ts = 8%nat ->
    Forall (fun c => (0 <= scale c <= 20)%Z) ts -> mul_add_polynomial ts [n] PNeither = Ok e ->
    (forall t, - / 2 <= t <= / 2 -> Rabs (rpoly ts t - Rpower 2 t) <= 1.16 / 10000000000) ->
    (forall j, (j <= 7)%nat -> Rabs (rval (nth j ts dzero) - ln 2 ^ j / INR (fact j)) <= c8 j) ->
    exists e', use_number_type F kind 32 e = Ok e' /\ ev 32 n e' (fun v => (0.93 + v) * / 16777216 + 0.416 * k).
  Proof.
    intros W HK L HS ME HV HC. change (bpow radix2 (-27)) with (/ 134217728) in HK.
    assert (CB : forall j, (j <= 7)%nat -> Rabs (rval (nth j ts dzero)) <= nth j tab8 0).
    { intros j Hj. apply (coef_le _ j (c8 j)); [apply HC; exact Hj|apply tab8_ok; exact Hj]. }
    assert (T2 : forall j, (j <= 7)%nat -> nth j tab8 0 <= 2).
    { intros j Hj. cases_to j Hj 8%nat; unfold tab8, C8; cbn [nth app]; lra. }
    assert (OR : Forall (fun c => (0 <= scale c)%Z /\ ordinary 32 c) ts).
    { apply Forall_forall. intros c Hc. destruct (In_nth ts c dzero Hc) as (j & Hj & <-). rewrite L in Hj.
      rewrite Forall_forall in HS. specialize (HS _ Hc). assert (E : nth j ts dzero = nth j ts dzero) by reflexivity.
      pose proof (CB j ltac:(lia)). pose proof (T2 j ltac:(lia)). 
      assert (HSj : (0 <= scale (nth j ts dzero) <= 20)%Z) by exact HS.
      split; [lia|]. apply (ordinary_grid 32 20); [exact HSj|lia|lra]. }
    destruct (poly_retyped F kind 32 k W RB PW ltac:(lra) n ts e OR ME) as (l & h & e' & El & Ue & Ev). exists e'. split; [exact Ue|].
    intros nan_of std checked lib call const env t Lk Ft Ht. eexists. split; [apply Ev; exact Lk|].
    assert (PV : Rabs (rpoly ts (fR t) - Rpower 2 (fR t)) <= 1.16 / 10000000000) by (apply HV; apply Rabs_le_inv in Ht; lra).
    pose proof (HV 0 ltac:(lra)) as V0. rewrite Rpower_zero in V0.
    assert (K2 : 0 <= k + conv_unit 32 <= / 512).
    { rewrite conv32. lra. }
    assert (NC : forall j, (j <= 7)%nat -> coef_ok 32 (k + conv_unit 32) (num_flt F 32 (nth j ts dzero)) (rval (nth j ts dzero), nth j tab8 0)).
    { intros j Hj. assert (O : ordinary 32 (nth j ts dzero)) by (rewrite Forall_forall in OR; apply OR, nth_In; lia).
      destruct (num_flt_close F k 32 _ ltac:(tauto) PW ltac:(lra) O) as [Fc Ec]. split; [exact Fc|]. split; [exact Ec|]. split; [apply CB; exact Hj|apply T2; exact Hj]. }
    destruct ts as [|c0 [|c1 [|c2 [|c3 [|c4 [|c5 [|c6 [|c7 [|]]]]]]]]]; try discriminate L.
    change ([c0; c1; c2; c3; c4; c5; c6; c7]) with ([c0; c1; c2; c3; c4; c5; c6] ++ [c7]) in El. apply app_inj_tail in El. destruct El as [<- <-].
    rewrite rpoly_zero in V0.
    assert (O0 : ordinary 32 c0) by (apply Forall_inv in OR; apply OR).
    destruct (num_flt_one F k c0 PW ltac:(change (bpow radix2 (-27)) with (/ 134217728); lra) O0) as [N1 FN1].
    { change (bpow radix2 (-30)) with (/ 1073741824). lra. }
    change ([c0; c1; c2; c3; c4; c5; c6; c7]) with ([c0; c1; c2; c3; c4; c5; c6] ++ [c7]) in PV. rewrite rpoly_horner in PV.
    pose proof bound8 as B8. destruct (half_bound 0.0000305 C8) as [[s a] b] eqn:HBD. destruct B8 as [Ba Bb].
    destruct (half_top 32 ltac:(tauto) nan_of (k + conv_unit 32) K2 t (num_flt F 32 c0) (rval c0) (1.16 / 10000000000)
      (num_flt F 32 c7) (rval c7, 0.0000305) (map (num_flt F 32) [c1; c2; c3; c4; c5; c6]) (combine (map rval [c1; c2; c3; c4; c5; c6]) C8) s a b Ft Ht) as [Fr R].
    - exact (NC 7%nat ltac:(lia)).
    - repeat (apply Forall2_cons; [|]); try apply Forall2_nil;
        [exact (NC 1%nat ltac:(lia))|exact (NC 2%nat ltac:(lia))|exact (NC 3%nat ltac:(lia))|exact (NC 4%nat ltac:(lia))|exact (NC 5%nat ltac:(lia))|exact (NC 6%nat ltac:(lia))].
    - exact HBD.
    - exact FN1.
    - rewrite N1, Rabs_minus_sym. split; [exact V0|lra].
    - pose proof (CB 0%nat ltac:(lia)) as X. cbn [nth tab8] in X. lra.
    - split; [exact Fr|]. exact (final8 k a b _ _ _ HK Ba Bb (Rpower_half (fR t) Ht) PV R).
  Qed.
  Lemma two_eval_64 n ts e : working kind 64 -> 0 <= k <= / 1024 -> List.length ts = 12%nat ->
    Forall (fun c => (0 <= scale c <= 40)%Z) ts -> mul_add_polynomial ts [n] PNeither = Ok e ->
    (forall t, - / 2 <= t <= / 2 -> Rabs (rpoly ts t - Rpower 2 t) <= 8.8 / 1000000000000000000) ->
    (forall j, (j <= 11)%nat -> Rabs (rval (nth j ts dzero) - ln 2 ^ j / INR (fact j)) <= c12 j) ->
    exists e', use_number_type F kind 64 e = Ok e' /\ ev 64 n e' (fun v => (4.85 + v) * / 9007199254740992 + 1.416 * k).
  Proof.
    intros W HK L HS ME HV HC.
    assert (CB : forall j, (j <= 11)%nat -> Rabs (rval (nth j ts dzero)) <= nth j tab12 0).
    { intros j Hj. apply (coef_le _ j (c12 j)); [apply HC; exact Hj|apply tab12_ok; exact Hj]. }
    assert (T2 : forall j, (j <= 11)%nat -> nth j tab12 0 <= 2).
    { intros j Hj. cases_to j Hj 12%nat; unfold tab12, C12; cbn [nth app]; lra. }
    assert (OR : Forall (fun c => (0 <= scale c)%Z /\ ordinary 64 c) ts).
    { apply Forall_forall. intros c Hc. destruct (In_nth ts c dzero Hc) as (j & Hj & <-). rewrite L in Hj.
      rewrite Forall_forall in HS. specialize (HS _ Hc). assert (E : nth j ts dzero = nth j ts dzero) by reflexivity.
      pose proof (CB j ltac:(lia)). pose proof (T2 j ltac:(lia)). 
      assert (HSj : (0 <= scale (nth j ts dzero) <= 40)%Z) by exact HS.
      split; [lia|]. apply (ordinary_grid 64 40); [exact HSj|lia|lra]. }
    destruct (poly_retyped F kind 64 k W RB PW ltac:(lra) n ts e OR ME) as (l & h & e' & El & Ue & Ev). exists e'. split; [exact Ue|].
    intros nan_of std checked lib call const env t Lk Ft Ht. eexists. split; [apply Ev; exact Lk|].
    assert (PV : Rabs (rpoly ts (fR t) - Rpower 2 (fR t)) <= 8.8 / 1000000000000000000) by (apply HV; apply Rabs_le_inv in Ht; lra).
    pose proof (HV 0 ltac:(lra)) as V0. rewrite Rpower_zero in V0.
    assert (K2 : 0 <= k + conv_unit 64 <= / 512).
    { rewrite conv64. lra. }
    assert (NC : forall j, (j <= 11)%nat -> coef_ok 64 (k + conv_unit 64) (num_flt F 64 (nth j ts dzero)) (rval (nth j ts dzero), nth j tab12 0)).
    { intros j Hj. assert (O : ordinary 64 (nth j ts dzero)) by (rewrite Forall_forall in OR; apply OR, nth_In; lia).
      destruct (num_flt_close F k 64 _ ltac:(tauto) PW ltac:(lra) O) as [Fc Ec]. split; [exact Fc|]. split; [exact Ec|]. split; [apply CB; exact Hj|apply T2; exact Hj]. }
    destruct ts as [|c0 [|c1 [|c2 [|c3 [|c4 [|c5 [|c6 [|c7 [|c8' [|c9 [|c10 [|c11 [|]]]]]]]]]]]]]; try discriminate L.
    change ([c0; c1; c2; c3; c4; c5; c6; c7; c8'; c9; c10; c11]) with ([c0; c1; c2; c3; c4; c5; c6; c7; c8'; c9; c10] ++ [c11]) in El. apply app_inj_tail in El. destruct El as [<- <-].
    rewrite rpoly_zero in V0.
    assert (O0 : ordinary 64 c0) by (apply Forall_inv in OR; apply OR).
    destruct (num_flt_close F k 64 c0 ltac:(tauto) PW ltac:(lra) O0) as [FN1 N1].
    change ([c0; c1; c2; c3; c4; c5; c6; c7; c8'; c9; c10; c11]) with ([c0; c1; c2; c3; c4; c5; c6; c7; c8'; c9; c10] ++ [c11]) in PV. rewrite rpoly_horner in PV.
    pose proof bound12 as B8. destruct (half_bound 0.0000001 C12) as [[s a] b] eqn:HBD. destruct B8 as [Ba Bb].
    destruct (half_top 64 ltac:(tauto) nan_of (k + conv_unit 64) K2 t (num_flt F 64 c0) (rval c0) ((k + conv_unit 64) * (1 + 8.8 / 1000000000000000000))
      (num_flt F 64 c11) (rval c11, 0.0000001) (map (num_flt F 64) [c1; c2; c3; c4; c5; c6; c7; c8'; c9; c10]) (combine (map rval [c1; c2; c3; c4; c5; c6; c7; c8'; c9; c10]) C12) s a b Ft Ht) as [Fr R].
    - exact (NC 11%nat ltac:(lia)).
    - repeat (apply Forall2_cons; [|]); try apply Forall2_nil;
        [exact (NC 1%nat ltac:(lia))|exact (NC 2%nat ltac:(lia))|exact (NC 3%nat ltac:(lia))|exact (NC 4%nat ltac:(lia))|exact (NC 5%nat ltac:(lia))|exact (NC 6%nat ltac:(lia))|exact (NC 7%nat ltac:(lia))|exact (NC 8%nat ltac:(lia))|exact (NC 9%nat ltac:(lia))|exact (NC 10%nat ltac:(lia))].
    - exact HBD.
    - exact FN1.
    - assert (Rabs (rval c0) <= 1 + 8.8 / 1000000000000000000) by (apply Rabs_le_inv in V0; apply Rabs_le; lra). split; [|lra].
      apply Rle_trans with (1 := N1). apply Rmult_le_compat_l; lra.
    - pose proof (CB 0%nat ltac:(lia)) as X. cbn [nth tab12] in X. lra.
    - split; [exact Fr|]. exact (final12 k a b _ _ _ HK Ba Bb (Rpower_half (fR t) Ht) PV R).
  Qed.
End Exp2.

(** ** The function *)
Lemma nearest_upper x j n : nearest_away x j -> x <= IZR n -> (j <= n)%Z.
Proof.
  intros [N T] L. destruct (Z.le_gt_cases j n) as [|G]; [assumption|exfalso].
  assert (IZR (n + 1) <= IZR j) by (apply IZR_le; lia). rewrite plus_IZR in *. apply Rabs_le_inv in N. lra.
Qed.

Section Run.
  Context (bits : Z) (sub : string -> expr) (lib : list item) (HB : (bits = 32 \/ bits = 64)%Z).
  Context (nan_of : list (flt bits) -> { x : flt bits | Binary.is_nan _ _ x = true }) (std : string -> list (flt bits) -> option (flt bits)) (checked : bool).
  (** the bound of the polynomial's error, scaled *)
  Lemma exp2_scaled (x : flt bits) (B : R -> R) d : (forall n, In n exp2_needs -> has bits sub lib n) -> roundable x ->
    5 / 2 - IZR (emax bits) < fR x <= IZR (emax bits) - 1 ->
    (forall call const env t, lookup bits "x" env = Some (VFlt t) -> finite t = true -> Rabs (fR t) <= / 2 ->
      exists y, eval_g bits nan_of std checked lib call const env (sub "exp2") = Ok (VFlt y) /\ finite y = true /\ Rabs (fR y - Rpower 2 (fR t)) <= B (Rpower 2 (fR t))) ->
    (forall v, 7 / 10 <= v <= 71 / 50 -> B v <= v / 5) ->
    exists j r, nearest_away (fR x) j /\ run bits nan_of std checked lib (S (S d)) "exp2" [VFlt x] = Ok (VFlt r) /\ finite r = true /\
      Rabs (fR r - Rpower 2 (fR x)) <= bpow radix2 j * B (Rpower 2 (fR x - IZR j)) /\ Rpower 2 (fR x) = bpow radix2 j * Rpower 2 (fR x - IZR j) /\
      7 / 10 <= Rpower 2 (fR x - IZR j) <= 71 / 50.
  Proof.
    intros hh Rd [L U] HE HV. destruct (exp2_mid bits sub lib HB nan_of std checked x hh Rd ltac:(lra)) as (k & t & m & env & NA & K & Ft & Vt & Fm & Vm & Lk & Ee & Run).
    destruct NA as [N NT]. rewrite <- Vt in N.
    destruct (HE (run bits nan_of std checked lib (S d)) (const_of bits nan_of std checked lib) env t Lk Ft ltac:(lra)) as (p & Hp & Fp & A).
    pose proof (Rpower_half (fR t) ltac:(lra)) as PH. specialize (HV _ PH).
    assert (K3 : (3 - emax bits <= k)%Z).
    { assert (2 - emax bits < k)%Z; [|lia]. apply lt_IZR. rewrite minus_IZR. rewrite Vt in N. apply Rabs_le_inv in N. lra. }
    assert (PB : 1 / 2 <= fR p < 9 / 5) by (apply Rabs_le_inv in A; lra).
    assert (B0 : 0 < bpow radix2 k) by apply bpow_gt_0.
    destruct (mul_pow2 bits nan_of p m k Fp Fm Vm ltac:(lra) ltac:(lia)) as [Fr Vr].
    { apply Rlt_le_trans with (bpow radix2 (1 + k)); [|apply bpow_le; lia]. rewrite bpow_plus. change (bpow radix2 1) with 2. nra. }
    assert (Ex : Rpower 2 (fR x) = bpow radix2 k * Rpower 2 (fR x - IZR k)).
    { change (Rpower 2 (fR x)) with (pow2 (fR x)). change (Rpower 2 (fR x - IZR k)) with (pow2 (fR x - IZR k)). rewrite <- pow2_IZR, <- pow2_plus. f_equal. ring. }
    exists k, (fmul bits nan_of p m). split; [split; [rewrite <- Vt; exact N|exact NT]|]. split; [apply Run; exact Hp|]. split; [exact Fr|].
    split; [|split; [exact Ex|rewrite <- Vt; exact PH]].
    rewrite Vr, Ex, <- Vt, (Rmult_comm (fR p)), <- Rmult_minus_distr_l, Rabs_mult, (Rabs_pos_eq (bpow radix2 k)) by lra.
    apply Rmult_le_compat_l; [lra|exact A].
  Qed.
End Run.

Theorem exp2_generated_32 F kind k o xmin xmax : working kind 32 -> reads_back F -> powi_within F k -> 0 <= k <= bpow radix2 (-27) ->
  rval xmin = - / 2 -> rval xmax = / 2 -> exists fuel0, forall fuel, (fuel0 <= fuel)%nat -> exists r e',
    approx o fuel (two_pow ["x"]) 8 xmin xmax ["x"] PNeither 20 = Ok r /\ use_number_type F kind 32 r = Ok e' /\
    forall sub lib nan_of std checked (x : flt 32) d, (forall n, In n exp2_needs -> has 32 sub lib n) -> sub "exp2" = e' ->
      finite x = true -> -125.5 < fR x <= 127 ->
      exists y, run 32 nan_of std checked lib (S (S d)) "exp2" [VFlt x] = Ok (VFlt y) /\ finite y = true /\
        Rabs (fR y - Rpower 2 (fR x)) <= (2.67 * bpow radix2 (-24) + 0.6 * k) * Rpower 2 (fR x) /\
        (Rabs (fR x) <> 1 / 2 - bpow radix2 (-25) -> Rabs (fR y - Rpower 2 (fR x)) <= (2.33 * bpow radix2 (-24) + 0.6 * k) * Rpower 2 (fR x)) /\
        forall n, fR x <= IZR n -> Rabs (fR y - Rpower 2 (fR x)) <= bpow radix2 n * bpow radix2 (-23).
Proof.
  intros W RB PW HK Ea Eb. destruct (exp2_poly_32 o ["x"] xmin xmax Ea Eb) as (F0 & H). exists F0. intros fuel Hf.
  destruct (H fuel Hf) as (r & ts & A & L & Mp & S & V & C). exists r.
  destruct (two_eval_32 F kind k RB PW "x" ts r W HK L S Mp V C) as (e' & Ue & Ev). exists e'. split; [exact A|]. split; [exact Ue|].
  change (bpow radix2 (-27)) with (/ 134217728) in HK.
  intros sub lib nan_of std checked x d hh Hs Fx X.
  destruct (Req_dec (Rabs (fR x)) (1 / 2 - bpow radix2 (-25))) as [Eg|Ne].
  { destruct (edge_is 32 x ltac:(tauto) Eg) as (s & ->).
    destruct (exp2_edge 32 sub lib ltac:(tauto) nan_of std checked s (fun v => (0.93 + v) * / 16777216 + 0.416 * k) d hh) as (y & Ry & Fy & E & Ex & UB).
    - intros call const env t. rewrite Hs. apply Ev.
    - intros v Hv. lra.
    - exists y. split; [exact Ry|]. split; [exact Fy|]. destruct (edge_value 32 s ltac:(tauto)) as [Vx _]. revert E Ex UB. change (bpow radix2 (- prec 32)) with (/ 16777216).
      change (bpow radix2 (-24)) with (/ 16777216). change (bpow radix2 (-23)) with (/ 8388608).
      set (z := Rpower 2 (fR (edge 32 s))). set (v := Rpower 2 (if s then / 2 else - / 2)). set (b := if s then / 2 else 2). intros E Ex UB.
      assert (D : Rabs (fR y - z) <= b * ((0.93 + v) * / 16777216 + 0.416 * k) + 0.3473 * / 16777216 * (b * v)).
      { replace (fR y - z) with ((fR y - b * v) + - (z - b * v)) by ring. apply Rle_trans with (1 := Rabs_triang _ _). rewrite Rabs_Ropp. lra. }
      apply Rabs_le_inv in Ex.
      assert (KZ : k * 0.7 <= k * z) by (apply Rmult_le_compat_l; [lra|]; destruct s; lra). split; [|split; [intros N; contradiction|]].
      + apply Rle_trans with (1 := D). rewrite Rmult_plus_distr_r, Rmult_assoc.
        assert (KZ2 : s = false -> k * 1.4 <= k * z) by (intros ->; apply Rmult_le_compat_l; lra).
        destruct s; unfold b in *; [|specialize (KZ2 eq_refl)]; lra.
      + intros n Hn. apply Rle_trans with (1 := D). rewrite Vx in Hn. change (bpow radix2 (- prec 32 - 1)) with (/ 33554432) in Hn.
        assert (NB : (if s then 1 else 2) <= bpow radix2 n).
        { destruct s; cbn [sgn] in Hn; [change 1 with (bpow radix2 0)|change 2 with (bpow radix2 1)]; apply bpow_le.
          - assert (-1 < n)%Z; [apply lt_IZR; lra|lia].
          - assert (0 < n)%Z; [apply lt_IZR; lra|lia]. }
        set (m := bpow radix2 n) in *. destruct s; unfold b in *; lra. }
  assert (Rd : roundable x) by (split; [exact Fx|]; split; [|exact Ne]; change (IZR (2 ^ mw 32)) with 8388608; apply Rabs_lt; lra).
  destruct (exp2_scaled 32 sub lib ltac:(tauto) nan_of std checked x (fun v => (0.93 + v) * / 16777216 + 0.416 * k) d hh Rd) as (j & y & N & Ry & Fy & E & Ex & PH).
  - assert (E32 : IZR (emax 32) = 128) by reflexivity. rewrite E32. lra.
  - intros call const env t. rewrite Hs. apply Ev.
  - intros v Hv. lra.
  - exists y. split; [exact Ry|]. split; [exact Fy|]. rewrite Ex in E |- *. set (v := Rpower 2 (fR x - IZR j)) in *. set (b := bpow radix2 j) in *.
    assert (B0 : 0 < b) by apply bpow_gt_0. change (bpow radix2 (-24)) with (/ 16777216). change (bpow radix2 (-23)) with (/ 8388608).
    assert (G : Rabs (fR y - b * v) <= (2.33 * / 16777216 + 0.6 * k) * (b * v)); [|split; [|split; [intros _; exact G|]]].
    + apply Rle_trans with (1 := E). replace ((2.33 * / 16777216 + 0.6 * k) * (b * v)) with (b * ((2.33 * / 16777216 + 0.6 * k) * v)) by ring.
      apply Rmult_le_compat_l; [lra|]. assert (0.6 * k * 0.7 <= 0.6 * k * v) by (apply Rmult_le_compat_l; lra). lra.
    + apply Rle_trans with (1 := G). assert (0 <= b * v) by (apply Rmult_le_pos; lra). apply Rmult_le_compat_r; lra.
    + intros n Hn. apply Rle_trans with (1 := E).
      assert (bn : b <= bpow radix2 n) by (apply bpow_le; exact (nearest_upper _ _ _ N Hn)).
      assert (bv : b * v <= bpow radix2 n).
      { rewrite <- Ex. change (Rpower 2 (fR x)) with (pow2 (fR x)). rewrite <- pow2_IZR. unfold pow2.
        destruct (Req_dec (fR x) (IZR n)) as [->|Nz]; [lra|]. left. apply exp_increasing. apply Rmult_lt_compat_r; [pose proof ln2_tight; lra|lra]. }
      set (m := bpow radix2 n) in *. clearbody m b v.
      replace (b * ((0.93 + v) * / 16777216 + 0.416 * k)) with (0.93 * / 16777216 * b + b * v * / 16777216 + 0.416 * (b * k)) by ring.
      assert (b * k <= m * / 134217728) by (apply Rmult_le_compat; lra). lra.
Qed.

Theorem exp2_generated_64 F kind k o xmin xmax : working kind 64 -> reads_back F -> powi_within F k -> 0 <= k <= / 1024 ->
  rval xmin = - / 2 -> rval xmax = / 2 -> exists fuel0, forall fuel, (fuel0 <= fuel)%nat -> exists r e',
    approx o fuel (two_pow ["x"]) 12 xmin xmax ["x"] PNeither 40 = Ok r /\ use_number_type F kind 64 r = Ok e' /\
    forall sub lib nan_of std checked (x : flt 64) d, (forall n, In n exp2_needs -> has 64 sub lib n) -> sub "exp2" = e' ->
      finite x = true -> -1021.5 < fR x <= 1023 ->
      exists y, run 64 nan_of std checked lib (S (S d)) "exp2" [VFlt x] = Ok (VFlt y) /\ finite y = true /\
        Rabs (fR y - Rpower 2 (fR x)) <= (8.21 * bpow radix2 (-53) + 2.03 * k) * Rpower 2 (fR x).
Proof.
  intros W RB PW HK Ea Eb. destruct (exp2_poly_64 o ["x"] xmin xmax Ea Eb) as (F0 & H). exists F0. intros fuel Hf.
  destruct (H fuel Hf) as (r & ts & A & L & Mp & S & V & C). exists r.
  destruct (two_eval_64 F kind k RB PW "x" ts r W HK L S Mp V C) as (e' & Ue & Ev). exists e'. split; [exact A|]. split; [exact Ue|].
  intros sub lib nan_of std checked x d hh Hs Fx X.
  destruct (Req_dec (Rabs (fR x)) (1 / 2 - bpow radix2 (-54))) as [Eg|Ne].
  { destruct (edge_is 64 x ltac:(tauto) Eg) as (s & ->).
    destruct (exp2_edge 64 sub lib ltac:(tauto) nan_of std checked s (fun v => (4.85 + v) * / 9007199254740992 + 1.416 * k) d hh) as (y & Ry & Fy & E & Ex & UB).
    - intros call const env t. rewrite Hs. apply Ev.
    - intros v Hv. lra.
    - exists y. split; [exact Ry|]. split; [exact Fy|]. revert E Ex UB. change (bpow radix2 (- prec 64)) with (/ 9007199254740992).
      change (bpow radix2 (-53)) with (/ 9007199254740992).
      set (z := Rpower 2 (fR (edge 64 s))). set (v := Rpower 2 (if s then / 2 else - / 2)). set (b := if s then / 2 else 2). intros E Ex UB.
      assert (D : Rabs (fR y - z) <= b * ((4.85 + v) * / 9007199254740992 + 1.416 * k) + 0.3473 * / 9007199254740992 * (b * v)).
      { replace (fR y - z) with ((fR y - b * v) + - (z - b * v)) by ring. apply Rle_trans with (1 := Rabs_triang _ _). rewrite Rabs_Ropp. lra. }
      apply Rabs_le_inv in Ex.
      assert (KZ : k * 0.7 <= k * z) by (apply Rmult_le_compat_l; [lra|]; destruct s; lra).
      apply Rle_trans with (1 := D). rewrite Rmult_plus_distr_r, Rmult_assoc.
      assert (KZ2 : s = false -> k * 1.4 <= k * z) by (intros ->; apply Rmult_le_compat_l; lra).
      destruct s; unfold b in *; [|specialize (KZ2 eq_refl)]; lra. }
  assert (Rd : roundable x) by (split; [exact Fx|]; split; [|exact Ne]; change (IZR (2 ^ mw 64)) with 4503599627370496; apply Rabs_lt; lra).
  destruct (exp2_scaled 64 sub lib ltac:(tauto) nan_of std checked x (fun v => (4.85 + v) * / 9007199254740992 + 1.416 * k) d hh Rd) as (j & y & N & Ry & Fy & E & Ex & PH).
  - assert (E64 : IZR (emax 64) = 1024) by reflexivity. rewrite E64. lra.
  - intros call const env t. rewrite Hs. apply Ev.
  - intros v Hv. lra.
  - exists y. split; [exact Ry|]. split; [exact Fy|]. rewrite Ex in E |- *. set (v := Rpower 2 (fR x - IZR j)) in *. set (b := bpow radix2 j) in *.
    assert (B0 : 0 < b) by apply bpow_gt_0. change (bpow radix2 (-53)) with (/ 9007199254740992).
    apply Rle_trans with (1 := E). replace ((8.21 * / 9007199254740992 + 2.03 * k) * (b * v)) with (b * ((8.21 * / 9007199254740992 + 2.03 * k) * v)) by ring.
    apply Rmult_le_compat_l; [lra|]. assert (2.03 * k * 0.7 <= 2.03 * k * v) by (apply Rmult_le_compat_l; lra). lra.
Qed.
