(** Facts about the BigDecimal model: values of the operations, rounding,
    division. *)
From Coq Require Import ZArith QArith Qabs Qround Qpower Qfield Lia Lqa List Bool.
From Coq Require Import ZifyBool.
From Verif Require Import Res Dec.
Import ListNotations.
Open Scope Z_scope.

(** ** Powers of ten in Q *)

Lemma ten_nz : ~ (10 # 1 == 0)%Q.
Proof. discriminate. Qed.

Lemma p10_0 : (p10 0 == 1)%Q.
Proof. reflexivity. Qed.

Lemma p10_plus a b : (p10 (a + b) == p10 a * p10 b)%Q.
Proof. unfold p10. apply Qpower_plus. exact ten_nz. Qed.

Lemma p10_opp a : (p10 (- a) == / p10 a)%Q.
Proof. unfold p10. apply Qpower_opp. Qed.

Lemma p10_Z z : 0 <= z -> (p10 z == inject_Z (10 ^ z))%Q.
Proof.
  intros Hz. unfold p10. change (10 # 1)%Q with (inject_Z 10).
  symmetry. apply Zpower_Qpower. exact Hz.
Qed.

Lemma p10_pos z : (0 < p10 z)%Q.
Proof.
  destruct (Z_le_gt_dec 0 z) as [H|H].
  - rewrite p10_Z by lia. change 0%Q with (inject_Z 0). rewrite <- Zlt_Qlt.
    apply Z.pow_pos_nonneg; lia.
  - replace z with (- (- z)) by lia. rewrite p10_opp.
    apply Qinv_lt_0_compat. rewrite p10_Z by lia.
    change 0%Q with (inject_Z 0). rewrite <- Zlt_Qlt.
    apply Z.pow_pos_nonneg; lia.
Qed.

Lemma p10_nz z : ~ (p10 z == 0)%Q.
Proof. intros H. pose proof (p10_pos z) as P. rewrite H in P. discriminate. Qed.

Lemma p10_inv_l z : (p10 (- z) * p10 z == 1)%Q.
Proof. rewrite <- p10_plus. replace (- z + z) with 0 by lia. reflexivity. Qed.

Lemma p10_inv_r z : (p10 z * p10 (- z) == 1)%Q.
Proof. rewrite Qmult_comm. apply p10_inv_l. Qed.

Lemma p10_mono a b : a <= b -> (p10 a <= p10 b)%Q.
Proof.
  intros H. replace b with (a + (b - a)) by lia. rewrite p10_plus.
  assert (1 <= p10 (b - a))%Q as H1.
  { rewrite p10_Z by lia. change 1%Q with (inject_Z 1). rewrite <- Zle_Qle.
    pose proof (Z.pow_pos_nonneg 10 (b - a)). lia. }
  pose proof (p10_pos a). nra.
Qed.

Lemma Zpow10_pos n : 0 <= n -> 0 < 10 ^ n.
Proof. intros; apply Z.pow_pos_nonneg; lia. Qed.

Lemma p10_rescale m s s' :
  s <= s' -> (inject_Z m * p10 (- s) == inject_Z (m * 10 ^ (s' - s)) * p10 (- s'))%Q.
Proof.
  intros H. rewrite inject_Z_mult. rewrite <- p10_Z by lia.
  rewrite <- Qmult_assoc. rewrite <- p10_plus.
  replace (s' - s + - s') with (- s) by lia. reflexivity.
Qed.

(** ** Values of the operations *)

Lemma dval_dadd x y : (dval (dadd x y) == dval x + dval y)%Q.
Proof.
  destruct x as [mx sx], y as [my sy]. unfold dadd, dval; cbn [mant scale].
  destruct (Z.eqb_spec sx sy) as [->|Hne]; cbn [mant scale].
  - rewrite inject_Z_plus. ring.
  - destruct (Z.ltb_spec sx sy); cbn [mant scale].
    + rewrite inject_Z_plus. rewrite (p10_rescale mx sx sy) by lia. ring.
    + rewrite inject_Z_plus. rewrite (p10_rescale my sy sx) by lia. ring.
Qed.

Lemma dval_dneg x : (dval (dneg x) == - dval x)%Q.
Proof. unfold dneg, dval; cbn [mant scale]. rewrite inject_Z_opp. ring. Qed.

Lemma dval_dsub x y : (dval (dsub x y) == dval x - dval y)%Q.
Proof.
  destruct x as [mx sx], y as [my sy]. unfold dsub, dval; cbn [mant scale].
  destruct (Z.eqb_spec sx sy) as [->|Hne]; cbn [mant scale].
  - unfold Z.sub. rewrite inject_Z_plus, inject_Z_opp. ring.
  - destruct (Z.ltb_spec sx sy); cbn [mant scale].
    + rewrite (p10_rescale mx sx sy) by lia. unfold Z.sub.
      rewrite inject_Z_plus, inject_Z_opp. ring.
    + rewrite (p10_rescale my sy sx) by lia. unfold Z.sub.
      rewrite inject_Z_plus, inject_Z_opp. ring.
Qed.

Lemma dval_dmul x y : (dval (dmul x y) == dval x * dval y)%Q.
Proof.
  destruct x as [mx sx], y as [my sy]. unfold dmul, dval; cbn [mant scale].
  rewrite inject_Z_mult.
  replace (- (sx + sy)) with (- sx + - sy) by lia. rewrite p10_plus. ring.
Qed.

Lemma dval_sign x : mant x = 0 <-> (dval x == 0)%Q.
Proof.
  unfold dval. pose proof (p10_pos (- scale x)) as P. split; intros H.
  - rewrite H. ring.
  - apply Qmult_integral in H. destruct H as [H|H].
    + unfold Qeq in H. cbn in H. lia.
    + rewrite H in P. discriminate.
Qed.

Lemma dval_pos x : 0 < mant x <-> (0 < dval x)%Q.
Proof.
  unfold dval. pose proof (p10_pos (- scale x)) as P. split; intros H.
  - rewrite Zlt_Qlt in H. change (inject_Z 0) with 0%Q in H. nra.
  - rewrite Zlt_Qlt. change (inject_Z 0) with 0%Q.
    destruct (Qlt_le_dec 0 (inject_Z (mant x))) as [|C]; [assumption|]. nra.
Qed.

Lemma dval_neg x : mant x < 0 <-> (dval x < 0)%Q.
Proof.
  unfold dval. pose proof (p10_pos (- scale x)) as P. split; intros H.
  - rewrite Zlt_Qlt in H. change (inject_Z 0) with 0%Q in H. nra.
  - rewrite Zlt_Qlt. change (inject_Z 0) with 0%Q.
    destruct (Qlt_le_dec (inject_Z (mant x)) 0) as [|C]; [assumption|]. nra.
Qed.

Lemma dval_dabs x : (dval (dabs x) == Qabs (dval x))%Q.
Proof.
  unfold dabs. destruct (Z_le_gt_dec 0 (mant x)) as [H|H].
  - rewrite Z.abs_eq by lia. rewrite Qabs_pos.
    + destruct x; reflexivity.
    + destruct (Z.eq_dec (mant x) 0) as [E|E].
      * apply dval_sign in E. rewrite E. apply Qle_refl.
      * apply Qlt_le_weak, dval_pos. lia.
  - rewrite Z.abs_neq by lia. rewrite Qabs_neg.
    + apply dval_dneg.
    + apply Qlt_le_weak, dval_neg. lia.
Qed.

Lemma dval_bigd i : (dval (bigd i) == inject_Z i)%Q.
Proof. unfold dval, bigd; cbn [mant scale]. change (p10 (-0)) with 1%Q. ring. Qed.

(** ** Comparison *)

Lemma dcompare_spec x y :
  match dcompare x y with
  | Eq => (dval x == dval y)%Q
  | Lt => (dval x < dval y)%Q
  | Gt => (dval y < dval x)%Q
  end.
Proof.
  destruct x as [mx sx], y as [my sy]. unfold dcompare, dval; cbn [mant scale].
  destruct (Z.ltb_spec sx sy) as [H|H].
  - pose proof (p10_rescale mx sx sy ltac:(lia)) as R.
    pose proof (p10_pos (- sy)) as P.
    destruct (Z.compare_spec (mx * 10 ^ (sy - sx)) my) as [E|E|E].
    + rewrite R, E. reflexivity.
    + rewrite Zlt_Qlt in E. rewrite R. apply Qmult_lt_compat_r; assumption.
    + rewrite Zlt_Qlt in E. rewrite R. apply Qmult_lt_compat_r; assumption.
  - pose proof (p10_rescale my sy sx ltac:(lia)) as R.
    pose proof (p10_pos (- sx)) as P.
    destruct (Z.compare_spec mx (my * 10 ^ (sx - sy))) as [E|E|E].
    + rewrite R, E. reflexivity.
    + rewrite Zlt_Qlt in E. rewrite R. apply Qmult_lt_compat_r; assumption.
    + rewrite Zlt_Qlt in E. rewrite R. apply Qmult_lt_compat_r; assumption.
Qed.

Lemma deqb_spec x y : deqb x y = true <-> (dval x == dval y)%Q.
Proof.
  unfold deqb. pose proof (dcompare_spec x y) as H.
  destruct (dcompare x y); split; intros E; try reflexivity; try discriminate;
    try assumption; exfalso; rewrite E in H; apply (Qlt_irrefl _ H).
Qed.

Lemma dltb_spec x y : dltb x y = true <-> (dval x < dval y)%Q.
Proof.
  unfold dltb. pose proof (dcompare_spec x y) as H.
  destruct (dcompare x y); split; intros E; try reflexivity; try discriminate;
    try assumption; exfalso; lra.
Qed.

Lemma dleb_spec x y : dleb x y = true <-> (dval x <= dval y)%Q.
Proof.
  unfold dleb. pose proof (dcompare_spec x y) as H.
  destruct (dcompare x y); split; intros E; try reflexivity; try discriminate;
    try lra; exfalso; lra.
Qed.

(** ** Rounding *)

(** Closed form on mantissas. *)
Lemma round_id x rd : rd < 0 \/ scale x <= rd -> round x rd = x.
Proof.
  intros H. unfold round.
  destruct (Z.ltb_spec rd 0); [reflexivity|].
  destruct (Z.leb_spec (scale x) rd); [reflexivity|]. lia.
Qed.

Lemma round_mant x rd :
  0 <= rd < scale x ->
  round x rd =
  BD (Z.quot (mant x + (if 0 <? mant x then 5 else -5) * 10 ^ (scale x - rd - 1))
             (10 ^ (scale x - rd))) rd.
Proof.
  intros H. unfold round.
  destruct (Z.ltb_spec rd 0); [lia|].
  destruct (Z.leb_spec (scale x) rd); [lia|]. cbn [orb].
  set (five := if 0 <? mant x then 5 else -5).
  assert (dadd x (BD five (rd + 1)) =
          BD (mant x + five * 10 ^ (scale x - rd - 1)) (scale x)) as ->.
  { unfold dadd; cbn [mant scale].
    destruct (Z.eqb_spec (scale x) (rd + 1)) as [E|E].
    - replace (scale x - rd - 1) with 0 by lia. rewrite Z.pow_0_r, Z.mul_1_r. reflexivity.
    - destruct (Z.ltb_spec (scale x) (rd + 1)); [lia|].
      replace (scale x - (rd + 1)) with (scale x - rd - 1) by lia.
      f_equal. lia. }
  unfold with_scale; cbn [mant scale].
  destruct (Z.eqb_spec (mant x + five * 10 ^ (scale x - rd - 1)) 0) as [E|E].
  - rewrite E. rewrite Z.quot_0_l by (pose proof (Zpow10_pos (scale x - rd)); lia). reflexivity.
  - destruct (Z.ltb_spec (scale x) rd); [lia|].
    destruct (Z.ltb_spec rd (scale x)); [reflexivity|lia].
Qed.

(** "[r] is [q] rounded to [n] decimals, half away from zero". *)
Definition is_round_half_away (q : Q) (n : Z) (r : Q) : Prop :=
  exists k : Z,
    (r == inject_Z k * p10 (- n))%Q /\
    (Qabs (r - q) <= (1 # 2) * p10 (- n))%Q /\
    (Qabs (r - q) == (1 # 2) * p10 (- n) -> Qabs q <= Qabs r)%Q.

Lemma quot_half_away m h :
  0 < h ->
  let d := 2 * h in
  let k := Z.quot (m + (if 0 <? m then h else - h)) d in
  Z.abs (k * d - m) <= h /\ (Z.abs (k * d - m) = h -> Z.abs m <= Z.abs (k * d)).
Proof.
  intros Hh d k.
  destruct (Z.ltb_spec 0 m) as [Hm|Hm].
  - assert (k = (m + h) / d) as Ek.
    { unfold k. apply Z.quot_div_nonneg; lia. }
    pose proof (Z.div_mod (m + h) d ltac:(lia)) as D. pose proof (Z.mod_pos_bound (m + h) d ltac:(lia)) as M.
    rewrite <- Ek in D. rewrite (Z.mul_comm d k) in D.
    set (kd := k * d) in *. clearbody kd. clear Ek. subst d. lia.
  - assert (k = - ((- m + h) / d)) as Ek.
    { unfold k. replace (m + - h) with (- (- m + h)) by lia.
      rewrite Z.quot_opp_l by lia. f_equal. apply Z.quot_div_nonneg; lia. }
    pose proof (Z.div_mod (- m + h) d ltac:(lia)) as D. pose proof (Z.mod_pos_bound (- m + h) d ltac:(lia)) as M.
    replace ((- m + h) / d) with (- k) in D by lia.
    rewrite (Z.mul_comm d (- k)), Z.mul_opp_l in D.
    set (kd := k * d) in *. clearbody kd. clear Ek. subst d. lia.
Qed.

Lemma inject_Z_abs z : (Qabs (inject_Z z) == inject_Z (Z.abs z))%Q.
Proof. destruct z; reflexivity. Qed.

Lemma round_spec x n : 0 <= n -> is_round_half_away (dval x) n (dval (round x n)).
Proof.
  intros Hn. destruct (Z_le_gt_dec (scale x) n) as [Hs|Hs].
  - rewrite round_id by lia. exists (mant x * 10 ^ (n - scale x)). repeat split.
    + unfold dval. apply p10_rescale. lia.
    + pose proof (p10_pos (- n)) as P.
      assert (Qabs (dval x - dval x) == 0)%Q as E
        by (setoid_replace (dval x - dval x)%Q with 0%Q by ring; reflexivity).
      rewrite E. lra.
    + intros _. apply Qle_refl.
  - rewrite round_mant by lia.
    set (m := mant x). set (s := scale x) in *.
    set (h := 5 * 10 ^ (s - n - 1)).
    assert (10 ^ (s - n) = 2 * h) as Ed.
    { unfold h. replace (s - n) with (Z.succ (s - n - 1)) at 1 by lia.
      rewrite Z.pow_succ_r by lia. lia. }
    assert ((if 0 <? m then 5 else -5) * 10 ^ (s - n - 1) = if 0 <? m then h else - h) as Ef.
    { unfold h. destruct (0 <? m); lia. }
    rewrite Ef, Ed.
    assert (0 < h) as Hh by (unfold h; pose proof (Zpow10_pos (s - n - 1)); lia).
    pose proof (quot_half_away m h Hh) as Q. cbv zeta in Q.
    set (k := Z.quot (m + (if 0 <? m then h else - h)) (2 * h)) in *.
    assert (dval {| mant := k; scale := n |} == inject_Z (k * (2 * h)) * p10 (- s))%Q as Ev.
    { unfold dval; cbn [mant scale]. rewrite <- Ed. apply p10_rescale. lia. }
    assert (dval x == inject_Z m * p10 (- s))%Q as Ex by reflexivity.
    assert ((1 # 2) * p10 (- n) == inject_Z h * p10 (- s))%Q as Eh.
    { assert (p10 (- n) == inject_Z (1 * 10 ^ (s - n)) * p10 (- s))%Q as E1.
      { rewrite <- p10_rescale by lia. ring. }
      rewrite E1, Ed, Z.mul_1_l, inject_Z_mult. change (inject_Z 2) with 2%Q. ring. }
    pose proof (p10_pos (- s)) as P.
    assert (forall z, (Qabs (inject_Z z * p10 (- s)) == inject_Z (Z.abs z) * p10 (- s))%Q) as Habs.
    { intros z. rewrite Qabs_Qmult, inject_Z_abs, (Qabs_pos (p10 (- s))) by lra. reflexivity. }
    assert (dval {| mant := k; scale := n |} - dval x ==
            inject_Z (k * (2 * h) - m) * p10 (- s))%Q as Edf.
    { rewrite Ev, Ex. unfold Z.sub. rewrite inject_Z_plus, inject_Z_opp. ring. }
    exists k. split; [reflexivity|]. rewrite Edf, Habs, Eh. split.
    + apply Qmult_le_compat_r; [|lra]. rewrite <- Zle_Qle. apply Q.
    + intros E. rewrite Ev, Ex, !Habs. apply Qmult_le_compat_r; [|lra].
      rewrite <- Zle_Qle. apply Q.
      apply Qmult_inj_r in E; [|apply p10_nz].
      apply (proj1 (inject_Z_injective _ _)) in E. exact E.
Qed.

Lemma Qabs_le_iff a b : (Qabs a <= b)%Q <-> (- b <= a <= b)%Q.
Proof. apply Qabs_Qle_condition. Qed.

Lemma round_err x n :
  0 <= n -> (Qabs (dval (round x n) - dval x) <= (1 # 2) * p10 (- n))%Q.
Proof. intros H. destruct (round_spec x n H) as (k & _ & B & _). exact B. Qed.

Lemma inject_Z_lt_1 a b : (inject_Z a < inject_Z b)%Q -> (inject_Z a + 1 <= inject_Z b)%Q.
Proof.
  rewrite <- Zlt_Qlt. intros H. change 1%Q with (inject_Z 1).
  rewrite <- inject_Z_plus, <- Zle_Qle. lia.
Qed.

(** Rounding preserves order (hence is determined by the value alone). *)
Lemma is_round_mono q q' n r r' :
  is_round_half_away q n r -> is_round_half_away q' n r' -> (q <= q' -> r <= r')%Q.
Proof.
  intros (k & Ek & Bk & Tk) (k' & Ek' & Bk' & Tk') Hq.
  pose proof (p10_pos (- n)) as P. set (u := p10 (- n)) in *. clearbody u.
  destruct (Qlt_le_dec r' r) as [C|C]; [exfalso|exact C].
  assert (inject_Z k' + 1 <= inject_Z k)%Q as HK.
  { apply inject_Z_lt_1. rewrite Ek, Ek' in C.
    apply Qmult_lt_r in C; assumption. }
  apply Qabs_le_iff in Bk. apply Qabs_le_iff in Bk'.
  assert (r' + u <= r)%Q as HR.
  { rewrite Ek, Ek'. nra. }
  assert (r - q == (1 # 2) * u)%Q as E1 by lra.
  assert (r' - q' == - ((1 # 2) * u))%Q as E2 by lra.
  assert (Qabs (r - q) == (1 # 2) * u)%Q as A1 by (rewrite E1; apply Qabs_pos; lra).
  assert (Qabs (r' - q') == (1 # 2) * u)%Q as A2
      by (rewrite E2, Qabs_opp; apply Qabs_pos; lra).
  specialize (Tk A1). specialize (Tk' A2).
  assert (q == q')%Q as Eq by lra.
  destruct (Qlt_le_dec q 0) as [S|S].
  - rewrite (Qabs_neg q) in Tk by lra.
    destruct (Qlt_le_dec r 0) as [S2|S2].
    + rewrite (Qabs_neg r) in Tk by lra. lra.
    + rewrite (Qabs_pos r) in Tk by lra.
      (* q < 0 <= r = q + u/2 and |q| <= r: then q >= -u/4 but q = (k-1/2)u *)
      assert (inject_Z k * u < u)%Q as K1 by lra.
      assert (inject_Z k < 1)%Q as K2 by nra.
      assert (k < 1) as K3 by (change 1%Q with (inject_Z 1) in K2; rewrite <- Zlt_Qlt in K2; exact K2).
      assert (inject_Z k <= 0)%Q as K4 by (change 0%Q with (inject_Z 0); rewrite <- Zle_Qle; lia).
      assert (r <= 0)%Q by (rewrite Ek; nra). lra.
  - rewrite (Qabs_pos q') in Tk' by lra.
    destruct (Qlt_le_dec r' 0) as [S2|S2].
    + rewrite (Qabs_neg r') in Tk' by lra.
      assert (- u < inject_Z k' * u)%Q as K1 by lra.
      assert (-(1) < inject_Z k')%Q as K2 by nra.
      assert (-1 < k') as K3 by (change (-(1))%Q with (inject_Z (-1)) in K2; rewrite <- Zlt_Qlt in K2; exact K2).
      assert (0 <= inject_Z k')%Q as K4 by (change 0%Q with (inject_Z 0); rewrite <- Zle_Qle; lia).
      assert (0 <= r')%Q by (rewrite Ek'; nra). lra.
    + rewrite (Qabs_pos r') in Tk' by lra. lra.
Qed.

Lemma is_round_unique q q' n r r' :
  is_round_half_away q n r -> is_round_half_away q' n r' -> (q == q' -> r == r')%Q.
Proof.
  intros H H' E. apply Qle_antisym.
  - apply (is_round_mono q q' n); try assumption. rewrite E. apply Qle_refl.
  - apply (is_round_mono q' q n); try assumption. rewrite E. apply Qle_refl.
Qed.

Lemma round_mono x y n :
  0 <= n -> (dval x <= dval y -> dval (round x n) <= dval (round y n))%Q.
Proof. intros H. apply (is_round_mono _ _ n); apply round_spec; exact H. Qed.

Lemma round_compat x y n : (dval x == dval y -> dval (round x n) == dval (round y n))%Q.
Proof.
  intros E. destruct (Z_lt_le_dec n 0) as [H|H].
  - rewrite !round_id by lia. exact E.
  - apply (is_round_unique (dval x) (dval y) n); auto using round_spec.
Qed.

Lemma round_neg x n : round (dneg x) n = dneg (round x n).
Proof.
  destruct (Z_lt_le_dec n 0) as [H|H]; [rewrite !round_id by (cbn; lia); reflexivity|].
  destruct (Z_le_gt_dec (scale x) n) as [H1|H1];
    [rewrite !round_id by (cbn; lia); reflexivity|].
  rewrite !round_mant by (cbn; lia). unfold dneg; cbn [mant scale].
  f_equal. set (p := 10 ^ (scale x - n - 1)).
  assert (0 < p) as Hp by (apply Zpow10_pos; lia).
  assert (10 ^ (scale x - n) = 10 * p) as ->.
  { unfold p. rewrite <- Z.pow_succ_r by lia. f_equal. lia. }
  rewrite <- Z.quot_opp_l by lia.
  destruct (Z.eq_dec (mant x) 0) as [E|E].
  - rewrite E. change (- 0) with 0. change (0 <? 0) with false. cbv iota.
    replace (- (0 + -5 * p)) with (5 * p) by lia.
    replace (0 + -5 * p) with (- (5 * p)) by lia.
    rewrite Z.quot_opp_l by lia. rewrite Z.quot_small by lia. reflexivity.
  - f_equal. destruct (Z.ltb_spec 0 (mant x)); destruct (Z.ltb_spec 0 (- mant x)); lia.
Qed.

Lemma round_exact x n k :
  0 <= n -> (dval x == inject_Z k * p10 (- n) -> dval (round x n) == dval x)%Q.
Proof.
  intros Hn E. apply (is_round_unique (dval x) (dval x) n); [apply round_spec; exact Hn| |reflexivity].
  exists k. split; [exact E|]. pose proof (p10_pos (- n)) as P.
  assert (Qabs (dval x - dval x) == 0)%Q as Z
      by (setoid_replace (dval x - dval x)%Q with 0%Q by ring; reflexivity).
  rewrite Z. split; [lra|]. intros _. apply Qle_refl.
Qed.

Lemma round_idem x n : (dval (round (round x n) n) == dval (round x n))%Q.
Proof.
  destruct (Z_lt_le_dec n 0) as [H|H]; [rewrite !round_id by lia; reflexivity|].
  destruct (round_spec x n H) as (k & Ek & _).
  apply (round_exact _ n k H Ek).
Qed.

(** ** Division *)

Lemma ndigits_aux_spec fuel : forall n,
  0 < n -> n < 10 ^ (Z.of_nat fuel + 1) ->
  1 <= ndigits_aux fuel n /\ 10 ^ (ndigits_aux fuel n - 1) <= n < 10 ^ ndigits_aux fuel n.
Proof.
  induction fuel as [|f IH]; intros n Hn Hb.
  - cbn [ndigits_aux]. change (10 ^ (Z.of_nat 0 + 1)) with 10 in Hb.
    change (10 ^ (1 - 1)) with 1. change (10 ^ 1) with 10. lia.
  - cbn [ndigits_aux]. destruct (Z.ltb_spec n 10) as [H|H].
    + change (10 ^ (1 - 1)) with 1. change (10 ^ 1) with 10. lia.
    + assert (0 < n / 10) as H1 by (apply Z.div_str_pos; lia).
      assert (n / 10 < 10 ^ (Z.of_nat f + 1)) as H2.
      { apply Z.div_lt_upper_bound; [lia|].
        rewrite <- Z.pow_succ_r by lia. replace (Z.succ (Z.of_nat f + 1)) with (Z.of_nat (S f) + 1) by lia.
        exact Hb. }
      destruct (IH _ H1 H2) as (A & B & C). set (d := ndigits_aux f (n / 10)) in *.
      replace (1 + d - 1) with (Z.succ (d - 1)) by lia.
      replace (1 + d) with (Z.succ d) by lia.
      rewrite !Z.pow_succ_r by lia.
      pose proof (Z.div_mod n 10 ltac:(lia)). pose proof (Z.mod_pos_bound n 10 ltac:(lia)).
      lia.
Qed.

Lemma ndigits_spec n :
  0 < n -> 1 <= ndigits n /\ 10 ^ (ndigits n - 1) <= n < 10 ^ ndigits n.
Proof.
  intros Hn. unfold ndigits. pose proof (Z.log2_nonneg n) as HL.
  apply ndigits_aux_spec; [exact Hn|]. rewrite Z2Nat.id by lia.
  pose proof (Z.log2_spec n Hn) as [_ H].
  apply Z.lt_le_trans with (1 := H). unfold Z.succ.
  apply Z.pow_le_mono_l. lia.
Qed.

Lemma div_shift_spec fuel : forall num den sc num' sc',
  0 < num -> 0 < den -> den <= num * 10 ^ Z.of_nat fuel ->
  div_shift fuel num den sc = (num', sc') ->
  exists k, 0 <= k /\ num' = num * 10 ^ k /\ sc' = sc + k /\ den <= num'.
Proof.
  induction fuel as [|f IH]; intros num den sc num' sc' Hn Hd Hf E; cbn [div_shift] in E.
  - inversion E; subst. exists 0. cbn in *. lia.
  - destruct (Z.ltb_spec num den) as [H|H].
    + apply IH in E; [|lia|lia|].
      * destruct E as (k & Hk & E1 & E2 & E3). exists (k + 1).
        rewrite Z.pow_add_r by lia. lia.
      * rewrite Nat2Z.inj_succ, Z.pow_succ_r in Hf by lia. lia.
    + inversion E; subst. exists 0. rewrite Z.pow_0_r. lia.
Qed.

Lemma div_digits_spec fuel : forall quo rem den sc quo' rem' sc',
  0 < den -> 0 <= quo -> 0 <= rem < 10 * den ->
  div_digits fuel quo rem den sc = (quo', rem', sc') ->
  exists j, 0 <= j <= Z.of_nat fuel /\ sc' = sc + j /\
            (10 * quo * den + rem) * 10 ^ j = 10 * quo' * den + rem' /\
            0 <= rem' < 10 * den /\ quo * 10 ^ j <= quo' /\
            (rem' <> 0 -> j = Z.of_nat fuel).
Proof.
  induction fuel as [|f IH]; intros quo rem den sc quo' rem' sc' Hd Hq Hr E; cbn [div_digits] in E.
  - inversion E; subst. exists 0. rewrite Z.pow_0_r. repeat split; try lia.
  - destruct (Z.eqb_spec rem 0) as [H|H].
    + inversion E; subst. exists 0. rewrite Z.pow_0_r. repeat split; try lia.
    + pose proof (Z.div_mod rem den ltac:(lia)) as D.
      pose proof (Z.mod_pos_bound rem den ltac:(lia)) as M.
      assert (0 <= rem / den) as P by (apply Z.div_pos; lia).
      apply IH in E; [|lia|lia|lia].
      destruct E as (j & Hj & E1 & E2 & E3 & E4 & E5). exists (j + 1).
      rewrite Z.pow_add_r by lia. change (10 ^ 1) with 10.
      set (pj := 10 ^ j) in *. assert (0 < pj) by (apply Zpow10_pos; lia).
      repeat split; try lia; nia.
Qed.

(** Value of a positive division: exact, or correctly rounded at a digit
    position that leaves at least [maxp] significant digits. *)
Lemma div_pos_spec num den sc maxp z :
  0 < num -> 0 < den -> 1 <= maxp -> div_pos num den sc maxp = z ->
  exists j,  (* number of decimal shifts *)
    0 <= j /\ scale z = sc + j /\ 0 < mant z /\
    2 * Z.abs (mant z * den - num * 10 ^ j) <= den /\
    (mant z * den <> num * 10 ^ j ->
       10 ^ (maxp - 1) * den <= num * 10 ^ j /\ num * 10 ^ j mod den <> 0).
Proof.
  intros Hn Hd Hm E. unfold div_pos in E.
  destruct (div_shift (S (Z.to_nat (Z.log2 den))) num den sc) as [num' sc'] eqn:ES.
  apply div_shift_spec in ES; [|lia|lia|].
  2:{ pose proof (Z.log2_nonneg den) as HL. rewrite Nat2Z.inj_succ, Z2Nat.id by lia.
      pose proof (Z.log2_spec den Hd) as [_ H].
      assert (2 ^ Z.succ (Z.log2 den) <= 10 ^ Z.succ (Z.log2 den)) by (apply Z.pow_le_mono_l; lia).
      pose proof (Zpow10_pos (Z.succ (Z.log2 den)) ltac:(lia)). nia. }
  destruct ES as (k & Hk & En & Es & Hge).
  pose proof (Z.div_mod num' den ltac:(lia)) as D.
  pose proof (Z.mod_pos_bound num' den ltac:(lia)) as M.
  assert (1 <= num' / den) as Q1 by (apply Z.div_le_lower_bound; lia).
  cbv zeta in E. destruct (Z.eqb_spec (num' mod den) 0) as [R|R].
  - subst z. cbn [mant scale]. exists k. subst num'.
    replace (num * 10 ^ k / den * den) with (num * 10 ^ k) by lia.
    repeat split; try lia.
  - destruct (div_digits _ _ _ _ _) as [[quo rem] sc2] eqn:ED.
    apply div_digits_spec in ED; [|lia|lia|lia].
    destruct ED as (j & Hj & E1 & E2 & E3 & E4 & E5).
    set (q0 := num' / den) in *.
    assert (0 < 10 ^ j) as Pj by (apply Zpow10_pos; lia).
    assert (num' * 10 ^ j * 10 = 10 * quo * den + rem) as E2'.
    { rewrite <- E2. rewrite D at 1. ring. }
    assert (num * 10 ^ (k + j) = num' * 10 ^ j) as E6.
    { rewrite Z.pow_add_r by lia. subst num'. ring. }
    assert (0 < quo) as Qp by nia.
    destruct (Z.eqb_spec rem 0) as [R0|R0].
    + subst z. cbn [mant scale]. exists (k + j). rewrite E6.
      replace (quo * den) with (num' * 10 ^ j) by lia.
      repeat split; try lia.
    + subst z. cbn [mant scale]. exists (k + j). rewrite E6.
      pose proof (Z.div_mod rem den ltac:(lia)) as D2.
      pose proof (Z.mod_pos_bound rem den ltac:(lia)) as M2.
      assert (2 * Z.abs ((quo + rounding_term (rem / den)) * den - num' * 10 ^ j) <= den) as B.
      { unfold rounding_term. destruct (Z.ltb_spec (rem / den) 5) as [L|L].
        - assert (rem < 5 * den) by nia.
          replace ((quo + 0) * den) with (quo * den) by ring. lia.
        - assert (5 * den <= rem) by nia.
          replace ((quo + 1) * den) with (quo * den + den) by ring. lia. }
      assert (0 <= rounding_term (rem / den)) as RT
          by (unfold rounding_term; destruct (_ <? _); lia).
      repeat split; try lia.
      * specialize (E5 R0).
        pose proof (ndigits_spec q0 ltac:(lia)) as (N1 & N2 & N3).
        assert (10 ^ (maxp - 1) <= quo) as G.
        { apply Z.le_trans with (10 ^ (ndigits q0 - 1 + j)).
          - apply Z.pow_le_mono_r; [lia|]. rewrite E5. lia.
          - rewrite Z.pow_add_r by lia.
            apply Z.le_trans with (q0 * 10 ^ j); [|exact E4].
            apply Z.mul_le_mono_nonneg_r; lia. }
        nia.
      * intros C. apply Z.mod_divide in C; [|lia]. destruct C as [c C].
        assert (10 * (c - quo) * den = rem) as F by lia.
        assert (c - quo = 0 \/ 1 <= c - quo \/ c - quo <= -1) as [X|[X|X]] by lia; nia.
Qed.

Lemma inject_Z_pos z : 0 < z -> (0 < inject_Z z)%Q.
Proof. intros H. change 0%Q with (inject_Z 0). rewrite <- Zlt_Qlt. exact H. Qed.

Lemma inject_Z_nz z : z <> 0 -> ~ (inject_Z z == 0)%Q.
Proof. intros H E. apply H. apply (proj1 (inject_Z_injective z 0)). exact E. Qed.

Lemma inject_Z_sub a b : (inject_Z (a - b) == inject_Z a - inject_Z b)%Q.
Proof. unfold Z.sub. rewrite inject_Z_plus, inject_Z_opp. reflexivity. Qed.

(** Scaling a quotient of integers. *)
Lemma quot_scaled num den sc j :
  0 < den -> 0 <= j ->
  (inject_Z num / inject_Z den * p10 (- sc) ==
   inject_Z (num * 10 ^ j) / inject_Z den * p10 (- (sc + j)))%Q.
Proof.
  intros Hd Hj. rewrite inject_Z_mult, <- p10_Z by exact Hj.
  replace (- sc) with (j + - (sc + j)) by lia. rewrite p10_plus.
  field. apply inject_Z_nz. lia.
Qed.

Lemma div_pos_val num den sc maxp :
  0 < num -> 0 < den -> 1 <= maxp ->
  let z := div_pos num den sc maxp in
  let q := (inject_Z num / inject_Z den * p10 (- sc))%Q in
  0 < mant z /\
  (Qabs (dval z - q) <= (1 # 2) * p10 (- scale z))%Q /\
  (Qabs (dval z - q) <= (1 # 2) * p10 (1 - maxp) * q)%Q /\
  (forall w, (q == dval w)%Q -> Z.abs (mant w) < 10 ^ maxp -> (dval z == q)%Q).
Proof.
  intros Hn Hd Hm z q.
  destruct (div_pos_spec num den sc maxp z Hn Hd Hm eq_refl) as (j & Hj & Es & Hp & B & I).
  split; [exact Hp|].
  pose proof (quot_scaled num den sc j Hd Hj) as QS. fold q in QS.
  set (N := num * 10 ^ j) in *.
  pose proof (inject_Z_pos den Hd) as Dp.
  assert (dval z - q == inject_Z (mant z * den - N) / inject_Z den * p10 (- scale z))%Q as Df.
  { rewrite QS, Es. unfold dval. rewrite Es, inject_Z_sub, inject_Z_mult. field. lra. }
  pose proof (p10_pos (- scale z)) as P.
  assert (Qabs (dval z - q) == inject_Z (Z.abs (mant z * den - N)) / inject_Z den * p10 (- scale z))%Q as Da.
  { rewrite Df. rewrite Qabs_Qmult, (Qabs_pos (p10 _)) by lra.
    unfold Qdiv. rewrite Qabs_Qmult, inject_Z_abs, (Qabs_pos (/ _)).
    - reflexivity.
    - apply Qlt_le_weak, Qinv_lt_0_compat. exact Dp. }
  assert (inject_Z (Z.abs (mant z * den - N)) / inject_Z den <= 1 # 2)%Q as B2.
  { apply Qle_shift_div_r; [exact Dp|].
    assert (inject_Z (2 * Z.abs (mant z * den - N)) <= inject_Z den)%Q as B'
      by (rewrite <- Zle_Qle; exact B).
    rewrite inject_Z_mult in B'. change (inject_Z 2) with 2%Q in B'. lra. }
  assert (Qabs (dval z - q) <= (1 # 2) * p10 (- scale z))%Q as E1.
  { rewrite Da. apply Qmult_le_compat_r; [exact B2|lra]. }
  split; [exact E1|].
  destruct (Z.eq_dec (mant z * den) N) as [E|E].
  - assert (dval z - q == 0)%Q as Z0.
    { rewrite Df, E, Z.sub_diag. change (inject_Z 0) with 0%Q. field. lra. }
    split.
    + rewrite Z0. change (Qabs 0) with 0%Q.
      assert (0 <= q)%Q as Q0.
      { unfold q. pose proof (inject_Z_pos num Hn). pose proof (p10_pos (- sc)).
        apply Qlt_le_weak. apply Qmult_lt_0_compat; [|assumption].
        apply Qlt_shift_div_l; [exact Dp|]. lra. }
      pose proof (p10_pos (1 - maxp)). nra.
    + intros w _ _. lra.
  - destruct (I E) as [G Nd].
    assert (p10 (maxp - 1) * p10 (- scale z) <= q)%Q as Gq.
    { rewrite QS, <- Es. apply Qmult_le_compat_r; [|lra].
      apply Qle_shift_div_l; [exact Dp|].
      rewrite p10_Z by lia. rewrite <- inject_Z_mult, <- Zle_Qle. exact G. }
    split.
    + eapply Qle_trans; [exact E1|].
      pose proof (p10_inv_r (maxp - 1)) as PI. replace (- (maxp - 1)) with (1 - maxp) in PI by lia.
      pose proof (p10_pos (1 - maxp)) as Pm.
      assert (p10 (- scale z) == p10 (1 - maxp) * (p10 (maxp - 1) * p10 (- scale z)))%Q as R.
      { setoid_replace (p10 (1 - maxp) * (p10 (maxp - 1) * p10 (- scale z)))%Q
          with ((p10 (maxp - 1) * p10 (1 - maxp)) * p10 (- scale z))%Q by ring.
        rewrite PI. ring. }
      rewrite R. nra.
    + intros w Ew Hw. exfalso.
      (* q * 10^(scale z) = N/den is not an integer, so scale w > scale z *)
      destruct (Z_le_gt_dec (scale w) (scale z)) as [L|L].
      * assert (inject_Z N / inject_Z den == inject_Z (mant w * 10 ^ (scale z - scale w)))%Q as F.
        { apply (Qmult_inj_r _ _ (p10 (- scale z))); [apply p10_nz|].
          rewrite <- p10_rescale by lia. change (inject_Z (mant w) * p10 (- scale w))%Q with (dval w).
          rewrite <- Ew, QS, Es. reflexivity. }
        assert (inject_Z N == inject_Z (mant w * 10 ^ (scale z - scale w) * den))%Q as F2.
        { rewrite inject_Z_mult. rewrite <- F. field. lra. }
        apply (proj1 (inject_Z_injective _ _)) in F2. apply Nd.
        rewrite F2. apply Z.mod_mul. lia.
      * assert (10 ^ maxp <= mant w) as C; [|lia].
        assert (inject_Z (10 ^ (maxp - 1)) * inject_Z (10 ^ (scale w - scale z)) <= inject_Z (mant w))%Q as F.
        { rewrite <- !p10_Z by lia.
          assert (inject_Z (mant w) == q * p10 (scale w))%Q as F1.
          { rewrite Ew. unfold dval. rewrite <- Qmult_assoc, p10_inv_l. ring. }
          rewrite F1.
          assert (p10 (scale w - scale z) == p10 (- scale z) * p10 (scale w))%Q as F2.
          { rewrite <- p10_plus. replace (- scale z + scale w) with (scale w - scale z) by lia. reflexivity. }
          rewrite F2, Qmult_assoc. apply Qmult_le_compat_r; [exact Gq|].
          apply Qlt_le_weak, p10_pos. }
        rewrite <- inject_Z_mult, <- Zle_Qle in F.
        apply Z.le_trans with (2 := F). rewrite <- Z.pow_add_r by lia.
        apply Z.pow_le_mono_r; lia.
Qed.

Lemma ddiv_panic x y : ddiv x y = Panic <-> (dval y == 0)%Q.
Proof.
  rewrite <- dval_sign. unfold ddiv.
  destruct (Z.eqb_spec (mant y) 0) as [E|E]; [tauto|].
  split; [|lia]. destruct (_ || _); [discriminate|]. destruct (_ =? _); discriminate.
Qed.

Lemma ddiv_not_err x y e : ddiv x y <> Err e.
Proof.
  unfold ddiv. destruct (_ =? 0); [discriminate|].
  destruct (_ || _); [discriminate|]. destruct (_ =? _); discriminate.
Qed.

Lemma ddiv_ok x y : ~ (dval y == 0)%Q -> exists z, ddiv x y = Ok z.
Proof.
  intros H. destruct (ddiv x y) as [z|e|] eqn:E; [eauto| |].
  - exfalso. eapply ddiv_not_err; eauto.
  - apply ddiv_panic in E. contradiction.
Qed.

Lemma dval_quot x y :
  mant y <> 0 ->
  (dval x / dval y == inject_Z (mant x) / inject_Z (mant y) * p10 (- (scale x - scale y)))%Q.
Proof.
  intros H. unfold dval. replace (- (scale x - scale y)) with (- scale x + scale y) by lia.
  rewrite p10_plus. pose proof (p10_inv_l (scale y)) as P.
  pose proof (p10_nz (- scale y)). pose proof (inject_Z_nz _ H).
  assert (p10 (scale y) == / p10 (- scale y))%Q as E.
  { rewrite <- p10_opp. replace (- - scale y) with (scale y) by lia. reflexivity. }
  rewrite E. field. split; assumption.
Qed.

Definition div_good (z : bd) (q : Q) : Prop :=
  (Qabs (dval z - q) <= (1 # 2) * p10 (-99) * Qabs q)%Q /\
  (forall w, (q == dval w)%Q -> Z.abs (mant w) < 10 ^ 100 -> (dval z == q)%Q).

Lemma div_good_exact z q : (dval z == q)%Q -> div_good z q.
Proof.
  intros E. split; [|intros; exact E].
  setoid_replace (dval z - q)%Q with 0%Q by (rewrite E; ring).
  change (Qabs 0) with 0%Q. pose proof (p10_pos (-99)). pose proof (Qabs_nonneg q). nra.
Qed.

Lemma div_good_neg z q : div_good z q -> div_good (dneg z) (- q).
Proof.
  intros [A B]. split.
  - rewrite Qabs_opp. rewrite dval_dneg.
    setoid_replace (- dval z - - q)%Q with (- (dval z - q))%Q by ring.
    rewrite Qabs_opp. exact A.
  - intros w Ew Hw. rewrite dval_dneg, (B (dneg w)); [reflexivity| |].
    + rewrite dval_dneg, <- Ew. ring.
    + cbn [dneg mant]. rewrite Z.abs_opp. exact Hw.
Qed.

Lemma div_good_wd z q q' : (q == q')%Q -> div_good z q -> div_good z q'.
Proof.
  intros E [A B]. split.
  - rewrite <- E. exact A.
  - intros w Ew Hw. rewrite <- E. apply (B w); [rewrite E; exact Ew|exact Hw].
Qed.

Lemma div_pos_good num den sc :
  0 < num -> 0 < den ->
  div_good (div_pos num den sc 100) (inject_Z num / inject_Z den * p10 (- sc)).
Proof.
  intros Hn Hd. destruct (div_pos_val num den sc 100 Hn Hd ltac:(lia)) as (_ & _ & A & B).
  split; [|exact B].
  rewrite (Qabs_pos (_ / _ * _)).
  - exact A.
  - pose proof (inject_Z_pos num Hn). pose proof (p10_pos (- sc)).
    apply Qlt_le_weak. apply Qmult_lt_0_compat; [|assumption].
    apply Qlt_shift_div_l; [apply inject_Z_pos; exact Hd|]. lra.
Qed.

Lemma impl_division_good num den sc :
  num <> 0 -> den <> 0 ->
  div_good (impl_division num den sc 100) (inject_Z num / inject_Z den * p10 (- sc)).
Proof.
  intros Hn Hd. unfold impl_division. pose proof (inject_Z_nz _ Hd) as Dn.
  destruct (Z.eqb_spec num 0); [lia|].
  destruct (Z.ltb_spec num 0); destruct (Z.ltb_spec den 0).
  - eapply div_good_wd; [|apply div_pos_good; lia]. rewrite !inject_Z_opp. field. exact Dn.
  - eapply div_good_wd; [|apply div_good_neg, div_pos_good; lia]. rewrite !inject_Z_opp. field. exact Dn.
  - eapply div_good_wd; [|apply div_good_neg, div_pos_good; lia]. rewrite !inject_Z_opp. field. exact Dn.
  - apply div_pos_good; lia.
Qed.

Lemma ddiv_good x y z : ddiv x y = Ok z -> div_good z (dval x / dval y).
Proof.
  unfold ddiv. destruct (Z.eqb_spec (mant y) 0) as [E|E]; [discriminate|].
  assert (~ (dval y == 0)%Q) as Ny by (rewrite <- dval_sign; exact E).
  destruct (Z.eqb_spec (mant x) 0) as [X|X]; cbn [orb].
  - intros [= <-]. apply div_good_exact. apply dval_sign in X. rewrite X. field. exact Ny.
  - destruct (deqb y done) eqn:Y.
    + intros [= <-]. apply div_good_exact. apply deqb_spec in Y.
      rewrite Y. change (dval done) with (dval (bigd 1)). rewrite dval_bigd.
      change (inject_Z 1) with 1%Q. field.
    + destruct (Z.eqb_spec (mant x) (mant y)) as [M|M].
      * intros [= <-]. apply div_good_exact. rewrite dval_quot by exact E.
        rewrite M. unfold dval; cbn [mant scale]. change (inject_Z 1) with 1%Q.
        field. apply inject_Z_nz. exact E.
      * intros [= <-]. eapply div_good_wd; [|apply impl_division_good; assumption].
        rewrite dval_quot by exact E. reflexivity.
Qed.

(** Relative error of a division: half a unit of the 100th digit. *)
Lemma ddiv_err x y z :
  ddiv x y = Ok z ->
  (Qabs (dval z - dval x / dval y) <= (1 # 2) * p10 (-99) * Qabs (dval x / dval y))%Q.
Proof. intros H. apply (ddiv_good x y z H). Qed.

(** Division is exact whenever the quotient has at most 100 digits. *)
Lemma ddiv_exact x y z w :
  ddiv x y = Ok z -> (dval x == dval w * dval y)%Q -> Z.abs (mant w) < 10 ^ 100 ->
  (dval z == dval w)%Q.
Proof.
  intros H E Hw. destruct (ddiv_good x y z H) as [_ B].
  assert (~ (dval y == 0)%Q) as Ny.
  { intros C. apply ddiv_panic with (x := x) in C. rewrite H in C. discriminate. }
  assert (dval x / dval y == dval w)%Q as F by (rewrite E; field; exact Ny).
  rewrite (B w F Hw). exact F.
Qed.

(** Division commutes with negating the dividend, digit for digit. *)
Lemma div_pos_self m sc : 0 < m -> div_pos m m sc 100 = BD 1 sc.
Proof.
  intros H. unfold div_pos. cbn [div_shift]. rewrite Z.ltb_irrefl.
  rewrite Z.mod_same, Z.div_same by lia. reflexivity.
Qed.

Lemma ddiv_neg_l x y : ddiv (dneg x) y = rmap dneg (ddiv x y).
Proof.
  destruct x as [mx sx], y as [my sy]. unfold ddiv, dneg; cbn [mant scale].
  destruct (Z.eqb_spec my 0) as [E|E]; [reflexivity|].
  assert ((- mx =? 0) = (mx =? 0)) as -> by (destruct (Z.eqb_spec mx 0); lia).
  destruct (Z.eqb_spec mx 0) as [X|X]; cbn [orb]; [reflexivity|].
  destruct (deqb {| mant := my; scale := sy |} done) eqn:Y; [reflexivity|].
  assert (forall m, - - m = m) as OO by (intros; lia).
  destruct (Z.eqb_spec mx my) as [M|M].
  - subst my. destruct (Z.eqb_spec (- mx) mx) as [C|C]; [lia|].
    cbn [rmap rbind]. f_equal. unfold impl_division.
    destruct (Z.eqb_spec (- mx) 0); [lia|].
    destruct (Z.ltb_spec (- mx) 0); destruct (Z.ltb_spec mx 0); try lia.
    + rewrite OO, div_pos_self by lia. reflexivity.
    + rewrite div_pos_self by lia. reflexivity.
  - destruct (Z.eqb_spec (- mx) my) as [C|C].
    + subst my. cbn [rmap rbind]. f_equal. unfold impl_division.
      destruct (Z.eqb_spec mx 0); [lia|].
      destruct (Z.ltb_spec mx 0); destruct (Z.ltb_spec (- mx) 0); try lia.
      * rewrite div_pos_self by lia. reflexivity.
      * rewrite OO, div_pos_self by lia. reflexivity.
    + cbn [rmap rbind]. f_equal. unfold impl_division.
      destruct (Z.eqb_spec mx 0); [lia|]. destruct (Z.eqb_spec (- mx) 0); [lia|].
      destruct (Z.ltb_spec mx 0); destruct (Z.ltb_spec (- mx) 0); try lia;
        destruct (Z.ltb_spec my 0); rewrite ?OO; try reflexivity;
        unfold dneg; cbn [mant scale]; rewrite ?OO;
        match goal with |- context [div_pos ?a ?b ?c ?d] => destruct (div_pos a b c d) end;
        reflexivity.
Qed.

(** ** normalized *)

Lemma strip_zeros_val fuel : forall m s, (dval (strip_zeros fuel m s) == dval (BD m s))%Q.
Proof.
  induction fuel as [|f IH]; intros m s; cbn [strip_zeros]; [reflexivity|].
  destruct (Z.eqb_spec (Z.rem m 10) 0) as [E|E]; [|reflexivity].
  rewrite IH. unfold dval; cbn [mant scale].
  rewrite (p10_rescale (m ÷ 10) (s - 1) s) by lia.
  replace (s - (s - 1)) with 1 by lia. change (10 ^ 1) with 10.
  replace (m ÷ 10 * 10) with m; [reflexivity|].
  pose proof (Z.quot_rem m 10 ltac:(lia)). lia.
Qed.

Lemma normalized_val x : (dval (normalized x) == dval x)%Q.
Proof.
  unfold normalized. destruct (Z.eqb_spec (mant x) 0) as [E|E].
  - apply dval_sign in E. rewrite E. reflexivity.
  - rewrite strip_zeros_val. destruct x; reflexivity.
Qed.

Lemma strip_zeros_neg fuel : forall m s, strip_zeros fuel (- m) s = dneg (strip_zeros fuel m s).
Proof.
  induction fuel as [|f IH]; intros m s; cbn [strip_zeros]; [reflexivity|].
  rewrite Z.rem_opp_l by lia.
  assert ((- Z.rem m 10 =? 0) = (Z.rem m 10 =? 0)) as -> by (destruct (Z.eqb_spec (Z.rem m 10) 0); lia).
  destruct (Z.rem m 10 =? 0); [|reflexivity].
  rewrite Z.quot_opp_l by lia. apply IH.
Qed.

Lemma normalized_neg x : normalized (dneg x) = dneg (normalized x).
Proof.
  unfold normalized, dneg at 1 2 3 4; cbn [mant scale].
  assert ((- mant x =? 0) = (mant x =? 0)) as -> by (destruct (Z.eqb_spec (mant x) 0); lia).
  destruct (mant x =? 0); [reflexivity|].
  rewrite Z.abs_opp. apply strip_zeros_neg.
Qed.

Lemma dadd_neg x y : dadd (dneg x) (dneg y) = dneg (dadd x y).
Proof.
  unfold dadd, dneg; cbn [mant scale].
  destruct (scale x =? scale y); [cbn; f_equal; lia|].
  destruct (scale x <? scale y); cbn [mant scale]; f_equal; lia.
Qed.

Lemma dsub_as_add x y : dsub x y = dadd x (dneg y).
Proof.
  unfold dsub, dadd, dneg; cbn [mant scale].
  destruct (scale x =? scale y); [f_equal; lia|].
  destruct (scale x <? scale y); cbn [mant scale]; f_equal; lia.
Qed.

Lemma dneg_invol x : dneg (dneg x) = x.
Proof. destruct x as [m s]; unfold dneg; cbn [mant scale]; f_equal; lia. Qed.

Lemma dmul_neg_l x y : dmul (dneg x) y = dneg (dmul x y).
Proof. unfold dmul, dneg; cbn [mant scale]. f_equal; lia. Qed.

Lemma dmul_neg_r x y : dmul x (dneg y) = dneg (dmul x y).
Proof. unfold dmul, dneg; cbn [mant scale]. f_equal; lia. Qed.
