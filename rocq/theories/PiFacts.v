(** Rational bounds for the real number pi, and the accuracy of [bpi]. *)
From Coq Require Import ZArith QArith Qreals Qabs Reals Lra Lia List Bool Machin Ratan.
From Verif Require Import Res Dec DecFacts RFacts BdMath Accuracy DecFast.
Import ListNotations.
Open Scope R_scope.

(** ** Bounds on the inverse tangent *)
Lemma ps_atan_cv x : 0 < x < 1 -> Un_cv (fun N => sum_f_R0 (tg_alt (Ratan_seq x)) N) (atan x).
Proof.
  intros H. rewrite atan_eq_ps_atan by exact H. unfold ps_atan. destruct (in_int x) as [i|i]; [|lra].
  destruct (ps_atan_exists_1 x i) as [v V]. exact V.
Qed.
Lemma atan_bounds x n : 0 < x < 1 ->
  sum_f_R0 (tg_alt (Ratan_seq x)) (S (2 * n)) <= atan x <= sum_f_R0 (tg_alt (Ratan_seq x)) (2 * n).
Proof.
  intros H. apply alternated_series_ineq.
  - apply Ratan_seq_decreasing. lra.
  - apply Ratan_seq_converging. lra.
  - apply ps_atan_cv. exact H.
Qed.

(** Bounds of K times the partial sums for x = 1/m, in integers.  [t] is within
    2 below K / m^(2j+1). *)
Fixpoint atan_inv (up : bool) (m t : Z) (j : Z) (n : nat) : Z :=
  let q := (t / (2 * j + 1))%Z in
  let s := if Z.even j then (if up then q + 3 else q)%Z else (if up then - q else - (q + 3))%Z in
  match n with O => s | S n' => (s + atan_inv up m (t / (m * m)) (j + 1) n')%Z end.

Lemma term_inv m j : (1 < m)%Z -> Ratan_seq (/ IZR m) j = / (IZR (m ^ (2 * Z.of_nat j + 1) * (2 * Z.of_nat j + 1))).
Proof.
  intros H. unfold Ratan_seq. rewrite pow_inv, pow_IZR. rewrite mult_IZR, Rinv_mult.
  unfold Rdiv. f_equal.
  - do 3 f_equal. lia.
  - f_equal. rewrite INR_IZR_INZ. f_equal. lia.
Qed.

Lemma m1_sign j : (-1) ^ j = if Z.even (Z.of_nat j) then 1 else -1.
Proof.
  induction j as [|j IH]; [reflexivity|]. cbn [pow]. rewrite IH, Nat2Z.inj_succ, Z.even_succ, <- Z.negb_even.
  destruct (Z.even (Z.of_nat j)); cbn [negb]; ring.
Qed.

Lemma floor_lt K d : (0 < d)%Z -> IZR (K / d) <= IZR K * / IZR d < IZR (K / d + 1).
Proof.
  intros Hd. pose proof (Z.div_mod K d ltac:(lia)) as E. pose proof (Z.mod_pos_bound K d Hd) as M.
  assert (D : 0 < IZR d) by (apply IZR_lt; exact Hd).
  assert (Y : IZR K = IZR d * IZR (K / d) + IZR (K mod d)) by (rewrite <- mult_IZR, <- plus_IZR; f_equal; exact E).
  assert (M0 : 0 <= IZR (K mod d)) by (apply IZR_le; lia). assert (M1 : IZR (K mod d) < IZR d) by (apply IZR_lt; lia).
  rewrite Y, plus_IZR. set (q := IZR (K / d)) in *. set (r := IZR (K mod d)) in *. clearbody q r.
  replace ((IZR d * q + r) * / IZR d) with (q + r * / IZR d) by (field; lra).
  assert (0 <= r * / IZR d) by (apply Rmult_le_pos; [lra|]; apply Rlt_le, Rinv_0_lt_compat; lra).
  assert (r * / IZR d < 1). { apply Rmult_lt_reg_r with (IZR d); [lra|]. rewrite Rmult_assoc, Rinv_l by lra. lra. }
  lra.
Qed.

(** Sum of the terms j .. j+n. *)
Fixpoint asum (x : R) (j n : nat) : R :=
  tg_alt (Ratan_seq x) j + match n with O => 0 | S n' => asum x (S j) n' end.
Lemma asum_last x j n : asum x j (S n) = asum x j n + tg_alt (Ratan_seq x) (j + S n).
Proof.
  revert j. induction n as [|n IH]; intros j.
  - cbn [asum]. replace (j + 1)%nat with (S j) by lia. ring.
  - change (asum x j (S (S n))) with (tg_alt (Ratan_seq x) j + asum x (S j) (S n)). rewrite IH.
    change (asum x j (S n)) with (tg_alt (Ratan_seq x) j + asum x (S j) n).
    replace (S j + S n)%nat with (j + S (S n))%nat by lia. ring.
Qed.
Lemma asum_sum x n : asum x 0 n = sum_f_R0 (tg_alt (Ratan_seq x)) n.
Proof. induction n as [|n IH]; [cbn; ring|]. rewrite asum_last, IH. reflexivity. Qed.

Lemma div_near (t d : Z) (T e : R) : (0 < d)%Z -> IZR t <= T < IZR t + e ->
  IZR (t / d) <= T * / IZR d < IZR (t / d) + 1 + e * / IZR d.
Proof.
  intros Hd [L U]. pose proof (floor_lt t d Hd) as [A B]. rewrite plus_IZR in B.
  assert (P : 0 < / IZR d) by (apply Rinv_0_lt_compat, IZR_lt; exact Hd).
  assert (IZR t * / IZR d <= T * / IZR d) by (apply Rmult_le_compat_r; lra).
  assert (T * / IZR d < (IZR t + e) * / IZR d) by (apply Rmult_lt_compat_r; lra).
  rewrite Rmult_plus_distr_r in *. lra.
Qed.

Lemma atan_inv_ok up m K n : (1 < m)%Z -> (0 <= K)%Z -> forall j t,
  IZR t <= IZR K * / IZR (m ^ (2 * Z.of_nat j + 1)) < IZR t + 2 ->
  let z := IZR (atan_inv up m t (Z.of_nat j) n) in
  let s := IZR K * asum (/ IZR m) j n in
  if up then s <= z else z <= s.
Proof.
  intros Hm HK. induction n as [|n IH]; intros j t Ht.
  all: set (d := (2 * Z.of_nat j + 1)%Z) in *.
  all: assert (Hd : (0 < d)%Z) by (unfold d; lia).
  all: set (T := IZR K * / IZR (m ^ d)) in *.
  all: pose proof (div_near t d T 2 Hd Ht) as F.
  all: assert (D1 : / IZR d <= 1) by (rewrite <- Rinv_1; apply Rinv_le_contravar; [lra|apply IZR_le; lia]).
  all: assert (X : IZR K * tg_alt (Ratan_seq (/ IZR m)) j = (if Z.even (Z.of_nat j) then 1 else -1) * (T * / IZR d))
      by (unfold tg_alt, T; rewrite term_inv, m1_sign, mult_IZR, Rinv_mult by exact Hm; fold d; ring).
  - cbn [atan_inv asum]. fold d. cbn zeta. rewrite Rplus_0_r, X.
    destruct up; destruct (Z.even (Z.of_nat j)); rewrite ?opp_IZR, ?plus_IZR; lra.
  - cbn [atan_inv asum]. fold d. cbn zeta. rewrite Rmult_plus_distr_l, X, plus_IZR.
    specialize (IH (S j) (t / (m * m))%Z). cbn zeta in IH.
    replace (Z.of_nat (S j)) with (Z.of_nat j + 1)%Z in IH by lia.
    assert (G : IZR (t / (m * m)) <= IZR K * / IZR (m ^ (2 * (Z.of_nat j + 1) + 1)) < IZR (t / (m * m)) + 2).
    { replace (2 * (Z.of_nat j + 1) + 1)%Z with (d + 2)%Z by (unfold d; lia). rewrite Z.pow_add_r, mult_IZR, Rinv_mult by lia.
      replace (m ^ 2)%Z with (m * m)%Z by ring. rewrite <- Rmult_assoc. fold T.
      pose proof (div_near t (m * m) T 2 ltac:(nia) Ht) as Q.
      assert (E : / IZR (m * m) <= / 4) by (apply Rinv_le_contravar; [lra|apply IZR_le; nia]). lra. }
    specialize (IH G).
    destruct up; destruct (Z.even (Z.of_nat j)); rewrite ?opp_IZR, ?plus_IZR; lra.
Qed.

Lemma start_ok m K : (1 < m)%Z -> IZR (K / m) <= IZR K * / IZR (m ^ (2 * Z.of_nat 0 + 1)) < IZR (K / m) + 2.
Proof.
  intros Hm. change (2 * Z.of_nat 0 + 1)%Z with 1%Z. rewrite Z.pow_1_r. pose proof (floor_lt K m ltac:(lia)) as F.
  rewrite plus_IZR in F. lra.
Qed.
Lemma inv_range m : (1 < m)%Z -> 0 < / IZR m < 1.
Proof.
  intros Hm. assert (1 < IZR m) by (apply IZR_lt; exact Hm). split; [apply Rinv_0_lt_compat; lra|].
  rewrite <- Rinv_1. apply Rinv_lt_contravar; lra.
Qed.
Lemma atan_lower m K n : (1 < m)%Z -> (0 <= K)%Z -> IZR (atan_inv false m (K / m) 0 (S (2 * n))) <= IZR K * atan (/ IZR m).
Proof.
  intros Hm HK. pose proof (atan_inv_ok false m K (S (2 * n)) Hm HK 0 _ (start_ok m K Hm)) as H. cbn zeta iota in H.
  change (Z.of_nat 0) with 0%Z in H.
  eapply Rle_trans; [exact H|]. apply Rmult_le_compat_l; [apply IZR_le; exact HK|]. rewrite asum_sum. apply atan_bounds.
  apply inv_range. exact Hm.
Qed.
Lemma atan_upper m K n : (1 < m)%Z -> (0 <= K)%Z -> IZR K * atan (/ IZR m) <= IZR (atan_inv true m (K / m) 0 (2 * n)).
Proof.
  intros Hm HK. pose proof (atan_inv_ok true m K (2 * n) Hm HK 0 _ (start_ok m K Hm)) as H. cbn zeta iota in H.
  change (Z.of_nat 0) with 0%Z in H.
  eapply Rle_trans; [|exact H]. apply Rmult_le_compat_l; [apply IZR_le; exact HK|]. rewrite asum_sum. apply atan_bounds.
  apply inv_range. exact Hm.
Qed.

(** ** pi to 105 decimals *)
Definition pi_lo : Z := 3141592653589793238462643383279502884197169399375105820974944592307816406286208998628034825342117067982148%Z.
Lemma pi_ints :
  ((pi_lo * 10 ^ 5 <=? 4 * (4 * atan_inv false 5 (10 ^ 110 / 5) 0 (S (2 * 39)) - atan_inv true 239 (10 ^ 110 / 239) 0 (2 * 12))) &&
   (4 * (4 * atan_inv true 5 (10 ^ 110 / 5) 0 (2 * 39) - atan_inv false 239 (10 ^ 110 / 239) 0 (S (2 * 12))) <=? (pi_lo + 1) * 10 ^ 5))%Z = true.
Proof. vm_compute. reflexivity. Qed.

Lemma pi_enclosure : IZR pi_lo * r10 (-105) <= PI <= IZR (pi_lo + 1) * r10 (-105).
Proof.
  pose proof pi_ints as P. apply andb_prop in P. destruct P as [P1 P2]. apply Z.leb_le in P1. apply Z.leb_le in P2. apply IZR_le in P1, P2.
  pose proof (atan_lower 5 (10 ^ 110) 39 ltac:(lia) ltac:(lia)) as A1.
  pose proof (atan_upper 5 (10 ^ 110) 39 ltac:(lia) ltac:(lia)) as A2.
  pose proof (atan_lower 239 (10 ^ 110) 12 ltac:(lia) ltac:(lia)) as A3.
  pose proof (atan_upper 239 (10 ^ 110) 12 ltac:(lia) ltac:(lia)) as A4.
  pose proof Machin_4_5_239 as M.
  set (a1 := atan_inv false 5 (10 ^ 110 / 5) 0 (S (2 * 39))) in *. set (a2 := atan_inv true 5 (10 ^ 110 / 5) 0 (2 * 39)) in *.
  set (a3 := atan_inv false 239 (10 ^ 110 / 239) 0 (S (2 * 12))) in *. set (a4 := atan_inv true 239 (10 ^ 110 / 239) 0 (2 * 12)) in *.
  clearbody a1 a2 a3 a4. rewrite !mult_IZR, !minus_IZR, !mult_IZR in P1, P2.
  rewrite <- r10_IZR in A1, A2, A3, A4 by lia. rewrite <- r10_IZR in P1, P2 by lia.
  replace (r10 110) with (r10 105 * r10 5) in * by (rewrite <- r10_plus; f_equal; lia).
  change (r10 (-105)) with (r10 (- (105))). rewrite r10_opp.
  pose proof (r10_pos 105) as T. pose proof (r10_pos 5) as U. set (p := IZR pi_lo) in *. set (p' := IZR (pi_lo + 1)) in *.
  set (t := r10 105) in *. set (u := r10 5) in *. clearbody p p' t u.
  assert (X : 4 * (4 * (t * u * atan (/ 5)) - t * u * atan (/ 239)) = t * u * PI) by (replace PI with (4 * (PI / 4)) by field; rewrite M; ring).
  split; apply Rmult_le_reg_r with (t * u); try (apply Rmult_lt_0_compat; lra).
  - replace (p * / t * (t * u)) with (p * u) by (field; lra). lra.
  - replace (p' * / t * (t * u)) with (p' * u) by (field; lra). lra.
Qed.

(** ** The rounded constant *)
Lemma pi_const_near : IZR pi_lo * r10 (-105) <= rval pi_const <= IZR (pi_lo + 1) * r10 (-105).
Proof.
  rewrite rval_eq. unfold pi_const. cbn [mant scale].
  replace (r10 (-105)) with (r10 48 * r10 (-153)) by (rewrite <- r10_plus; f_equal; lia).
  rewrite (r10_IZR 48) by lia. rewrite <- !Rmult_assoc, <- !mult_IZR.
  split; apply Rmult_le_compat_r; try (apply Rlt_le, r10_pos); apply IZR_le; vm_compute; discriminate.
Qed.
Lemma pi_exact_const : Rabs (rval pi_const - PI) <= r10 (-105).
Proof.
  pose proof pi_const_near as [A B]. pose proof pi_enclosure as [L U]. rewrite plus_IZR in *. apply Rabs_le. lra.
Qed.

(** Rounding: the midpoints of the decimals of length nd < 100 are multiples of
    10 / 10^105, so none of them separates the constant from pi. *)
Lemma pi_rounded nd : (0 <= nd < 100)%Z -> Rabs (rval (round pi_const nd) - PI) <= / 2 * r10 (- nd).
Proof.
  intros H. destruct (round_grid_R pi_const nd ltac:(lia)) as (k & Ek).
  pose proof (round_err_R pi_const nd ltac:(lia)) as Hk.
  assert (E : r10 (- nd) = IZR (10 * 10 ^ (104 - nd)) * r10 (-105)).
  { rewrite mult_IZR, <- r10_IZR by lia. change 10 with (IZR (10 ^ 1)). rewrite <- r10_IZR by lia.
    rewrite <- !r10_plus. f_equal. lia. }
  pose proof pi_const_near as [C1 C2]. pose proof pi_enclosure as [P1 P2].
  rewrite Ek, E in *. set (c := rval pi_const) in *. clearbody c.
  pose proof (r10_pos (-105)) as U. set (u := r10 (-105)) in *. clearbody u.
  assert (T : exists w, (10 ^ (104 - nd) = 2 * w)%Z /\ exists v, (5 * w * 2 = 10 * v)%Z).
  { exists (5 * 10 ^ (103 - nd))%Z. replace (104 - nd)%Z with (1 + (103 - nd))%Z by lia. rewrite Z.pow_add_r by lia.
    split; [lia|]. exists (5 * 10 ^ (103 - nd))%Z. lia. }
  destruct T as (w & W & v & V). rewrite W in *. clear W E Ek.
  assert (N1 : (pi_lo mod 10 = 8)%Z) by (vm_compute; reflexivity).
  assert (N2 : ((pi_lo + 1) mod 10 = 9)%Z) by (vm_compute; reflexivity).
  pose proof (Z.div_mod pi_lo 10 ltac:(lia)) as D1. pose proof (Z.div_mod (pi_lo + 1) 10 ltac:(lia)) as D2.
  rewrite N1 in D1. rewrite N2 in D2. set (d1 := (pi_lo / 10)%Z) in *. set (d2 := ((pi_lo + 1) / 10)%Z) in *.
  clearbody d1 d2. set (p := pi_lo) in *. clearbody p. clear N1 N2.
  assert (Hk1 := Rle_trans _ _ _ (Rle_abs _) Hk). rewrite Rabs_minus_sym in Hk. assert (Hk2 := Rle_trans _ _ _ (Rle_abs _) Hk). clear Hk. apply Rabs_le.
  set (kw := (k * w)%Z).
  assert (F : IZR k * (IZR (10 * (2 * w)) * u) = IZR (20 * kw) * u) by (unfold kw; rewrite !mult_IZR; ring).
  assert (G : / 2 * (IZR (10 * (2 * w)) * u) = IZR (10 * w) * u) by (rewrite !mult_IZR; lra).
  rewrite F, G in *. clear F G. clearbody kw.
  assert (A : (p <= 20 * kw + 10 * w)%Z).
  { apply le_IZR. rewrite plus_IZR. apply Rmult_le_reg_r with u; [exact U|]. lra. }
  assert (B : (20 * kw - 10 * w <= p + 1)%Z).
  { apply le_IZR. rewrite minus_IZR. apply Rmult_le_reg_r with u; [exact U|]. lra. }
  assert (A' : (p + 1 <= 20 * kw + 10 * w)%Z) by lia.
  assert (B' : (20 * kw - 10 * w <= p)%Z) by lia.
  apply IZR_le in A', B'. rewrite plus_IZR in A'. rewrite minus_IZR in B'.
  apply (Rmult_le_compat_r u) in A'; [|lra]. apply (Rmult_le_compat_r u) in B'; [|lra].
  rewrite (plus_IZR p 1) in *. rewrite plus_IZR in A'. lra.
Qed.

Theorem bpi_ok o nd : (nd < 100)%Z -> exists r, bpi o nd = Ok r /\ Rabs (rval r - PI) <= / 2 * r10 (- nd).
Proof.
  intros H. unfold bpi. replace (nd <? 100)%Z with true by (symmetry; apply Z.ltb_lt; exact H).
  exists (round pi_const nd). split; [reflexivity|].
  destruct (Z_lt_le_dec nd 0) as [Hn|Hn]; [|apply pi_rounded; lia].
  rewrite round_id by (left; exact Hn). eapply Rle_trans; [apply pi_exact_const|].
  apply Rle_trans with (/ 2 * r10 0); [|apply Rmult_le_compat_l; [lra|]; apply r10_mono; lia].
  rewrite r10_0. eapply Rle_trans; [apply (r10_mono (-105) (-1)); lia|].
  change (r10 (-1)) with (r10 (- (1))). rewrite r10_opp, r10_IZR by lia. change (10 ^ 1)%Z with 10%Z. lra.
Qed.

(** ** From 100 digits on *)
(** The series part does not use the oracles. *)
Lemma batan_small o o' x nd : dltb dhalf (dabs x) = false -> batan o x nd = batan o' x nd.
Proof. intros H. unfold batan. cbn [batan_rec]. rewrite H. reflexivity. Qed.
Definition no_oracles : oracles := Oracles (fun _ => None) (fun x => x) (fun _ => None) (fun _ => None).
Definition x239 : bd := BD 4184100418410041841004184100418410041841004184100418410041841004184100418410041841004184100418410042 102.
Lemma div5 : ddiv done (bigd 5) = Ok (BD 2 1).
Proof. rewrite ddiv_fast_ok. vm_compute. reflexivity. Qed.
Lemma div239 : ddiv done (bigd 239) = Ok x239.
Proof. rewrite ddiv_fast_ok. vm_compute. reflexivity. Qed.
Lemma small5 : dltb dhalf (dabs (BD 2 1)) = false.
Proof. vm_compute. reflexivity. Qed.
Lemma small239 : dltb dhalf (dabs x239) = false.
Proof. vm_compute. reflexivity. Qed.
Lemma bpi_oracles o nd : bpi o nd = bpi no_oracles nd.
Proof.
  unfold bpi. destruct (nd <? 100)%Z; [reflexivity|]. rewrite div5, div239. cbn [rbind].
  rewrite (batan_small o no_oracles _ nd small5), (batan_small o no_oracles _ nd small239). reflexivity.
Qed.

Definition pi_101 : bd := BD 3141592653589793238462643383279502884197169399375105820974944592307816406286208998628034825342117067972 102.
(** The two series, with the division replaced by an equal one that is cheaper to
    run. *)
Definition a5_101 : bd := BD 197395559849880758370049765194790293447585103787852101517688940241033969978243785732697828037288044112 102.
Definition a239_101 : bd := BD 4184076002074723864538214959285452741048065307631950827019612887181778341422893273782605813622909455 102.
Lemma atan5_101 : atan_small_fast (BD 2 1) 101 = Ok a5_101.
Proof. vm_compute. reflexivity. Qed.
Lemma atan239_101 : atan_small_fast x239 101 = Ok a239_101.
Proof. vm_compute. reflexivity. Qed.
Lemma bpi_big o nd a b : (100 <= nd)%Z -> atan_small_fast (BD 2 1) nd = Ok a -> atan_small_fast x239 nd = Ok b ->
  bpi o nd = Ok (dmul (dsub (dmul a (bigd 4)) b) (bigd 4)).
Proof.
  intros N A B. unfold bpi. replace (nd <? 100)%Z with false by (symmetry; apply Z.ltb_ge; exact N).
  rewrite div5, div239. cbn [rbind]. rewrite (atan_small_ok _ _ _ small5), A. cbn [rbind].
  rewrite (atan_small_ok _ _ _ small239), B. reflexivity.
Qed.
Lemma pi_101_eq : dmul (dsub (dmul a5_101 (bigd 4)) a239_101) (bigd 4) = pi_101.
Proof. vm_compute. reflexivity. Qed.
Lemma le_100_101 : (100 <= 101)%Z.
Proof. lia. Qed.
Lemma bpi_101 o : bpi o 101 = Ok pi_101.
Proof. exact (eq_trans (bpi_big o 101 _ _ le_100_101 atan5_101 atan239_101) (f_equal Ok pi_101_eq)). Qed.

Lemma bpi_101_bad o : exists r, bpi o 101 = Ok r /\ Rabs (rval r - PI) > r10 (-101).
Proof.
  exists pi_101. split; [exact (bpi_101 o)|]. pose proof pi_enclosure as [L U].
  replace (rval pi_101) with (IZR (mant pi_101 * 10 ^ 3) * r10 (-105)).
  2:{ rewrite rval_eq, mult_IZR, <- r10_IZR, Rmult_assoc, <- r10_plus by lia. reflexivity. }
  replace (r10 (-101)) with (IZR (10 ^ 4) * r10 (-105)) by (rewrite <- r10_IZR, <- r10_plus by lia; reflexivity).
  pose proof (r10_pos (-105)) as P. set (u := r10 (-105)) in *. clearbody u.
  assert (A : IZR (mant pi_101 * 10 ^ 3) + IZR (10 ^ 4) < IZR pi_lo) by (rewrite <- plus_IZR; apply IZR_lt; vm_compute; reflexivity).
  set (x := IZR (mant pi_101 * 10 ^ 3)) in *. set (y := IZR (10 ^ 4)) in *. set (p := IZR pi_lo) in *. set (p' := IZR (pi_lo + 1)) in *.
  clearbody x y p p'. rewrite Rabs_minus_sym. eapply Rlt_le_trans; [|apply Rle_abs]. nra.
Qed.
