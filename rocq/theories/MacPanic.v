(** For which arguments the power series of exp, sin, cos and erf end without a
    panic, and for which they panic. *)
From Coq Require Import ZArith Reals Lra Lia List.
From Verif Require Import Res Dec DecFacts RFacts BdMath Series MacFacts Accuracy.
Import ListNotations.
Open Scope R_scope.

(** ** Factorials against powers *)
Lemma fact_small i : 2 ^ i * INR (fact i) <= INR (S i) ^ i.
Proof.
  induction i as [|i IH]; [cbn; lra|]. rewrite fact_simpl, mult_INR. change (2 ^ S i) with (2 * 2 ^ i).
  set (n := S i) in *. assert (P : 0 < INR n) by (apply lt_0_INR; unfold n; lia).
  assert (B : 2 * INR n ^ n <= INR (S n) ^ n).
  { assert (S1 : INR (S n) = (1 + / INR n) * INR n) by (rewrite S_INR; field; lra). rewrite S1, Rpow_mult_distr.
    apply Rmult_le_compat_r; [apply pow_le; lra|].
    pose proof (poly n (/ INR n) (Rinv_0_lt_compat _ P)) as Q. rewrite Rinv_r in Q by lra. lra. }
  replace (2 * 2 ^ i * (INR n * INR (fact i))) with (2 * (INR n * (2 ^ i * INR (fact i)))) by ring.
  eapply Rle_trans; [|exact B]. apply Rmult_le_compat_l; [lra|].
  change (INR n ^ n) with (INR n * INR n ^ i). apply Rmult_le_compat_l; [lra|exact IH].
Qed.

(** ** Small arguments *)
Section Ends.
Variables (x : bd) (nd : Z) (f : Z -> bd -> bd -> bd -> unit -> res (option bd * unit)) (c : nat -> R).
Hypothesis Hf : series_closure f c.
Hypothesis Hc : forall i, c i = 0 -> c (S i) <> 0.
Hypothesis Hnd : (0 <= nd <= 590)%Z.
Hypothesis HX : Rabs (rval x) <= 9000.
Let eps := / 2 * r10 (- (2 * nd)).

Lemma eps_half : 0 < eps <= / 2.
Proof.
  unfold eps. pose proof (r10_pos (- (2 * nd))). assert (r10 (- (2 * nd)) <= r10 0) by (apply r10_mono; lia). rewrite r10_0 in *. lra.
Qed.
Lemma tail_small i : (29990 <= Z.of_nat i)%Z -> 2 * (9001 ^ i / INR (fact i)) < eps.
Proof.
  intros Hi. pose proof (fact_pos i) as F. pose proof (pow_fact i) as B.
  assert (I0 : 29990 <= INR i). { rewrite INR_IZR_INZ. apply IZR_le. lia. }
  assert (Q : 9001 ^ i / INR (fact i) <= 0.91 ^ i).
  { apply Rmult_le_reg_r with (INR (fact i)); [exact F|]. unfold Rdiv. rewrite Rmult_assoc, Rinv_l, Rmult_1_r by lra.
    apply Rmult_le_reg_l with (3 ^ i); [apply pow_lt; lra|]. rewrite <- Rpow_mult_distr.
    apply Rle_trans with (0.91 ^ i * INR i ^ i).
    - rewrite <- Rpow_mult_distr. apply pow_incr. lra.
    - replace (3 ^ i * (0.91 ^ i * INR (fact i))) with (0.91 ^ i * (3 ^ i * INR (fact i))) by ring. apply Rmult_le_compat_l; [apply pow_le; lra|exact B]. }
  assert (T : 0.91 ^ i <= r10 (- 1199)).
  { set (m := Z.to_nat 1199). assert (Em : Z.of_nat m = 1199%Z) by (apply Z2Nat.id; lia). clearbody m.
    replace i with (25 * m + (i - 25 * m))%nat by lia. rewrite pow_add, pow_mult.
    assert (A : 0.91 ^ 25 <= / 10) by lra.
    assert (A2 : (0.91 ^ 25) ^ m <= r10 (- 1199)).
    { replace (r10 (-1199)) with (/ r10 1199) by (symmetry; exact (r10_opp 1199)). rewrite r10_IZR by lia. replace (/ IZR (10 ^ 1199)) with ((/ 10) ^ m).
      - apply pow_incr. split; [apply pow_le; lra|exact A].
      - rewrite pow_inv. f_equal. rewrite <- Em. apply pow_IZR. }
    assert (A3 : 0 <= (0.91 ^ 25) ^ m) by (apply pow_le, pow_le; lra).
    assert (A4 : 0 <= 0.91 ^ (i - 25 * m) <= 1). { split; [apply pow_le; lra|]. rewrite <- (pow1 (i - 25 * m)). apply pow_incr. lra. }
    nra. }
  assert (R : 10 * r10 (- 1199) <= r10 (- (2 * nd))).
  { replace 10 with (r10 1) by (rewrite r10_IZR by lia; reflexivity). rewrite <- r10_plus. apply r10_mono. lia. }
  unfold eps. pose proof (r10_pos (- 1199)). lra.
Qed.

Lemma loop_ends : forall k i tot power factorial,
  rval factorial = INR (fact i) -> Rabs (rval power) <= 9001 ^ i -> (exists z, rval tot = IZR z * r10 (- (2 * nd))) ->
  (Z.of_nat i <= 29999)%Z -> (Z.of_nat i = 29999%Z -> c (pred i) = 0) -> (30000 - Z.of_nat i <= Z.of_nat k)%Z ->
  exists t, mac_loop k x nd f (Z.of_nat i) tot power factorial tt = Ok t.
Proof.
  destruct eps_half as [e0 e1]. pose proof delta_pos as Pd. pose proof delta_small as Ds.
  assert (Dh : delta <= 1). { assert (r10 (-2) <= r10 0) by (apply r10_mono; lia). rewrite r10_0 in *. lra. }
  induction k as [|k IH]; intros i tot power factorial If Ip Ig Hi HiN Hk; [lia|].
  assert (Nz : rval factorial <> 0) by (rewrite If; apply INR_fact_neq_0).
  assert (Pn : Rabs (rval (round (dmul power x) (2 * nd))) <= 9001 ^ S i).
  { pose proof (round_err_R (dmul power x) (2 * nd) ltac:(lia)) as R. rewrite rval_dmul in R. fold eps in R.
    replace (rval (round (dmul power x) (2 * nd))) with ((rval (round (dmul power x) (2 * nd)) - rval power * rval x) + rval power * rval x) by ring.
    eapply Rle_trans; [apply Rabs_triang|]. rewrite (Rabs_mult (rval power)).
    assert (1 <= 9001 ^ i) by (apply pow_R1_Rle; lra).
    assert (Rabs (rval power) * Rabs (rval x) <= 9001 ^ i * 9000) by (apply Rmult_le_compat; try apply Rabs_pos; assumption).
    change (9001 ^ S i) with (9001 * 9001 ^ i). lra. }
  assert (Fn : rval (dmul factorial (bigd (Z.of_nat i + 1))) = INR (fact (S i))).
  { rewrite rval_dmul, rval_bigd, If, fact_simpl, mult_INR, S_INR, plus_IZR, <- INR_IZR_INZ. ring. }
  cbn [mac_loop]. destruct (Hf i tot power factorial Nz) as [[C0 Ef]|(C1 & t & Ef & Et)]; rewrite Ef; cbn [rbind fst snd].
  - replace (Z.of_nat i + 1)%Z with (Z.of_nat (S i)) in * by lia.
    assert (Z.of_nat i <> 29999%Z). { intros Q. destruct i as [|i]; [lia|]. cbn [pred] in HiN. apply (Hc i); [apply HiN; exact Q|exact C0]. }
    apply IH; try lia; try assumption. cbn [pred]. intros _. exact C0.
  - set (nt := round t (2 * nd)). destruct (deqb nt tot) eqn:D; [eauto|].
    assert (Hlt : (Z.of_nat i < 29998)%Z).
    { destruct (Z.lt_ge_cases (Z.of_nat i) 29998) as [L|L]; [exact L|exfalso].
      assert (Tt : Rabs (rval t - rval tot) < eps).
      { eapply Rle_lt_trans; [|apply (tail_small i); lia]. rewrite If in Et. set (p := rval power / INR (fact i)) in *.
        assert (Pp : Rabs p <= 9001 ^ i / INR (fact i)).
        { unfold p, Rdiv. rewrite Rabs_mult. pose proof (Rinv_0_lt_compat _ (fact_pos i)). rewrite (Rabs_pos_eq (/ _)) by lra. apply Rmult_le_compat_r; lra. }
        replace (rval t - rval tot) with ((rval t - rval tot - c i * p) + c i * p) by ring. eapply Rle_trans; [apply Rabs_triang|].
        rewrite (Rabs_mult (c i)). pose proof (Rabs_pos p).
        assert (Rabs (c i) * Rabs p <= 1 * Rabs p) by (apply Rmult_le_compat_r; lra).
        assert (delta * Rabs p <= 1 * Rabs p) by (apply Rmult_le_compat_r; lra). lra. }
      destruct Ig as [z G]. rewrite G in Tt. unfold eps in Tt.
      apply round_to_grid in Tt; [|lia]. fold nt in Tt. rewrite <- G in Tt. apply deqb_R in Tt. congruence. }
    destruct (30000 <? Z.of_nat i)%Z eqn:L; [apply Z.ltb_lt in L; lia|].
    replace (Z.of_nat i + 1)%Z with (Z.of_nat (S i)) in * by lia.
    apply IH; try lia; try assumption. unfold nt. apply round_grid_R. lia.
Qed.
Theorem mac_ends : exists r, maclaurin x nd f tt = Ok r.
Proof.
  destruct (loop_ends mac_fuel 0 dzero done done) as (t & T).
  - unfold done. rewrite rval_bigd. reflexivity.
  - unfold done. rewrite rval_bigd, Rabs_R1. cbn. lra.
  - exists 0%Z. unfold dzero. rewrite rval_bigd. ring.
  - lia.
  - lia.
  - unfold mac_fuel. rewrite Z2Nat.id by lia. lia.
  - unfold maclaurin. change (Z.of_nat 0) with 0%Z in T. rewrite T. eexists. reflexivity.
Qed.
End Ends.

(** ** Large arguments *)
Section Overruns.
Variables (x : bd) (nd : Z) (f : Z -> bd -> bd -> bd -> unit -> res (option bd * unit)) (c : nat -> R).
Hypothesis Hf : series_closure f c.
Hypothesis Hc : forall i, c i = 0 -> c (S i) <> 0.
Hypothesis Hu : unit_coef c.
Hypothesis Hnd : (0 <= nd)%Z.
Hypothesis HX : 15003 <= Rabs (rval x).
Let eps := / 2 * r10 (- (2 * nd)).

Lemma fact_under i : (Z.of_nat i <= 30002)%Z -> INR (fact i) <= 15002 ^ i.
Proof.
  intros Hi. pose proof (fact_small i) as B. apply Rmult_le_reg_l with (2 ^ i); [apply pow_lt; lra|].
  eapply Rle_trans; [exact B|]. rewrite <- Rpow_mult_distr. apply pow_incr. split; [apply pos_INR|].
  rewrite INR_IZR_INZ, <- mult_IZR. apply IZR_le. lia.
Qed.
Lemma loop_overruns : forall k i tot power factorial,
  rval factorial = INR (fact i) -> 15002 ^ i <= Rabs (rval power) ->
  (Z.of_nat i <= 30002)%Z -> (Z.of_nat i = 30002%Z -> c (pred i) = 0) -> (30003 - Z.of_nat i <= Z.of_nat k)%Z ->
  mac_loop k x nd f (Z.of_nat i) tot power factorial tt = Panic.
Proof.
  assert (e1 : 0 < eps <= / 2).
  { unfold eps. pose proof (r10_pos (- (2 * nd))). assert (r10 (- (2 * nd)) <= r10 0) by (apply r10_mono; lia). rewrite r10_0 in *. lra. }
  pose proof delta_pos as Pd. pose proof delta_small as Ds.
  assert (Dh : delta <= / 4). { assert (r10 (-2) <= / 100) by (exact (proj2 (conj (r10_pos 0) (Req_le _ _ (eq_trans (r10_opp 2) (f_equal Rinv (r10_IZR 2 ltac:(lia)))))))). lra. }
  induction k as [|k IH]; intros i tot power factorial If Ip Hi HiN Hk; [lia|].
  assert (Nz : rval factorial <> 0) by (rewrite If; apply INR_fact_neq_0).
  assert (Pn : 15002 ^ S i <= Rabs (rval (round (dmul power x) (2 * nd)))).
  { pose proof (round_err_R (dmul power x) (2 * nd) ltac:(lia)) as R. rewrite rval_dmul in R. fold eps in R.
    assert (1 <= 15002 ^ i) by (apply pow_R1_Rle; lra).
    assert (15002 ^ i * 15003 <= Rabs (rval power) * Rabs (rval x)) by (apply Rmult_le_compat; lra).
    rewrite <- Rabs_mult in *. pose proof (Rabs_triang_inv (rval power * rval x) (rval power * rval x - rval (round (dmul power x) (2 * nd)))) as T.
    replace (rval power * rval x - (rval power * rval x - rval (round (dmul power x) (2 * nd)))) with (rval (round (dmul power x) (2 * nd))) in T by ring.
    rewrite (Rabs_minus_sym (rval power * rval x)) in T. change (15002 ^ S i) with (15002 * 15002 ^ i). lra. }
  assert (Fn : rval (dmul factorial (bigd (Z.of_nat i + 1))) = INR (fact (S i))).
  { rewrite rval_dmul, rval_bigd, If, fact_simpl, mult_INR, S_INR, plus_IZR, <- INR_IZR_INZ. ring. }
  cbn [mac_loop]. destruct (Hf i tot power factorial Nz) as [[C0 Ef]|(C1 & t & Ef & Et)]; rewrite Ef; cbn [rbind fst snd].
  - replace (Z.of_nat i + 1)%Z with (Z.of_nat (S i)) in * by lia.
    assert (Z.of_nat i <> 30002%Z). { intros Q. destruct i as [|i]; [lia|]. cbn [pred] in HiN. apply (Hc i); [apply HiN; exact Q|exact C0]. }
    apply IH; try lia; try assumption. cbn [pred]. intros _. exact C0.
  - set (nt := round t (2 * nd)). destruct (deqb nt tot) eqn:D.
    + exfalso. apply deqb_R in D. pose proof (round_err_R t (2 * nd) ltac:(lia)) as Rn. fold eps nt in Rn. rewrite D in Rn.
      rewrite If in Et. set (p := rval power / INR (fact i)) in *.
      assert (Pp : 1 <= Rabs p).
      { unfold p, Rdiv. pose proof (fact_pos i) as F. pose proof (Rinv_0_lt_compat _ F) as Fi. rewrite Rabs_mult, (Rabs_pos_eq (/ _)) by lra.
        rewrite <- (Rinv_r (INR (fact i))) by lra. apply Rmult_le_compat_r; [lra|]. pose proof (fact_under i Hi). lra. }
      destruct (Hu i) as [Z|U]; [rewrite Z, Rabs_R0 in C1; lra|].
      pose proof (Rabs_triang (rval t - rval tot) (- (rval t - rval tot - c i * p))) as T.
      replace (rval t - rval tot + - (rval t - rval tot - c i * p)) with (c i * p) in T by ring.
      rewrite Rabs_mult, U, Rabs_Ropp in T. rewrite (Rabs_minus_sym (rval t)) in T.
      assert (delta * Rabs p <= / 4 * Rabs p) by (apply Rmult_le_compat_r; [apply Rabs_pos|exact Dh]). lra.
    + destruct (30000 <? Z.of_nat i)%Z eqn:L; [reflexivity|]. apply Z.ltb_ge in L.
      replace (Z.of_nat i + 1)%Z with (Z.of_nat (S i)) in * by lia.
      apply IH; try lia; assumption.
Qed.
Theorem mac_overruns : maclaurin x nd f tt = Panic.
Proof.
  assert (L : mac_loop mac_fuel x nd f 0 dzero done done tt = Panic).
  { apply (loop_overruns mac_fuel 0); try lia.
    - unfold done. rewrite rval_bigd. reflexivity.
    - unfold done. rewrite rval_bigd, Rabs_R1. cbn. lra.
    - unfold mac_fuel. rewrite Z2Nat.id by lia. lia. }
  unfold maclaurin. rewrite L. reflexivity.
Qed.
End Overruns.
