(** Error analysis of [maclaurin] for series dominated by a geometric one:
    ln, atan and asin after their argument reductions. *)
From Coq Require Import ZArith Reals Lra Lia List.
From Verif Require Import Res Dec DecFacts RFacts BdMath.
Import ListNotations.
Open Scope R_scope.

(** Sum of the first [n] terms a_j x^j. *)
Fixpoint gsum (a : nat -> R) (x : R) (n : nat) : R :=
  match n with O => 0 | S k => gsum a x k + a k * x ^ k end.

(** What the closures do: nothing where the coefficient is zero, otherwise add
    a_i * power with a relative error [kappa].  [J i s]: the closure's captured
    state before step [i]. *)
Definition kappa : R := 3 * delta.
Definition geo_closure {St} (f : Z -> bd -> bd -> bd -> St -> res (option bd * St)) (a : nat -> R)
  (J : nat -> St -> Prop) : Prop :=
  forall (i : nat) tot power factorial s, J i s ->
  (a i = 0 /\ exists s', f (Z.of_nat i) tot power factorial s = Ok (None, s') /\ J (S i) s') \/
  (a i <> 0 /\ exists t s', f (Z.of_nat i) tot power factorial s = Ok (Some t, s') /\ J (S i) s' /\
     Rabs (rval t - rval tot - a i * rval power) <= kappa * Rabs (a i * rval power)).

Lemma kappa_pos : 0 < kappa.
Proof. unfold kappa. pose proof delta_pos. lra. Qed.
Lemma kappa_small : kappa <= / 50.
Proof.
  unfold kappa. pose proof delta_small as D. change (-2)%Z with (- (2))%Z in D.
  rewrite r10_opp, r10_IZR in D by lia. change (10 ^ 2)%Z with 100%Z in D. lra.
Qed.

Section Geo.
Context {St : Type}.
Variables (x : bd) (nd : Z) (f : Z -> bd -> bd -> bd -> St -> res (option bd * St)) (s0 : St).
Variables (a : nat -> R) (J : nat -> St -> Prop).
Variables (r F : R) (N : nat).
Let X := rval x.
Let eps := / 2 * r10 (- (2 * nd)).
Let P := eps * / (1 - r).
Hypothesis Hf : geo_closure f a J.
Hypothesis HJ : J O s0.
Hypothesis Hgap : forall i, a i = 0 -> a (S i) <> 0.
Hypothesis Ha1 : forall i, Rabs (a i) <= 1.
Hypothesis Hmono : forall i j, a i <> 0 -> (i <= j)%nat -> Rabs (a j) <= Rabs (a i).
Hypothesis Hnd : (0 <= nd)%Z.
Hypothesis Hr : 0 <= r < 1.
Hypothesis HX : Rabs X <= r.
Hypothesis HF : Un_cv (gsum a X) F.
Hypothesis HN : (Z.of_nat N < 30000)%Z.
Hypothesis Hsmall : forall i, (N <= i <= S N)%nat -> (1 + kappa) * (Rabs (a i) * (r ^ i + P)) < eps.

Lemma geps_pos : 0 < eps.
Proof. unfold eps. pose proof (r10_pos (- (2 * nd))). lra. Qed.
Lemma P_pos : 0 < P.
Proof. unfold P. pose proof geps_pos. apply Rmult_lt_0_compat; [assumption|]. apply Rinv_0_lt_compat. lra. Qed.
Lemma P_step : r * P + eps = P.
Proof. unfold P. field. lra. Qed.

Lemma xpow i : Rabs (X ^ i) <= r ^ i.
Proof. rewrite <- RPow_abs. apply pow_incr. split; [apply Rabs_pos|exact HX]. Qed.
Lemma rpow1 i : 0 <= r ^ i <= 1.
Proof. split; [apply pow_le; lra|]. rewrite <- (pow1 i). apply pow_incr. lra. Qed.

(** The tail from [i] on, when a_i is not zero. *)
Lemma tail_block i k : a i <> 0 ->
  Rabs (gsum a X (i + k) - gsum a X i) * (1 - r) <= Rabs (a i) * Rabs X ^ i * (1 - r ^ k).
Proof.
  intros Hi. set (A := Rabs (a i) * Rabs X ^ i).
  assert (A0 : 0 <= A) by (apply Rmult_le_pos; [apply Rabs_pos|apply pow_le, Rabs_pos]).
  induction k as [|k IH].
  - rewrite Nat.add_0_r. replace (gsum a X i - gsum a X i) with 0 by ring. rewrite Rabs_R0. cbn. lra.
  - rewrite Nat.add_succ_r. cbn [gsum].
    replace (gsum a X (i + k) + a (i + k)%nat * X ^ (i + k) - gsum a X i)
      with ((gsum a X (i + k) - gsum a X i) + a (i + k)%nat * X ^ (i + k)) by ring.
    assert (T : Rabs (a (i + k)%nat * X ^ (i + k)) <= A * r ^ k).
    { rewrite Rabs_mult, <- RPow_abs, pow_add. unfold A.
      replace (Rabs (a i) * Rabs X ^ i * r ^ k) with (Rabs (a i) * (Rabs X ^ i * r ^ k)) by ring.
      apply Rmult_le_compat; try apply Rabs_pos.
      - apply Rmult_le_pos; apply pow_le, Rabs_pos.
      - apply Hmono; [exact Hi|lia].
      - apply Rmult_le_compat_l; [apply pow_le, Rabs_pos|]. apply pow_incr. split; [apply Rabs_pos|exact HX]. }
    pose proof (Rabs_triang (gsum a X (i + k) - gsum a X i) (a (i + k)%nat * X ^ (i + k))) as Tr.
    cbn [pow]. pose proof (rpow1 k) as Rk.
    assert (Rabs (gsum a X (i + k) - gsum a X i + a (i + k)%nat * X ^ (i + k)) * (1 - r) <=
            A * (1 - r ^ k) + A * r ^ k * (1 - r)).
    { eapply Rle_trans; [apply Rmult_le_compat_r; [lra|exact Tr]|]. rewrite Rmult_plus_distr_r.
      apply Rplus_le_compat; [exact IH|]. apply Rmult_le_compat_r; lra. }
    lra.
Qed.
Lemma geo_tail i : a i <> 0 -> Rabs (F - gsum a X i) * (1 - r) <= Rabs (a i) * Rabs X ^ i.
Proof.
  intros Hi. apply le_epsilon. intros e He. destruct (HF e He) as [M HM].
  specialize (HM (i + M)%nat ltac:(lia)). unfold R_dist in HM.
  pose proof (tail_block i M Hi) as B. pose proof (rpow1 M) as Rk.
  assert (A0 : 0 <= Rabs (a i) * Rabs X ^ i) by (apply Rmult_le_pos; [apply Rabs_pos|apply pow_le, Rabs_pos]).
  replace (F - gsum a X i) with (- (gsum a X (i + M) - F) + (gsum a X (i + M) - gsum a X i)) by ring.
  pose proof (Rabs_triang (- (gsum a X (i + M) - F)) (gsum a X (i + M) - gsum a X i)) as Tr.
  rewrite Rabs_Ropp in Tr. pose proof (Rabs_pos (gsum a X (i + M) - F)) as Q.
  assert (Rabs (- (gsum a X (i + M) - F) + (gsum a X (i + M) - gsum a X i)) * (1 - r) <=
     Rabs (gsum a X (i + M) - F) * (1 - r) + Rabs (gsum a X (i + M) - gsum a X i) * (1 - r)).
  { rewrite <- Rmult_plus_distr_r. apply Rmult_le_compat_r; lra. }
  assert (Rabs (gsum a X (i + M) - F) * (1 - r) <= e) by nra. nra.
Qed.

(** Error per step. *)
Definition step_err : R := eps + P + kappa * (1 + P).
Definition ginv (i : nat) (tot power : bd) : Prop :=
  Rabs (rval power - X ^ i) <= P /\
  Rabs (rval tot - gsum a X i) <= INR i * step_err /\
  exists k, rval tot = IZR k * r10 (- (2 * nd)).
Definition geo_acc : R := INR (N + 1) * step_err + (2 * eps + P) * / (1 - r).

Lemma gpower_next i power : Rabs (rval power - X ^ i) <= P ->
  Rabs (rval (round (dmul power x) (2 * nd)) - X ^ S i) <= P.
Proof.
  intros H. pose proof (round_err_R (dmul power x) (2 * nd) ltac:(lia)) as R. rewrite rval_dmul in R.
  fold X in R. fold eps in R. cbn [pow].
  replace (rval (round (dmul power x) (2 * nd)) - X * X ^ i) with
    ((rval (round (dmul power x) (2 * nd)) - rval power * X) + X * (rval power - X ^ i)) by ring.
  eapply Rle_trans; [apply Rabs_triang|]. rewrite (Rabs_mult X).
  pose proof (Rabs_pos X). pose proof (Rabs_pos (rval power - X ^ i)).
  assert (Rabs X * Rabs (rval power - X ^ i) <= r * P) by (apply Rmult_le_compat; assumption).
  pose proof P_step. lra.
Qed.

Lemma step_pos : 0 < step_err.
Proof.
  unfold step_err. pose proof geps_pos. pose proof P_pos. pose proof kappa_pos.
  assert (0 < kappa * (1 + P)) by (apply Rmult_lt_0_compat; lra). lra.
Qed.

Lemma geo_loop : forall k i tot power factorial s,
  J i s -> ginv i tot power -> (i <= S N)%nat -> (i = S N -> a N = 0) -> (S N - i < k)%nat ->
  exists t, mac_loop k x nd f (Z.of_nat i) tot power factorial s = Ok t /\ Rabs (rval t - F) <= geo_acc.
Proof.
  pose proof geps_pos as Peps. pose proof kappa_pos as Pk. pose proof kappa_small as Ks.
  pose proof P_pos as PP. pose proof step_pos as SP.
  induction k as [|k IH]; intros i tot power factorial s Is (Ip & It & Ig) Hi HiN Hk; [lia|].
  cbn [mac_loop].
  destruct (Hf i tot power factorial s Is) as [(C0 & s' & Ef & Js)|(C1 & t & s' & Ef & Js & Et)]; rewrite Ef; cbn [rbind fst snd].
  - replace (Z.of_nat i + 1)%Z with (Z.of_nat (S i)) by lia.
    assert (i <> S N) by (intros ->; apply (Hgap N); auto).
    apply IH; try lia; [exact Js| |].
    + split; [|split].
      * apply gpower_next; exact Ip.
      * cbn [gsum]. rewrite S_INR, C0, Rmult_0_l, Rplus_0_r. lra.
      * exact Ig.
    + intros Q. inversion Q; subst. exact C0.
  - set (p := rval power) in *.
    pose proof (round_err_R t (2 * nd) ltac:(lia)) as Rn. fold eps in Rn.
    set (nt := round t (2 * nd)) in *.
    assert (Pp : Rabs p <= r ^ i + P).
    { replace p with (X ^ i + (p - X ^ i)) by ring. eapply Rle_trans; [apply Rabs_triang|].
      pose proof (xpow i). lra. }
    assert (Ai := Ha1 i). assert (Ai0 := Rabs_pos (a i)). assert (p0 := Rabs_pos p).
    destruct (deqb nt tot) eqn:D.
    + exists tot. split; [reflexivity|]. apply deqb_R in D. rewrite D in Rn.
      assert (Tt : Rabs (rval t - rval tot) <= eps) by (rewrite Rabs_minus_sym; exact Rn).
      assert (U : Rabs (a i * p) <= eps + kappa * Rabs (a i * p)).
      { replace (a i * p) with ((rval t - rval tot) - (rval t - rval tot - a i * p)) at 1 by ring.
        eapply Rle_trans; [apply Rabs_triang|]. rewrite Rabs_Ropp. lra. }
      assert (U2 : Rabs (a i * p) <= 2 * eps) by nra.
      assert (U3 : Rabs (a i) * Rabs X ^ i <= 2 * eps + P).
      { rewrite RPow_abs, <- Rabs_mult. replace (a i * X ^ i) with (a i * p - a i * (p - X ^ i)) by ring.
        eapply Rle_trans; [apply Rabs_triang|]. rewrite Rabs_Ropp, (Rabs_mult (a i) (p - X ^ i)).
        assert (Rabs (a i) * Rabs (p - X ^ i) <= 1 * P) by (apply Rmult_le_compat; auto; apply Rabs_pos). lra. }
      pose proof (geo_tail i C1) as L.
      assert (L2 : Rabs (F - gsum a X i) <= (2 * eps + P) * / (1 - r)).
      { apply Rmult_le_reg_r with (1 - r); [lra|]. rewrite Rmult_assoc, Rinv_l, Rmult_1_r by lra. lra. }
      unfold geo_acc. rewrite plus_INR. cbn [INR].
      assert (In : INR i <= INR N + 1) by (rewrite <- S_INR; apply le_INR; lia).
      replace (rval tot - F) with ((rval tot - gsum a X i) - (F - gsum a X i)) by ring.
      eapply Rle_trans; [apply Rabs_triang|]. rewrite Rabs_Ropp.
      assert (INR i * step_err <= (INR N + 1) * step_err) by (apply Rmult_le_compat_r; lra). lra.
    + assert (Hlt : (i < N)%nat).
      { destruct (Nat.lt_ge_cases i N) as [L|L]; [exact L|exfalso].
        assert (S1 := Hsmall i ltac:(lia)).
        assert (Tt : Rabs (rval t - rval tot) < eps).
        { replace (rval t - rval tot) with (a i * p + (rval t - rval tot - a i * p)) by ring.
          eapply Rle_lt_trans; [apply Rabs_triang|].
          assert (Rabs (a i * p) <= Rabs (a i) * (r ^ i + P)).
          { rewrite Rabs_mult. apply Rmult_le_compat_l; lra. }
          nra. }
        destruct Ig as [k0 G]. rewrite G in Tt. unfold eps in Tt.
        apply round_to_grid in Tt; [|lia]. fold nt in Tt. rewrite <- G in Tt. apply deqb_R in Tt. congruence. }
      destruct (30000 <? Z.of_nat i)%Z eqn:L; [apply Z.ltb_lt in L; lia|].
      replace (Z.of_nat i + 1)%Z with (Z.of_nat (S i)) by lia.
      apply IH; try lia; [exact Js|]. split; [|split].
      * apply gpower_next; exact Ip.
      * cbn [gsum]. rewrite S_INR.
        replace (rval nt - (gsum a X i + a i * X ^ i)) with
          ((rval tot - gsum a X i) + ((rval nt - rval t) + ((rval t - rval tot - a i * p) + a i * (p - X ^ i)))) by ring.
        eapply Rle_trans; [apply Rabs_triang|].
        assert (U1 := Rabs_triang (rval nt - rval t) ((rval t - rval tot - a i * p) + a i * (p - X ^ i))).
        assert (U2 := Rabs_triang (rval t - rval tot - a i * p) (a i * (p - X ^ i))).
        rewrite (Rabs_mult (a i)) in U2.
        assert (U3 : Rabs (a i) * Rabs (p - X ^ i) <= 1 * P) by (apply Rmult_le_compat; auto; apply Rabs_pos).
        assert (U4 : Rabs (a i * p) <= 1 + P).
        { rewrite Rabs_mult. pose proof (rpow1 i). nra. }
        assert (U5 : kappa * Rabs (a i * p) <= kappa * (1 + P)) by (apply Rmult_le_compat_l; lra).
        unfold step_err in *. lra.
      * unfold nt. apply round_grid_R. lia.
Qed.

Theorem geo_accuracy :
  exists y, maclaurin x nd f s0 = Ok y /\ Rabs (rval y - F) <= geo_acc + / 2 * r10 (- (nd + 1)).
Proof.
  destruct (geo_loop mac_fuel 0 dzero done done s0 HJ) as (t & T & A).
  - split; [|split].
    + unfold done. rewrite rval_bigd. cbn. replace (1 - 1) with 0 by ring. rewrite Rabs_R0. pose proof P_pos. lra.
    + unfold dzero. rewrite rval_bigd. cbn. replace (0 - 0) with 0 by ring. rewrite Rabs_R0. lra.
    + exists 0%Z. unfold dzero. rewrite rval_bigd. ring.
  - lia.
  - discriminate.
  - unfold mac_fuel.
    apply Nat2Z.inj_lt. rewrite Z2Nat.id by lia. lia.
  - exists (normalized (round t (nd + 1))). unfold maclaurin. change (Z.of_nat 0) with 0%Z in T. rewrite T. split; [reflexivity|].
    rewrite rval_normalized. pose proof (round_err_R t (nd + 1) ltac:(lia)) as R.
    replace (rval (round t (nd + 1)) - F) with ((rval (round t (nd + 1)) - rval t) + (rval t - F)) by ring.
    eapply Rle_trans; [apply Rabs_triang|]. lra.
Qed.
End Geo.
