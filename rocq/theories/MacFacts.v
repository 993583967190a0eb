(** Error analysis of [maclaurin] for the exponential-like series. *)
From Coq Require Import ZArith Reals Lra Lia List.
From Verif Require Import Res Dec DecFacts RFacts BdMath Series.
Import ListNotations.
Open Scope R_scope.

(** What the closures of exp, sin, cos and erf do: nothing where the coefficient is
    zero, otherwise add the signed quotient with the division's error. *)
Definition series_closure (f : Z -> bd -> bd -> bd -> unit -> res (option bd * unit)) (c : nat -> R) : Prop :=
  forall (i : nat) tot power factorial, rval factorial <> 0 ->
  (c i = 0 /\ f (Z.of_nat i) tot power factorial tt = Ok (None, tt)) \/
  (0 < Rabs (c i) <= 1 /\ exists t, f (Z.of_nat i) tot power factorial tt = Ok (Some t, tt) /\
     Rabs (rval t - rval tot - c i * (rval power / rval factorial)) <= delta * Rabs (rval power / rval factorial)).

Section Mac.
Variables (x : bd) (nd : Z) (f : Z -> bd -> bd -> bd -> unit -> res (option bd * unit)) (c : nat -> R).
Variables (B E F cm : R) (N : nat).
Let X := rval x.
Let eps := / 2 * r10 (- (2 * nd)).
Hypothesis Hf : series_closure f c.
Hypothesis Hc : forall i, c i = 0 -> c (S i) <> 0.
Hypothesis Hmono : forall i j, c i <> 0 -> (i <= j)%nat -> Rabs (c j) <= Rabs (c i).
Hypothesis Hcm : forall i, (i <= S N)%nat -> c i <> 0 -> cm <= Rabs (c i).
Hypothesis Hnd : (0 <= nd)%Z.
Hypothesis HB : 1 <= B.
Hypothesis HX : Rabs X <= B.
Hypothesis HE : forall n, psum c_exp B n <= E.
Hypothesis HF : Un_cv (psum c X) F.
Hypothesis HN : (Z.of_nat N < 30000)%Z.

(** Error of the running power, and its share in each term. *)
Fixpoint pe (i : nat) : R := match i with O => 0 | S k => B * pe k + eps end.
Fixpoint pesum (n : nat) : R := match n with O => 0 | S k => pesum k + pe k / INR (fact k) end.

Hypothesis Hsmall : forall i, (N <= i <= S N)%nat ->
  (1 + delta) * (B ^ i / INR (fact i) + pe i / INR (fact i)) < eps.
Hypothesis Hone : eps + (delta + (1 + delta) * eps) * E < cm.

Lemma eps_pos : 0 < eps.
Proof. unfold eps. pose proof (r10_pos (- (2 * nd))). lra. Qed.
Lemma pe_nonneg i : 0 <= pe i.
Proof. pose proof eps_pos. induction i as [|i IH]; cbn [pe]; [lra|]. nra. Qed.
Lemma pe_bound i : pe (S i) <= eps * INR (S i) * B ^ i.
Proof.
  pose proof eps_pos as P. induction i as [|i IH].
  - cbn. lra.
  - change (pe (S (S i))) with (B * pe (S i) + eps). rewrite (S_INR (S i)).
    change (B ^ S i) with (B * B ^ i). assert (Q : 1 <= B ^ i) by (apply pow_R1_Rle; exact HB).
    assert (1 <= B * B ^ i) by nra. nra.
Qed.
Lemma pe_term i : pe (S i) / INR (fact (S i)) <= eps * (B ^ i / INR (fact i)).
Proof.
  pose proof (pe_bound i) as P. rewrite fact_simpl, mult_INR. pose proof (fact_pos i) as Q.
  assert (R : 0 < INR (S i)) by (apply lt_0_INR; lia).
  replace (eps * (B ^ i / INR (fact i))) with (eps * INR (S i) * B ^ i / (INR (S i) * INR (fact i))) by
    (field; split; lra).
  apply Rmult_le_compat_r; [|exact P]. apply Rlt_le, Rinv_0_lt_compat, Rmult_lt_0_compat; assumption.
Qed.
Lemma bterm_nonneg i : 0 <= B ^ i / INR (fact i).
Proof. apply Rmult_le_pos; [apply pow_le; lra|]. apply Rlt_le, Rinv_0_lt_compat, fact_pos. Qed.
Lemma psum_exp_S n : psum c_exp B (S n) = psum c_exp B n + B ^ n / INR (fact n).
Proof. cbn [psum]. unfold sterm, c_exp. ring. Qed.
Lemma pesum_bound n : pesum (S n) <= eps * psum c_exp B n.
Proof.
  induction n as [|n IH].
  - cbn. unfold Rdiv. lra.
  - change (pesum (S (S n))) with (pesum (S n) + pe (S n) / INR (fact (S n))).
    rewrite psum_exp_S. pose proof (pe_term n). lra.
Qed.
Lemma pesum_E n : pesum n <= eps * E.
Proof.
  pose proof eps_pos as P. destruct n as [|n].
  - cbn. specialize (HE 0). cbn in HE. nra.
  - pose proof (pesum_bound n). specialize (HE n). nra.
Qed.

Definition inv (i : nat) (tot power factorial : bd) : Prop :=
  rval factorial = INR (fact i) /\
  Rabs (rval power - X ^ i) <= pe i /\
  Rabs (rval tot - psum c X i) <= INR i * eps + delta * psum c_exp B i + (1 + delta) * pesum i /\
  exists k, rval tot = IZR k * r10 (- (2 * nd)).

Lemma pow_abs_B i : Rabs (X ^ i) <= B ^ i.
Proof. rewrite <- RPow_abs. apply pow_incr. split; [apply Rabs_pos|exact HX]. Qed.

Lemma power_next i power : Rabs (rval power - X ^ i) <= pe i ->
  Rabs (rval (round (dmul power x) (2 * nd)) - X ^ S i) <= pe (S i).
Proof.
  intros H. pose proof (round_err_R (dmul power x) (2 * nd) ltac:(lia)) as R. rewrite rval_dmul in R.
  fold X in R. fold eps in R. cbn [pe pow].
  replace (rval (round (dmul power x) (2 * nd)) - X * X ^ i) with
    ((rval (round (dmul power x) (2 * nd)) - rval power * X) + X * (rval power - X ^ i)) by ring.
  eapply Rle_trans; [apply Rabs_triang|]. rewrite (Rabs_mult X).
  pose proof (Rabs_pos X). pose proof (Rabs_pos (rval power - X ^ i)).
  assert (Rabs X * Rabs (rval power - X ^ i) <= B * pe i) by (apply Rmult_le_compat; assumption). lra.
Qed.

Lemma fact_next i factorial : rval factorial = INR (fact i) ->
  rval (dmul factorial (bigd (Z.of_nat i + 1))) = INR (fact (S i)).
Proof.
  intros H. rewrite rval_dmul, rval_bigd, H, fact_simpl, mult_INR, S_INR, plus_IZR, <- INR_IZR_INZ. ring.
Qed.

(** The quotient power/factorial against the true term. *)
Lemma quot_err i p : Rabs (p - X ^ i) <= pe i ->
  Rabs (p / INR (fact i) - X ^ i / INR (fact i)) <= pe i / INR (fact i) /\
  Rabs (p / INR (fact i)) <= B ^ i / INR (fact i) + pe i / INR (fact i).
Proof.
  intros H. pose proof (fact_pos i) as P. assert (I : 0 < / INR (fact i)) by (apply Rinv_0_lt_compat; exact P).
  assert (A : Rabs (p / INR (fact i) - X ^ i / INR (fact i)) <= pe i / INR (fact i)).
  { replace (p / INR (fact i) - X ^ i / INR (fact i)) with ((p - X ^ i) * / INR (fact i)) by (unfold Rdiv; ring).
    rewrite Rabs_mult, (Rabs_pos_eq (/ _)) by lra. apply Rmult_le_compat_r; lra. }
  split; [exact A|].
  replace (p / INR (fact i)) with (X ^ i / INR (fact i) + (p / INR (fact i) - X ^ i / INR (fact i))) by ring.
  eapply Rle_trans; [apply Rabs_triang|]. apply Rplus_le_compat; [|exact A].
  unfold Rdiv. rewrite Rabs_mult, (Rabs_pos_eq (/ _)) by lra. apply Rmult_le_compat_r; [lra|apply pow_abs_B].
Qed.


Definition acc : R := INR (N + 3) * eps + 2 * (delta + (1 + delta) * eps) * E.

Lemma loop_acc : forall k i tot power factorial,
  inv i tot power factorial -> (i <= S N)%nat -> (i = S N -> c N = 0) -> (S N - i < k)%nat ->
  exists t, mac_loop k x nd f (Z.of_nat i) tot power factorial tt = Ok t /\ Rabs (rval t - F) <= acc.
Proof.
  pose proof eps_pos as Peps. pose proof delta_pos as Pd.
  induction k as [|k IH]; intros i tot power factorial (If & Ip & It & Ig) Hi HiN Hk; [lia|].
  assert (Nz : rval factorial <> 0) by (rewrite If; apply INR_fact_neq_0).
  destruct (quot_err i (rval power) Ip) as [Qe Qa].
  assert (Pe := pe_nonneg i). assert (Pf := fact_pos i).
  assert (Pt : 0 <= pe i / INR (fact i)).
  { apply Rmult_le_pos; [exact Pe|]. apply Rlt_le, Rinv_0_lt_compat. exact Pf. }
  cbn [mac_loop]. destruct (Hf i tot power factorial Nz) as [[C0 Ef]|(C1 & t & Ef & Et)]; rewrite Ef; cbn [rbind fst snd].
  - (* no term here *)
    replace (Z.of_nat i + 1)%Z with (Z.of_nat (S i)) by lia.
    assert (i <> S N) by (intros ->; apply (Hc N); auto).
    apply IH; try lia.
    + split; [|split; [|split]].
      * replace (Z.of_nat (S i)) with (Z.of_nat i + 1)%Z by lia. apply fact_next; exact If.
      * apply power_next; exact Ip.
      * rewrite psum_exp_S. cbn [psum pesum]. rewrite S_INR. unfold sterm. rewrite C0, Rmult_0_l, Rplus_0_r.
        pose proof (bterm_nonneg i).
        assert (0 <= delta * (B ^ i / INR (fact i))) by (apply Rmult_le_pos; lra).
        assert (0 <= (1 + delta) * (pe i / INR (fact i))) by (apply Rmult_le_pos; lra). lra.
      * exact Ig.
    + intros Q. inversion Q; subst. exact C0.
  - rewrite If in Et. set (p := rval power / INR (fact i)) in *.
    pose proof (round_err_R t (2 * nd) ltac:(lia)) as Rn. fold eps in Rn.
    set (nt := round t (2 * nd)) in *.
    destruct (deqb nt tot) eqn:D.
    + (* stop *)
      exists tot. split; [reflexivity|]. apply deqb_R in D. rewrite D in Rn.
      assert (Tt : Rabs (rval t - rval tot) <= eps) by (rewrite Rabs_minus_sym; exact Rn).
      assert (Cp : Rabs (c i * p) <= eps + delta * Rabs p).
      { replace (c i * p) with ((rval t - rval tot) - (rval t - rval tot - c i * p)) by ring.
        eapply Rle_trans; [apply Rabs_triang|]. rewrite Rabs_Ropp. lra. }
      set (T := Rabs X ^ i / INR (fact i)).
      assert (TX : T = Rabs (X ^ i / INR (fact i))).
      { unfold T, Rdiv. rewrite Rabs_mult, RPow_abs.
        rewrite (Rabs_pos_eq (/ _)); [reflexivity|]. apply Rlt_le, Rinv_0_lt_compat; exact Pf. }
      assert (TB : Rabs (c i) * T <= eps + delta * (B ^ i / INR (fact i)) + (1 + delta) * (pe i / INR (fact i))).
      { assert (Rabs (c i) * T <= Rabs (c i * p) + pe i / INR (fact i)).
        { rewrite TX, <- Rabs_mult. replace (c i * (X ^ i / INR (fact i))) with (c i * p - c i * (p - X ^ i / INR (fact i))) by ring.
          eapply Rle_trans; [apply Rabs_triang|]. rewrite Rabs_Ropp, (Rabs_mult (c i) (p - _)). pose proof (Rabs_pos (p - X ^ i / INR (fact i))). nra. }
        assert (delta * Rabs p <= delta * (B ^ i / INR (fact i) + pe i / INR (fact i))) by (apply Rmult_le_compat_l; lra). lra. }
      assert (T0 : 0 <= T) by (rewrite TX; apply Rabs_pos).
      assert (Cn : c i <> 0) by (intros Q; rewrite Q, Rabs_R0 in C1; lra).
      pose proof (HE (S i)) as HEi. rewrite psum_exp_S in HEi.
      pose proof (pesum_E (S i)) as PEi. cbn [pesum] in PEi.
      assert (W0 : 0 <= psum c_exp B i).
      { clear - HB. induction i as [|i IHi]; [cbn; lra|]. rewrite psum_exp_S.
        assert (0 <= B ^ i / INR (fact i)); [|lra].
        apply Rmult_le_pos; [apply pow_le; lra|]. apply Rlt_le, Rinv_0_lt_compat, fact_pos. }
      assert (V0 : 0 <= pesum i).
      { clear - HB Hnd. induction i as [|i IHi]; [cbn; lra|]. cbn [pesum].
        assert (0 <= pe i / INR (fact i)); [|lra].
        apply Rmult_le_pos; [apply pe_nonneg|]. apply Rlt_le, Rinv_0_lt_compat, fact_pos. }
      pose proof (bterm_nonneg i) as Bt.
      assert (T1 : T < 1).
      { assert (Q1 : Rabs (c i) * T < cm).
        { eapply Rle_lt_trans; [exact TB|]. eapply Rle_lt_trans; [|exact Hone].
          assert (delta * (B ^ i / INR (fact i)) <= delta * E) by (apply Rmult_le_compat_l; lra).
          assert ((1 + delta) * (pe i / INR (fact i)) <= (1 + delta) * (eps * E)) by (apply Rmult_le_compat_l; lra). lra. }
        pose proof (Hcm i Hi Cn) as Q2. destruct (Rlt_le_dec T 1) as [Q3|Q3]; [exact Q3|exfalso]. nra. }
      assert (Rt : 2 * Rabs X < INR (S i)) by (apply (small_term_ratio (Rabs X) i (Rabs_pos X)); exact T1).
      pose proof (limit_tail_C c X (Rabs (c i)) i (fun j Hj => Hmono i j Cn Hj) F HF ltac:(lra)) as L. fold T in L.
      unfold acc. rewrite plus_INR. replace (INR 3) with 3 by (cbn; ring).
      assert (In : INR i <= INR N + 1) by (rewrite <- S_INR; apply le_INR; lia).
      replace (rval tot - F) with ((rval tot - psum c X i) - (F - psum c X i)) by ring.
      eapply Rle_trans; [apply Rabs_triang|]. rewrite Rabs_Ropp.
      assert (M1 : delta * (psum c_exp B i + B ^ i / INR (fact i)) <= delta * E) by
        (apply Rmult_le_compat_l; lra).
      assert (M2 : (1 + delta) * (pesum i + pe i / INR (fact i)) <= (1 + delta) * (eps * E)) by
        (apply Rmult_le_compat_l; lra).
      assert (M3 : INR i * eps <= (INR N + 1) * eps) by (apply Rmult_le_compat_r; lra).
      assert (M4 : 0 <= delta * psum c_exp B i) by (apply Rmult_le_pos; lra).
      assert (M5 : 0 <= (1 + delta) * pesum i) by (apply Rmult_le_pos; lra).
      lra.
    + (* continue *)
      assert (Hlt : (i < N)%nat).
      { destruct (Nat.lt_ge_cases i N) as [L|L]; [exact L|exfalso].
        assert (S1 : (1 + delta) * (B ^ i / INR (fact i) + pe i / INR (fact i)) < eps) by (apply Hsmall; lia).
        assert (Tt : Rabs (rval t - rval tot) < eps).
        { replace (rval t - rval tot) with (c i * p + (rval t - rval tot - c i * p)) by ring.
          eapply Rle_lt_trans; [apply Rabs_triang|]. rewrite Rabs_mult. pose proof (Rabs_pos p).
          assert (Rabs (c i) * Rabs p <= 1 * Rabs p) by (apply Rmult_le_compat_r; lra). nra. }
        destruct Ig as [k0 G]. rewrite G in Tt. unfold eps in Tt.
        apply round_to_grid in Tt; [|lia]. fold nt in Tt. rewrite <- G in Tt. apply deqb_R in Tt. congruence. }
      destruct (30000 <? Z.of_nat i)%Z eqn:L; [apply Z.ltb_lt in L; lia|].
      replace (Z.of_nat i + 1)%Z with (Z.of_nat (S i)) by lia.
      apply IH; try lia. split; [|split; [|split]].
      * replace (Z.of_nat (S i)) with (Z.of_nat i + 1)%Z by lia. apply fact_next; exact If.
      * apply power_next; exact Ip.
      * rewrite psum_exp_S. cbn [psum pesum]. rewrite S_INR. unfold sterm.
        replace (rval nt - (psum c X i + c i * (X ^ i / INR (fact i)))) with
          ((rval tot - psum c X i) + ((rval nt - rval t) + ((rval t - rval tot - c i * p) + c i * (p - X ^ i / INR (fact i))))) by ring.
        eapply Rle_trans; [apply Rabs_triang|].
        assert (U1 := Rabs_triang (rval nt - rval t) ((rval t - rval tot - c i * p) + c i * (p - X ^ i / INR (fact i)))).
        assert (U2 := Rabs_triang (rval t - rval tot - c i * p) (c i * (p - X ^ i / INR (fact i)))).
        rewrite (Rabs_mult (c i)) in U2.
        assert (U4 : Rabs (c i) * Rabs (p - X ^ i / INR (fact i)) <= 1 * Rabs (p - X ^ i / INR (fact i))) by (apply Rmult_le_compat_r; [apply Rabs_pos|lra]).
        assert (U3 : delta * Rabs p <= delta * (B ^ i / INR (fact i) + pe i / INR (fact i))) by
          (apply Rmult_le_compat_l; lra).
        lra.
      * unfold nt. apply round_grid_R. lia.
Qed.

Theorem mac_accuracy :
  exists r, maclaurin x nd f tt = Ok r /\ Rabs (rval r - F) <= acc + / 2 * r10 (- (nd + 1)).
Proof.
  destruct (loop_acc mac_fuel 0 dzero done done) as (t & T & A).
  - split; [|split; [|split]].
    + unfold done. rewrite rval_bigd. reflexivity.
    + unfold done. rewrite rval_bigd. cbn. replace (1 - 1) with 0 by ring. rewrite Rabs_R0. lra.
    + unfold dzero. rewrite rval_bigd. cbn. replace (0 - 0) with 0 by ring. rewrite Rabs_R0. lra.
    + exists 0%Z. unfold dzero. rewrite rval_bigd. ring.
  - lia.
  - discriminate.
  - unfold mac_fuel.
    apply Nat2Z.inj_lt. rewrite Z2Nat.id by lia. lia.
  - exists (normalized (round t (nd + 1))). unfold maclaurin. change (Z.of_nat 0) with 0%Z in T. rewrite T. split; [reflexivity|].
    rewrite rval_normalized. pose proof (round_err_R t (nd + 1) ltac:(lia)) as R.
    replace (rval (round t (nd + 1)) - F) with ((rval (round t (nd + 1)) - rval t) + (rval t - F)) by ring.
    eapply Rle_trans; [apply Rabs_triang|]. lra.
Qed.
End Mac.
