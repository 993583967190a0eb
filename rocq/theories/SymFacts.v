(** Odd and even functions of BdMath.v: exact symmetry of computed results. *)
From Coq Require Import ZArith QArith List Bool Lia.
From Verif Require Import Res Dec DecFacts BdMath.
Import ListNotations.
Open Scope Z_scope.

Definition flip (i : Z) (p : bd) : bd := if Z.odd i then dneg p else p.

Lemma deqb_neg x y : deqb (dneg x) (dneg y) = deqb x y.
Proof.
  apply eq_true_iff_eq. rewrite !deqb_spec, !dval_dneg. split; intros H.
  - rewrite <- (Qopp_involutive (dval x)), H. apply Qopp_involutive.
  - rewrite H. reflexivity.
Qed.

Lemma flip_next i p x : dmul (flip i p) (dneg x) = flip (i + 1) (dmul p x).
Proof.
  unfold flip. rewrite Z.add_1_r, Z.odd_succ, <- Z.negb_odd. destruct (Z.odd i); cbn [negb].
  - rewrite dmul_neg_l, dmul_neg_r. apply dneg_invol.
  - apply dmul_neg_r.
Qed.
Lemma flip_round i p n : round (flip i p) n = flip i (round p n).
Proof. unfold flip. destruct (Z.odd i); [apply round_neg|reflexivity]. Qed.

Section Sim.
Context {S : Type}.
Variable f : Z -> bd -> bd -> bd -> S -> res (option bd * S).

Definition odd_terms : Prop := forall i tot power fact s,
  f i (dneg tot) (flip i power) fact s =
  rmap (fun r => (option_map dneg (fst r), snd r)) (f i tot power fact s).
Definition even_terms : Prop := forall i tot power fact s,
  f i tot (flip i power) fact s = f i tot power fact s.

Lemma mac_loop_odd : odd_terms -> forall k x nd i tot power fact s,
  mac_loop k (dneg x) nd f i (dneg tot) (flip i power) fact s =
  rmap dneg (mac_loop k x nd f i tot power fact s).
Proof.
  intros H k. induction k as [|k IH]; intros x nd i tot power fact s; [reflexivity|].
  cbn [mac_loop]. rewrite H. destruct (f i tot power fact s) as [[t s']| |]; cbn [rmap rbind fst snd]; try reflexivity.
  rewrite flip_next, flip_round. destruct t as [t|]; cbn [option_map].
  - rewrite round_neg, deqb_neg. destruct (deqb _ _); [reflexivity|]. destruct (30000 <? i); [reflexivity|]. apply IH.
  - apply IH.
Qed.

Lemma mac_loop_even : even_terms -> forall k x nd i tot power fact s,
  mac_loop k (dneg x) nd f i tot (flip i power) fact s = mac_loop k x nd f i tot power fact s.
Proof.
  intros H k. induction k as [|k IH]; intros x nd i tot power fact s; [reflexivity|].
  cbn [mac_loop]. rewrite H. destruct (f i tot power fact s) as [[t s']| |]; cbn [rmap rbind fst snd]; try reflexivity.
  rewrite flip_next, flip_round. destruct t as [t|]; [|apply IH].
  destruct (deqb _ _); [reflexivity|]. destruct (30000 <? i); [reflexivity|]. apply IH.
Qed.

Lemma maclaurin_odd x nd s : odd_terms -> maclaurin (dneg x) nd f s = rmap dneg (maclaurin x nd f s).
Proof.
  intros H. unfold maclaurin. pose proof (mac_loop_odd H mac_fuel x nd 0 dzero done done s) as E.
  change (flip 0 done) with done in E. change (dneg dzero) with dzero in E. rewrite E.
  destruct (mac_loop mac_fuel x nd f 0 dzero done done s); cbn [rmap rbind]; try reflexivity.
  rewrite round_neg, normalized_neg. reflexivity.
Qed.
Lemma maclaurin_even x nd s : even_terms -> maclaurin (dneg x) nd f s = maclaurin x nd f s.
Proof.
  intros H. unfold maclaurin. pose proof (mac_loop_even H mac_fuel x nd 0 dzero done done s) as E.
  change (flip 0 done) with done in E. rewrite E. reflexivity.
Qed.
End Sim.

Lemma land3_odd i : Z.odd (Z.land i 3) = Z.odd i.
Proof. rewrite <- !Z.bit0_odd, Z.land_spec. cbn. apply andb_true_r. Qed.
Lemma land1_odd i : Z.land i 1 =? 0 = negb (Z.odd i).
Proof.
  change 1 with (Z.ones 1). rewrite Z.land_ones by lia. change (2 ^ 1) with 2. rewrite Zmod_odd.
  destruct (Z.odd i); reflexivity.
Qed.
Lemma land3_cases i : Z.land i 3 = 0 \/ Z.land i 3 = 1 \/ Z.land i 3 = 2 \/ Z.land i 3 = 3.
Proof. change 3 with (Z.ones 2) at 1 2 3 4. rewrite Z.land_ones by lia. pose proof (Z.mod_pos_bound i (2^2)). lia. Qed.

Lemma dsub_neg x y : dsub (dneg x) (dneg y) = dneg (dsub x y).
Proof. rewrite !dsub_as_add, dneg_invol. rewrite <- (dneg_invol y) at 1. rewrite dadd_neg. reflexivity. Qed.

Ltac odd_case i :=
  let O := fresh "O" in
  destruct (land3_cases i) as [O|[O|[O|O]]];
  pose proof (land3_odd i) as P; rewrite O in P; cbn in P;
  unfold flip; rewrite <- P, O; clear P.

Lemma sin_odd : odd_terms (pure_term sin_term).
Proof.
  intros i tot power fact s. unfold pure_term, sin_term. odd_case i; try reflexivity.
  - rewrite ddiv_neg_l. destruct (ddiv power fact); cbn; try reflexivity. rewrite dadd_neg. reflexivity.
  - rewrite ddiv_neg_l. destruct (ddiv power fact); cbn; try reflexivity. rewrite dsub_neg. reflexivity.
Qed.
Lemma cos_even : even_terms (pure_term cos_term).
Proof. intros i tot power fact s. unfold pure_term, cos_term. odd_case i; reflexivity. Qed.

Lemma atan_odd : odd_terms (pure_term atan_term).
Proof.
  intros i tot power fact s. unfold pure_term, atan_term, flip. rewrite land1_odd.
  destruct (Z.odd i); cbn [negb]; [|reflexivity].
  rewrite ddiv_neg_l. destruct (ddiv power _); cbn; try reflexivity. rewrite dadd_neg. reflexivity.
Qed.
Lemma asin_odd : odd_terms asin_term.
Proof.
  intros i tot power fact [numer denom]. unfold asin_term, flip. rewrite land1_odd.
  destruct (Z.odd i); cbn [negb]; [|reflexivity].
  rewrite dmul_neg_l, ddiv_neg_l. destruct (ddiv (dmul power numer) denom); cbn; try reflexivity.
  rewrite ddiv_neg_l. destruct (ddiv a (bigd i)); cbn; try reflexivity. rewrite dadd_neg. reflexivity.
Qed.

Lemma dmul_neg_neg x : dmul (dneg x) (dneg x) = dmul x x.
Proof. rewrite dmul_neg_l, dmul_neg_r, dneg_invol. reflexivity. Qed.
Lemma dabs_neg x : dabs (dneg x) = dabs x.
Proof. unfold dabs, dneg. cbn. rewrite Z.abs_opp. reflexivity. Qed.
Lemma dsignum_neg x : dsignum (dneg x) = dneg (dsignum x).
Proof. unfold dsignum, dneg. cbn. rewrite Z.sgn_opp. reflexivity. Qed.

Theorem bsin_odd x nd : bsin (dneg x) nd = rmap dneg (bsin x nd).
Proof. apply maclaurin_odd, sin_odd. Qed.
Theorem bcos_even x nd : bcos (dneg x) nd = bcos x nd.
Proof. apply maclaurin_even, cos_even. Qed.
Theorem btan_odd x nd : btan (dneg x) nd = rmap dneg (btan x nd).
Proof.
  unfold btan. rewrite bsin_odd, bcos_even. destruct (bsin x nd); cbn; try reflexivity.
  destruct (bcos x nd); cbn; try reflexivity. apply ddiv_neg_l.
Qed.

Theorem batan_odd o x nd : batan o (dneg x) nd = rmap dneg (batan o x nd).
Proof.
  unfold batan. generalize 16%nat. intros k. revert x. induction k as [|k IH]; intros x; [reflexivity|].
  cbn [batan_rec]. rewrite dabs_neg, dmul_neg_neg. destruct (dltb dhalf (dabs x)).
  - destruct (expect _); cbn [rbind]; try reflexivity. rewrite ddiv_neg_l.
    destruct (ddiv x _); cbn [rbind rmap]; try reflexivity. rewrite IH.
    destruct (batan_rec o k a0 nd); cbn [rbind rmap]; try reflexivity. rewrite dmul_neg_l. reflexivity.
  - apply maclaurin_odd, atan_odd.
Qed.

Theorem basin_odd o x nd : basin o (dneg x) nd = rmap dneg (basin o x nd).
Proof.
  unfold basin. rewrite dabs_neg, dmul_neg_neg, dsignum_neg. destruct (dltb dhalf (dabs x)).
  - destruct (bpi o nd); cbn [rbind rmap]; try reflexivity. destruct (expect _); cbn [rbind rmap]; try reflexivity.
    destruct (ddiv _ _); cbn [rbind rmap]; try reflexivity. destruct (batan _ _ _); cbn [rbind rmap]; try reflexivity.
    rewrite dmul_neg_r. reflexivity.
  - apply maclaurin_odd, asin_odd.
Qed.

Theorem berf_odd o x nd : berf o (dneg x) nd = rmap dneg (berf o x nd).
Proof.
  unfold berf. rewrite dmul_neg_neg. destruct (bpi o nd); cbn [rbind rmap]; try reflexivity.
  destruct (expect _); cbn [rbind rmap]; try reflexivity. destruct (ddiv _ _); cbn [rbind rmap]; try reflexivity.
  destruct (maclaurin _ _ _ _); cbn [rbind rmap]; try reflexivity. rewrite dmul_neg_r, dmul_neg_l. reflexivity.
Qed.
