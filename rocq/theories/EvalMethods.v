(** The methods of the evaluator that are not series. *)
From Coq Require Import ZArith QArith Qabs Reals String List Bool Lia Lra Lqa.
From Verif Require Import Res Dec DecFacts RFacts Syntax Trans TransParse BdMath Eval EvalSpec EvalFacts EvalSafe LnFacts EvalFunctions TrigAcc.
Import ListNotations.
Open Scope string_scope.
Open Scope list_scope.
Open Scope Q_scope.

(** ** Specification *)
Definition sign (q : Q) : Q := match (q ?= 0) with Lt => -1 | Eq => 0 | Gt => 1 end.

Lemma dval_sign x : (dval x ?= 0) = (mant x ?= 0)%Z.
Proof.
  unfold dval. pose proof (p10_pos (- scale x)) as P. destruct (Z.compare_spec (mant x) 0) as [E|E|E].
  - apply Qeq_alt. rewrite E. ring.
  - apply Qlt_alt. assert (inject_Z (mant x) < 0) by (change 0 with (inject_Z 0); rewrite <- Zlt_Qlt; exact E).
    setoid_replace 0 with (0 * p10 (- scale x)) by ring. apply Qmult_lt_compat_r; assumption.
  - apply Qgt_alt. assert (0 < inject_Z (mant x)) by (change 0 with (inject_Z 0); rewrite <- Zlt_Qlt; exact E).
    setoid_replace 0 with (0 * p10 (- scale x)) by ring. apply Qmult_lt_compat_r; assumption.
Qed.
Lemma dval_dsignum x : dval (dsignum x) == sign (dval x).
Proof.
  unfold sign. rewrite dval_sign. unfold dsignum, dval. cbn [mant scale Z.opp]. rewrite p10_0.
  destruct (mant x); reflexivity.
Qed.

Section M.
  Variables (o : oracles) (fuel : nat) (n : Z).
  Lemma eval_abs a x t : evals o fuel n a x -> exists z, evals o fuel n (EMethodCall a "abs" t []) z /\ dval z == Qabs (dval x).
  Proof.
    intros A. destruct (eval_method0_ok o fuel n a x "abs" t (dabs x) A eq_refl) as (z & E & V). exists z. split; [exact E|].
    rewrite V. apply dval_dabs.
  Qed.
  Lemma eval_signum a x t : evals o fuel n a x -> exists z, evals o fuel n (EMethodCall a "signum" t []) z /\ dval z == sign (dval x).
  Proof.
    intros A. destruct (eval_method0_ok o fuel n a x "signum" t (dsignum x) A eq_refl) as (z & E & V). exists z. split; [exact E|].
    rewrite V. apply dval_dsignum.
  Qed.
  Lemma eval_round a x t : evals o fuel n a x -> exists z, evals o fuel n (EMethodCall a "round" t []) z /\ is_round_half_away (dval x) 0 (dval z).
  Proof.
    intros A. destruct (eval_method0_ok o fuel n a x "round" t (round x 0) A eq_refl) as (z & E & V). exists z. split; [exact E|].
    eapply is_round_wd; [reflexivity|symmetry; exact V|]. apply round_spec. lia.
  Qed.
  Lemma eval_recip a x t : evals o fuel n a x -> exists z, evals o fuel n (EMethodCall a "recip" t []) z /\ dval z == dval (o_inverse o x).
  Proof.
    intros A. exact (eval_method0_ok o fuel n a x "recip" t (o_inverse o x) A eq_refl).
  Qed.
  Lemma eval_sqrt a x t : sqrt_good o -> evals o fuel n a x -> (0 <= rval x)%R ->
    exists z, evals o fuel n (EMethodCall a "sqrt" t []) z /\ (Rabs (rval z - sqrt (rval x)) <= r10 (-96) * sqrt (rval x))%R.
  Proof.
    intros G A P. destruct (G x P) as (r & R & C).
    destruct (eval_method0_ok o fuel n a x "sqrt" t r A) as (z & E & V).
    { change (eval_call o fuel n "sqrt" x []) with (ok_or CouldNotEvaluate (o_sqrt o x)). rewrite R. reflexivity. }
    exists z. split; [exact E|]. rewrite (rval_wd z r V). exact C.
  Qed.
  Lemma eval_sqrt_none a x t : evals o fuel n a x -> o_sqrt o x = None -> eval o fuel n (EMethodCall a "sqrt" t []) = Err CouldNotEvaluate.
  Proof.
    intros A R. rewrite (eval_method0 o fuel n a x "sqrt" t A).
    change (eval_call o fuel n "sqrt" x []) with (ok_or CouldNotEvaluate (o_sqrt o x)). rewrite R. reflexivity.
  Qed.
End M.

(** ** The domain of [qnorm] *)
Lemma odds_sign x q : ddiv x (dsub done x) = Ok q -> (dval q <= 0 <-> dval x <= 0 \/ 1 < dval x).
Proof.
  intros D. assert (N : ~ dval (dsub done x) == 0). { intros Z. apply (ddiv_panic x) in Z. congruence. }
  pose proof (ddiv_err _ _ _ D) as E. rewrite dval_dsub in N, E.
  assert (D1 : dval done == 1) by (unfold dval, done, bigd; cbn [mant scale Z.opp]; rewrite p10_0; reflexivity).
  rewrite D1 in N, E. set (X := dval x) in *. set (Qv := dval q) in *.
  pose proof (p10_pos (-99)) as P. assert (P1 : p10 (-99) <= 1) by (change 1 with (p10 0); apply p10_mono; lia).
  set (c := (1 # 2) * p10 (-99)) in *. assert (C : 0 < c <= 1 # 2) by (unfold c; split; lra).
  set (r := X / (1 - X)) in *. apply Qabs_Qle_condition in E.
  assert (K : Qv <= 0 <-> r <= 0).
  { destruct (Qlt_le_dec 0 r) as [H|H].
    - rewrite Qabs_pos in E by lra. assert (c * r <= (1 # 2) * r) by (apply Qmult_le_compat_r; lra). split; intros; lra.
    - rewrite Qabs_neg in E by lra. assert (c * - r <= (1 # 2) * - r) by (apply Qmult_le_compat_r; lra). split; intros; lra. }
  rewrite K. unfold r. destruct (Qlt_le_dec 1 X) as [H|H].
  - split; [intros _; right; exact H|intros _]. setoid_replace (X / (1 - X)) with (- (X / (X - 1))) by (field; split; lra).
    assert (0 < X / (X - 1)) by (apply Qlt_shift_div_l; lra). lra.
  - assert (X < 1). { apply Qnot_le_lt. intros H2. apply N. lra. }
    split.
    + intros R. left. apply Qnot_lt_le. intros Xp. assert (0 < X / (1 - X)) by (apply Qlt_shift_div_l; lra). lra.
    + intros [R|R]; [|lra]. apply Qle_shift_div_r; lra.
Qed.

Lemma qnorm_domain o fuel x m s n :
  (dval x == 1 -> bqnorm o fuel x m s n = Panic) /\
  (bqnorm o fuel x m s n = Ok None <-> dval x <= 0 \/ 1 < dval x) /\
  (forall r, bqnorm o fuel x m s n = Ok (Some r) -> 0 < dval x < 1).
Proof.
  assert (D1 : dval done == 1) by (unfold dval, done, bigd; cbn [mant scale Z.opp]; rewrite p10_0; reflexivity).
  unfold bqnorm. destruct (ddiv x (dsub done x)) as [q|e|] eqn:D; cbn [rbind].
  - assert (N : ~ dval x == 1). { intros Z. assert (ddiv x (dsub done x) = Panic) by (apply ddiv_panic; rewrite dval_dsub, D1, Z; reflexivity). congruence. }
    pose proof (odds_sign x q D) as S. pose proof (bln_domain fuel q n) as L. split; [intros Z; contradiction|].
    destruct (bln fuel q n) as [[v|]|e|]; cbn [rbind].
    + assert (~ (dval x <= 0 \/ 1 < dval x)) by (intros Z; apply S, L in Z; discriminate).
      destruct (qnorm_loop o fuel x m s n dzero64) as [g| |]; cbn [rbind]; (split; [split; [discriminate|contradiction]|]); intros r R; try discriminate R.
      split; [apply Qnot_le_lt; intros Z; apply H; auto|]. apply Qnot_le_lt. intros Z. apply H. right.
      apply Qle_lteq in Z. destruct Z as [Z|Z]; [exact Z|]. exfalso. apply N. symmetry. exact Z.
    + split; [split; [intros _; apply S, L; reflexivity|reflexivity]|discriminate].
    + split; [split; [discriminate|intros Z; apply S, L in Z; discriminate]|discriminate].
    + split; [split; [discriminate|intros Z; apply S, L in Z; discriminate]|discriminate].
  - exfalso. destruct (Qeq_dec (dval (dsub done x)) 0) as [Z|Z]; [apply (ddiv_panic x) in Z; congruence|destruct (ddiv_ok x _ Z) as [z E]; congruence].
  - apply ddiv_panic in D. rewrite dval_dsub, D1 in D. split; [reflexivity|]. split; [split; [discriminate|intros [Z|Z]; lra]|discriminate].
Qed.
