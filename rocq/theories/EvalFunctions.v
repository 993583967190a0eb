(** The evaluator's function calls, through the accuracy and domain results. *)
From Coq Require Import ZArith QArith Qabs Qreals Reals List Bool String Lia.
From Verif Require Import Res Dec DecFacts RFacts Syntax Trans ExprOps BdMath Eval EvalSpec EvalFacts EvalSafe
  TransParse Accuracy PiFacts LnFacts SymFacts.
Import ListNotations.
Open Scope string_scope.

Lemma rval_wd x y : (dval x == dval y)%Q -> rval x = rval y.
Proof. intros H. unfold rval. apply Qeq_eqR. exact H. Qed.
Lemma within_wd n x y r : (dval x == dval y)%Q -> within n y r -> within n x r.
Proof. intros H. unfold within. rewrite (rval_wd x y H). auto. Qed.

(** The only error inside is the model's own cut-off. *)
Definition only_fuel {A} (r : res A) : Prop := forall e, r = Err e -> e = OutOfFuel.
Lemma of_ok {A} (a : A) : only_fuel (Ok a).
Proof. intros e H. discriminate. Qed.
Lemma of_panic {A} : only_fuel (@Panic A).
Proof. intros e H. discriminate. Qed.
Lemma of_bind {A B} (r : res A) (f : A -> res B) : only_fuel r -> (forall a, only_fuel (f a)) -> only_fuel (rbind r f).
Proof. intros H F. destruct r as [a|e|]; cbn [rbind]; [apply F| |apply of_panic]. intros e' E. apply H. inversion E. reflexivity. Qed.
Lemma of_ddiv x y : only_fuel (ddiv x y).
Proof. intros e. unfold ddiv. destruct (mant y =? 0)%Z; [discriminate|]. repeat match goal with |- (if ?c then _ else _) = _ -> _ => destruct c end; discriminate. Qed.
Lemma of_mac {S} (f : Z -> bd -> bd -> bd -> S -> res (option bd * S)) :
  (forall i t p q s, only_fuel (f i t p q s)) -> forall x nd s, only_fuel (maclaurin x nd f s).
Proof.
  intros Hf x nd s.
  assert (L : forall k s i t p q, only_fuel (mac_loop k x nd f i t p q s)).
  { induction k as [|k IH]; intros s' i t p q; cbn [mac_loop].
    - intros e H. inversion H. reflexivity.
    - apply of_bind; [apply Hf|]. intros [r s2]. cbn [fst snd]. destruct r as [v|]; [|apply IH].
      destruct (deqb _ _); [apply of_ok|]. destruct (30000 <? i)%Z; [apply of_panic|]. apply IH. }
  unfold maclaurin. apply of_bind; [apply L|intros; apply of_ok].
Qed.
Lemma of_pure f : (forall i t p q, only_fuel (f i t p q)) -> forall i t p q s, only_fuel (pure_term f i t p q s).
Proof. intros H i t p q s. unfold pure_term. apply of_bind; [apply H|]. intros. apply of_ok. Qed.
Lemma of_exp x nd : only_fuel (bexp x nd).
Proof. apply of_mac. apply of_pure. intros i t p q. unfold exp_term. apply of_bind; [apply of_ddiv|]. intros. apply of_ok. Qed.
Lemma bln_err fuel x nd : only_fuel (bln fuel x nd).
Proof.
  assert (U : forall k l s x e, only_fuel (ln_up k l s x e)).
  { induction k as [|k IH]; intros; cbn [ln_up]; [intros e' H; inversion H; reflexivity|]. destruct (dleb _ _); [apply IH|apply of_ok]. }
  assert (D : forall k l s x e, only_fuel (ln_down k l s x e)).
  { induction k as [|k IH]; intros; cbn [ln_down]; [intros e' H; inversion H; reflexivity|]. destruct (dleb _ _); [apply IH|apply of_ok]. }
  unfold bln. destruct (_ || _); [apply of_ok|]. destruct (dleb _ _).
  all: apply of_bind; [apply of_exp|intros ?]; apply of_bind; [apply of_exp|intros ?];
    (apply of_bind; [first [apply U|apply D]|intros ?]); (apply of_bind; [|intros; apply of_ok]).
  all: apply of_mac; apply of_pure; intros i t p q; unfold ln_up_term, ln_down_term; destruct (i =? 0)%Z; try apply of_ok;
    (apply of_bind; [apply of_ddiv|intros; apply of_ok]).
Qed.

Section E.
Variables (o : oracles) (fuel : nat) (n : Z).

Lemma eval_exp_ok a x : (1 <= n <= 98)%Z -> evals o fuel n a x -> (Rabs (rval x) <= IZR (range_at n))%R ->
  exists y, evals o fuel n (EMethodCall a "exp" None []) y /\ within n y (exp (rval x)).
Proof.
  intros N A X. destruct (bexp_ok _ _ _ x (acc_range n N) X) as (r & R & W).
  destruct (eval_method0_ok o fuel n a x "exp" None r A R) as (z & Z & V). exists z. split; [exact Z|]. exact (within_wd n z r _ V W).
Qed.
Lemma eval_sin_ok a x : (1 <= n <= 98)%Z -> evals o fuel n a x -> (Rabs (rval x) <= IZR (range_at n))%R ->
  exists y, evals o fuel n (EMethodCall a "sin" None []) y /\ within n y (sin (rval x)).
Proof.
  intros N A X. destruct (bsin_ok _ _ _ x (acc_range n N) X) as (r & R & W).
  destruct (eval_method0_ok o fuel n a x "sin" None r A R) as (z & Z & V). exists z. split; [exact Z|]. exact (within_wd n z r _ V W).
Qed.
Lemma eval_cos_ok a x : (1 <= n <= 98)%Z -> evals o fuel n a x -> (Rabs (rval x) <= IZR (range_at n))%R ->
  exists y, evals o fuel n (EMethodCall a "cos" None []) y /\ within n y (cos (rval x)).
Proof.
  intros N A X. destruct (bcos_ok _ _ _ x (acc_range n N) X) as (r & R & W).
  destruct (eval_method0_ok o fuel n a x "cos" None r A R) as (z & Z & V). exists z. split; [exact Z|]. exact (within_wd n z r _ V W).
Qed.
Lemma eval_pi_ok : (n < 100)%Z ->
  exists x, evals o fuel n (EPath ["PI"]) x /\ (Rabs (rval x - PI) <= / 2 * r10 (- n))%R.
Proof.
  intros N. destruct (bpi_ok o n N) as (r & R & W).
  destruct (evals_of_bd o fuel n r (EPath ["PI"])) as (z & Z & V).
  { change (eval o fuel n (EPath ["PI"])) with (let? x := bpi o n in expr_of_bd x). rewrite R. reflexivity. }
  exists z. split; [exact Z|]. rewrite (rval_wd z r V). exact W.
Qed.

(** One-argument methods that need a logarithm of the receiver. *)
Lemma eval_ln_fails a x m t : evals o fuel n a x -> In m ["ln"; "log2"; "log10"] -> (dval x <= 0)%Q ->
  match eval o fuel n (EMethodCall a m t []) with Ok _ => False | _ => True end.
Proof.
  intros A M X. rewrite (eval_method0 o fuel n a x m t A).
  cbn [In] in M. destruct M as [M|[M|[M|[]]]]; subst m.
  - change (eval_call o fuel n "ln" x []) with (let? v := bln fuel x n in ok_or CouldNotEvaluate v).
    rewrite (bln_nonpos fuel x n X). exact I.
  - change (eval_call o fuel n "log2" x []) with (let? v := blog fuel x dtwo n in ok_or CouldNotEvaluate v).
    destruct (blog fuel x dtwo n) as [r| |] eqn:E; try exact I. apply blog_domain in E.
    destruct E as [_ E]. rewrite E by (left; exact X). exact I.
  - change (eval_call o fuel n "log10" x []) with (let? v := blog fuel x (bigd 10) n in ok_or CouldNotEvaluate v).
    destruct (blog fuel x (bigd 10) n) as [r| |] eqn:E; try exact I. apply blog_domain in E.
    destruct E as [_ E]. rewrite E by (left; exact X). exact I.
Qed.
Lemma eval_ln_exact a x t : evals o fuel n a x ->
  (eval o fuel n (EMethodCall a "ln" t []) = Err CouldNotEvaluate <-> (dval x <= 0)%Q).
Proof.
  intros A. rewrite (eval_method0 o fuel n a x "ln" t A).
  change (eval_call o fuel n "ln" x []) with (let? v := bln fuel x n in ok_or CouldNotEvaluate v).
  pose proof (bln_domain fuel x n) as D. pose proof (bln_err fuel x n) as F.
  destruct (bln fuel x n) as [[v|]|e|] eqn:E; cbn [rbind ok_or].
  - destruct (expr_of_bd_ok v) as (r & z & R & _). rewrite R. split; [discriminate|].
    intros H. apply D in H. discriminate.
  - split; [intros _; apply D; reflexivity|reflexivity].
  - rewrite (F e eq_refl). split; [discriminate|]. intros H. apply D in H. discriminate.
  - split; [discriminate|]. intros H. apply D in H. discriminate.
Qed.
Lemma eval_pow_fails a x b y m t : evals o fuel n a x -> evals o fuel n b y -> In m ["powi"; "powf"] ->
  (dval x <= 0)%Q -> eval o fuel n (EMethodCall a m t [b]) = Err CouldNotEvaluate.
Proof.
  intros A B M X. rewrite (eval_method1 o fuel n a x b y m t A B).
  cbn [In] in M. destruct M as [M|[M|[]]]; subst m.
  - change (eval_call o fuel n "powi" x [y]) with (let? v := bpow fuel x y n in ok_or CouldNotEvaluate v).
    rewrite (proj2 (bpow_domain fuel x y n) X). reflexivity.
  - change (eval_call o fuel n "powf" x [y]) with (let? v := bpow fuel x y n in ok_or CouldNotEvaluate v).
    rewrite (proj2 (bpow_domain fuel x y n) X). reflexivity.
Qed.

Lemma eval_asin_panic a x : (n < 100)%Z -> (forall y, (dval y < 0)%Q -> o_sqrt o y = None) ->
  evals o fuel n a x -> (1 < Qabs (dval x))%Q -> eval o fuel n (EMethodCall a "asin" None []) = Panic.
Proof.
  intros N S A X. rewrite (eval_method0 o fuel n a x "asin" None A).
  change (eval_call o fuel n "asin" x []) with (basin o x n). rewrite basin_panic; [reflexivity|exact N|exact S|].
  unfold rval. rewrite <- Q2R_abs. replace 1%R with (Q2R 1) by (unfold Q2R; cbn; field). apply Qlt_Rlt. exact X.
Qed.
End E.

Lemma eval_panics :
  eval no_oracles 0 5 (EBinary BDiv (ELit (LInt "1" "")) (ELit (LInt "0" ""))) = Panic /\
  eval no_oracles 10 1 (EMethodCall (ELit (LInt "2" "")) "log" None [ELit (LInt "1" "")]) = Panic /\
  eval no_oracles 0 5 (EMethodCall (ELit (LInt "2" "")) "dnorm" None [ELit (LInt "0" ""); ELit (LInt "0" "")]) = Panic /\
  eval no_oracles 0 5 (EMethodCall (ELit (LInt "1" "")) "qnorm" None [ELit (LInt "0" ""); ELit (LInt "1" "")]) = Panic /\
  eval no_oracles 0 5 (EUnary UNeg (ELit (LFloat "1e99999999999999999999" ""))) = Panic.
Proof. repeat split; vm_compute; reflexivity. Qed.

