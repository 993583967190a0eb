(** The evaluator's calls of ln, log, pow, tan, asin, acos and atan, through the
    accuracy results; a square root that meets [sqrt_good]. *)
From Coq Require Import ZArith QArith Qreals Reals Lra Lia List Bool String.
From Verif Require Import Res Dec DecFacts RFacts Syntax Trans ExprOps BdMath Eval EvalSpec EvalFacts EvalSafe EvalFunctions
  Accuracy FunctionCases LnAcc TrigAcc.
Import ListNotations.
Open Scope string_scope.
Open Scope R_scope.

(** ** Bases *)
Lemma base_ok b nd : (2 <= nd)%Z -> / 40 <= Rabs (ln b) -> ln_err b nd <= Rabs (ln b) / 2.
Proof.
  intros Hn H. unfold ln_err. destruct (r10_cent nd Hn) as [A B]. set (u := r10 (- nd)) in *. set (l := Rabs (ln b)) in *.
  assert ((1 + 5 * l) * u <= (1 + 5 * l) * / 100) by (apply Rmult_le_compat_l; lra). lra.
Qed.
Lemma ln_2_bounds : / 2 <= ln 2 <= 0.9.
Proof.
  split; [left; apply ln_lt_2|]. rewrite <- (ln_exp 0.9). left. apply ln_increasing; [lra|].
  pose proof (exp_ineq1_le 0.45) as E. replace 0.9 with (0.45 + 0.45) by lra. rewrite exp_plus. nra.
Qed.
Lemma ln_10_big : / 40 <= Rabs (ln 10).
Proof.
  pose proof ln_2_bounds as B. assert (ln 2 < ln 10) by (apply ln_increasing; lra). rewrite Rabs_pos_eq; lra.
Qed.
Lemma ln_2_big : / 40 <= Rabs (ln 2).
Proof. pose proof ln_2_bounds as B. rewrite Rabs_pos_eq; lra. Qed.
Lemma exp2_range nd y : (2 <= nd)%Z -> Rabs y <= IZR (range_at nd) -> Rabs y * (Rabs (ln 2) + ln_err 2 nd) <= IZR (range_at nd).
Proof.
  intros Hn H. pose proof ln_2_bounds as B. destruct (r10_cent nd Hn) as [U0 U1]. unfold ln_err. rewrite (Rabs_pos_eq (ln 2)) by lra.
  pose proof (Rabs_pos y). assert ((1 + 5 * ln 2) * r10 (- nd) <= (1 + 5 * ln 2) * / 100) by (apply Rmult_le_compat_l; lra).
  assert (Rabs y * (ln 2 + (1 + 5 * ln 2) * r10 (- nd)) <= Rabs y * 1) by (apply Rmult_le_compat_l; lra). lra.
Qed.

(** Evaluation terminates with a value in [P], given enough iterations. *)
Definition eval_value (o : oracles) (n : Z) (e : expr) (P : R -> Prop) : Prop :=
  exists F, forall fuel, (F <= fuel)%nat -> exists y, evals o fuel n e y /\ P (rval y).
(** [e] evaluates to [x]. *)
Definition always (o : oracles) (n : Z) (e : expr) (x : bd) : Prop :=
  exists F, forall fuel, (F <= fuel)%nat -> evals o fuel n e x.

Section V.
Variables (o : oracles) (n : Z).
Hypothesis Hn : (2 <= n <= 94)%Z.

Lemma some_value (P : R -> Prop) a x m t : always o n a x ->
  (exists F, forall fuel, (F <= fuel)%nat -> exists r, eval_call o fuel n m x [] = Ok r /\ P (rval r)) ->
  eval_value o n (EMethodCall a m t []) P.
Proof.
  intros [F1 A] [F2 B]. exists (Nat.max F1 F2). intros fuel Hf. destruct (B fuel ltac:(lia)) as (r & R & W).
  destruct (eval_method0_ok o fuel n a x m t r (A fuel ltac:(lia)) R) as (z & Z & V). exists z. split; [exact Z|].
  rewrite (rval_wd z r V). exact W.
Qed.
Lemma some_value1 (P : R -> Prop) a x b y m t : always o n a x -> always o n b y ->
  (exists F, forall fuel, (F <= fuel)%nat -> exists r, eval_call o fuel n m x [y] = Ok r /\ P (rval r)) ->
  eval_value o n (EMethodCall a m t [b]) P.
Proof.
  intros [F1 A] [F3 A3] [F2 B]. exists (Nat.max F3 (Nat.max F1 F2)). intros fuel Hf. destruct (B fuel ltac:(lia)) as (r & R & W).
  destruct (evals_of_bd o fuel n r (EMethodCall a m t [b])) as (z & Z & V).
  { rewrite (eval_method1 o fuel n a x b y m t (A fuel ltac:(lia)) (A3 fuel ltac:(lia))), R. reflexivity. }
  exists z. split; [exact Z|]. rewrite (rval_wd z r V). exact W.
Qed.

Lemma eval_ln_value a x t : always o n a x -> 0 < rval x ->
  eval_value o n (EMethodCall a "ln" t []) (fun y => Rabs (y - ln (rval x)) <= ln_err (rval x) n).
Proof.
  intros A X. apply (some_value _ a x); [exact A|]. destruct (bln_accurate n x Hn X) as [F B]. exists F. intros fuel Hf.
  destruct (B fuel Hf) as (r & R & W). exists r. split; [|exact W].
  change (eval_call o fuel n "ln" x []) with (let? v := bln fuel x n in ok_or CouldNotEvaluate v). rewrite R. reflexivity.
Qed.
Lemma blog_accurate' x b : 0 < rval x -> 0 < rval b -> / 40 <= Rabs (ln (rval b)) ->
  exists F, forall fuel, (F <= fuel)%nat ->
  exists r, blog fuel x b n = Ok (Some r) /\ Rabs (rval r - ln (rval x) / ln (rval b)) <= log_err (rval x) (rval b) n.
Proof. intros X B L. apply blog_accurate; auto. apply base_ok; [lia|exact L]. Qed.

Lemma eval_log_value a x b y t : always o n a x -> always o n b y -> 0 < rval x -> 0 < rval y -> / 40 <= Rabs (ln (rval y)) ->
  eval_value o n (EMethodCall a "log" t [b]) (fun z => Rabs (z - ln (rval x) / ln (rval y)) <= log_err (rval x) (rval y) n).
Proof.
  intros A A2 X Y L. apply (some_value1 _ a x b y); [exact A|exact A2|]. destruct (blog_accurate' x y X Y L) as [F B]. exists F. intros fuel Hf.
  destruct (B fuel Hf) as (r & R & W). exists r. split; [|exact W].
  change (eval_call o fuel n "log" x [y]) with (let? v := blog fuel x y n in ok_or CouldNotEvaluate v). rewrite R. reflexivity.
Qed.
Lemma eval_log2_value a x t : always o n a x -> 0 < rval x ->
  eval_value o n (EMethodCall a "log2" t []) (fun z => Rabs (z - ln (rval x) / ln 2) <= log_err (rval x) 2 n).
Proof.
  intros A X. apply (some_value _ a x); [exact A|]. assert (E : rval dtwo = 2) by apply rval_bigd.
  destruct (blog_accurate' x dtwo X) as [F B]; [rewrite E; lra|rewrite E; exact ln_2_big|]. rewrite E in B. exists F. intros fuel Hf.
  destruct (B fuel Hf) as (r & R & W). exists r. split; [|exact W].
  change (eval_call o fuel n "log2" x []) with (let? v := blog fuel x dtwo n in ok_or CouldNotEvaluate v). rewrite R. reflexivity.
Qed.
Lemma eval_log10_value a x t : always o n a x -> 0 < rval x ->
  eval_value o n (EMethodCall a "log10" t []) (fun z => Rabs (z - ln (rval x) / ln 10) <= log_err (rval x) 10 n).
Proof.
  intros A X. apply (some_value _ a x); [exact A|]. assert (E : rval (bigd 10) = 10) by apply rval_bigd.
  destruct (blog_accurate' x (bigd 10) X) as [F B]; [rewrite E; lra|rewrite E; exact ln_10_big|]. rewrite E in B. exists F. intros fuel Hf.
  destruct (B fuel Hf) as (r & R & W). exists r. split; [|exact W].
  change (eval_call o fuel n "log10" x []) with (let? v := blog fuel x (bigd 10) n in ok_or CouldNotEvaluate v). rewrite R. reflexivity.
Qed.
Lemma eval_pow_value a x b y m t : always o n a x -> always o n b y -> In m ["powi"; "powf"] -> 0 < rval x ->
  Rabs (rval y) * (Rabs (ln (rval x)) + ln_err (rval x) n) <= IZR (range_at n) ->
  eval_value o n (EMethodCall a m t [b]) (fun z => Rabs (z - Rpower (rval x) (rval y)) <= pow_err (rval x) (rval y) n).
Proof.
  intros A A2 M X Y. apply (some_value1 _ a x b y); [exact A|exact A2|]. destruct (bpow_accurate n x y Hn X Y) as [F B]. exists F. intros fuel Hf.
  destruct (B fuel Hf) as (r & R & W). exists r. split; [|exact W].
  destruct M as [<-|[<-|[]]].
  - change (eval_call o fuel n "powi" x [y]) with (let? v := bpow fuel x y n in ok_or CouldNotEvaluate v). rewrite R. reflexivity.
  - change (eval_call o fuel n "powf" x [y]) with (let? v := bpow fuel x y n in ok_or CouldNotEvaluate v). rewrite R. reflexivity.
Qed.
Lemma eval_exp2_value a x t : always o n a x -> Rabs (rval x) <= IZR (range_at n) ->
  eval_value o n (EMethodCall a "exp2" t []) (fun z => Rabs (z - Rpower 2 (rval x)) <= pow_err 2 (rval x) n).
Proof.
  intros A X. apply (some_value _ a x); [exact A|]. assert (E : rval dtwo = 2) by apply rval_bigd.
  destruct (bpow_accurate n dtwo x Hn) as [F B]; [rewrite E; lra|rewrite E; apply exp2_range; [lia|exact X]|]. rewrite E in B. exists F. intros fuel Hf.
  destruct (B fuel Hf) as (r & R & W). exists r. split; [|exact W].
  change (eval_call o fuel n "exp2" x []) with (let? v := bpow fuel dtwo x n in ok_or CouldNotEvaluate v). rewrite R. reflexivity.
Qed.

Lemma eval_tan_value a x t : always o n a x -> Rabs (rval x) <= IZR (range_at n) -> 2 * r10 (- n) <= Rabs (cos (rval x)) ->
  eval_value o n (EMethodCall a "tan" t []) (fun z => Rabs (z - tan (rval x)) <= tan_err (rval x) n).
Proof.
  intros A X C. apply (some_value _ a x); [exact A|]. exists O. intros fuel _. apply (btan_accurate n x); [lia|exact X|exact C].
Qed.
Hypothesis G : sqrt_good o.
Lemma eval_atan_value a x t : always o n a x ->
  eval_value o n (EMethodCall a "atan" t []) (fun z => Rabs (z - atan (rval x)) <= 5 * r10 (- n)).
Proof. intros A. apply (some_value _ a x); [exact A|]. exists O. intros fuel _. apply (batan_accurate o n G Hn x). Qed.
Lemma eval_asin_value a x t : always o n a x -> Rabs (rval x) <= 1 ->
  eval_value o n (EMethodCall a "asin" t []) (fun z => Rabs (z - asin (rval x)) <= 6 * r10 (- n)).
Proof. intros A X. apply (some_value _ a x); [exact A|]. exists O. intros fuel _. apply (basin_accurate o n G Hn x X). Qed.
Lemma eval_acos_value a x t : always o n a x -> Rabs (rval x) <= 1 ->
  eval_value o n (EMethodCall a "acos" t []) (fun z => Rabs (z - acos (rval x)) <= 7 * r10 (- n)).
Proof. intros A X. apply (some_value _ a x); [exact A|]. exists O. intros fuel _. apply (bacos_accurate o n G Hn x X). Qed.
End V.

(** ** A square root rounded down, with at least 100 significant digits *)
Definition sqrt_down (y : bd) : option bd :=
  if (mant y <? 0)%Z then None
  else let t := (100 + Z.abs (scale y))%Z in
       Some (BD (Z.sqrt (mant y * 10 ^ (scale y + 2 * t))) (scale y + t)).
Definition sqrt_oracles : oracles := Oracles sqrt_down (fun x => x) Some Some.

Lemma sqrt_down_good : sqrt_good sqrt_oracles.
Proof.
  intros y Hy. pose proof (rval_eq y) as V. pose proof (r10_pos (- scale y)) as P.
  assert (M : (0 <= mant y)%Z). { apply le_IZR. rewrite V in Hy. nra. }
  cbn [o_sqrt sqrt_oracles]. unfold sqrt_down. destruct (mant y <? 0)%Z eqn:E; [lia|]. clear E.
  set (t := (100 + Z.abs (scale y))%Z). set (q := (scale y + 2 * t)%Z). set (N := (mant y * 10 ^ q)%Z).
  eexists. split; [reflexivity|]. rewrite (rval_eq (BD _ _)). cbn [mant scale].
  assert (Q0 : (0 <= q)%Z) by (unfold q, t; lia).
  assert (N0 : (0 <= N)%Z) by (apply Z.mul_nonneg_nonneg; [exact M|apply Z.pow_nonneg; lia]).
  destruct (Z.sqrt_spec N N0) as [Lo Hi]. set (s := Z.sqrt N) in *. assert (S0 : (0 <= s)%Z) by apply Z.sqrt_nonneg.
  set (w := r10 (- (scale y + t))). assert (W : 0 < w) by apply r10_pos.
  assert (Vy : rval y = IZR N * (w * w)).
  { rewrite V. unfold N, w. rewrite mult_IZR, <- (r10_IZR q Q0), <- r10_plus, Rmult_assoc, <- r10_plus. f_equal. f_equal. unfold q. lia. }
  assert (Sq : sqrt (rval y) = sqrt (IZR N) * w).
  { rewrite Vy, sqrt_mult_alt by (apply IZR_le; exact N0). f_equal. apply sqrt_square. lra. }
  rewrite Sq. assert (B : IZR s <= sqrt (IZR N) < IZR s + 1).
  { split.
    - rewrite <- (sqrt_square (IZR s)) by (apply IZR_le; exact S0). apply sqrt_le_1_alt. rewrite <- mult_IZR. apply IZR_le. lia.
    - rewrite <- (sqrt_square (IZR s + 1)) by (apply IZR_le in S0; lra). apply sqrt_lt_1_alt. split; [apply IZR_le; exact N0|].
      rewrite <- (plus_IZR s 1), <- mult_IZR. apply IZR_lt. lia. }
  replace (IZR s * w - sqrt (IZR N) * w) with (- ((sqrt (IZR N) - IZR s) * w)) by ring.
  rewrite Rabs_Ropp, Rabs_pos_eq by (apply Rmult_le_pos; lra). rewrite <- Rmult_assoc. apply Rmult_le_compat_r; [lra|].
  destruct (Z.eq_dec (mant y) 0) as [Z0|NZ].
  - assert (N = 0)%Z by (unfold N; rewrite Z0; reflexivity). assert (s = 0)%Z by (unfold s; rewrite H; reflexivity).
    rewrite H, H0, sqrt_0. lra.
  - assert (Big : r10 96 <= sqrt (IZR N)).
    { rewrite <- (sqrt_square (r10 96)) by apply Rlt_le, r10_pos. apply sqrt_le_1_alt. rewrite <- r10_plus, r10_IZR by lia. apply IZR_le.
      unfold N. apply Z.le_trans with (1 * 10 ^ q)%Z; [rewrite Z.mul_1_l; apply Z.pow_le_mono_r; unfold q, t; lia|].
      apply Z.mul_le_mono_nonneg_r; [apply Z.pow_nonneg; lia|lia]. }
    assert (1 <= r10 (-96) * sqrt (IZR N)).
    { rewrite <- r10_0. change 0%Z with (-96 + 96)%Z. rewrite r10_plus. apply Rmult_le_compat_l; [apply Rlt_le, r10_pos|exact Big]. }
    lra.
Qed.

(** ** A case where ln misses by more than one unit *)
Lemma ln_10000_bound : ln 10000 <= 9.212.
Proof.
  assert (E : 10 <= exp 2.303).
  { destruct (bexp_ok _ _ _ (BD 2303 3) (acc_range 4 ltac:(lia))) as (r & R & W).
    - apply rval_le_abs; vm_compute; discriminate.
    - assert (E : bexp (BD 2303 3) 4 = Ok (BD 1000415 5)) by (vm_compute; reflexivity).
      rewrite E in R. injection R as <-. unfold within in W. rewrite !rval_eq in W. cbn [mant scale] in W.
      rewrite !r10_opp, !r10_IZR in W by lia.
      change (10 ^ 5)%Z with 100000%Z in W. change (10 ^ 3)%Z with 1000%Z in W. change (10 ^ 4)%Z with 10000%Z in W.
      replace (2303 * / 1000) with 2.303 in W by lra. apply abs_le_inv in W. lra. }
  assert (L : ln 10 <= 2.303).
  { rewrite <- (ln_exp 2.303). destruct E as [E|E]; [left; apply ln_increasing; lra|rewrite E; right; reflexivity]. }
  replace 10000 with (10 * 10 * (10 * 10)) by lra. rewrite !ln_mult by lra. lra.
Qed.
Lemma ln_units_bad : exists r, bln 300 (BD 10000 0) 2 = Ok (Some r) /\ Rabs (rval r - ln (rval (BD 10000 0))) > r10 (-2).
Proof.
  exists (BD 92240000 7). split; [vm_compute; reflexivity|]. pose proof ln_10000_bound as L.
  assert (E : rval (BD 10000 0) = 10000) by apply rval_bigd. rewrite E, (rval_eq (BD 92240000 7)). cbn [mant scale].
  change (-2)%Z with (- (2))%Z. rewrite !r10_opp, !r10_IZR by lia. change (10 ^ 7)%Z with 10000000%Z. change (10 ^ 2)%Z with 100%Z.
  apply Rlt_gt. apply Rlt_le_trans with (92240000 * / 10000000 - ln 10000); [lra|apply Rle_abs].
Qed.
