(** When the evaluator does not panic, method by method. *)
From Coq Require Import ZArith QArith Reals Lra Lia List Bool String.
From Verif Require Import Res Dec DecFacts RFacts BdMath Series MacFacts MacPanic Accuracy PiFacts LnFacts GeoInst GeoSeries LnAcc TrigAcc
  ErfSeries ErfAcc DecStr DecStrFacts Syntax Visitor Trans TransFacts ExprOps TransParse Eval EvalFacts EvalSafe EvalFunctions AccEval.
Import ListNotations.
Open Scope string_scope.
Open Scope list_scope.
Open Scope R_scope.

(** ** exp, sin, cos *)
Section E.
Variables (x : bd) (nd : Z).
Theorem bexp_ends : (0 <= nd <= 590)%Z -> Rabs (rval x) <= 9000 -> exists r, bexp x nd = Ok r.
Proof. exact (fun H => mac_ends x nd _ _ exp_closure c_exp_next H). Qed.
Theorem bsin_ends : (0 <= nd <= 590)%Z -> Rabs (rval x) <= 9000 -> exists r, bsin x nd = Ok r.
Proof. exact (fun H => mac_ends x nd _ _ sin_closure c_sin_next H). Qed.
Theorem bcos_ends : (0 <= nd <= 590)%Z -> Rabs (rval x) <= 9000 -> exists r, bcos x nd = Ok r.
Proof. exact (fun H => mac_ends x nd _ _ cos_closure c_cos_next H). Qed.
Theorem bexp_overruns : (0 <= nd)%Z -> 15003 <= Rabs (rval x) -> bexp x nd = Panic.
Proof. exact (mac_overruns x nd _ _ exp_closure c_exp_next c_exp_unit). Qed.
Theorem bsin_overruns : (0 <= nd)%Z -> 15003 <= Rabs (rval x) -> bsin x nd = Panic.
Proof. exact (mac_overruns x nd _ _ sin_closure c_sin_next c_sin_unit). Qed.
Theorem bcos_overruns : (0 <= nd)%Z -> 15003 <= Rabs (rval x) -> bcos x nd = Panic.
Proof. exact (mac_overruns x nd _ _ cos_closure c_cos_next c_cos_unit). Qed.
End E.

(** ** More fuel changes nothing but running out of it *)
Lemma ln_up_mono k : forall K lim scl x e, (k <= K)%nat ->
  ln_up k lim scl x e = Err OutOfFuel \/ ln_up k lim scl x e = ln_up K lim scl x e.
Proof.
  induction k as [|k IH]; intros K lim scl x e H; [left; reflexivity|]. destruct K as [|K]; [lia|]. cbn [ln_up].
  destruct (dleb lim x); [apply IH; lia|right; reflexivity].
Qed.
Lemma ln_down_mono k : forall K lim scl x e, (k <= K)%nat ->
  ln_down k lim scl x e = Err OutOfFuel \/ ln_down k lim scl x e = ln_down K lim scl x e.
Proof.
  induction k as [|k IH]; intros K lim scl x e H; [left; reflexivity|]. destruct K as [|K]; [lia|]. cbn [ln_down].
  destruct (dleb x lim); [apply IH; lia|right; reflexivity].
Qed.
Lemma bln_mono k K x nd : (k <= K)%nat -> bln k x nd = Err OutOfFuel \/ bln k x nd = bln K x nd.
Proof.
  intros H. unfold bln. destruct (dis_zero x || dis_negative x); [right; reflexivity|]. destruct (dleb done x).
  - destruct (bexp dhalf nd) as [lim| |]; cbn [rbind]; try (right; reflexivity).
    destruct (bexp (dneg dhalf) nd) as [scl| |]; cbn [rbind]; try (right; reflexivity).
    destruct (ln_up_mono k K lim scl x dzero H) as [E|E]; rewrite E; [left|right]; reflexivity.
  - destruct (bexp (dneg dhalf) nd) as [lim| |]; cbn [rbind]; try (right; reflexivity).
    destruct (bexp dhalf nd) as [scl| |]; cbn [rbind]; try (right; reflexivity).
    destruct (ln_down_mono k K lim scl x dzero H) as [E|E]; rewrite E; [left|right]; reflexivity.
Qed.

Section L.
Variables (o : oracles) (n : Z).
Hypothesis Hn : (2 <= n <= 94)%Z.
Hypothesis G : sqrt_good o.

(** ln ends in one of three ways. *)
Lemma bln_cases fuel x : bln fuel x n = Err OutOfFuel \/ (rval x <= 0 /\ bln fuel x n = Ok None) \/
  (0 < rval x /\ exists l, bln fuel x n = Ok (Some l) /\ Rabs (rval l - ln (rval x)) <= ln_err (rval x) n).
Proof.
  destruct (Rle_lt_dec (rval x) 0) as [X|X].
  - right. left. split; [exact X|]. unfold bln.
    assert (E : dis_zero x || dis_negative x = true).
    { apply nonpos_dec. apply Qreals.Rle_Qle. rewrite RMicromega.Q2R_0. exact X. }
    rewrite E. reflexivity.
  - destruct (bln_accurate n x Hn X) as [F A]. destruct (A (Nat.max F fuel) ltac:(lia)) as (r & R & W).
    destruct (bln_mono fuel (Nat.max F fuel) x n ltac:(lia)) as [E|E]; [left; exact E|]. right. right. split; [exact X|]. exists r. rewrite E. auto.
Qed.
Lemma bln_no_panic fuel x : bln fuel x n <> Panic.
Proof. destruct (bln_cases fuel x) as [E|[[_ E]|(_ & l & E & _)]]; rewrite E; discriminate. Qed.
Lemma blog_no_panic fuel x b : (0 < rval b -> / 40 <= Rabs (ln (rval b))) -> blog fuel x b n <> Panic.
Proof.
  intros B. unfold blog. destruct (bln_cases fuel x) as [E|[[_ E]|(X & l & E & _)]]; rewrite E; cbn [rbind]; [discriminate| |].
  - pose proof (bln_no_panic fuel b). destruct (bln fuel b n) as [[|]| |]; cbn [rbind]; congruence.
  - destruct (bln_cases fuel b) as [F|[[_ F]|(Y & m & F & W)]]; rewrite F; cbn [rbind]; try discriminate.
    assert (rval m <> 0).
    { intros Z. specialize (B Y). pose proof (base_ok _ _ (proj1 Hn) B) as Q. rewrite Z, Rminus_0_l, Rabs_Ropp in W. lra. }
    destruct (ddiv_R l m H) as (q & Q & _). rewrite Q. discriminate.
Qed.
Lemma bpow_no_panic fuel x y : (0 < rval x -> Rabs (rval y) * (Rabs (ln (rval x)) + ln_err (rval x) n) <= 9000) -> bpow fuel x y n <> Panic.
Proof.
  intros B. unfold bpow. destruct (bln_cases fuel x) as [E|[[_ E]|(X & l & E & W)]]; rewrite E; cbn [rbind]; try discriminate.
  specialize (B X). destruct (bexp_ends (dmul y l) n ltac:(lia)) as (r & R).
  - rewrite rval_dmul, Rabs_mult. eapply Rle_trans; [|exact B]. apply Rmult_le_compat_l; [apply Rabs_pos|].
    replace (rval l) with (ln (rval x) + (rval l - ln (rval x))) by ring. eapply Rle_trans; [apply Rabs_triang|]. lra.
  - rewrite R. discriminate.
Qed.
Lemma bexp2_no_panic fuel x : Rabs (rval x) <= 9000 -> bpow fuel dtwo x n <> Panic.
Proof.
  intros X. apply bpow_no_panic. intros _. replace (rval dtwo) with 2 by (symmetry; apply rval_bigd).
  destruct ln_2_bounds as [L1 L2]. unfold ln_err. rewrite (Rabs_pos_eq (ln 2)) by lra. destruct (r10_cent n (proj1 Hn)) as [u0 u1]. pose proof (Rabs_pos (rval x)).
  assert ((1 + 5 * ln 2) * r10 (- n) <= (1 + 5 * ln 2) * / 100) by (apply Rmult_le_compat_l; lra).
  assert (Rabs (rval x) * (ln 2 + (1 + 5 * ln 2) * r10 (- n)) <= Rabs (rval x) * 1) by (apply Rmult_le_compat_l; lra). lra.
Qed.
Lemma berf_no_panic x : rval x * rval x <= 9000 -> berf o x n <> Panic.
Proof.
  intros X. destruct (erf_factor o n G Hn) as (p & r & k & P & R & K & _). unfold berf, bsqrt.
  rewrite P; cbn [rbind]. rewrite R; cbn [expect rbind]. rewrite K; cbn [rbind].
  destruct (mac_ends (dmul x x) n _ _ erf_closure (fun i E => match c_erf_nz i E with end) ltac:(lia)) as (m & M).
  - rewrite rval_dmul, Rabs_pos_eq by nra. exact X.
  - rewrite M. discriminate.
Qed.
Lemma standard_square m s x y : rval s <> 0 -> ddiv (dsub x m) s = Ok y -> ((rval x - rval m) / rval s) ^ 2 <= 9000 -> rval y ^ 2 <= 9001.
Proof.
  intros S Y H. destruct (standardise m s S x) as (y' & Y' & A). assert (y' = y) by congruence. subst y'. unfold standard in A.
  set (t := (rval x - rval m) / rval s) in *. assert (D : 0 < delta <= / 100000). { pose proof delta_pos. pose proof delta_eta. split; [lra|]. assert (E : eta <= / 1000) by (destruct (eta_small n ltac:(lia)) as (_ & _ & _ & E); exact E). lra. }
  assert (B : Rabs (rval y) <= 1.00001 * Rabs t). { replace (rval y) with ((rval y - t) + t) by ring. eapply Rle_trans; [apply Rabs_triang|]. pose proof (Rabs_pos t). assert (delta * Rabs t <= / 100000 * Rabs t) by (apply Rmult_le_compat_r; lra). lra. }
  assert (P : Rabs (rval y) ^ 2 <= (1.00001 * Rabs t) ^ 2) by (apply pow_incr; split; [apply Rabs_pos|exact B]).
  rewrite Rpow_mult_distr, !RPow_abs, !(Rabs_pos_eq (_ ^ 2)) in P by nra. lra.
Qed.
Lemma bdnorm_no_panic x m s : rval s <> 0 -> ((rval x - rval m) / rval s) ^ 2 <= 9000 -> bdnorm o x m s n <> Panic.
Proof.
  intros S H. unfold bdnorm. destruct (standardise m s S x) as (y & Y & _). rewrite Y; cbn [rbind].
  pose proof (standard_square m s x y S Y H) as B. destruct (phi_factor o n G Hn) as (k & K & _). rewrite K; cbn [rbind].
  destruct (bexp_ends (dmul (dmul (dneg y) y) dhalf) n ltac:(lia)) as (e & E).
  - rewrite !rval_dmul, rval_dneg, rval_half. apply Rabs_le. split; nra.
  - rewrite E; cbn [rbind]. destruct (ddiv_R (dmul k e) s S) as (v & V & _). rewrite V. discriminate.
Qed.
Lemma bpnorm_no_panic x m s : rval s <> 0 -> ((rval x - rval m) / rval s) ^ 2 <= 9000 -> bpnorm o x m s n <> Panic.
Proof.
  intros S H. unfold bpnorm. destruct (standardise m s S x) as (y & Y & _). rewrite Y; cbn [rbind].
  pose proof (standard_square m s x y S Y H) as B.
  destruct (u_facts n Hn) as (_ & E0 & _ & (D0 & De) & E1).
  assert (T2 : rval dtwo = 2) by apply rval_bigd.
  destruct (G dtwo ltac:(lra)) as (r & R & Ar). fold eta in Ar. rewrite T2 in Ar.
  destruct (sqrt_bounds 2 1.41 1.42) as [S1 S2]; [lra|lra|lra|].
  assert (eta * sqrt 2 <= eta * 1.42) by (apply Rmult_le_compat_l; lra). apply abs_le_inv in Ar.
  rewrite R; cbn [expect rbind]. destruct (ddiv_R y r ltac:(lra)) as (z & Z & Az). rewrite Z; cbn [rbind].
  assert (Q : Rabs (rval z) <= 0.8 * Rabs (rval y)).
  { assert (Q1 : Rabs (rval y / rval r) <= 0.72 * Rabs (rval y)).
    { unfold Rdiv. rewrite Rabs_mult, Rmult_comm. apply Rmult_le_compat_r; [apply Rabs_pos|]. rewrite Rabs_inv, Rabs_pos_eq by lra.
      apply Rmult_le_reg_r with (rval r); [lra|]. rewrite Rinv_l by lra. lra. }
    replace (rval z) with ((rval z - rval y / rval r) + rval y / rval r) by ring. eapply Rle_trans; [apply Rabs_triang|].
    assert (delta * Rabs (rval y / rval r) <= / 1000 * Rabs (rval y / rval r)) by (apply Rmult_le_compat_r; [apply Rabs_pos|lra]). pose proof (Rabs_pos (rval y)). lra. }
  assert (Z2 : rval z * rval z <= 9000).
  { assert (P : Rabs (rval z) ^ 2 <= (0.8 * Rabs (rval y)) ^ 2) by (apply pow_incr; split; [apply Rabs_pos|exact Q]).
    rewrite Rpow_mult_distr, !RPow_abs, !(Rabs_pos_eq (_ ^ 2)) in P by nra. nra. }
  pose proof (berf_no_panic z Z2). destruct (berf o z n); cbn [rbind]; congruence.
Qed.

(** ** The limits of each method *)
Definition call_limits (m : string) (x : bd) (args : list bd) : Prop :=
  (In m ["exp"; "exp2"; "sin"; "cos"] -> Rabs (rval x) <= 9000) /\
  (m = "tan" -> Rabs (rval x) <= IZR (range_at n) /\ 2 * r10 (- n) <= Rabs (cos (rval x))) /\
  (In m ["asin"; "acos"] -> Rabs (rval x) <= 1) /\
  (In m ["erf"; "erfc"] -> rval x * rval x <= 9000) /\
  (forall b, m = "log" -> args = [b] -> 0 < rval b -> / 40 <= Rabs (ln (rval b))) /\
  (forall y, In m ["powi"; "powf"] -> args = [y] -> 0 < rval x -> Rabs (rval y) * (Rabs (ln (rval x)) + ln_err (rval x) n) <= 9000) /\
  (forall mean sd, In m ["dnorm"; "pnorm"] -> args = [mean; sd] -> rval sd <> 0 /\ ((rval x - rval mean) / rval sd) ^ 2 <= 9000) /\
  m <> "qnorm".

Lemma some_no_panic (r : res (option bd)) : r <> Panic -> (let? v := r in ok_or CouldNotEvaluate v) <> Panic.
Proof. destruct r as [[|]| |]; cbn; congruence. Qed.
Lemma ok_no_panic {A} (r : res A) (P : A -> Prop) : (exists y, r = Ok y /\ P y) -> r <> Panic.
Proof. intros (y & -> & _). discriminate. Qed.
Lemma call_no_panic fuel m x args : call_limits m x args -> eval_call o fuel n m x args <> Panic.
Proof.
  intros (L1 & L2 & L3 & L4 & L5 & L6 & L7 & L8). unfold eval_call. destruct args as [|a [|b [|c args]]]; try discriminate.
  - repeat match goal with |- (if (m =? ?s)%string then _ else _) <> _ => destruct (String.eqb_spec m s) as [->|?] end; try discriminate.
    + destruct (o_sqrt o x); discriminate.
    + destruct (bexp_ends x n ltac:(lia)) as (r & ->); [apply L1; cbn; auto|discriminate].
    + apply some_no_panic, bexp2_no_panic, L1. cbn; auto.
    + apply some_no_panic, bln_no_panic.
    + apply some_no_panic, blog_no_panic. intros _. replace (rval dtwo) with 2 by (symmetry; apply rval_bigd). exact ln_2_big.
    + apply some_no_panic, blog_no_panic. intros _. replace (rval (bigd 10)) with 10 by (symmetry; apply rval_bigd). exact ln_10_big.
    + destruct (bsin_ends x n ltac:(lia)) as (r & ->); [apply L1; cbn; auto|discriminate].
    + destruct (bcos_ends x n ltac:(lia)) as (r & ->); [apply L1; cbn; auto 6|discriminate].
    + destruct (L2 eq_refl) as [A B]. eapply ok_no_panic, btan_accurate; [lia|exact A|exact B].
    + eapply ok_no_panic, basin_accurate; [exact G|exact Hn|]. apply L3. cbn; auto.
    + eapply ok_no_panic, bacos_accurate; [exact G|exact Hn|]. apply L3. cbn; auto.
    + eapply ok_no_panic, batan_accurate; [exact G|exact Hn].
    + apply berf_no_panic, L4. cbn; auto.
    + unfold berfc. assert (B : berf o x n <> Panic) by (apply berf_no_panic, L4; cbn; auto). destruct (berf o x n); cbn [rbind]; congruence.
  - repeat match goal with |- (if (m =? ?s)%string then _ else _) <> _ => destruct (String.eqb_spec m s) as [->|?] end; try discriminate.
    + apply some_no_panic, bpow_no_panic, (L6 a); cbn; auto.
    + apply some_no_panic, bpow_no_panic, (L6 a); cbn; auto.
    + apply some_no_panic, blog_no_panic, (L5 a); auto.
    + unfold bround_ieee. destruct (to_i32 a) as [[|p|p]|]; try discriminate.
      repeat (destruct p as [p|p|]; try discriminate); try (destruct (o_f32 o x)); try (destruct (o_f64 o x)); discriminate.
  - repeat match goal with |- (if (m =? ?s)%string then _ else _) <> _ => destruct (String.eqb_spec m s) as [->|?] end; try discriminate.
    + destruct (L7 a b ltac:(cbn; auto) eq_refl) as [S H]. apply bdnorm_no_panic; assumption.
    + destruct (L7 a b ltac:(cbn; auto) eq_refl) as [S H]. apply bpnorm_no_panic; assumption.
    + congruence.
Qed.

(** ** Whole expressions *)
Variable fuel : nat.
Notation ev := (eval o fuel n).
(** Numeric literals readable, no divisor that evaluates to zero, every method
    called within its limits. *)
Fixpoint within_limits (e : expr) : Prop :=
  match e with
  | ELit _ => is_numeric e = true -> exists x, bd_of_expr e = Ok x
  | EUnary _ a | EParen a | EField a _ => within_limits a
  | EBinary op a b => within_limits a /\ within_limits b /\ (op = BDiv -> forall y, evals o fuel n b y -> rval y <> 0)
  | EMethodCall r m _ args =>
      within_limits r /\ (fix all l := match l with [] => True | a :: l => within_limits a /\ all l end) args /\
      (forall x xs, evals o fuel n r x -> Forall2 (evals o fuel n) args xs -> call_limits m x xs)
  | _ => True
  end.

Lemma args_values args : forall a xs, rseq (map ev args) = Ok a -> rseq (map bd_of_expr a) = Ok xs -> Forall2 (evals o fuel n) args xs.
Proof.
  induction args as [|e args IH]; intros a xs A B; cbn [map rseq] in A.
  - injection A as <-. cbn in B. injection B as <-. constructor.
  - destruct (ev e) as [r| |] eqn:E; try discriminate. cbn [rbind] in A. destruct (rseq (map ev args)) as [l| |] eqn:R; try discriminate.
    cbn [rbind] in A. injection A as <-. cbn [map rseq] in B. destruct (bd_of_expr r) as [x| |] eqn:X; try discriminate. cbn [rbind] in B.
    destruct (rseq (map bd_of_expr l)) as [ys| |] eqn:Y; try discriminate. cbn [rbind] in B. injection B as <-.
    constructor; [exists r; auto|apply (IH l); auto].
Qed.

Lemma eval_fine e : within_limits e -> fine (ev e).
Proof.
  induction e as [l|p|op a IHa|op a b IHa IHb|rc m t args IHr IHargs|a IHa|a m IHa|f args IHf IHfa|a t IHa|c t els IHc IHt IHe|blk IHb|k| | | ]
    using expr_ind_nested with (Ps := fun _ => True); try exact I; intros P; cbn [within_limits] in P.
  - exact P.
  - change (ev (EPath p)) with (eval_path o n p). unfold eval_path. destruct p as [|s [|]]; try exact I.
    destruct (s =? "PI")%string; [|exact I]. unfold bpi. rewrite (proj2 (Z.ltb_lt n 100)) by lia. cbn [rbind]. apply fine_of_bd.
  - specialize (IHa P). rewrite eval_un. unfold eval_unary. destruct (ev a) as [r| |]; cbn [rbind]; [|exact I|exact IHa].
    destruct (is_numeric r) eqn:N; [|exact I]. destruct (IHa N) as [x X]. rewrite X. cbn [unwrap rbind].
    destruct op; try exact I. apply fine_of_bd.
  - destruct P as (Pa & Pb & Pd). specialize (IHa Pa). specialize (IHb Pb).
    rewrite eval_bin. unfold eval_binary. destruct (ev a) as [r| |] eqn:Ea; cbn [rbind]; [|exact I|exact IHa].
    destruct (ev b) as [r'| |] eqn:Eb; cbn [rbind]; [|exact I|exact IHb].
    destruct (is_numeric r) eqn:N; [|exact I]. destruct (is_numeric r') eqn:N'; [|exact I]. cbn [andb].
    destruct (IHa N) as [x X]. destruct (IHb N') as [y Y]. rewrite X, Y. cbn [unwrap rbind].
    destruct op; cbn [eval_op]; try exact I; try apply fine_of_bd; try (intros H; discriminate H).
    destruct (ddiv_R x y) as (q & Q & _); [apply Pd; [reflexivity|]; exists r'; auto|]. rewrite Q. cbn [rbind]. apply fine_of_bd.
  - destruct P as (Pr & Pa & Pc). specialize (IHr Pr). rewrite eval_meth. unfold eval_method.
    destruct (ev rc) as [r| |] eqn:Er; cbn [rbind]; [|exact I|exact IHr].
    assert (A : rseq (map ev args) <> Panic).
    { apply rseq_no_panic. apply Forall_map. clear - IHargs Pa. induction IHargs as [|e l H _ IH]; constructor.
      - apply fine_no_panic, H. exact (proj1 Pa).
      - apply IH. exact (proj2 Pa). }
    destruct (rseq (map ev args)) as [a| |] eqn:Ra; cbn [rbind]; [|exact I|congruence].
    pose proof (bd_of_expr_no_panic r) as B. destruct (bd_of_expr r) as [x| |] eqn:X; cbn [rbind]; [|exact I|congruence].
    assert (C : rseq (map bd_of_expr a) <> Panic).
    { apply rseq_no_panic. apply Forall_map. apply Forall_forall. intros y _. apply bd_of_expr_no_panic. }
    destruct (rseq (map bd_of_expr a)) as [xs| |] eqn:Xs; cbn [rbind]; [|exact I|congruence].
    assert (D : eval_call o fuel n m x xs <> Panic).
    { apply call_no_panic, Pc; [exists r; auto|]. apply (args_values args a); assumption. }
    destruct (eval_call o fuel n m x xs) as [y| |]; cbn [rbind]; [|exact I|congruence].
    apply fine_of_bd.
  - rewrite eval_par. apply IHa. exact P.
  - specialize (IHa P). change (ev (EField a m)) with (let? b := ev a in Ok (EField b m)).
    destruct (ev a); cbn [rbind]; [intros N; discriminate N|exact I|exact IHa].
  - exact I. - exact I. - exact I. - exact I. - exact I.
Qed.
Theorem eval_within_limits e : within_limits e -> ev e <> Panic.
Proof. intros H. apply fine_no_panic, eval_fine, H. Qed.
End L.

(** ** Panics through the evaluator *)
Theorem eval_overruns o fuel n a x m t : (0 <= n)%Z -> evals o fuel n a x -> In m ["exp"; "sin"; "cos"] ->
  15003 <= Rabs (rval x) -> eval o fuel n (EMethodCall a m t []) = Panic.
Proof.
  intros N A M X. rewrite (eval_method0 o fuel n a x m t A). destruct M as [<-|[<-|[<-|[]]]].
  - change (eval_call o fuel n "exp" x []) with (bexp x n). rewrite bexp_overruns by assumption. reflexivity.
  - change (eval_call o fuel n "sin" x []) with (bsin x n). rewrite bsin_overruns by assumption. reflexivity.
  - change (eval_call o fuel n "cos" x []) with (bcos x n). rewrite bcos_overruns by assumption. reflexivity.
Qed.

(** 2.5.exp() / 3 *)
Lemma limits_case o fuel : within_limits o 5 fuel
  (EBinary BDiv (EMethodCall (ELit (LFloat "2.5" "")) "exp" None []) (ELit (LInt "3" ""))).
Proof.
  cbn [within_limits]. split; [split; [|split; [exact I|]]|split].
  - intros _. exists (BD 25 1). vm_compute. reflexivity.
  - intros x xs (r & E & X) F. change (eval o fuel 5 (ELit (LFloat "2.5" ""))) with (Ok (ELit (LFloat "2.5" ""))) in E.
    injection E as <-. assert (Y : bd_of_expr (ELit (LFloat "2.5" "")) = Ok (BD 25 1)) by (vm_compute; reflexivity).
    assert (x = BD 25 1) by congruence. subst x. unfold call_limits. repeat split; try (intros; discriminate); try (intros; cbn in *; intuition discriminate).
    intros _. rewrite rval_eq. cbn [mant scale]. change (r10 (-1)) with (r10 (Z.opp 1)). rewrite r10_opp, r10_IZR by lia. change (10 ^ 1)%Z with 10%Z. rewrite Rabs_pos_eq; lra.
  - intros _. exists (BD 3 0). vm_compute. reflexivity.
  - intros _ y (r & E & Y). change (eval o fuel 5 (ELit (LInt "3" ""))) with (Ok (ELit (LInt "3" ""))) in E. injection E as <-.
    assert (Z : bd_of_expr (ELit (LInt "3" "")) = Ok (BD 3 0)) by (vm_compute; reflexivity). assert (y = BD 3 0) by congruence. subst y.
    change (BD 3 0) with (bigd 3). rewrite rval_bigd. lra.
Qed.
