(** The generated constants: evaluation, the literal, the float. *)
From Coq Require Import List String Bool ZArith QArith Qreals Reals Ascii Lia Lra.
From Flocq Require Import Core Relative IEEE754.BinarySingleNaN IEEE754.Binary IEEE754.Bits.
From Verif Require Import Res Dec DecFacts DecStr DecStrFacts Syntax Visitor Trans TransFacts Parse ExprOps BdMath Eval EvalFacts EvalFunctions EvalMethods RFacts Accuracy LnAcc TrigAcc AccEval PiFacts
  Item Functions FunctionsFacts GenCode GenCodeFacts GenSem FloatBits GenRun GenFloat GenFloat2 GenFloat4 DecimalLit NumberTypeFacts Parse ApproxFacts HornerFloat ConstSource.
From Flocq Require Import Core Relative.
From Coq Require Import Lra.
Import ListNotations.
Open Scope string_scope.
Open Scope list_scope.

(** ** Results of evaluation are printed decimals *)
Definition computes (e : expr) : bool :=
  match e with
  | EMethodCall _ _ _ _ => true
  | EBinary (BAdd | BSub | BMul | BDiv) _ _ => true
  | EPath _ => true
  | _ => false
  end.
Lemma computed o fuel n e r : computes e = true -> eval o fuel n e = Ok r -> exists v, expr_of_bd v = Ok r.
Proof.
  intros C E. destruct e; try discriminate C.
  - cbn [eval visit eval_visitor v_expr v_path] in E. unfold def_expr, eval_path in E. destruct p as [|m [|]]; try discriminate E.
    destruct (m =? "PI")%string; [|discriminate E]. destruct (bpi o n); try discriminate E. exists a. exact E.
  - rewrite eval_bin in E. unfold eval_binary in E.
    destruct (eval o fuel n e1) as [a| |]; try discriminate E. destruct (eval o fuel n e2) as [b| |]; try discriminate E. cbn [rbind] in E.
    destruct (is_numeric a && is_numeric b); [|discriminate E].
    destruct (bd_of_expr a) as [x| |]; try discriminate E. destruct (bd_of_expr b) as [y| |]; try discriminate E. cbn [unwrap rbind] in E.
    destruct op; try discriminate C; cbn [eval_op] in E; try (eexists; exact E).
    destruct (ddiv x y); try discriminate E. eexists. exact E.
  - rewrite eval_meth in E. unfold eval_method in E.
    destruct (eval o fuel n e) as [a| |]; try discriminate E. cbn [rbind] in E.
    destruct (rseq (map (eval o fuel n) args)) as [l| |]; try discriminate E. cbn [rbind] in E.
    destruct (bd_of_expr a) as [x| |]; try discriminate E. cbn [rbind] in E.
    destruct (rseq (map bd_of_expr l)) as [xs| |]; try discriminate E. cbn [rbind] in E.
    destruct (eval_call o fuel n m x xs) as [y| |]; try discriminate E. eexists. exact E.
Qed.

(** the literal of a positive number that is not an integer *)
Lemma literal_of_bd v r k : expr_of_bd v = Ok r -> (0 < rval v)%R -> (IZR k < rval v < IZR (k + 1))%R ->
  exists d y, r = ELit (LFloat d "") /\ rust_parse (toks r) = Some r /\ parse_dec (list_ascii_of_string d) = Some y /\ rval y = rval v.
Proof.
  unfold expr_of_bd. rewrite parse_lit_float_repr. intros E P I. inversion E as [Er]. cbn [string_of_list_ascii].
  destruct (parse_dec_repr v) as (y & Py & Vy).
  exists (string_of_list_ascii (dec_repr v)), y. rewrite list_ascii_of_string_of_list_ascii.
  split; [reflexivity|]. split; [|split; [exact Py|apply Qeq_eqR; exact Vy]].
  assert (M : (0 < mant v)%Z).
  { rewrite rval_eq in P. pose proof (r10_pos (- scale v)). destruct (Z.lt_ge_cases 0 (mant v)) as [|G]; [assumption|]. apply IZR_le in G. nra. }
  destruct (dec_repr_plain v) as (b & a & Ed & Hn & Hb & Ha & V).
  destruct (Z.ltb_spec (mant v) 0) as [S|_]; [lia|].
  assert (A : a <> []).
  { intros ->. rewrite app_nil_r in V. cbn [List.length Z.of_nat] in V. apply Qeq_eqR in V. fold (rval (BD (digits_val b) 0)) in V.
    fold (rval (dabs v)) in V. rewrite RFacts.rval_dabs, Rabs_pos_eq, rval_eq in V by lra. cbn [mant scale] in V. change (- 0)%Z with 0%Z in V.
    rewrite r10_0, Rmult_1_r in V. rewrite <- V in I. destruct I as [I1 I2]. apply lt_IZR in I1. apply lt_IZR in I2. lia. }
  rewrite Ed. unfold plain_text. cbn [app]. destruct b as [|c b]; [congruence|]. destruct a as [|c' a]; [congruence|].
  cbn [app string_of_list_ascii toks lit_toks num_toks].
  assert (Dc : Ascii.eqb c "-" = false).
  { inversion Hb as [|? ? D]. destruct (Ascii.eqb_spec c "-") as [->|]; [discriminate D|reflexivity]. }
  rewrite Dc. unfold lex_number.
  assert (FT : float_text (String c (string_of_list_ascii (b ++ "."%char :: c' :: a))) "" = true).
  { unfold float_text. assert (Ci : char_in "." (String c (string_of_list_ascii (b ++ "."%char :: c' :: a))) = true).
    { unfold char_in. cbn [list_ascii_of_string]. rewrite list_ascii_of_string_of_list_ascii. apply existsb_exists. exists "."%char. split; [|reflexivity].
      right. apply in_or_app. right. left. reflexivity. }
    rewrite Ci. reflexivity. }
  rewrite FT. reflexivity.
Qed.

From Verif Require Import Exp2Approx EvalSafe TestTable ExactFloats.
Open Scope R_scope.
(** ** Evaluation near a real number *)
Definition near (o : oracles) (n : Z) (e : expr) (v err : R) : Prop := eval_value o n e (fun z => Rabs (z - v) <= err * r10 (- n)).
Lemma near_le o n e v a b : near o n e v a -> a <= b -> near o n e v b.
Proof.
  intros [F H] L. exists F. intros fuel Hf. destruct (H fuel Hf) as (y & E & D). exists y. split; [exact E|].
  apply Rle_trans with (1 := D). apply Rmult_le_compat_r; [apply Rlt_le, r10_pos|exact L].
Qed.
Lemma near_paren o n e v a : near o n e v a -> near o n (EParen e) v a.
Proof. intros [F H]. exists F. intros fuel Hf. destruct (H fuel Hf) as (y & (r & E & B) & D). exists y. split; [exists r; split; [rewrite eval_par; exact E|exact B]|exact D]. Qed.
Lemma int_always o n d z : parse_dec (list_ascii_of_string d) = Some (BD z 0) -> always o n (e_int d) (BD z 0).
Proof. intros P. exists O. intros fuel _. exists (e_int d). split; [reflexivity|]. cbn. rewrite P. reflexivity. Qed.
Lemma rval_int z : rval (BD z 0) = IZR z.
Proof. rewrite rval_eq. cbn [mant scale]. change (- 0)%Z with 0%Z. rewrite r10_0. ring. Qed.
Lemma always_near o n e x v : always o n e x -> rval x = v -> near o n e v 0.
Proof. intros [F H] E. exists F. intros fuel Hf. exists x. split; [exact (H fuel Hf)|]. rewrite E, Rminus_diag_eq, Rabs_R0 by reflexivity. lra. Qed.
Lemma near_pi o n : (n < 100)%Z -> near o n e_pi PI (/ 2).
Proof. intros N. exists O. intros fuel _. exact (eval_pi_ok o fuel n N). Qed.
(** evaluations that do not depend on the fuel *)
Definition steady (o : oracles) (n : Z) (e : expr) : Prop := forall fuel, eval o fuel n e = eval o 0 n e.
Lemma steady_int o n d : steady o n (e_int d). Proof. intros fuel. reflexivity. Qed.
Lemma steady_pi o n : steady o n e_pi. Proof. intros fuel. reflexivity. Qed.
Lemma steady_paren o n e : steady o n e -> steady o n (EParen e). Proof. intros H fuel. rewrite !eval_par. apply H. Qed.
Lemma steady_bin o n op a b : steady o n a -> steady o n b -> steady o n (EBinary op a b).
Proof. intros A B fuel. rewrite !eval_bin, (A fuel), (B fuel). reflexivity. Qed.
Lemma steady_always o n e v a : steady o n e -> near o n e v a -> exists x, always o n e x /\ Rabs (rval x - v) <= a * r10 (- n).
Proof.
  intros S [F H]. destruct (H F ltac:(lia)) as (y & (r & E & B) & D). exists y. split; [|exact D].
  exists O. intros fuel _. exists r. split; [|exact B]. rewrite (S fuel), <- (S F). exact E.
Qed.

Section Near.
  Variables (o : oracles) (n : Z).
  Hypothesis Hn : (2 <= n <= 94)%Z.
  Let u := r10 (- n).
  Lemma u_small : 0 < u <= / 100. Proof. exact (r10_cent n ltac:(lia)). Qed.
  Lemma round_R q (z : bd) : is_round_half_away q n (dval z) -> Rabs (rval z - Q2R q) <= / 2 * u.
  Proof.
    intros (k & _ & E & _). unfold rval. rewrite <- Q2R_minus, <- Q2R_abs. apply Qle_Rle in E. rewrite Q2R_mult, Q2R_p10 in E.
    replace (Q2R (1 # 2)) with (/ 2) in E by (unfold Q2R; cbn; lra). exact E.
  Qed.
  (** quotients: relative errors of at most 1/2 in the divisor *)
  Lemma near_div a b va vb A B : near o n a va A -> near o n b vb B -> 0 < vb -> 0 <= A -> 0 <= B -> B * u <= vb / 2 -> Rabs (va / vb) <= 100 -> A <= 100 * vb ->
    near o n (EBinary BDiv a b) (va / vb) (2 * ((A + Rabs (va / vb) * B) / vb) + 1).
  Proof.
    intros [F1 H1] [F2 H2] V A0 B0 S Q1 A1. exists (Nat.max F1 F2). intros fuel Hf.
    destruct (H1 fuel ltac:(lia)) as (x & Ex & Dx). destruct (H2 fuel ltac:(lia)) as (y & Ey & Dy). fold u in Dx, Dy. pose proof u_small as U.
    assert (V' : Rabs vb = vb) by (apply Rabs_pos_eq; lra).
    destruct (quotient_error va vb (rval x) (rval y) (A * u) (B * u)) as [Ny Q]; [lra|exact Dx|exact Dy|rewrite V'; exact S|].
    assert (Nq : ~ (dval y == 0)%Q) by (intros C; apply Ny; unfold rval; rewrite (Qeq_eqR _ _ C); unfold Q2R; cbn; lra).
    destruct (eval_div o fuel n a b x y ltac:(lia) Ex Ey Nq) as (z & q & E & D & R).
    exists z. split; [exact E|]. apply round_R in R. apply Qle_Rle in D. rewrite Q2R_abs, Q2R_minus, !Q2R_mult, Q2R_abs, Q2R_p10, Q2R_div in D by exact Nq.
    fold (rval x) (rval y) in D. replace (Q2R (1 # 2)) with (/ 2) in D by (unfold Q2R; cbn; lra). fold u.
    rewrite V' in Q. set (w := rval x / rval y) in *. set (t := va / vb) in *.
    set (m := (A + Rabs t * B) / vb) in *.
    replace ((A * u + Rabs t * (B * u)) / vb) with (m * u) in Q by (unfold m, Rdiv; ring).
    assert (M : 0 <= m <= 100 + 100 * (B / vb)).
    { unfold m. pose proof (Rabs_pos t). assert (0 <= B / vb) by (apply Rmult_le_pos; [lra|left; apply Rinv_0_lt_compat; lra]). split.
      - apply Rmult_le_pos; [|left; apply Rinv_0_lt_compat; lra]. assert (0 <= Rabs t * B) by (apply Rmult_le_pos; lra). lra.
      - unfold Rdiv. rewrite Rmult_plus_distr_r, Rmult_assoc. fold (B / vb). apply Rplus_le_compat.
        + apply Rmult_le_reg_r with vb; [exact V|]. rewrite Rmult_assoc, Rinv_l, Rmult_1_r by lra. lra.
        + apply Rmult_le_compat_r; lra. }
    assert (BU : B / vb * u <= / 2).
    { apply Rmult_le_reg_r with vb; [exact V|]. replace (B / vb * u * vb) with (B * u) by (field; lra). lra. }
    assert (W : Rabs w <= 300).
    { replace w with (t + (w - t)) by ring. apply Rle_trans with (1 := Rabs_triang _ _).
      assert (m * u <= (100 + 100 * (B / vb)) * u) by (apply Rmult_le_compat_r; lra). lra. }
    assert (T : r10 (-99) <= / 100000 * u).
    { unfold u. replace (/ 100000) with (r10 (- (5))) by (rewrite r10_opp, r10_IZR by lia; reflexivity). rewrite <- r10_plus. apply r10_mono. lia. }
    assert (DW : / 2 * r10 (-99) * Rabs w <= / 2 * u).
    { pose proof (r10_pos (-99)). pose proof (Rabs_pos w). assert (r10 (-99) * Rabs w <= / 100000 * u * 300) by (apply Rmult_le_compat; lra). lra. }
    replace (rval z - t) with ((rval z - Q2R q) + (Q2R q - w) + (w - t)) by ring.
    apply Rle_trans with (1 := Rabs_triang _ _). apply Rle_trans with (1 := Rplus_le_compat_r _ _ _ (Rabs_triang _ _)).
    rewrite Rmult_plus_distr_r. lra.
  Qed.
  Lemma near_mul_int d k b vb B : parse_dec (list_ascii_of_string d) = Some (BD k 0) -> near o n b vb B -> near o n (EBinary BMul (e_int d) b) (IZR k * vb) (Rabs (IZR k) * B + / 2).
  Proof.
    intros P [F H]. exists F. intros fuel Hf. destruct (H fuel Hf) as (y & Ey & Dy).
    assert (Ex : evals o fuel n (e_int d) (BD k 0)) by (exists (e_int d); split; [reflexivity|cbn; rewrite P; reflexivity]).
    destruct (eval_mul o fuel n (e_int d) b _ y ltac:(lia) Ex Ey) as (z & E & R). exists z. split; [exact E|]. apply round_R in R.
    rewrite Q2R_mult in R. fold (rval (BD k 0)) (rval y) in R. rewrite rval_int in R. fold u in Dy |- *.
    replace (rval z - IZR k * vb) with ((rval z - IZR k * rval y) + IZR k * (rval y - vb)) by ring.
    apply Rle_trans with (1 := Rabs_triang _ _). rewrite Rabs_mult. pose proof (Rmult_le_compat_l (Rabs (IZR k)) _ _ (Rabs_pos _) Dy). lra.
  Qed.
  Lemma near_int d k : parse_dec (list_ascii_of_string d) = Some (BD k 0) -> near o n (e_int d) (IZR k) 0.
  Proof. intros P. exact (always_near o n _ _ _ (int_always o n d k P) (rval_int k)). Qed.

  Lemma exp_1_bounds : 2 <= exp 1 <= 3.
  Proof. split; [pose proof (exp_ineq1_le 1); lra|exact exp_le_3]. Qed.
  Lemma ln_le_pred z : 0 < z -> ln z <= z - 1.
  Proof. intros Z. pose proof (exp_ineq1_le (ln z)) as E. rewrite exp_ln in E by exact Z. lra. Qed.
  Lemma ln_near_e y : Rabs (y - exp 1) <= u -> 0 < y /\ Rabs (ln y - 1) <= u.
  Proof.
    intros D. pose proof u_small as U. pose proof exp_1_bounds as E. apply Rabs_le_inv in D.
    assert (Y : 0 < y) by lra. split; [exact Y|].
    assert (L : forall p q, 1 <= p -> 1 <= q -> ln p - ln q <= Rabs (p - q)).
    { intros p q P Q. replace (ln p - ln q) with (ln (p / q)) by (unfold Rdiv; rewrite ln_mult, ln_Rinv; try lra; apply Rinv_0_lt_compat; lra). apply Rle_trans with (1 := ln_le_pred (p / q) ltac:(apply Rdiv_lt_0_compat; lra)).
      replace (p / q - 1) with ((p - q) * / q) by (field; lra). apply Rle_trans with (Rabs ((p - q) * / q)); [apply Rle_abs|].
      rewrite Rabs_mult, <- (Rmult_1_r (Rabs (p - q))).
      rewrite Rmult_1_r at 1. apply Rmult_le_compat_l; [apply Rabs_pos|].
      rewrite Rabs_pos_eq by (left; apply Rinv_0_lt_compat; lra). rewrite <- Rinv_1. apply Rinv_le_contravar; lra. }
    pose proof (L y (exp 1) ltac:(lra) ltac:(lra)) as L1. pose proof (L (exp 1) y ltac:(lra) ltac:(lra)) as L2.
    rewrite (Rabs_minus_sym (exp 1)) in L2. rewrite ln_exp in L1, L2. assert (Rabs (y - exp 1) <= u) by (apply Rabs_le; lra).
    apply Rabs_le. lra.
  Qed.
  Lemma always_exp1 : exists x, always o n (EMethodCall (e_int "1") "exp" None []) x /\ Rabs (rval x - exp 1) <= u.
  Proof.
    assert (A : forall fuel, evals o fuel n (e_int "1") (BD 1 0)) by (intros fuel; exists (e_int "1"); split; reflexivity).
    assert (S : steady o n (EMethodCall (e_int "1") "exp" None [])).
    { intros fuel. rewrite !(eval_method0 o _ n _ _ _ _ (A _)). reflexivity. }
    destruct (steady_always o n _ (exp 1) 1 S) as (x & X & D).
    - exists O. intros fuel _. destruct (eval_exp_ok o fuel n (e_int "1") (BD 1 0) ltac:(lia) (A fuel)) as (y & Y & W).
      + rewrite rval_int, Rabs_R1. apply IZR_le. unfold range_at. destruct (n =? 1)%Z; lia.
      + exists y. split; [exact Y|]. rewrite rval_int in W. unfold within in W. lra.
    - exists x. split; [exact X|]. fold u in D. lra.
  Qed.
  Lemma near_log2 a x w : always o n a x -> 0 < rval x -> Rabs (ln (rval x) - w) <= u -> 0 <= w <= 3 ->
    near o n (EMethodCall a "log" None [e_int "2"]) (w / ln 2) (7 + 50 * w).
  Proof.
    intros A X D W. pose proof ln2_tight as L2. pose proof u_small as U.
    destruct (eval_log_value o n Hn a x (e_int "2") (BD 2 0) None A (int_always o n "2" 2 eq_refl) X) as [F H];
      [rewrite rval_int; lra|rewrite rval_int, Rabs_pos_eq; lra|].
    rewrite rval_int in H. exists F. intros fuel Hf. destruct (H fuel Hf) as (y & E & Dy). exists y. split; [exact E|].
    set (l := ln (rval x)) in *. fold u. unfold log_err, ln_err in Dy. fold l u in Dy. rewrite (Rabs_pos_eq (ln 2)) in Dy by lra.
    apply Rabs_le_inv in D as [D1 D2].
    assert (La : Rabs l <= w + u) by (apply Rabs_le; lra).
    assert (I : 0 < / ln 2 <= 1.4428) by (split; [apply Rinv_0_lt_compat; lra|apply Rmult_le_reg_r with (ln 2); [lra|rewrite Rinv_l; lra]]).
    assert (Q1 : Rabs (l / ln 2) <= 1.4428 * (w + u)).
    { unfold Rdiv. rewrite Rabs_mult, (Rabs_pos_eq (/ ln 2)) by lra. rewrite Rmult_comm. apply Rmult_le_compat; try lra. apply Rabs_pos. }
    assert (Q2 : Rabs (l / ln 2 - w / ln 2) <= 1.4428 * u).
    { replace (l / ln 2 - w / ln 2) with ((l - w) * / ln 2) by (field; lra). rewrite Rabs_mult, (Rabs_pos_eq (/ ln 2)) by lra. rewrite Rmult_comm.
      apply Rmult_le_compat; try lra; [apply Rabs_pos|apply Rabs_le; lra]. }
    assert (Q3 : (1 + 5 * Rabs l) * u + Rabs (l / ln 2) * ((1 + 5 * ln 2) * u) <= ((1 + 5 * (w + u)) + 1.4428 * (w + u) * 4.46575) * u).
    { rewrite <- (Rmult_assoc (Rabs (l / ln 2))), <- Rmult_plus_distr_r. apply Rmult_le_compat_r; [lra|]. apply Rplus_le_compat; [lra|].
      apply Rmult_le_compat; try lra. apply Rabs_pos. }
    assert (Q4 : (1 + 5 * (w + u)) + 1.4428 * (w + u) * 4.46575 <= 1.2 + 11.45 * w) by nra.
    assert (Q5 : ((1 + 5 * Rabs l) * u + Rabs (l / ln 2) * ((1 + 5 * ln 2) * u)) / ln 2 <= (1.2 + 11.45 * w) * u * 1.4428).
    { assert (((1 + 5 * (w + u)) + 1.4428 * (w + u) * 4.46575) * u <= (1.2 + 11.45 * w) * u) by (apply Rmult_le_compat_r; lra).
      unfold Rdiv. apply Rmult_le_compat; try lra. pose proof (Rabs_pos l). pose proof (Rabs_pos (l / ln 2)).
      apply Rplus_le_le_0_compat; apply Rmult_le_pos; try lra. apply Rmult_le_pos; lra. }
    replace (rval y - w / ln 2) with ((rval y - l / ln 2) + (l / ln 2 - w / ln 2)) by ring.
    apply Rle_trans with (1 := Rabs_triang _ _). nra.
  Qed.
End Near.

(** ** The ten constants *)
Definition constant_values : list (string * R) :=
  [("PI", PI); ("PI_BY_2", PI / 2); ("PI_BY_8", PI / 8); ("TAN_PI_BY_8", tan (PI / 8)); ("LOG2_E", 1 / ln 2);
   ("RECIP_LOG2_E", ln 2); ("RECIP_LOG2_10", ln 2 / ln 10); ("RECIP_PI", 1 / PI); ("RECIP_2PI", 1 / (2 * PI));
   ("SQRT_RECIP_2PI", sqrt (1 / (2 * PI)))].
Section Ten.
  Variables (o : oracles) (n : Z).
  Hypothesis Hn : (2 <= n <= 94)%Z.
  Let u := r10 (- n).
  Lemma u_small' : 0 < u <= / 100. Proof. exact (r10_cent n ltac:(lia)). Qed.
  Lemma inv_between a b c : 0 < a -> a <= b <= c -> / c <= / b <= / a.
  Proof. intros A B. split; apply Rinv_le_contravar; lra. Qed.
  Lemma recip_near b vb B lo : near o n b vb B -> 0 < lo -> lo <= vb -> 0 <= B -> B * u <= vb / 2 -> / lo <= 100 -> near o n (EBinary BDiv (e_int "1") b) (1 / vb) (2 * (/ lo * / lo * B) + 1).
  Proof.
    intros H L V B0 S I. destruct (inv_between lo vb vb L ltac:(lra)) as [_ J].
    assert (P : 0 < / vb) by (apply Rinv_0_lt_compat; lra).
    assert (Q : Rabs (1 / vb) = / vb) by (rewrite Rabs_pos_eq; unfold Rdiv; lra).
    apply near_le with (2 * ((0 + Rabs (1 / vb) * B) / vb) + 1).
    - apply (near_div o n Hn); try lra; [exact (near_int o n "1" 1 eq_refl)|exact H|exact S].
    - rewrite Q. unfold Rdiv. assert (/ vb * B * / vb <= / lo * / lo * B); [|lra].
      replace (/ vb * B * / vb) with (/ vb * / vb * B) by ring. apply Rmult_le_compat_r; [exact B0|]. apply Rmult_le_compat; lra.
  Qed.
  Lemma near_frac d k : parse_dec (list_ascii_of_string d) = Some (BD k 0) -> 1 <= IZR k -> near o n (EBinary BDiv e_pi (e_int d)) (PI / IZR k) 2.
  Proof.
    intros P K. pose proof PI_bound as B. pose proof u_small' as U.
    assert (I : 0 < / IZR k <= 1) by (split; [apply Rinv_0_lt_compat; lra|rewrite <- Rinv_1; apply Rinv_le_contravar; lra]).
    apply near_le with (2 * ((/ 2 + Rabs (PI / IZR k) * 0) / IZR k) + 1).
    - apply (near_div o n Hn); try lra.
      + apply near_pi. lia.
      + exact (near_int o n d k P).
      + unfold Rdiv. rewrite Rabs_mult, (Rabs_pos_eq PI), (Rabs_pos_eq (/ IZR k)) by lra. nra.
    - rewrite Rmult_0_r, Rplus_0_r. unfold Rdiv. nra.
  Qed.
  Lemma sin_lipschitz a b : Rabs (sin a - sin b) <= Rabs (a - b).
  Proof. pose proof (cos_lipschitz (PI / 2 - a) (PI / 2 - b)) as L. rewrite !cos_shift in L. replace (PI / 2 - a - (PI / 2 - b)) with (- (a - b)) in L by ring. rewrite Rabs_Ropp in L. exact L. Qed.
  Lemma near_tan : near o n (EMethodCall (EParen (EBinary BDiv e_pi (e_int "8"))) "tan" None []) (tan (PI / 8)) 25.
  Proof.
    pose proof PI_bound as B. pose proof u_small' as U.
    destruct (steady_always o n (EParen (EBinary BDiv e_pi (e_int "8"))) (PI / 8) 2) as (x & A & D).
    { apply steady_paren, steady_bin; [apply steady_pi|apply steady_int]. }
    { apply near_paren, near_frac; [reflexivity|lra]. }
    fold u in D. set (p := PI / 8) in *. assert (Pp : 0.375 < p < 0.4) by (unfold p; lra).
    assert (X : 0 <= rval x <= 0.42) by (apply Rabs_le_inv in D; lra).
    assert (C : forall t, 0 <= t <= 0.42 -> 0.58 <= cos t).
    { intros t T. pose proof (cos_lipschitz t 0) as L. rewrite cos_0 in L. apply Rabs_le_inv in L as [L _].
      assert (Rabs (t - 0) <= 0.42) by (apply Rabs_le; lra). lra. }
    pose proof (C _ X) as CX. pose proof (C p ltac:(lra)) as CP.
    destruct (eval_tan_value o n Hn (EParen (EBinary BDiv e_pi (e_int "8"))) x None A) as [F H].
    - rewrite Rabs_pos_eq by lra. apply Rle_trans with 1; [lra|]. apply IZR_le. unfold range_at. destruct (n =? 1)%Z; lia.
    - fold u. rewrite Rabs_pos_eq; lra.
    - exists F. intros fuel Hf. destruct (H fuel Hf) as (y & E & Dy). exists y. split; [exact E|]. fold u.
      assert (IX : 0 < / cos (rval x) <= 1.73) by (split; [apply Rinv_0_lt_compat; lra|apply Rmult_le_reg_r with (cos (rval x)); [lra|rewrite Rinv_l; lra]]).
      assert (IP : 0 < / cos p <= 1.73) by (split; [apply Rinv_0_lt_compat; lra|apply Rmult_le_reg_r with (cos p); [lra|rewrite Rinv_l; lra]]).
      assert (T : Rabs (tan (rval x)) <= 1.73).
      { unfold tan, Rdiv. rewrite Rabs_mult, (Rabs_pos_eq (/ cos (rval x))) by lra. pose proof (Rabs_pos (sin (rval x))).
        assert (Rabs (sin (rval x)) <= 1) by (apply Rabs_le; pose proof (SIN_bound (rval x)); lra). nra. }
      unfold tan_err in Dy. fold u in Dy. rewrite (Rabs_pos_eq (cos (rval x))) in Dy by lra.
      assert (Q1 : (u + Rabs (tan (rval x)) * u) / cos (rval x) <= 2.73 * u * 1.73).
      { unfold Rdiv. apply Rmult_le_compat; try lra; [|nra]. pose proof (Rabs_pos (tan (rval x))). nra. }
      assert (Q2 : Rabs (tan (rval x) - tan p) <= 2 * u * (1.73 * 1.73)).
      { replace (tan (rval x) - tan p) with (sin (rval x - p) * (/ cos (rval x) * / cos p)) by (rewrite sin_minus; unfold tan; field; lra).
        rewrite Rabs_mult. apply Rmult_le_compat; try apply Rabs_pos.
        - apply Rle_trans with (2 := D). pose proof (sin_lipschitz (rval x - p) 0) as L. rewrite sin_0, !Rminus_0_r in L. exact L.
        - rewrite Rabs_pos_eq by (apply Rmult_le_pos; lra). apply Rmult_le_compat; lra. }
      replace (rval y - tan p) with ((rval y - tan (rval x)) + (tan (rval x) - tan p)) by ring.
      apply Rle_trans with (1 := Rabs_triang _ _). lra.
  Qed.
  Lemma near_log2_e : near o n e_log2_e (1 / ln 2) 57.
  Proof.
    destruct (always_exp1 o n Hn) as (x & A & D). destruct (ln_near_e n Hn _ D) as [P L].
    apply near_le with (7 + 50 * 1); [|lra]. apply (near_log2 o n Hn _ x); auto. lra.
  Qed.
  Lemma ln_10_bounds : 3 * ln 2 <= ln 10 <= 2.8.
  Proof.
    pose proof ln2_tight. split.
    - replace (3 * ln 2) with (ln 2 + ln 2 + ln 2) by ring. rewrite <- !ln_mult by lra. left. apply ln_increasing; lra.
    - apply Rle_trans with (ln 2 + ln 2 + ln 2 + ln 2); [|lra]. rewrite <- !ln_mult by lra. left. apply ln_increasing; lra.
  Qed.
  Lemma near_log2_10 : near o n (EMethodCall (e_int "10") "log" None [e_int "2"]) (ln 10 / ln 2) 147.
  Proof.
    pose proof ln_10_bounds as L. pose proof ln2_tight. pose proof (u_small n Hn) as U.
    apply near_le with (7 + 50 * ln 10); [|lra]. apply (near_log2 o n Hn _ (BD 10 0)).
    - exact (int_always o n "10" 10 eq_refl).
    - rewrite rval_int. lra.
    - rewrite rval_int, Rminus_diag_eq, Rabs_R0 by reflexivity. lra.
    - lra.
  Qed.
  Lemma near_2pi : near o n (EParen (EBinary BMul (e_int "2") e_pi)) (2 * PI) 1.5.
  Proof.
    apply near_paren. apply near_le with (Rabs 2 * / 2 + / 2); [|rewrite Rabs_pos_eq; lra].
    apply (near_mul_int o n Hn "2" 2); [reflexivity|apply near_pi; lia].
  Qed.
  Lemma near_recip_2pi : near o n (EBinary BDiv (e_int "1") (EParen (EBinary BMul (e_int "2") e_pi))) (1 / (2 * PI)) 1.1.
  Proof.
    pose proof PI_bound as B. pose proof u_small' as U.
    apply near_le with (2 * (/ 6 * / 6 * 1.5) + 1); [|lra]. apply recip_near; try lra. exact near_2pi.
  Qed.
  Lemma near_sqrt : sqrt_good o -> near o n (EMethodCall (EParen (EBinary BDiv (e_int "1") (EParen (EBinary BMul (e_int "2") e_pi)))) "sqrt" None []) (sqrt (1 / (2 * PI))) 5.
  Proof.
    intros G. destruct (near_paren _ _ _ _ _ near_recip_2pi) as [F H]. exists F. intros fuel Hf. destruct (H fuel Hf) as (x & E & D).
    pose proof PI_bound as B. pose proof u_small' as U. fold u in D |- *.
    destruct (inv_between 6 (2 * PI) 6.4 ltac:(lra) ltac:(lra)) as [I1 I2]. set (v := 1 / (2 * PI)) in *.
    assert (V : 0.15 <= v <= 0.17) by (unfold v, Rdiv; lra). clearbody v.
    assert (X : 0.13 <= rval x <= 0.19) by (apply Rabs_le_inv in D; lra).
    destruct (eval_sqrt o fuel n _ x None G E) as (z & Z & S); [lra|]. exists z. split; [exact Z|].
    assert (SV : 0.3 <= sqrt v) by (replace 0.3 with (sqrt (0.3 * 0.3)) by (apply sqrt_square; lra); apply sqrt_le_1; lra).
    assert (SX : 0.3 <= sqrt (rval x) <= 1).
    { split; [replace 0.3 with (sqrt (0.3 * 0.3)) by (apply sqrt_square; lra); apply sqrt_le_1; lra|rewrite <- sqrt_1; apply sqrt_le_1; lra]. }
    assert (T : r10 (-96) <= u) by (apply r10_mono; lia). pose proof (r10_pos (-96)).
    assert (Q1 : Rabs (sqrt (rval x) - sqrt v) <= 1.1 * u * 2).
    { replace (sqrt (rval x) - sqrt v) with ((rval x - v) * / (sqrt (rval x) + sqrt v)).
      - rewrite Rabs_mult. apply Rmult_le_compat; try apply Rabs_pos; [exact D|]. rewrite Rabs_pos_eq by (left; apply Rinv_0_lt_compat; lra).
        apply Rmult_le_reg_r with (sqrt (rval x) + sqrt v); [lra|rewrite Rinv_l; lra].
      - rewrite <- (sqrt_sqrt (rval x)), <- (sqrt_sqrt v) at 1 by lra. field. lra. }
    replace (rval z - sqrt v) with ((rval z - sqrt (rval x)) + (sqrt (rval x) - sqrt v)) by ring.
    apply Rle_trans with (1 := Rabs_triang _ _). nra.
  Qed.

  Theorem constants_near name v : (name = "SQRT_RECIP_2PI" -> sqrt_good o) -> In (name, v) constant_values -> exists e, const_source name = Some e /\ computes e = true /\ near o n e v 57 /\ 0.15 <= v <= 3.2 /\
    exists k, IZR k + 0.1 <= v <= IZR k + 0.9.
  Proof.
    intros G I. pose proof PI_bound as B. pose proof u_small' as U. pose proof ln2_tight as L. pose proof ln_10_bounds as T.
    assert (IL : 1.4 <= / ln 2 <= 1.45) by (split; [rewrite <- (Rinv_inv 1.4); apply Rinv_le_contravar|rewrite <- (Rinv_inv 1.45); apply Rinv_le_contravar]; lra).
    assert (Q : 3 <= ln 10 / ln 2 <= 4.1).
    { unfold Rdiv. split; [|nra]. apply Rmult_le_reg_r with (ln 2); [lra|]. rewrite Rmult_assoc, Rinv_l; lra. }
    assert (TP : 0.18 <= tan (PI / 8) <= 0.7).
    { set (p := PI / 8). assert (Pp : 0.375 < p < 0.4) by (unfold p; lra).
      pose proof (sin_half p ltac:(lra)) as S. pose proof (sin_lipschitz p 0) as S1. rewrite sin_0, !Rminus_0_r, (Rabs_pos_eq p), (Rabs_pos_eq (sin p)) in S1 by lra. pose proof (COS_bound p).
      pose proof (cos_lipschitz p 0) as C. rewrite cos_0, Rminus_0_r, (Rabs_pos_eq p) in C by lra. apply Rabs_le_inv in C as [C _].
      unfold tan, Rdiv. assert (1 <= / cos p <= 1.7) by (split; [rewrite <- Rinv_1 at 1; apply Rinv_le_contravar; lra|rewrite <- (Rinv_inv 1.7); apply Rinv_le_contravar; lra]). nra. }
    assert (B1 : 3.1 < PI).
    { pose proof pi_enclosure as [L0 _]. change (r10 (-105)) with (r10 (- (105))) in *. rewrite r10_opp, r10_IZR in * by lia.
      assert (P : 0 < IZR (10 ^ 105)) by (apply IZR_lt; vm_compute; reflexivity).
      assert (A : 31 * IZR (10 ^ 105) < IZR pi_lo * 10) by (rewrite <- !mult_IZR; apply IZR_lt; vm_compute; reflexivity).
      set (t := IZR (10 ^ 105)) in *. set (p := IZR pi_lo) in *. clearbody t p. 
      eapply Rlt_le_trans; [|exact L0]. apply Rmult_lt_reg_r with t; [exact P|]. rewrite Rmult_assoc, Rinv_l by lra. lra. }
    destruct I as [E|[E|[E|[E|[E|[E|[E|[E|[E|[E|[]]]]]]]]]]]; injection E as <- <-; eexists; (split; [reflexivity|]); (split; [reflexivity|]).
    - split; [apply near_le with (/ 2); [apply near_pi; lia|lra]|]. split; [lra|exists 3%Z; lra].
    - split; [apply near_le with 2; [apply near_frac; [reflexivity|lra]|lra]|]. split; [lra|exists 1%Z; lra].
    - split; [apply near_le with 2; [apply near_frac; [reflexivity|lra]|lra]|]. split; [lra|exists 0%Z; lra].
    - split; [apply near_le with 25; [exact near_tan|lra]|]. split; [lra|exists 0%Z; lra].
    - split; [exact near_log2_e|]. unfold Rdiv. split; [lra|exists 1%Z; lra].
    - split; [|split; [lra|exists 0%Z; lra]].
      replace (ln 2) with (1 / (1 / ln 2)) by (field; lra).
      apply near_le with (2 * (/ 1.44 * / 1.44 * 57) + 1); [|lra]. apply recip_near; try lra; [exact near_log2_e|].
      unfold Rdiv. rewrite Rmult_1_l. apply Rmult_le_reg_r with (ln 2); [lra|]. rewrite Rinv_l; lra.
    - replace (ln 2 / ln 10) with (1 / (ln 10 / ln 2)) by (field; lra).
      split; [|unfold Rdiv at 1 3 5 7; destruct (inv_between 3 (ln 10 / ln 2) 4.1 ltac:(lra) ltac:(lra)); split; [lra|exists 0%Z; lra]].
      apply near_le with (2 * (/ 3 * / 3 * 147) + 1); [|lra]. apply recip_near; try lra. exact near_log2_10.
    - split; [|unfold Rdiv; destruct (inv_between 3 PI 3.2 ltac:(lra) ltac:(lra)); split; [lra|exists 0%Z; lra]].
      apply near_le with (2 * (/ 3 * / 3 * / 2) + 1); [|lra]. apply recip_near; try lra. apply near_pi; lia.
    - split; [|unfold Rdiv; destruct (inv_between 6 (2 * PI) 6.4 ltac:(lra) ltac:(lra)); split; [lra|exists 0%Z; lra]].
      apply near_le with 1.1; [exact near_recip_2pi|lra].
    - split; [apply near_le with 5; [exact (near_sqrt (G eq_refl))|lra]|].
      unfold Rdiv; destruct (inv_between 6 (2 * PI) 6.4 ltac:(lra) ltac:(lra)).
      assert (0.3 <= sqrt (1 * / (2 * PI)) <= 0.5).
      { split; [replace 0.3 with (sqrt (0.3 * 0.3)) by (apply sqrt_square; lra)|replace 0.5 with (sqrt (0.5 * 0.5)) by (apply sqrt_square; lra)]; apply sqrt_le_1; lra. }
      split; [lra|exists 0%Z; lra].
  Qed.
End Ten.

(** ** The floats *)
Lemma const_literal bits sub lib nan_of std checked name d y : (bits = 32 \/ bits = 64)%Z -> In name (map fst constant_values) ->
  has bits sub lib name -> sub name = ELit (LFloat d "") -> parse_dec (list_ascii_of_string d) = Some y ->
  const_of bits nan_of std checked lib name = Ok (VFlt (of_decimal bits y)).
Proof.
  intros HB I H S P. unfold const_of, const_depth. unfold has in H.
  assert (E : find_item lib name = Some (IConst name "fty" (sub name))).
  { rewrite H. cbn in I. destruct I as [<-|[<-|[<-|[<-|[<-|[<-|[<-|[<-|[<-|[<-|[]]]]]]]]]]]; reflexivity. }
  rewrite (const_S bits nan_of std checked lib 3 name _ E), S. change (eval_g bits nan_of std checked lib (fun _ _ => stuck) (const_at bits nan_of std checked lib 3) [] (ELit (LFloat d ""))) with (literal bits (LFloat d "")). unfold literal. rewrite P. reflexivity.
Qed.
Lemma config_range bits : (2 <= config_digits bits <= 94)%Z.
Proof. unfold config_digits. destruct (bits =? 32)%Z; lia. Qed.
Lemma config_small bits : (bits = 32 \/ bits = 64)%Z -> 57 * r10 (- config_digits bits) <= bpow radix2 (- prec bits) / 1000000000.
Proof.
  intros HB.
  assert (K : forall a b, (0 <= a)%Z -> (0 <= b)%Z -> (57 * 1000000000 * 2 ^ b <= 10 ^ a)%Z -> 57 * r10 (- a) <= bpow radix2 (- b) / 1000000000).
  { intros a b A B C. rewrite r10_opp, r10_IZR, bpow_opp, <- (IZR_Zpower radix2) by assumption. apply IZR_le in C. rewrite !mult_IZR in C. change (radix2 ^ b)%Z with (2 ^ b)%Z.
    assert (P : 0 < IZR (2 ^ b)) by (apply IZR_lt, Z.pow_pos_nonneg; lia). assert (Q : 0 < IZR (10 ^ a)) by (apply IZR_lt, Z.pow_pos_nonneg; lia).
    set (p := IZR (2 ^ b)) in *. set (q := IZR (10 ^ a)) in *. clearbody p q. apply Rmult_le_reg_r with q; [exact Q|]. rewrite Rmult_assoc, Rinv_l, Rmult_1_r by lra.
    apply Rmult_le_reg_r with p; [exact P|]. replace (/ p / 1000000000 * q * p) with (q / 1000000000) by (field; lra). lra. }
  destruct HB as [-> | ->]; [apply (K 20 24)%Z|apply (K 40 53)%Z]; try lia; vm_compute; discriminate.
Qed.

Theorem constant_float o bits name v : (name = "SQRT_RECIP_2PI" -> sqrt_good o) -> (bits = 32 \/ bits = 64)%Z -> In (name, v) constant_values ->
  exists e fuel0, const_source name = Some e /\ forall fuel, (fuel0 <= fuel)%nat -> exists c,
    eval o fuel (config_digits bits) e = Ok c /\ rust_parse (toks c) = Some c /\
    forall sub lib nan_of std checked, has bits sub lib name -> sub name = c ->
      exists x : flt bits, const_of bits nan_of std checked lib name = Ok (VFlt x) /\ finite x = true /\
        Rabs (fR x - v) <= (1 + / 100000) * bpow radix2 (- prec bits) * v.
Proof.
  intros G HB I. destruct (constants_near o (config_digits bits) (config_range bits) name v G I) as (e & S & C & (F & N) & V & k & K).
  exists e, F. split; [exact S|]. intros fuel Hf. destruct (N fuel Hf) as (y & (r & Er & By) & D). exists r. split; [exact Er|].
  destruct (computed o fuel _ e r C Er) as (w & W). pose proof (config_small bits HB) as U.
  assert (EB : bpow radix2 (- prec bits) <= / 16777216).
  { change (/ 16777216) with (bpow radix2 (-24)). apply bpow_le. destruct HB as [-> | ->]; [change (prec 32) with 24%Z|change (prec 64) with 53%Z]; lia. }
  pose proof (bpow_gt_0 radix2 (- prec bits)) as EP.
  destruct (evals_of_bd o fuel (config_digits bits) w e) as (y' & Ey' & Vy').
  { rewrite Er. symmetry. exact W. }
  assert (Q : rval w = rval y).
  { rewrite <- (rval_wd y' w Vy'). destruct Ey' as (r' & E1 & E2). rewrite E1 in Er. injection Er as ->. rewrite By in E2. injection E2 as ->. reflexivity. }
  rewrite <- Q in D. apply Rabs_le_inv in D.
  destruct (literal_of_bd w r k W) as (d & z & -> & Pr & Pd & Vz).
  { lra. }
  { rewrite plus_IZR. lra. }
  split; [exact Pr|]. intros sub lib nan_of std checked Hh Hs.
  assert (Rz : dreal z = rval w) by (rewrite dreal_rval; exact Vz).
  pose proof (RN_err bits (rval w) HB) as RE. rewrite (Rabs_pos_eq (rval w)) in RE by lra. pose proof (eta_eps bits HB) as ET. unfold eps in *.
  set (ep := bpow radix2 (- prec bits)) in *. apply Rabs_le_inv in RE.
  destruct (of_decimal_nearest bits z) as [Vf Ff].
  { rewrite Rz. apply Rlt_le_trans with (bpow radix2 2); [|apply bpow_le; destruct HB as [-> | ->]; [change (emax 32) with 128%Z|change (emax 64) with 1024%Z]; lia].
    change (bpow radix2 2) with 4. apply Rabs_lt. nra. }
  exists (of_decimal bits z). split; [|split; [exact Ff|]].
  - eapply const_literal; eauto. change name with (fst (name, v)). apply in_map. exact I.
  - rewrite Vf, Rz. apply Rabs_le. assert (ep * rval w <= ep * (v + / 1000000000)) by (apply Rmult_le_compat_l; lra).
    assert (0 <= ep * (v - 0.15)) by (apply Rmult_le_pos; lra). lra.
Qed.
