(** Facts about the tables of the generated tests. *)
From Coq Require Import ZArith List Bool String QArith Qabs Lia Lqa.
From Verif Require Import Res Dec DecFacts DecStr DecStrFacts Syntax Visitor Trans TransFacts TransParse SymbolicProofs BdMath Eval EvalSpec EvalFacts NumberTypeFacts TestTable.
Import ListNotations.
Open Scope list_scope.
Open Scope Q_scope.

(** ** Evaluation sees only the values of the substituted expressions *)
Section E.
  Variables (o : oracles) (fuel : nat) (nd : Z).
  Notation ev := (eval o fuel nd).
  Lemma eval_subst_same vl1 vl2 e :
    (forall p, match find_var vl1 p, find_var vl2 p with Some a, Some b => ev a = ev b | None, None => True | _, _ => False end) ->
    ev (subst_spec vl1 e) = ev (subst_spec vl2 e).
  Proof.
    intros V. induction e using expr_ind_sup; cbn [subst_spec]; try reflexivity.
    - specialize (V p). destruct (find_var vl1 p), (find_var vl2 p); try contradiction; auto.
    - rewrite !eval_un, IHe. reflexivity.
    - rewrite !eval_bin, IHe1, IHe2. reflexivity.
    - rewrite !eval_meth, IHe. unfold eval_method. rewrite !map_map.
      replace (map (fun x => ev (subst_spec vl1 x)) args) with (map (fun x => ev (subst_spec vl2 x)) args); [reflexivity|].
      apply map_ext_in. intros x Hx. rewrite Forall_forall in H. symmetry. auto.
    - rewrite !eval_par. exact IHe.
    - change (def_field (subst_spec vl1 e) (ev (subst_spec vl1 e)) m = def_field (subst_spec vl2 e) (ev (subst_spec vl2 e)) m).
      rewrite IHe. reflexivity.
  Qed.

  Lemma usize_number b : (0 <= b)%Z -> ev (usize_lit b) = Ok (usize_lit b) /\ bd_of_expr (usize_lit b) = Ok (BD b 0).
  Proof.
    intros B. split; [reflexivity|]. unfold usize_lit, bd_of_expr. rewrite list_ascii_of_string_of_list_ascii, parse_zdigits by exact B. reflexivity.
  Qed.
  Lemma rounded_inv e b r : (0 <= b)%Z -> ev (rounded_expr e b) = Ok r ->
    exists x y, evals o fuel nd e x /\ bround_ieee o x (BD b 0) = Ok y /\ expr_of_bd y = Ok r.
  Proof.
    intros B H. unfold rounded_expr in H. rewrite eval_meth in H. unfold eval_method in H. destruct (usize_number b B) as [U1 U2].
    cbn [map rseq] in H. rewrite U1 in H. destruct (ev e) as [v| |] eqn:E; try discriminate H. cbn [rbind map rseq] in H.
    destruct (bd_of_expr v) as [x| |] eqn:X; try discriminate H. cbn [rbind map rseq] in H. rewrite U2 in H. cbn [rbind] in H.
    change (eval_call o fuel nd "round_ieee" x [BD b 0]) with (bround_ieee o x (BD b 0)) in H.
    destruct (bround_ieee o x (BD b 0)) as [y| |] eqn:R; try discriminate H. cbn [rbind] in H.
    exists x, y. split; [exists v; auto|]. auto.
  Qed.
  Lemma expr_of_bd_fixed y r : expr_of_bd y = Ok r -> ev r = Ok r.
  Proof. unfold expr_of_bd. destruct (parse_lit_float _) as [[d s]|]; [|discriminate]. intros H. inversion H. reflexivity. Qed.
  Lemma expr_of_bd_reads y r : expr_of_bd y = Ok r -> exists z, bd_of_expr r = Ok z /\ dval z == dval y.
  Proof. intros H. destruct (expr_of_bd_ok y) as (r' & z & R & Z & V). exists z. split; [congruence|exact V]. Qed.

  Lemma must_inv {A} (r : res A) a : must r = Ok a -> r = Ok a.
  Proof. destruct r as [b|[]|]; cbn; try discriminate; auto. Qed.

  Lemma bin_nums op a b r : ev (EBinary op a b) = Ok r -> exists x y, evals o fuel nd a x /\ evals o fuel nd b y /\ eval_op nd op x y = Ok r.
  Proof.
    rewrite eval_bin. unfold eval_binary. destruct (ev a) as [u| |] eqn:Ea; try discriminate. destruct (ev b) as [v| |] eqn:Eb; try discriminate.
    cbn [rbind]. destruct (is_numeric u && is_numeric v); [|discriminate].
    destruct (bd_of_expr u) as [x| |] eqn:X; try discriminate. destruct (bd_of_expr v) as [y| |] eqn:Y; try discriminate. cbn.
    intros H. exists x, y. split; [exists u; auto|]. split; [exists v; auto|exact H].
  Qed.

  Lemma lit_fixed r : is_lit r = true -> ev r = Ok r.
  Proof. destruct r; try discriminate. reflexivity. Qed.
  Lemma eval_idem e r : ev e = Ok r -> ev r = Ok r.
  Proof.
    revert r. induction e using expr_ind_sup; intros r0 E; try discriminate E.
    - inversion E. reflexivity.
    - change (ev (EPath p)) with (eval_path o nd p) in E. unfold eval_path in E. destruct p as [|q [|]]; try discriminate E.
      destruct (String.eqb q "PI"); [|discriminate E]. destruct (bpi o nd); try discriminate E. exact (expr_of_bd_fixed _ _ E).
    - rewrite eval_un in E. unfold eval_unary in E. destruct (ev e) as [a| |]; try discriminate E. cbn [rbind] in E.
      destruct (is_numeric a); [|discriminate E]. destruct (bd_of_expr a); try discriminate E. cbn in E.
      destruct op; try discriminate E. exact (expr_of_bd_fixed _ _ E).
    - destruct (bin_nums _ _ _ _ E) as (x & y & _ & _ & O). apply lit_fixed. exact (eval_op_lit nd op x y r0 O).
    - rewrite eval_meth in E. unfold eval_method in E. destruct (ev e) as [a| |]; try discriminate E. cbn [rbind] in E.
      destruct (rseq (map ev args)) as [b| |]; try discriminate E. cbn [rbind] in E.
      destruct (bd_of_expr a) as [x| |]; try discriminate E. cbn [rbind] in E.
      destruct (rseq (map bd_of_expr b)) as [c| |]; try discriminate E. cbn [rbind] in E.
      destruct (eval_call o fuel nd m x c) as [y| |]; try discriminate E. exact (expr_of_bd_fixed _ _ E).
    - rewrite eval_par in E. auto.
    - change (ev (EField e m)) with (def_field e (ev e) m) in E. unfold def_field in E. destruct (ev e) as [a| |]; try discriminate E.
      inversion E. change (def_field a (ev a) m = Ok (EField a m)). rewrite (IHe a eq_refl). reflexivity.
  Qed.

  Variables (bits : Z) (refe tmin tmax : expr).
  Lemma row_inv n i xe ye ee : (0 <= bits)%Z -> table_row o fuel nd bits refe tmin tmax n i = Ok (xe, ye, ee) ->
    (exists g x' x, evals o fuel nd (grid_expr tmin tmax n i) g /\ bround_ieee o g (BD bits 0) = Ok x' /\ bd_of_expr xe = Ok x /\ dval x == dval x') /\
    exists s ve v y' y e, subst [(["x"%string], xe)] refe = Ok s /\ ev s = Ok ve /\ bd_of_expr ve = Ok v /\
      bround_ieee o v (BD bits 0) = Ok y' /\ bd_of_expr ye = Ok y /\ dval y == dval y' /\ bd_of_expr ee = Ok e /\ dval y + dval e == dval v.
  Proof.
    intros B. unfold table_row. set (xee := rounded_expr (grid_expr tmin tmax n i) bits).
    destruct (must (ev xee)) as [x0| |] eqn:X; try discriminate. apply must_inv in X. cbn [rbind].
    destruct (must (subst _ refe)) as [s| |] eqn:S; try discriminate. apply must_inv in S. cbn [rbind].
    destruct (must (ev s)) as [yv| |] eqn:Y; try discriminate. apply must_inv in Y. cbn [rbind].
    destruct (must (ev (rounded_expr yv bits))) as [y0| |] eqn:YR; try discriminate. apply must_inv in YR. cbn [rbind].
    destruct (must (ev (EBinary BSub _ _))) as [e0| |] eqn:YE; try discriminate. apply must_inv in YE. cbn [rbind].
    intros H. inversion H; subst x0 y0 e0. clear H.
    destruct (rounded_inv _ _ _ B X) as (g & x' & G & R & Rx). destruct (expr_of_bd_reads _ _ Rx) as (x & Xr & Xv).
    split; [exists g, x', x; auto|].
    apply subst_inv in S. destruct S as [Sup ->].
    exists (subst_spec [(["x"%string], xe)] refe).
    destruct (rounded_inv _ _ _ B YR) as (v1 & y' & (ve & V1 & V2) & Ry & Rye). destruct (expr_of_bd_reads _ _ Rye) as (y & Yr & Yv).
    assert (E1 : ev (subst_spec [(["x"%string], xe)] refe) = Ok yv).
    { rewrite <- Y. apply eval_subst_same. intros p. unfold find_var, List.find. cbn [fst]. destruct (path_eqb ["x"%string] p); [|exact I].
      rewrite X. apply (expr_of_bd_fixed x'). exact Rx. }
    destruct (bin_nums _ _ _ _ YE) as (a & b & (u & A1 & A2) & (w & B1 & B2) & O). cbn [eval_op] in O.
    assert (b = y) by congruence. subst b. assert (a = v1) by congruence. subst a.
    destruct (expr_of_bd_reads _ _ O) as (e & Er & Ev).
    assert (EV : ev yv = Ok yv) by exact (eval_idem _ _ Y).
    assert (w = ye) by congruence. subst w. assert (u = yv) by congruence. subst u.
    exists yv, v1, y', y, e. split; [rewrite subst_ok, Sup; reflexivity|]. repeat (split; [assumption|]).
    rewrite Ev, dval_dsub. ring.
  Qed.
End E.

(** ** The grid *)
Section G.
  Variables (o : oracles) (fuel : nat) (nd : Z).
  Hypothesis N : (0 <= nd)%Z.
  Lemma evals_det e x y : evals o fuel nd e x -> evals o fuel nd e y -> x = y.
  Proof. intros (r & A & B) (s & C & D). assert (r = s) by congruence. subst s. congruence. Qed.
  Lemma evals_par e x : evals o fuel nd e x -> evals o fuel nd (EParen e) x.
  Proof. intros (r & A & B). exists r. rewrite eval_par. auto. Qed.
  Lemma evals_usize b : (0 <= b)%Z -> evals o fuel nd (usize_lit b) (BD b 0).
  Proof. intros B. destruct (usize_number o fuel nd b B). exists (usize_lit b). auto. Qed.
  Lemma dval_int b : dval (BD b 0) == inject_Z b.
  Proof. unfold dval. cbn [mant scale Z.opp]. rewrite p10_0. ring. Qed.

  Lemma grid_close tmin tmax n i lo hi g : (0 <= i <= n)%Z -> (0 < n)%Z ->
    evals o fuel nd tmin lo -> evals o fuel nd tmax hi -> evals o fuel nd (grid_expr tmin tmax n i) g ->
    Qabs (dval g - (dval lo + inject_Z i * (dval hi - dval lo) / inject_Z n)) <= 2 * p10 (- nd) + p10 (-99) * Qabs (dval hi - dval lo).
  Proof.
    intros I P L H G. unfold grid_expr in G.
    destruct (eval_sub _ _ _ _ _ _ _ (evals_par _ _ H) (evals_par _ _ L)) as (w & Ew & Vw).
    destruct (eval_mul _ _ _ _ _ _ _ N (evals_usize i ltac:(lia)) (evals_par _ _ Ew)) as (m & Em & Vm).
    assert (Nz : ~ dval (BD n 0) == 0).
    { rewrite dval_int. intros Z. unfold Qeq in Z. cbn in Z. lia. }
    destruct (eval_div _ _ _ _ _ _ _ N Em (evals_par _ _ (evals_usize n ltac:(lia))) Nz) as (d & q & Ed & Vd & Rd).
    destruct (eval_add _ _ _ _ _ _ _ Ed (evals_par _ _ L)) as (z & Ez & Vz).
    assert (g = z). { eapply evals_det; [exact G|]. do 2 apply evals_par. exact Ez. } subst z.
    apply is_round_err in Vm. apply is_round_err in Rd.
    rewrite dval_int in Vm. rewrite dval_int in Vd. set (W := dval hi - dval lo) in *. rewrite Vw in Vm.
    assert (Np : 0 < inject_Z n) by (change 0 with (inject_Z 0); rewrite <- Zlt_Qlt; exact P).
    assert (N1 : 1 <= inject_Z n) by (change 1 with (inject_Z 1); rewrite <- Zle_Qle; lia).
    assert (I0 : 0 <= inject_Z i) by (change 0 with (inject_Z 0); rewrite <- Zle_Qle; lia).
    assert (I1 : inject_Z i <= inject_Z n) by (rewrite <- Zle_Qle; lia).
    set (nn := inject_Z n) in *. set (ii := inject_Z i) in *. set (h := half_ulp nd) in *.
    assert (Hh : h == (1 # 2) * p10 (- nd)) by reflexivity.
    pose proof (p10_pos (- nd)) as Pu. pose proof (p10_pos (-99)) as Pd.
    assert (D1 : p10 (-99) <= 1) by (change 1 with (p10 0); apply p10_mono; lia).
    assert (A1 : Qabs (dval m / nn - ii * W / nn) <= h).
    { setoid_replace (dval m / nn - ii * W / nn) with ((dval m - ii * W) / nn) by (field; lra).
      unfold Qdiv. rewrite Qabs_Qmult, Qabs_inv by lra. rewrite (Qabs_pos nn) by lra.
      apply Qle_trans with (Qabs (dval m - ii * W) * 1); [|lra]. apply Qmult_le_compat_nonneg; split; try apply Qabs_nonneg; try apply Qle_refl.
      - apply Qlt_le_weak, Qinv_lt_0_compat, Np.
      - apply (Qinv_le 1 nn); [reflexivity|exact N1]. }
    assert (A2 : Qabs (ii * W / nn) <= Qabs W).
    { setoid_replace (ii * W / nn) with (ii / nn * W) by (field; lra). rewrite Qabs_Qmult.
      assert (Z : 0 <= ii / nn <= 1). { split; [apply Qle_shift_div_l; lra|apply Qle_shift_div_r; lra]. }
      rewrite (Qabs_pos (ii / nn)) by lra. pose proof (Qabs_nonneg W). nra. }
    assert (A3 : Qabs (dval m / nn) <= Qabs W + h).
    { setoid_replace (dval m / nn) with ((dval m / nn - ii * W / nn) + ii * W / nn) by ring.
      eapply Qle_trans; [apply Qabs_triangle|]. lra. }
    assert (A4 : (1 # 2) * p10 (-99) * Qabs (dval m / nn) <= (1 # 2) * p10 (-99) * Qabs W + (1 # 2) * h).
    { assert ((1 # 2) * p10 (-99) * Qabs (dval m / nn) <= (1 # 2) * p10 (-99) * (Qabs W + h)) by (apply Qmult_le_l; [lra|exact A3]).
      assert (p10 (-99) * h <= 1 * h) by (apply Qmult_le_compat_r; lra). lra. }
    rewrite Vz.
    setoid_replace (dval d + dval lo - (dval lo + ii * W / nn)) with ((dval d - q) + ((q - dval m / nn) + (dval m / nn - ii * W / nn))) by (field; lra).
    eapply Qle_trans; [apply Qabs_triangle|]. eapply Qle_trans; [apply Qplus_le_compat; [exact Rd|apply Qabs_triangle]|].
    pose proof (Qabs_nonneg W). assert (0 <= p10 (-99) * Qabs W) by (apply Qmult_le_0_compat; lra). lra.
  Qed.
End G.

(** ** The whole table *)
Section T.
  Variables (o : oracles) (fuel : nat) (nd bits : Z) (refe tmin tmax : expr).
  Lemma rseq_nth {A B} (f : A -> res B) l r : rseq (map f l) = Ok r ->
    length r = length l /\ forall i a, nth_error l i = Some a -> exists b, nth_error r i = Some b /\ f a = Ok b.
  Proof.
    revert r. induction l as [|a l IH]; intros r H; cbn in H.
    - inversion H. split; [reflexivity|]. intros [|i] a E; discriminate E.
    - destruct (f a) as [b| |] eqn:F; try discriminate H. cbn in H. destruct (rseq (map f l)) as [r'| |] eqn:R; try discriminate H.
      inversion H. destruct (IH r' eq_refl) as [L G]. split; [cbn; congruence|]. intros [|i] c E; cbn in *.
      + inversion E. subst c. exists b. auto.
      + auto.
  Qed.
  Lemma rows_nth n rows : table_rows o fuel nd bits refe tmin tmax n = Ok rows ->
    length rows = n /\ forall i, (i < n)%nat -> exists r, nth_error rows i = Some r /\
      table_row o fuel nd bits refe tmin tmax (Z.of_nat n) (Z.of_nat i) = Ok r.
  Proof.
    intros H. destruct (rseq_nth _ _ _ H) as [L G]. rewrite seq_length in L. split; [exact L|].
    intros i Hi. apply (G i i). rewrite (nth_error_nth' _ 0%nat) by (rewrite seq_length; exact Hi). rewrite seq_nth by exact Hi. reflexivity.
  Qed.
  Lemma to_i32_int b : to_i32 (BD b 0) = if ((- 2147483648 <=? b) && (b <=? 2147483647))%Z then Some b else None.
  Proof. unfold to_i32, with_scale. cbn [mant scale]. destruct b; reflexivity. Qed.
  Lemma other_width n : (0 <= bits)%Z -> bits <> 32%Z -> bits <> 64%Z -> (0 < n)%nat -> forall rows, table_rows o fuel nd bits refe tmin tmax n <> Ok rows.
  Proof.
    intros B B1 B2 P rows H. destruct (rows_nth n rows H) as [_ G]. destruct (G 0%nat P) as ([[xe ye] ee] & _ & R).
    destruct (row_inv _ _ _ _ _ _ _ _ _ _ _ _ B R) as ((g & x' & x & _ & Q & _) & _). revert Q. unfold bround_ieee. rewrite to_i32_int.
    destruct ((_ <=? bits) && _)%Z; [|discriminate].
    destruct bits as [|p|p]; try discriminate. destruct p as [p|p|]; try discriminate.
    repeat (destruct p as [p|p|]; try discriminate; try congruence).
  Qed.
End T.
