(** Lemmas about the evaluator on arithmetic, names and parentheses. *)
From Coq Require Import ZArith QArith Qabs Qfield Lqa List Bool String Lia.
From Verif Require Import Res Dec DecFacts DecStr DecStrFacts Syntax Visitor Trans TransFacts ExprOps
  TransParse BdMath Eval EvalSpec.
Import ListNotations.
Open Scope Q_scope.
Notation length := List.length.

Definition evals o fuel n e x : Prop := exists r, eval o fuel n e = Ok r /\ bd_of_expr r = Ok x.

Lemma bd_numeric r x : bd_of_expr r = Ok x -> is_numeric r = true.
Proof. destruct r as [[]| | | | | | | | | | |]; cbn; auto; discriminate. Qed.

Lemma Some_inj {A} (a b : A) : Some a = Some b -> a = b.
Proof. congruence. Qed.

Section O.
Variables (o : oracles) (fuel : nat) (n : Z).
Notation ev := (eval o fuel n).

Lemma eval_bin op a b : ev (EBinary op a b) = eval_binary n op a (ev a) b (ev b).
Proof. reflexivity. Qed.
Lemma eval_un op a : ev (EUnary op a) = eval_unary op a (ev a).
Proof. reflexivity. Qed.
Lemma eval_par a : ev (EParen a) = ev a.
Proof. reflexivity. Qed.
Lemma eval_meth r m t args : ev (EMethodCall r m t args) = eval_method o fuel n r (ev r) m t args (map ev args).
Proof. reflexivity. Qed.

Lemma eval_bin_num op a b x y : evals o fuel n a x -> evals o fuel n b y ->
  ev (EBinary op a b) = eval_op n op x y.
Proof.
  intros (ra & Ea & Xa) (rb & Eb & Xb). rewrite eval_bin, Ea, Eb. unfold eval_binary. cbn [rbind].
  rewrite (bd_numeric _ _ Xa), (bd_numeric _ _ Xb). cbn [andb]. rewrite Xa, Xb. reflexivity.
Qed.

Lemma evals_of_bd x e : ev e = expr_of_bd x -> exists z, evals o fuel n e z /\ dval z == dval x.
Proof.
  intros H. destruct (expr_of_bd_ok x) as (r & z & R & Z & V). exists z. split; [|exact V].
  exists r. rewrite H. auto.
Qed.

Lemma eval_add a b x y : evals o fuel n a x -> evals o fuel n b y ->
  exists z, evals o fuel n (EBinary BAdd a b) z /\ dval z == dval x + dval y.
Proof.
  intros A B. destruct (evals_of_bd (dadd x y) (EBinary BAdd a b)) as (z & E & V).
  { rewrite (eval_bin_num _ a b x y A B). reflexivity. }
  exists z. split; [exact E|]. rewrite V. apply dval_dadd.
Qed.
Lemma eval_sub a b x y : evals o fuel n a x -> evals o fuel n b y ->
  exists z, evals o fuel n (EBinary BSub a b) z /\ dval z == dval x - dval y.
Proof.
  intros A B. destruct (evals_of_bd (dsub x y) (EBinary BSub a b)) as (z & E & V).
  { rewrite (eval_bin_num _ a b x y A B). reflexivity. }
  exists z. split; [exact E|]. rewrite V. apply dval_dsub.
Qed.
Lemma eval_neg a x : evals o fuel n a x ->
  exists z, evals o fuel n (EUnary UNeg a) z /\ dval z == - dval x.
Proof.
  intros (ra & Ea & Xa). destruct (evals_of_bd (dneg x) (EUnary UNeg a)) as (z & E & V).
  { rewrite eval_un, Ea. unfold eval_unary. cbn [rbind]. rewrite (bd_numeric _ _ Xa), Xa. reflexivity. }
  exists z. split; [exact E|]. rewrite V. apply dval_dneg.
Qed.

Lemma is_round_wd q q' r r' k : q == q' -> r == r' -> is_round_half_away q k r -> is_round_half_away q' k r'.
Proof.
  intros Q R (z & A & B & C). exists z. rewrite <- R, <- Q. auto.
Qed.

Lemma eval_mul a b x y : (0 <= n)%Z -> evals o fuel n a x -> evals o fuel n b y ->
  exists z, evals o fuel n (EBinary BMul a b) z /\ is_round_half_away (dval x * dval y) n (dval z).
Proof.
  intros N A B. destruct (evals_of_bd (round (dmul x y) n) (EBinary BMul a b)) as (z & E & V).
  { rewrite (eval_bin_num _ a b x y A B). reflexivity. }
  exists z. split; [exact E|]. pose proof (round_spec (dmul x y) n N) as R.
  eapply is_round_wd; [apply dval_dmul|symmetry; exact V|exact R].
Qed.

Lemma eval_div a b x y : (0 <= n)%Z -> evals o fuel n a x -> evals o fuel n b y -> ~ dval y == 0 ->
  exists z q, evals o fuel n (EBinary BDiv a b) z /\
    Qabs (q - dval x / dval y) <= (1 # 2) * p10 (-99) * Qabs (dval x / dval y) /\
    is_round_half_away q n (dval z).
Proof.
  intros N A B Y. destruct (ddiv_ok x y Y) as [q D].
  destruct (evals_of_bd (round q n) (EBinary BDiv a b)) as (z & E & V).
  { rewrite (eval_bin_num _ a b x y A B). cbn [eval_op]. rewrite D. reflexivity. }
  exists z, (dval q). split; [exact E|]. split; [apply ddiv_err; exact D|].
  eapply is_round_wd; [reflexivity|symmetry; exact V|apply round_spec; exact N].
Qed.

Lemma eval_div_zero a b x y : evals o fuel n a x -> evals o fuel n b y -> dval y == 0 ->
  ev (EBinary BDiv a b) = Panic.
Proof.
  intros A B Y. rewrite (eval_bin_num _ a b x y A B). cbn [eval_op].
  apply (ddiv_panic x) in Y. rewrite Y. reflexivity.
Qed.

Definition truth (op : binop) (x y : Q) : option Prop :=
  match op with
  | BLt => Some (x < y) | BGt => Some (y < x) | BLe => Some (x <= y) | BGe => Some (y <= x)
  | BEq => Some (x == y) | BNe => Some (~ x == y) | _ => None
  end.

Lemma eval_compare op a b x y P : evals o fuel n a x -> evals o fuel n b y ->
  truth op (dval x) (dval y) = Some P ->
  exists v, ev (EBinary op a b) = Ok (ELit (LBool v)) /\ (v = true <-> P).
Proof.
  intros A B T. rewrite (eval_bin_num _ a b x y A B).
  destruct op; cbn in T; try discriminate; inversion T; subst P; cbn [eval_op];
    (eexists; split; [reflexivity|]).
  - apply deqb_spec.
  - apply dltb_spec.
  - apply dleb_spec.
  - rewrite <- deqb_spec. destruct (deqb x y); cbn; split; congruence.
  - apply dleb_spec.
  - apply dltb_spec.
Qed.

Lemma is_round_err q r : is_round_half_away q n r -> Qabs (r - q) <= half_ulp n.
Proof. intros (k & _ & H & _). exact H. Qed.

(** ** The error bound *)

Lemma Qabs_split a b : Qabs a <= b <-> - b <= a <= b.
Proof. apply Qabs_Qle_condition. Qed.

Lemma mul_err x y x' y' ex ey : Qabs (x' - x) <= ex -> Qabs (y' - y) <= ey ->
  Qabs (x' * y' - x * y) <= Qabs x * ey + Qabs y * ex + ex * ey.
Proof.
  intros X Y.
  assert (E : x' * y' - x * y == x * (y' - y) + y * (x' - x) + (x' - x) * (y' - y)) by ring.
  rewrite E. eapply Qle_trans; [apply Qabs_triangle|]. apply Qplus_le_compat.
  - eapply Qle_trans; [apply Qabs_triangle|]. rewrite !Qabs_Qmult. apply Qplus_le_compat.
    + rewrite (Qmult_comm (Qabs x)), (Qmult_comm (Qabs x)). apply Qmult_le_compat_r; [exact Y|apply Qabs_nonneg].
    + rewrite (Qmult_comm (Qabs y)), (Qmult_comm (Qabs y)). apply Qmult_le_compat_r; [exact X|apply Qabs_nonneg].
  - rewrite Qabs_Qmult. apply Qle_trans with (ex * Qabs (y' - y)).
    + apply Qmult_le_compat_r; [exact X|apply Qabs_nonneg].
    + rewrite (Qmult_comm ex), (Qmult_comm ex). apply Qmult_le_compat_r; [exact Y|].
      eapply Qle_trans; [apply Qabs_nonneg|exact X].
Qed.

Lemma Qabs_pos_nz y : 0 < Qabs y -> ~ y == 0.
Proof. intros H E. rewrite E in H. cbn in H. lra. Qed.
Lemma Qabs_inv y : ~ y == 0 -> Qabs (/ y) == / Qabs y.
Proof.
  intros Y. assert (H : Qabs y * Qabs (/ y) == 1).
  { rewrite <- Qabs_Qmult. setoid_replace (y * / y) with 1 by (field; exact Y). reflexivity. }
  assert (P : ~ Qabs y == 0).
  { intros Z. rewrite Z in H. lra. }
  setoid_replace (Qabs (/ y)) with ((Qabs y * Qabs (/ y)) / Qabs y) by (field; exact P).
  rewrite H. field. exact P.
Qed.

Lemma Qinv_le a b : 0 < a -> a <= b -> / b <= / a.
Proof.
  intros A B. apply Qle_shift_inv_l; [exact A|].
  setoid_replace (/ b * a) with (a / b) by (unfold Qdiv; ring).
  apply Qle_shift_div_r; lra.
Qed.

Lemma div_err x y x' y' ex ey : Qabs (x' - x) <= ex -> Qabs (y' - y) <= ey -> ey < Qabs y ->
  ~ y == 0 /\ ~ y' == 0 /\
  Qabs (x' / y' - x / y) <= (ex * Qabs y + Qabs x * ey) / (Qabs y * (Qabs y - ey)).
Proof.
  intros X Y L.
  assert (E0 : 0 <= ey) by (eapply Qle_trans; [apply Qabs_nonneg|exact Y]).
  assert (Py : 0 < Qabs y) by lra.
  assert (Ny : ~ y == 0) by (apply Qabs_pos_nz; exact Py).
  assert (Ly' : Qabs y - ey <= Qabs y').
  { assert (T : Qabs y <= Qabs y' + Qabs (y - y')).
    { eapply Qle_trans; [|apply Qabs_triangle]. apply Qle_lteq. right. apply Qabs_wd. ring. }
    rewrite <- Qabs_opp in Y. setoid_replace (- (y' - y)) with (y - y') in Y by ring. lra. }
  assert (Ny' : ~ y' == 0) by (apply Qabs_pos_nz; lra).
  split; [exact Ny|]. split; [exact Ny'|].
  assert (E : x' / y' - x / y == ((x' - x) * y - x * (y' - y)) * / (y * y')).
  { field. auto. }
  rewrite E, Qabs_Qmult, Qabs_inv.
  2:{ intros Z. apply Qmult_integral in Z. tauto. }
  rewrite Qabs_Qmult. unfold Qdiv.
  assert (N : Qabs ((x' - x) * y - x * (y' - y)) <= ex * Qabs y + Qabs x * ey).
  { eapply Qle_trans; [apply Qabs_triangle|]. rewrite Qabs_opp, !Qabs_Qmult. apply Qplus_le_compat.
    - apply Qmult_le_compat_r; [exact X|apply Qabs_nonneg].
    - rewrite (Qmult_comm (Qabs x)), (Qmult_comm (Qabs x)). apply Qmult_le_compat_r; [exact Y|apply Qabs_nonneg]. }
  apply Qle_trans with ((ex * Qabs y + Qabs x * ey) * / (Qabs y * Qabs y')).
  - apply Qmult_le_compat_r; [exact N|]. apply Qlt_le_weak, Qinv_lt_0_compat.
    apply Qmult_lt_0_compat; lra.
  - rewrite (Qmult_comm _ (/ _)), (Qmult_comm _ (/ (Qabs y * (Qabs y - ey)))). apply Qmult_le_compat_r.
    + assert (H : 0 < Qabs y * (Qabs y - ey)) by (apply Qmult_lt_0_compat; lra).
      assert (G : Qabs y * (Qabs y - ey) <= Qabs y * Qabs y').
      { rewrite (Qmult_comm (Qabs y)), (Qmult_comm (Qabs y) (Qabs y')). apply Qmult_le_compat_r; lra. }
      apply Qinv_le; assumption.
    + eapply Qle_trans; [apply Qabs_nonneg|exact N].
Qed.

Theorem eval_err_bound : (0 <= n)%Z -> forall e q b, exact e = Some q -> err_bound n e = Some b ->
  exists x, evals o fuel n e x /\ Qabs (dval x - q) <= b.
Proof.
  intros N e. induction e as [l|p|op a IHa|op a b IHa IHb|rc m t args IHr IHargs|a IHa|a m IHa|f args IHf IHfa|a t IHa|c t els IHc IHt IHe|blk IHb|k| | | ]
    using expr_ind_nested with (Ps := fun _ => True); try exact I; intros q bnd X B; try discriminate X.
  - cbn [exact err_bound] in X, B. destruct (bd_of_expr (ELit l)) as [x| |] eqn:E; try discriminate.
    inversion X; inversion B; subst. exists x. split.
    + exists (ELit l). split; [reflexivity|exact E].
    + setoid_replace (dval x - dval x) with 0 by ring. cbn. lra.
  - destruct op; try discriminate X. cbn [exact err_bound] in X, B.
    destruct (exact a) as [qa|]; try discriminate. inversion X; subst.
    destruct (IHa qa bnd eq_refl B) as (x & E & H). destruct (eval_neg a x E) as (z & Z & V).
    exists z. split; [exact Z|]. rewrite V. setoid_replace (- dval x - - qa) with (- (dval x - qa)) by ring.
    rewrite Qabs_opp. exact H.
  - cbn [exact err_bound] in X, B.
    destruct (exact a) as [xa|]; try discriminate. destruct (exact b) as [xb|]; try discriminate.
    destruct (err_bound n a) as [ea|]; try discriminate. destruct (err_bound n b) as [eb|]; try discriminate.
    destruct (IHa xa ea eq_refl eq_refl) as (x & Ex & Hx).
    destruct (IHb xb eb eq_refl eq_refl) as (y & Ey & Hy).
    destruct op; try discriminate X.
    + inversion X; inversion B; subst. destruct (eval_add a b x y Ex Ey) as (z & Z & V).
      exists z. split; [exact Z|]. rewrite V.
      setoid_replace (dval x + dval y - (xa + xb)) with ((dval x - xa) + (dval y - xb)) by ring.
      eapply Qle_trans; [apply Qabs_triangle|]. lra.
    + inversion X; inversion B; subst. destruct (eval_sub a b x y Ex Ey) as (z & Z & V).
      exists z. split; [exact Z|]. rewrite V.
      setoid_replace (dval x - dval y - (xa - xb)) with ((dval x - xa) + - (dval y - xb)) by ring.
      eapply Qle_trans; [apply Qabs_triangle|]. rewrite Qabs_opp. lra.
    + inversion X; inversion B; subst. destruct (eval_mul a b x y N Ex Ey) as (z & Z & R).
      exists z. split; [exact Z|]. apply is_round_err in R.
      pose proof (mul_err xa xb (dval x) (dval y) ea eb Hx Hy) as M.
      setoid_replace (dval z - xa * xb) with ((dval x * dval y - xa * xb) + (dval z - dval x * dval y)) by ring.
      eapply Qle_trans; [apply Qabs_triangle|]. lra.
    + destruct (Qeq_bool xb 0) eqn:Z0; try discriminate X.
      destruct (Qle_bool (Qabs xb) eb) eqn:L; try discriminate B.
      assert (L' : eb < Qabs xb).
      { apply Qnot_le_lt. intros H. apply Qle_bool_iff in H. congruence. }
      apply Some_inj in X. apply Some_inj in B. subst q bnd.
      destruct (div_err xa xb (dval x) (dval y) ea eb Hx Hy L') as (Nb & Ny & D).
      set (d := (ea * Qabs xb + Qabs xa * eb) / (Qabs xb * (Qabs xb - eb))) in *.
      destruct (eval_div a b x y N Ex Ey Ny) as (z & w & Z & W & R).
      exists z. split; [exact Z|]. apply is_round_err in R.
      assert (T : Qabs (dval x / dval y) <= Qabs (xa / xb) + d).
      { setoid_replace (dval x / dval y) with (xa / xb + (dval x / dval y - xa / xb)) by ring.
        eapply Qle_trans; [apply Qabs_triangle|]. lra. }
      assert (W' : Qabs (w - dval x / dval y) <= (1 # 2) * p10 (-99) * (Qabs (xa / xb) + d)).
      { eapply Qle_trans; [exact W|]. rewrite (Qmult_comm _ (Qabs _)), (Qmult_comm _ (_ + d)).
        apply Qmult_le_compat_r; [exact T|]. pose proof (p10_pos (-99)). lra. }
      setoid_replace (dval z - xa / xb) with
        ((dval x / dval y - xa / xb) + ((w - dval x / dval y) + (dval z - w))) by ring.
      eapply Qle_trans; [apply Qabs_triangle|].
      assert (U := Qabs_triangle (w - dval x / dval y) (dval z - w)).
      clear - D W' R U. clearbody d.
      set (P := (1 # 2) * p10 (-99) * (Qabs (xa / xb) + d)) in *. clearbody P.
      eapply Qle_trans; [apply Qplus_le_compat; [exact D|exact U]|]. lra.
  - cbn [exact err_bound] in X, B. apply (IHa q bnd X B).
Qed.

(** ** Which expressions evaluate, and to what *)

Lemma expr_of_bd_lit x r : expr_of_bd x = Ok r -> is_lit r = true.
Proof. unfold expr_of_bd. destruct (parse_lit_float _) as [[]|]; intros H; inversion H; reflexivity. Qed.

Lemma eval_op_lit op x y r : eval_op n op x y = Ok r -> is_lit r = true.
Proof.
  destruct op; cbn; intros H; try discriminate H; try (inversion H; subst; reflexivity);
    try (apply expr_of_bd_lit in H; exact H).
  destruct (ddiv x y); cbn in H; try discriminate. apply expr_of_bd_lit in H. exact H.
Qed.

Lemma eval_lit e r : fieldless e = true -> ev e = Ok r -> is_lit r = true.
Proof.
  revert r. induction e as [l|p|op a IHa|op a b IHa IHb|rc m t args IHr IHargs|a IHa|a m IHa|f args IHf IHfa|a t IHa|c t els IHc IHt IHe|blk IHb|k| | | ]
    using expr_ind_nested with (Ps := fun _ => True); try exact I; intros r F H; try discriminate.
  - inversion H; reflexivity.
  - change (eval_path o n p = Ok r) in H. destruct p as [|s []]; try discriminate. cbn in H.
    destruct (s =? "PI")%string; try discriminate. destruct (bpi o n); try discriminate.
    apply expr_of_bd_lit in H. exact H.
  - rewrite eval_un in H. unfold eval_unary in H. destruct (ev a); try discriminate. cbn [rbind] in H.
    destruct (is_numeric _); try discriminate. destruct (unwrap _); try discriminate. cbn [rbind] in H.
    destruct op; try discriminate. apply expr_of_bd_lit in H. exact H.
  - rewrite eval_bin in H. unfold eval_binary in H. destruct (ev a); try discriminate.
    destruct (ev b); try discriminate. cbn [rbind] in H.
    destruct (_ && _); try discriminate. destruct (unwrap _); try discriminate. cbn [rbind] in H.
    destruct (unwrap _); try discriminate. cbn [rbind] in H. apply eval_op_lit in H. exact H.
  - rewrite eval_meth in H. unfold eval_method in H. destruct (ev rc); try discriminate. cbn [rbind] in H.
    destruct (rseq (map ev args)); try discriminate. cbn [rbind] in H.
    destruct (bd_of_expr _); try discriminate. cbn [rbind] in H.
    destruct (rseq _); try discriminate. cbn [rbind] in H.
    destruct (eval_call _ _ _ _ _ _); try discriminate. cbn [rbind] in H. apply expr_of_bd_lit in H. exact H.
  - rewrite eval_par in H. apply IHa; auto.
Qed.

Lemma rseq_all {A B} (f : A -> res B) l r : rseq (map f l) = Ok r -> Forall (fun a => exists b, f a = Ok b) l.
Proof.
  revert r. induction l as [|a l IH]; cbn; intros r H; [constructor|].
  destruct (f a) eqn:E; try discriminate. cbn in H. destruct (rseq (map f l)); try discriminate.
  constructor; eauto.
Qed.

Lemma eval_names e r : ev e = Ok r -> forall p, In p (paths_of e) -> p = ["PI"%string].
Proof.
  revert r. induction e as [l|p|op a IHa|op a b IHa IHb|rc m t args IHr IHargs|a IHa|a m IHa|f args IHf IHfa|a t IHa|c t els IHc IHt IHe|blk IHb|k| | | ]
    using expr_ind_nested with (Ps := fun _ => True); try exact I; intros r H; try discriminate; cbn [paths_of].
  - intros p [].
  - intros p' [<-|[]]. change (eval_path o n p = Ok r) in H. destruct p as [|s []]; try discriminate. cbn in H.
    destruct (s =? "PI")%string eqn:E; try discriminate. apply String.eqb_eq in E. subst. reflexivity.
  - rewrite eval_un in H. unfold eval_unary in H. destruct (ev a) eqn:E; try discriminate. apply (IHa _ eq_refl).
  - rewrite eval_bin in H. unfold eval_binary in H. destruct (ev a) eqn:E; try discriminate.
    destruct (ev b) eqn:E'; try discriminate.
    intros p P. apply in_app_or in P. destruct P; [eapply IHa|eapply IHb]; eauto.
  - rewrite eval_meth in H. unfold eval_method in H. destruct (ev rc) eqn:E; try discriminate. cbn [rbind] in H.
    destruct (rseq (map ev args)) eqn:E'; try discriminate. apply rseq_all in E'.
    intros p P. apply in_app_or in P. destruct P as [P|P]; [eapply IHr; eauto|].
    apply in_flat_map in P. destruct P as (x & Hx & Hp).
    rewrite Forall_forall in IHargs, E'. destruct (E' x Hx) as [b Hb]. eapply IHargs; eauto.
  - rewrite eval_par in H. eapply IHa; eauto.
  - change (ev (EField a m)) with (def_field a (ev a) m) in H. unfold def_field in H.
    destruct (ev a) eqn:E; try discriminate. apply (IHa _ eq_refl).
Qed.

Lemma eval_call_known m x args y : eval_call o fuel n m x args = Ok y -> In (m, length args) known_methods.
Proof.
  unfold eval_call. destruct args as [|a [|b [|c args]]]; try discriminate.
  all: repeat match goal with
    | |- (if (?m =? ?s)%string then _ else _) = _ -> _ =>
        destruct (m =? s)%string eqn:?;
        [match goal with H : (m =? s)%string = true |- _ => apply String.eqb_eq in H; subst m end;
         intros _; vm_compute; tauto|]
    end; discriminate.
Qed.

Lemma rseq_length {A} (l : list (res A)) r : rseq l = Ok r -> length r = length l.
Proof. intros H. apply rseq_ok_inv in H. subst. rewrite map_length. reflexivity. Qed.

Lemma eval_methods e r : ev e = Ok r -> forall p, In p (methods_of e) -> In p known_methods.
Proof.
  revert r. induction e as [l|p|op a IHa|op a b IHa IHb|rc m t args IHr IHargs|a IHa|a m IHa|f args IHf IHfa|a t IHa|c t els IHc IHt IHe|blk IHb|k| | | ]
    using expr_ind_nested with (Ps := fun _ => True); try exact I; intros r H; try discriminate; cbn [methods_of].
  - intros p [].
  - intros p' [].
  - rewrite eval_un in H. unfold eval_unary in H. destruct (ev a) eqn:E; try discriminate. apply (IHa _ eq_refl).
  - rewrite eval_bin in H. unfold eval_binary in H. destruct (ev a) eqn:E; try discriminate.
    destruct (ev b) eqn:E'; try discriminate.
    intros p P. apply in_app_or in P. destruct P; [eapply IHa|eapply IHb]; eauto.
  - rewrite eval_meth in H. unfold eval_method in H. destruct (ev rc) eqn:E; try discriminate. cbn [rbind] in H.
    destruct (rseq (map ev args)) eqn:E'; try discriminate. pose proof (rseq_all _ _ _ E') as E''. cbn [rbind] in H.
    destruct (bd_of_expr _) eqn:Ex; try discriminate. cbn [rbind] in H.
    destruct (rseq (map bd_of_expr a0)) eqn:Es; try discriminate. cbn [rbind] in H.
    destruct (eval_call _ _ _ _ _ _) eqn:Ec; try discriminate.
    apply eval_call_known in Ec.
    apply rseq_length in E'. apply rseq_length in Es. rewrite map_length in E', Es.
    intros p [<-|P]; [rewrite <- E', <- Es; exact Ec|].
    apply in_app_or in P. destruct P as [P|P]; [eapply IHr; eauto|].
    apply in_flat_map in P. destruct P as (z & Hx & Hp).
    rewrite Forall_forall in IHargs, E''. destruct (E'' z Hx) as [b' Hb]. eapply IHargs; eauto.
  - rewrite eval_par in H. eapply IHa; eauto.
  - change (ev (EField a m)) with (def_field a (ev a) m) in H. unfold def_field in H.
    destruct (ev a) eqn:E; try discriminate. apply (IHa _ eq_refl).
Qed.

(** ** Parentheses *)
Lemma eval_strip e : ev (strip_parens e) = ev e.
Proof.
  induction e as [l|p|op a IHa|op a b IHa IHb|rc m t args IHr IHargs|a IHa|a m IHa|f args IHf IHfa|a t IHa|c t els IHc IHt IHe|blk IHb|k| | | ]
    using expr_ind_nested with (Ps := fun _ => True); try exact I; try reflexivity; cbn [strip_parens].
  - rewrite !eval_un, IHa. reflexivity.
  - rewrite !eval_bin, IHa, IHb. reflexivity.
  - rewrite !eval_meth, IHr. unfold eval_method. rewrite map_map.
    replace (map (fun x => ev (strip_parens x)) args) with (map ev args); [reflexivity|].
    apply map_ext_in. intros x Hx. rewrite Forall_forall in IHargs. symmetry. auto.
  - rewrite eval_par. exact IHa.
  - change (def_field (strip_parens a) (ev (strip_parens a)) m = def_field a (ev a) m).
    rewrite IHa. reflexivity.
Qed.

Lemma eval_parens a b : strip_parens a = strip_parens b -> ev a = ev b.
Proof. intros H. rewrite <- (eval_strip a), <- (eval_strip b), H. reflexivity. Qed.

(** ** Arithmetic without division always evaluates *)
Lemma eval_polynomial e : polynomial_numeric e = true -> exists x, evals o fuel n e x.
Proof.
  induction e as [l|p|op a IHa|op a b IHa IHb|rc m t args IHr IHargs|a IHa|a m IHa|f args IHf IHfa|a t IHa|c t els IHc IHt IHe|blk IHb|k| | | ]
    using expr_ind_nested with (Ps := fun _ => True); try exact I; intros P; try discriminate.
  - cbn [polynomial_numeric] in P. destruct (bd_of_expr (ELit l)) eqn:E; try discriminate.
    eexists. exists (ELit l). split; [reflexivity|exact E].
  - destruct op; try discriminate. destruct (IHa P) as [x X]. destruct (eval_neg a x X) as (z & Z & _). eauto.
  - cbn [polynomial_numeric] in P.
    destruct op; try discriminate; apply andb_prop in P; destruct P as [Pa Pb];
      destruct (IHa Pa) as [x X]; destruct (IHb Pb) as [y Y].
    + destruct (eval_add a b x y X Y) as (z & Z & _). eauto.
    + destruct (eval_sub a b x y X Y) as (z & Z & _). eauto.
    + destruct (evals_of_bd (round (dmul x y) n) (EBinary BMul a b)) as (z & Z & _); [|eauto].
      rewrite (eval_bin_num _ a b x y X Y). reflexivity.
  - destruct (IHa P) as [x (r & E & B)]. exists x, r. rewrite eval_par. auto.
Qed.
End O.
