(** Proofs of the theorems stated in P_Symbolic.v. *)
From Coq Require Import ZArith QArith Qabs InitialRing String List Bool.
From Verif Require Import Res Dec DecFacts Syntax Trans TransFacts ExpandSpec ExpandFacts
  Parse ParseFacts ExprOps TransParse.
Import ListNotations.
Open Scope string_scope.
Open Scope list_scope.

Lemma find_first_binding adds n e :
  find_var (add_all adds []) n = Some e <->
  exists before after, adds = before ++ (n, e) :: after /\ ~ In n (map fst before).
Proof. rewrite add_all_app. apply find_var_spec. Qed.
Lemma find_none_binding adds n : find_var (add_all adds []) n = None <-> ~ In n (map fst adds).
Proof. rewrite add_all_app. apply find_var_none. Qed.
Lemma add_var_index adds n e : snd (add_var (add_all adds []) n e) = List.length adds.
Proof. rewrite add_all_app. reflexivity. Qed.
Lemma add_var_stable vl n x m e : find_var vl n = Some x -> find_var (fst (add_var vl m e)) n = Some x.
Proof. intros H. cbn. rewrite find_var_app, H. reflexivity. Qed.

Lemma subst_inv vl e r : subst vl e = Ok r -> supported e = true /\ r = subst_spec vl e.
Proof. rewrite subst_ok. destruct (supported e); [|discriminate]. intros H. inversion H. auto. Qed.

Lemma subst_meaning vl e r : subst vl e = Ok r -> forall (V : Type) (I : interp V),
  den I r =
  den (with_paths I (fun p => match find_var vl p with Some x => den I x | None => i_path I p end)) e.
Proof. intros H V I. apply subst_inv in H. destruct H as [S ->]. apply subst_spec_den; auto. Qed.

Lemma subst_fails_exactly vl e :
  (supported e = true -> exists r, subst vl e = Ok r) /\
  (supported e = false -> subst vl e = Err UnsupportedExpr).
Proof. rewrite subst_ok. split; intros ->; eauto. Qed.

Lemma subst_unbound vl e :
  supported e = true -> (forall p, In p (paths_of e) -> ~ In p (map fst vl)) -> subst vl e = Ok e.
Proof.
  intros S H. rewrite subst_ok, S. f_equal. apply subst_spec_id. intros p Hp. apply find_var_none; auto.
Qed.

Lemma subst_names vl e r : subst vl e = Ok r -> forall p,
  In p (paths_of r) <->
  (In p (paths_of e) /\ find_var vl p = None) \/
  (exists q x, In q (paths_of e) /\ find_var vl q = Some x /\ In p (paths_of x)).
Proof. intros H p. apply subst_inv in H. destruct H as [S ->]. apply subst_spec_paths; auto. Qed.

Lemma rust_sound ts e : Forall tok_ok ts -> rust_parse ts = Some e -> ts = toks e /\ wp rust_prec e = true.
Proof. apply (parse_sound rust_prec rust_prec_small). Qed.

Lemma print_parse ts e : Forall tok_ok ts -> rust_parse ts = Some e -> toks e = ts.
Proof. intros F H. destruct (rust_sound ts e F H). auto. Qed.

Lemma lvl_non_op prec e : is_op e = false -> lvl prec e = 101%nat.
Proof. destruct e; cbn; auto; discriminate. Qed.

Lemma subst_reads_back ts e vl r :
  Forall tok_ok ts -> rust_parse ts = Some e ->
  Forall (fun b => exists ts', Forall tok_ok ts' /\ rust_parse ts' = Some (snd b) /\ is_op (snd b) = false) vl ->
  subst vl e = Ok r -> rust_parse (toks r) = Some r.
Proof.
  intros F H A S. apply subst_inv in S. destruct S as [S ->].
  apply (parse_wp rust_prec rust_prec_small). destruct (rust_sound ts e F H) as [_ W].
  apply subst_wp; auto. unfold atomic_list. eapply Forall_impl; [|exact A]. cbn.
  intros b (ts' & F' & H' & O). split; [apply (rust_sound ts' _ F' H')|apply lvl_non_op; auto].
Qed.

Lemma subst_reads_back_false :
  exists ts ts' e x r r',
  Forall tok_ok ts /\ Forall tok_ok ts' /\
  rust_parse ts = Some e /\ rust_parse ts' = Some x /\ subst [(["x"], x)] e = Ok r /\
  rust_parse (toks r) = Some r' /\ r' <> r /\
  den (Interp (V := Z) (fun _ => 2%Z) (fun p => if path_eqb p ["a"] then 3%Z else 5%Z) (fun _ => Z.opp)
              (fun op => match op with BMul => Z.mul | _ => Z.add end) (fun _ _ z _ => z) (fun _ z => z) (fun _ => 0%Z)) r
  <> den (Interp (V := Z) (fun _ => 2%Z) (fun p => if path_eqb p ["a"] then 3%Z else 5%Z) (fun _ => Z.opp)
              (fun op => match op with BMul => Z.mul | _ => Z.add end) (fun _ _ z _ => z) (fun _ z => z) (fun _ => 0%Z)) r'.
Proof.
  exists [TPath ["x"]; TBin BMul; TLit (LInt "2" "")], [TPath ["a"]; TBin BAdd; TPath ["b"]].
  eexists; eexists; eexists; eexists.
  split; [repeat constructor|]. split; [repeat constructor|].
  split; [reflexivity|]. split; [reflexivity|]. split; [reflexivity|]. split; [reflexivity|].
  split; [discriminate|]. vm_compute. discriminate.
Qed.

Lemma paren_value e : supported e = true ->
  exists r, paren e = Ok r /\ (forall (V : Type) (I : interp V), den I r = den I e) /\ paren r = Ok r.
Proof.
  intros S. exists (paren_spec e). rewrite !paren_ok, S, (paren_supported e S).
  split; [reflexivity|]. split; [intros; apply paren_den; auto|]. rewrite paren_idem by auto. reflexivity.
Qed.
Lemma paren_fails e : supported e = false -> paren e = Err UnsupportedExpr.
Proof. intros S. rewrite paren_ok, S. reflexivity. Qed.
Lemma paren_inv e r : paren e = Ok r -> supported e = true /\ r = paren_spec e.
Proof. rewrite paren_ok. destruct (supported e); [|discriminate]. intros H. inversion H. auto. Qed.

Lemma paren_reads_back e r :
  receivers_ok e = true -> lits_ok e = true -> paren e = Ok r -> rust_parse (toks r) = Some r.
Proof.
  intros R L H. apply paren_inv in H. destruct H as [S ->].
  apply (parse_wp rust_prec rust_prec_small). apply (paren_wp rust_prec rust_prec_small); auto.
Qed.
Lemma paren_any_prec prec : (forall op, (prec op < 100)%nat) ->
  forall ts e r, Forall tok_ok ts -> rust_parse ts = Some e -> paren e = Ok r ->
  parse_toks prec (toks r) = Some r.
Proof.
  intros P ts e r F H K. apply paren_inv in K. destruct K as [S ->].
  destruct (rust_sound ts e F H) as [_ W]. apply wp_receivers in W; [|apply rust_prec_small].
  apply (parse_wp prec P). apply (paren_wp prec P); tauto.
Qed.
Lemma paren_of_parsed ts e r :
  Forall tok_ok ts -> rust_parse ts = Some e -> paren e = Ok r -> rust_parse (toks r) = Some r.
Proof. apply (paren_any_prec rust_prec rust_prec_small). Qed.

Lemma paren_reads_back_false :
  exists ts ts' e x s r r',
  Forall tok_ok ts /\ Forall tok_ok ts' /\ rust_parse ts = Some e /\ rust_parse ts' = Some x /\
  subst [(["x"], x)] e = Ok s /\ paren s = Ok r /\ rust_parse (toks r) = Some r' /\ r' <> r.
Proof.
  exists [TPath ["x"]; TDot; TIdent "sin"; TLParen; TRParen], [TPath ["a"]; TBin BAdd; TPath ["b"]].
  do 5 eexists.
  split; [repeat constructor|]. split; [repeat constructor|].
  split; [reflexivity|]. split; [reflexivity|]. split; [reflexivity|]. split; [reflexivity|].
  split; [reflexivity|]. discriminate.
Qed.

Lemma expand_total e : expand e <> Panic.
Proof.
  pose proof (expand_outcome e) as H. destruct (expand_fails e); [rewrite H; discriminate|].
  destruct H as [r ->]. discriminate.
Qed.
Lemma expand_fails_exactly e :
  (expand_fails e = true -> expand e = Err UnsupportedExpr) /\
  (expand_fails e = false -> exists r, expand e = Ok r).
Proof. pose proof (expand_outcome e) as H. split; intros E; rewrite E in H; exact H. Qed.

Lemma expand_not_expanded :
  exists e r, polynomial_expr e = true /\ expand e = Ok r /\ expanded r = false.
Proof.
  exists (EBinary BMul (EUnary UNeg (EParen (EBinary BAdd (EPath ["x"]) (EPath ["y"])))) (EPath ["z"])).
  eexists. split; [reflexivity|]. split; reflexivity.
Qed.

Lemma collect_value variable e :
  (supported e = true -> exists r, collect_terms variable e = Ok r /\
       forall (V : Type) (I : interp V), den I r = den I e) /\
  (supported e = false -> collect_terms variable e = Err UnsupportedExpr).
Proof. rewrite collect_ok. split; intros ->; eauto. Qed.

Lemma bd_of_expr_numeric a x : bd_of_expr a = Ok x -> is_numeric a = true.
Proof. destruct a; try discriminate. destruct l; try discriminate; reflexivity. Qed.

Lemma make_op_numeric o a b x y :
  bd_of_expr a = Ok x -> bd_of_expr b = Ok y -> make_op o a b = (let? z := bd_op o x y in expr_of_bd z).
Proof.
  intros A B. unfold make_op. rewrite (bd_of_expr_numeric a x A), (bd_of_expr_numeric b y B).
  cbn [andb]. rewrite A, B. reflexivity.
Qed.

Lemma numeric_exact a b x y : bd_of_expr a = Ok x -> bd_of_expr b = Ok y ->
  (exists e z, make_op OpAdd a b = Ok e /\ bd_of_expr e = Ok z /\ (dval z == dval x + dval y)%Q) /\
  (exists e z, make_op OpSub a b = Ok e /\ bd_of_expr e = Ok z /\ (dval z == dval x - dval y)%Q) /\
  (exists e z, make_op OpMul a b = Ok e /\ bd_of_expr e = Ok z /\ (dval z == dval x * dval y)%Q).
Proof.
  intros A B. rewrite !(make_op_numeric _ a b x y A B). cbn [bd_op rbind].
  split; [|split].
  - destruct (expr_of_bd_ok (dadd x y)) as (e & z & E & Z & V). exists e, z. rewrite V, dval_dadd. auto with *.
  - destruct (expr_of_bd_ok (dsub x y)) as (e & z & E & Z & V). exists e, z. rewrite V, dval_dsub. auto with *.
  - destruct (expr_of_bd_ok (dmul x y)) as (e & z & E & Z & V). exists e, z. rewrite V, dval_dmul. auto with *.
Qed.

Lemma numeric_division a b x y : bd_of_expr a = Ok x -> bd_of_expr b = Ok y ->
  ((dval y == 0)%Q -> make_op OpDiv a b = Panic) /\
  (~ (dval y == 0)%Q -> exists e z, make_op OpDiv a b = Ok e /\ bd_of_expr e = Ok z /\
     (Qabs (dval z - dval x / dval y) <= (1 # 2) * p10 (-99) * Qabs (dval x / dval y))%Q).
Proof.
  intros A B. rewrite (make_op_numeric _ a b x y A B). cbn [bd_op]. split.
  - intros H. apply (ddiv_panic x) in H. rewrite H. reflexivity.
  - intros H. destruct (ddiv_ok x y H) as [q Q]. rewrite Q. cbn [rbind].
    destruct (expr_of_bd_ok q) as (e & z & E & Z & V). exists e, z. split; [auto|]. split; [auto|].
    rewrite V. apply ddiv_err. exact Q.
Qed.

Lemma symbolic_any ta tb a b o : Forall tok_ok ta -> Forall tok_ok tb ->
  rust_parse ta = Some a -> rust_parse tb = Some b -> is_numeric a && is_numeric b = false ->
  exists r, make_op o a b = Ok r /\
    forall (V : Type) (I : interp V), den I r = i_bin I BAdd (den I a) (den I b).
Proof.
  intros Fa Fb A B N. unfold make_op. rewrite N.
  destruct (rust_sound _ _ Fa A) as [_ Wa]. destruct (rust_sound _ _ Fb B) as [_ Wb].
  rewrite quote_sum_ok by auto. eexists. split; reflexivity.
Qed.
Lemma symbolic_add ta tb a b : Forall tok_ok ta -> Forall tok_ok tb ->
  rust_parse ta = Some a -> rust_parse tb = Some b -> is_numeric a && is_numeric b = false ->
  exists r, make_op OpAdd a b = Ok r /\
    forall (V : Type) (I : interp V), den I r = i_bin I BAdd (den I a) (den I b).
Proof. apply symbolic_any. Qed.

(** An interpretation in the integers, used by the examples. *)
Definition z_interp (env : list string -> Z) : interp Z :=
  Interp (V := Z) (fun l => match l with LInt d _ => Z.of_nat (String.length d) | _ => 0%Z end) env
    (fun u => match u with UNeg => Z.opp | _ => fun z => z end)
    (fun op => match op with BAdd => Z.add | BSub => Z.sub | BMul => Z.mul | BDiv => Z.div | _ => fun _ _ => 0%Z end)
    (fun _ _ z _ => z) (fun _ z => z) (fun _ => 0%Z).

Lemma symbolic_false : forall o, o <> OpAdd ->
  exists r (env : list string -> Z),
  make_op o (EPath ["a"]) (EPath ["b"]) = Ok r /\
  den (z_interp env) r <>
  i_bin (z_interp env) (match o with OpAdd => BAdd | OpSub => BSub | OpMul => BMul | OpDiv => BDiv end)
        (env ["a"]) (env ["b"]).
Proof.
  intros o O. eexists. exists (fun p => if path_eqb p ["a"] then 7%Z else 3%Z).
  destruct o; [congruence| | |]; (split; [reflexivity|]); vm_compute; discriminate.
Qed.

Lemma z_interp_ring env : ring_interp (z_interp env).
Proof. exists 0%Z, 1%Z. cbn. exact InitialRing.Zth. Qed.
