(** Which generated libraries type-check, and that what type-checks runs. *)
From Coq Require Import List String Bool ZArith Ascii Lia Arith.
From Verif Require Import Res Dec DecStr Syntax Functions FunctionsFacts Item GenCode GenCodeFacts GenSem GenRun GenFloat GenType GenTypeFacts.
Import ListNotations.
Open Scope string_scope.
Open Scope list_scope.
Open Scope Z_scope.

Definition no_decl (n : string) : option decl := None.
Definition special (n : string) : bool := match prim n with Some _ => true | None => String.eqb n "(,)" end.

(** ** Expressions without items type-check in larger scopes *)
Section Weaken.
  Variables (bits : Z) (D : string -> option decl).
  Definition wider (env env' : list (string * sty)) : Prop :=
    forall n, (forall s, slookup n env = Some s -> slookup n env' = Some s) /\ (special n = true -> slookup n env = None -> slookup n env' = None).
  Lemma wider_cons n s env env' : wider env env' -> wider ((n, s) :: env) ((n, s) :: env').
  Proof. intros W m. cbn. destruct (String.eqb n m); [split; congruence|exact (W m)]. Qed.
  Definition weak_e (e : expr) : Prop := forall env env' s, wider env env' -> typeof bits no_decl no_hole env e = Some s -> typeof bits D no_hole env' e = Some s.
  Definition weak_s (s : stmt) : Prop := match s with SLocal _ _ i => OptP weak_e i | SExpr e | SSemi e => weak_e e end.
  Lemma ty_weak t u : ty_of no_decl t = Some u -> ty_of D t = Some u.
  Proof. unfold ty_of, no_decl. destruct (prim t); [auto|discriminate]. Qed.
  Lemma types_weak l : Forall weak_e l -> forall env env' q, wider env env' -> types bits no_decl no_hole env l = Some q -> types bits D no_hole env' l = Some q.
  Proof.
    induction 1 as [|e r H _ IH]; intros env env' q W E; [exact E|]. cbn in *. destruct (typeof bits no_decl no_hole env e) eqn:E1; [|discriminate].
    rewrite (H env env' _ W E1). destruct (types bits no_decl no_hole env r) eqn:E2; [|discriminate]. rewrite (IH env env' _ W E2). exact E.
  Qed.
  Lemma declared_some t s u : declared bits t s = Some u -> exists v, t = Some v.
  Proof. destruct t; [eauto|discriminate]. Qed.
  Lemma block_weak l : Forall weak_s l -> forall env env' q, wider env env' -> block bits no_decl no_hole env l = Some q -> block bits D no_hole env' l = Some q.
  Proof.
    induction 1 as [|st r H _ IH]; intros env env' q W E; [exact E|]. destruct st as [m t i|e|e]; cbn [block] in *.
    - destruct i as [a|]; [|discriminate]. destruct (typeof bits no_decl no_hole env a) as [u|] eqn:E1; [|discriminate]. rewrite (H env env' _ W E1).
      destruct t as [t|].
      + destruct (declared bits (ty_of no_decl t) u) as [u'|] eqn:E2; [|discriminate]. destruct (declared_some _ _ _ E2) as [v V].
        rewrite V in E2. rewrite (ty_weak t v V), E2. exact (IH _ _ q (wider_cons m u' _ _ W) E).
      + exact (IH _ _ q (wider_cons m u _ _ W) E).
    - destruct r as [|st r]; [exact (H env env' q W E)|]. destruct (typeof bits no_decl no_hole env e) eqn:E1; [|discriminate]. rewrite (H env env' _ W E1).
      exact (IH env env' q W E).
    - destruct (typeof bits no_decl no_hole env e) eqn:E1; [|discriminate]. rewrite (H env env' _ W E1). exact (IH env env' q W E).
  Qed.
  Theorem typeof_weak e : weak_e e.
  Proof.
    induction e using expr_ind_nested with (Ps := weak_s); unfold weak_e in *; try (intros env env' s W E).
    - exact E.
    - destruct p as [|m [|m2 [|k p]]]; try discriminate; cbn [typeof] in *.
      + destruct (slookup m env) eqn:L; [|discriminate]. destruct (W m) as [Wm _]. rewrite (Wm _ L). exact E.
      + exact E.
    - cbn [typeof] in *. destruct (typeof bits no_decl no_hole env e) eqn:E1; [|discriminate]. rewrite (IHe env env' _ W E1). exact E.
    - cbn [typeof] in *. destruct (typeof bits no_decl no_hole env e1) eqn:E1; [|discriminate]. destruct (typeof bits no_decl no_hole env e2) eqn:E2; [|discriminate].
      rewrite (IHe1 env env' _ W E1), (IHe2 env env' _ W E2). exact E.
    - destruct t; [discriminate|]. rewrite t_method in *. destruct (typeof bits no_decl no_hole env e) eqn:E1; [|discriminate].
      destruct (types bits no_decl no_hole env args) eqn:E2; [|discriminate]. rewrite (IHe env env' _ W E1), (types_weak args H env env' _ W E2). exact E.
    - exact (IHe env env' s W E).
    - discriminate.
    - destruct e as [|p| | | | | | | | | |]; try discriminate. destruct p as [|m [|m2 [|k p]]]; try discriminate.
      + rewrite t_call in *. destruct (slookup m env) eqn:L; [discriminate|]. destruct (types bits no_decl no_hole env args) eqn:E2; [|discriminate].
        rewrite (types_weak args H env env' _ W E2). destruct (String.eqb_spec m "(,)") as [->|]; [|discriminate].
        destruct (W "(,)") as [_ Wm]. rewrite (Wm eq_refl L). exact E.
      + rewrite t_call2 in *. destruct (slookup m env) eqn:L; [discriminate|]. destruct (ty_of no_decl m) as [v|] eqn:V; [|discriminate].
        destruct (W m) as [_ Wm]. rewrite (ty_weak m v V), Wm; [|unfold special; unfold ty_of, no_decl in V; destruct (prim m); [reflexivity|discriminate]|exact L].
        destruct v; try discriminate. destruct (types bits no_decl no_hole env args) eqn:E2; [|discriminate]. rewrite (types_weak args H env env' _ W E2). exact E.
    - cbn [typeof] in *. destruct (typeof bits no_decl no_hole env e) eqn:E1; [|discriminate]. rewrite (IHe env env' _ W E1).
      destruct (ty_of no_decl t) as [v|] eqn:V; [|destruct s0; discriminate]. rewrite (ty_weak t v V). exact E.
    - destruct e0 as [f|]; [|discriminate]. rewrite t_if in *. destruct (typeof bits no_decl no_hole env e) as [c|] eqn:E1; [|discriminate].
      destruct (block bits no_decl no_hole env t) eqn:E2; [|destruct c; discriminate]. destruct (typeof bits no_decl no_hole env f) eqn:E3; [|destruct c; discriminate].
      rewrite (IHe env env' _ W E1), (block_weak t H env env' _ W E2). cbn in H0. rewrite (H0 env env' _ W E3). exact E.
    - rewrite t_block in *. exact (block_weak b H env env' s W E).
    - discriminate.
    - cbn. destruct i; [exact H|exact I].
    - exact (IHe env env' s W E).
    - exact (IHe env env' s W E).
  Qed.
End Weaken.

(** ** The shipped table *)
Definition is_const_item (l : list item) : bool := match l with IConst _ _ _ :: _ => true | _ => false end.
(** The variable of the polynomial in a function: the [name!] that [approx] is
    given, [z] in libmgen/src/inv_trig.rs:15, [x] everywhere else. *)
Definition hole_var (n : string) : string := if String.eqb n "atan2" then "z" else "x".
(** What is spliced into the code: a float that mentions that variable at most,
    in constants a float without names. *)
Definition fits (bits : Z) (sub : string -> expr) : Prop := forall n,
  if is_const_item (template bits n) then exists s, typeof bits no_decl no_hole [] (sub n) = Some s /\ is_float s = true
  else typeof bits no_decl no_hole [(hole_var n, SFlt)] (sub n) = Some SFlt.

(** items that rustc rejects *)
Definition ill_typed : list string := ["ONE_MASK"; "ONE_BITS"; "log2"; "runif"].

Definition full (bits : Z) (n : string) : option decl :=
  if contains table_names n then match hd_error (template bits n) with Some i => decl_of i | None => None end else None.
Definition x_hole (bits : Z) (k : string) (env : list (string * sty)) : option sty :=
  match slookup (hole_var k) env with
  | Some SFlt => if forallb (fun p => negb (special (fst p))) env && negb (is_const_item (template bits k)) then Some SFlt else None
  | _ => None
  end.
Definition type_names (d : decl) : list string :=
  match d with DConst t => [t] | DType _ => [] | DFn ps r => r :: (if String.eqb r pair_text then ["fty"] else []) ++ ps end.
Definition check_item (bits : Z) (i : item) : bool :=
  match i with
  | IConst _ "fty" (EOther k) => is_const_item (template bits k)
  | _ => item_ok bits (full bits) (x_hole bits) i
  end.
Definition check_row (bits : Z) (f : fn) : bool :=
  forallb (fun i => match decl_of i with Some d => forallb (fun t => negb (contains table_names t) || contains (used bits (f_name f)) t) (type_names d) | None => false end)
    (template bits (f_name f)) &&
  (contains ill_typed (f_name f) || forallb (check_item bits) (template bits (f_name f))).
Lemma rows_checked bits : bits = 32 \/ bits = 64 -> forallb (check_row bits) FUNCTIONS = true.
Proof. intros [-> | ->]; vm_compute; reflexivity. Qed.
Lemma ill_full bits sub n : bits = 32 \/ bits = 64 -> In n ill_typed ->
  forallb (fun i => negb (item_ok bits (full bits) no_hole i)) (code bits sub n) = true.
Proof. intros [-> | ->] I; cbn in I; repeat (destruct I as [<-|I]; [vm_compute; reflexivity|]); destruct I. Qed.

(** ** One item *)
Lemma no_fn_ty_of D t : ty_of (no_fn D) t = ty_of D t.
Proof. unfold ty_of, no_fn. destruct (prim t); [reflexivity|]. destruct (D t) as [[| |]|]; reflexivity. Qed.
Section ItemExt.
  Variables (bits : Z) (hole : string -> list (string * sty) -> option sty) (D D' : string -> option decl).
  Hypothesis types_agree : forall n d t, D n = Some d -> D' n = Some d -> In t (type_names d) -> ty_of D t = ty_of D' t.
  Lemma params_agree ps : (forall t, In t (map snd ps) -> D t = D' t) -> params_ty bits D ps = params_ty bits D' ps.
  Proof.
    induction ps as [|[n t] r IH]; intros H; [reflexivity|]. cbn. rewrite (ty_of_agree D D' t) by (apply H; left; reflexivity).
    rewrite IH by (intros u I; apply H; right; exact I). reflexivity.
  Qed.
  Lemma params_env ps : forall env, params_ty bits D ps = Some env -> map fst env = map fst ps.
  Proof.
    induction ps as [|[n t] r IH]; intros env E; cbn in E; [injection E as <-; reflexivity|].
    destruct (of_ty bits (ty_of D t)); [|discriminate]. destruct (params_ty bits D r); [|discriminate]. injection E as <-. cbn. rewrite (IH _ eq_refl). reflexivity.
  Qed.
  Theorem item_ext i : (forall n, In n (item_free i) -> D n = D' n) -> (forall d t, decl_of i = Some d -> In t (type_names d) -> ty_of D t = ty_of D' t) ->
    item_ok bits D hole i = item_ok bits D' hole i.
  Proof.
    intros A T. destruct i as [n t e|n t|n ps r b|s]; cbn [item_ok decl_of item_free] in *; try reflexivity.
    - rewrite (typeof_ext bits hole (no_fn D) (no_fn D')).
      + rewrite (ty_of_agree D D' t) by (apply A; left; reflexivity). reflexivity.
      + intros m d u E E' I. unfold no_fn in E, E'. destruct (D m) as [dm|] eqn:Dm; [|discriminate]. destruct (D' m) as [dm'|] eqn:Dm'; [|discriminate].
        rewrite !no_fn_ty_of. apply (types_agree m d u); [destruct dm; congruence|destruct dm'; congruence|exact I].
      + intros m I. unfold no_fn. rewrite (A m); [reflexivity|]. right. exact I.
    - rewrite params_agree by (intros u I; apply A, in_or_app; left; exact I). pose proof (params_env ps) as PE.
      rewrite params_agree in PE by (intros u I; apply A, in_or_app; left; exact I).
      destruct (params_ty bits D' ps) as [env|] eqn:P; [|reflexivity]. specialize (PE env eq_refl).
      rewrite (typeof_ext bits hole D D' types_agree) by (intros m I; apply A, in_or_app; right; right; rewrite PE in I; exact I).
      destruct (typeof bits D' hole env (EBlock b)); [|reflexivity]. unfold returns.
      destruct (String.eqb r pair_text) eqn:R.
      + rewrite (T _ "fty" eq_refl); [reflexivity|]. cbn. rewrite R. right. left. reflexivity.
      + rewrite (ty_of_agree D D' r); [reflexivity|]. apply A, in_or_app. right. left. reflexivity.
  Qed.
End ItemExt.

Lemma item_def bits D i n : item_ok bits D no_hole i = true -> In n (item_free i) ->
  prim n <> None \/ D n <> None \/ n = "(,)" \/ n = pair_text.
Proof.
  assert (DK : forall t s, match declared bits (ty_of D t) s with Some _ => true | None => false end = true -> prim t <> None \/ D t <> None).
  { intros t s H. unfold ty_of in H. destruct (prim t); [left; discriminate|]. destruct (D t); [right; discriminate|discriminate]. }
  assert (NF : no_fn D n <> None -> D n <> None) by (unfold no_fn; destruct (D n); congruence).
  destruct i as [m t e|m t|m ps r b|s]; cbn [item_ok item_free]; intros H I; try discriminate.
  - destruct (typeof bits (no_fn D) no_hole [] e) as [s|] eqn:E; [|discriminate].
    assert (H' : match declared bits (ty_of D t) s with Some _ => true | None => false end = true) by (destruct s; exact H || discriminate).
    destruct I as [<-|I]; [destruct (DK t s H'); tauto|].
    destruct (typeof_def bits no_hole (no_fn D) e [] s n E I) as [A|[A|A]]; tauto.
  - destruct I as [<-|[]]. left. destruct (prim t); discriminate.
  - destruct (params_ty bits D ps) as [env|] eqn:P; [|discriminate]. pose proof (params_env bits D ps env P) as PE.
    apply in_app_or in I. destruct I as [I|[I|I]].
    + clear -I P. revert env P. induction ps as [|[u t] r IH]; intros env P; [destruct I|]. cbn in P, I.
      destruct (of_ty bits (ty_of D t)) eqn:O; [|discriminate]. destruct (params_ty bits D r) eqn:P'; [|discriminate].
      destruct I as [<-|I]; [|exact (IH I _ eq_refl)]. unfold ty_of in O. destruct (prim t); [left; discriminate|]. destruct (D t); [right; left; discriminate|discriminate].
    + subst n. destruct (typeof bits D no_hole env (EBlock b)) as [s|]; [|discriminate]. unfold returns in H.
      destruct (String.eqb_spec r pair_text) as [->|]; [tauto|]. destruct (DK r s H); tauto.
    + destruct (typeof bits D no_hole env (EBlock b)) as [s|] eqn:E; [|discriminate]. rewrite <- PE in I.
      destruct (typeof_def bits no_hole D (EBlock b) env s n E I) as [A|[A|A]]; tauto.
Qed.

(** ** Libraries *)
Lemma special_free n : In n table_names -> prim n = None /\ n <> "(,)" /\ n <> pair_text.
Proof.
  intros I. assert (K : forallb (fun n => negb (special n) && negb (String.eqb n pair_text)) table_names = true) by (vm_compute; reflexivity).
  rewrite forallb_forall in K. specialize (K n I). apply andb_prop in K. destruct K as [K1 K2]. unfold special in K1.
  destruct (prim n); [discriminate|]. split; [reflexivity|]. split; intros ->; discriminate.
Qed.
Section Library.
  Variables (bits : Z) (sub : string -> expr) (names exclude : list string) (lib : list item).
  Hypothesis HB : bits = 32 \/ bits = 64.
  Hypothesis HP : plain_sub sub.
  Hypothesis HL : library bits sub names exclude = Some lib.
  Notation D := (decls lib).
  Notation F := (full bits).

  Lemma lib_row it : In it lib -> exists i f, entry FUNCTIONS i f /\ In it (code bits sub (f_name f)) /\ code bits sub (f_name f) = [it] /\ item_name it = Some (f_name f).
  Proof.
    intros I. apply (lib_items bits sub HB names exclude lib HL) in I. destruct I as (i & f & En & _ & _ & I). exists i, f.
    destruct (code_items bits sub HB f it (entry_In _ _ En) I) as [Y N]. destruct (code_yields bits sub HB f (entry_In _ _ En) Y) as (it' & E & N').
    rewrite E in *. destruct I as [<-|[]]. auto using in_eq.
  Qed.
  Lemma decl_full n : (exists it, In it lib /\ item_name it = Some n) -> D n = F n.
  Proof.
    intros H. pose proof (lib_has bits sub names exclude lib n HB HL H) as K. unfold has in K. unfold decls, full. rewrite K.
    destruct H as (it & I & N). destruct (lib_row it I) as (i & f & En & _ & _ & N'). rewrite N in N'. injection N' as ->.
    assert (C : contains table_names (f_name f) = true) by (apply contains_In; exact (entry_table _ _ En)). rewrite C.
    rewrite (code_eq bits sub HB f (entry_In _ _ En)). destruct (template bits (f_name f)) as [|[] r]; reflexivity.
  Qed.
  Lemma decl_none n : ~ (exists it, In it lib /\ item_name it = Some n) -> D n = None.
  Proof.
    intros H. unfold decls. destruct (find_item lib n) as [i|] eqn:E; [|reflexivity]. exfalso. apply H. apply find_some in E.
    destruct E as [I N]. destruct (item_name i) as [m|] eqn:M; [|discriminate]. apply String.eqb_eq in N. subst m. exists i. auto.
  Qed.
  Lemma full_out n : ~ In n table_names -> F n = None.
  Proof. intros H. unfold full. destruct (contains table_names n) eqn:E; [|reflexivity]. apply contains_In in E. tauto. Qed.
  Lemma lib_table n : (exists it, In it lib /\ item_name it = Some n) -> In n table_names.
  Proof.
    intros (it & I & N). destruct (lib_row it I) as (i & f & En & _ & _ & N'). rewrite N in N'. injection N' as ->. exact (entry_table _ _ En).
  Qed.
  Lemma decl_agree n : (In n table_names -> exists it, In it lib /\ item_name it = Some n) -> D n = F n.
  Proof.
    intros H. destruct (contains table_names n) eqn:C.
    - apply contains_In in C. apply decl_full. auto.
    - assert (N : ~ In n table_names) by (intros I; apply contains_In in I; congruence). rewrite (full_out n N). apply decl_none.
      intros X. apply N. apply lib_table. exact X.
  Qed.
  Lemma full_row n d : F n = Some d -> exists f it, In f FUNCTIONS /\ f_name f = n /\ In it (template bits n) /\ decl_of it = Some d.
  Proof.
    unfold full. destruct (contains table_names n) eqn:C; [|discriminate]. apply contains_In in C. apply in_map_iff in C. destruct C as (f & <- & I).
    destruct (template bits (f_name f)) as [|it r]; [discriminate|]. cbn. intros E. exists f, it. auto using in_eq.
  Qed.
  Lemma row_types f it d t : In f FUNCTIONS -> In it (template bits (f_name f)) -> decl_of it = Some d -> In t (type_names d) -> In t table_names -> In t (used bits (f_name f)).
  Proof.
    intros I J E T N. pose proof (rows_checked bits HB) as K. rewrite forallb_forall in K. specialize (K f I). apply andb_prop in K. destruct K as [K _].
    rewrite forallb_forall in K. specialize (K it J). rewrite E in K. rewrite forallb_forall in K. specialize (K t T).
    apply contains_In in N. rewrite N in K. apply contains_In. exact K.
  Qed.
  Hypothesis SC : self_contained lib.
  Lemma used_there it f n : In it lib -> In f FUNCTIONS -> item_name it = Some (f_name f) -> In n (used bits (f_name f)) -> exists it', In it' lib /\ item_name it' = Some n.
  Proof.
    intros I J N U. destruct (used_code bits sub HB HP f n J U) as (it' & C & Fr & T). apply (SC it' n); [|exact Fr|exact T].
    destruct (lib_row it I) as (i & g & En & _ & C' & N'). rewrite N in N'. injection N' as E. rewrite E, C' in C. destruct C as [<-|[]]. exact I.
  Qed.
  Lemma types_agree n d t : D n = Some d -> F n = Some d -> In t (type_names d) -> ty_of D t = ty_of F t.
  Proof.
    intros E E' T. apply ty_of_agree, decl_agree. intros Tt. unfold decls in E. destruct (find_item lib n) as [it|] eqn:FI; [|discriminate]. apply find_some in FI.
    destruct FI as [I N]. destruct (item_name it) as [m|] eqn:M; [|discriminate]. apply String.eqb_eq in N. subst m.
    destruct (full_row n d E') as (f & it' & J & <- & Ti & Di).
    apply (used_there it f t I J M). exact (row_types f it' d t J Ti Di T Tt).
  Qed.
  Lemma item_full it : In it lib -> item_ok bits D no_hole it = item_ok bits F no_hole it.
  Proof.
    intros I. apply (item_ext bits no_hole D F types_agree).
    - intros n Fr. apply decl_agree. intros T. exact (SC it n I Fr T).
    - intros d t E T. destruct (lib_row it I) as (i & f & En & _ & C & N). apply (types_agree (f_name f) d t).
      + unfold decls. rewrite (lib_has bits sub names exclude lib (f_name f) HB HL (ex_intro _ it (conj I N))), C. exact E.
      + rewrite <- (decl_full (f_name f) (ex_intro _ it (conj I N))). unfold decls.
        rewrite (lib_has bits sub names exclude lib (f_name f) HB HL (ex_intro _ it (conj I N))), C. exact E.
      + exact T.
  Qed.
End Library.

Lemma x_fits bits sub D : fits bits sub -> forall k env s, x_hole bits k env = Some s -> typeof bits D no_hole env (sub k) = Some s.
Proof.
  intros Fi k env s H. unfold x_hole in H. destruct (slookup (hole_var k) env) as [[]|] eqn:L; try discriminate.
  destruct (forallb (fun p => negb (special (fst p))) env) eqn:K; [|discriminate]. destruct (is_const_item (template bits k)) eqn:C; [discriminate|].
  injection H as <-. specialize (Fi k). rewrite C in Fi. apply (typeof_weak bits D (sub k) [(hole_var k, SFlt)] env SFlt); [|exact Fi].
  intros n. split.
  - intros s. cbn [slookup]. destruct (String.eqb_spec (hole_var k) n) as [<-|]; [|discriminate]. congruence.
  - intros Sp _. clear -K Sp. induction env as [|[m s] r IH]; [reflexivity|]. cbn in *. apply andb_prop in K. destruct K as [K1 K2].
    destruct (String.eqb_spec m n) as [->|]; [rewrite Sp in K1; discriminate|]. auto.
Qed.
Lemma fill bits sub f : bits = 32 \/ bits = 64 -> fits bits sub -> In f FUNCTIONS -> ~ In (f_name f) ill_typed ->
  forall it, In it (code bits sub (f_name f)) -> item_ok bits (full bits) no_hole it = true.
Proof.
  intros HB Fi I NI it J. pose proof (rows_checked bits HB) as K. rewrite forallb_forall in K. specialize (K f I). apply andb_prop in K. destruct K as [_ K].
  destruct (contains ill_typed (f_name f)) eqn:C; [apply contains_In in C; tauto|]. cbn [orb] in K.
  rewrite (code_eq bits sub HB f I) in J. apply in_map_iff in J. destruct J as (t & <- & J). rewrite forallb_forall in K. specialize (K t J).
  assert (P : item_ok bits (full bits) (x_hole bits) t = true -> item_ok bits (full bits) no_hole (plug_i sub t) = true).
  { intros O. destruct t as [n ty e|n ty|n ps r b|s]; cbn [item_ok plug_i] in *; try exact O.
    - destruct (typeof bits (no_fn (full bits)) (x_hole bits) [] e) as [s|] eqn:E; [|discriminate].
      rewrite (plug_typeof bits (no_fn (full bits)) (x_hole bits) sub (x_fits bits sub _ Fi) e [] s E). exact O.
    - destruct (params_ty bits (full bits) ps) as [env|]; [|discriminate]. destruct (typeof bits (full bits) (x_hole bits) env (EBlock b)) as [s|] eqn:E; [|discriminate].
      pose proof (plug_typeof bits (full bits) (x_hole bits) sub (x_fits bits sub _ Fi) (EBlock b) env s E) as Q. cbn [plug] in Q. rewrite Q. exact O. }
  unfold check_item in K. destruct t as [n ty e|n ty|n ps r b|s]; try (apply P; exact K).
  assert (Q : (ty = "fty" /\ exists k, e = EOther k /\ is_const_item (template bits k) = true) \/ item_ok bits (full bits) (x_hole bits) (IConst n ty e) = true).
  { destruct (String.eqb_spec ty "fty") as [->|]; [destruct e; auto; left; split; [reflexivity|]; eexists; split; [reflexivity|exact K]|].
    right. rewrite <- K. destruct ty as [|[[] [] [] [] [] [] [] []] ty]; try reflexivity. destruct ty as [|[[] [] [] [] [] [] [] []] ty]; try reflexivity.
    destruct ty as [|[[] [] [] [] [] [] [] []] ty]; try reflexivity. destruct ty; try reflexivity. congruence. }
  destruct Q as [(-> & k & -> & CK)|Q]; [|exact (P Q)]. cbn [plug_i plug item_ok]. specialize (Fi k). rewrite CK in Fi. destruct Fi as (s & E & S).
  assert (W : wider [] []) by (intros m; split; auto). rewrite (typeof_weak bits (no_fn (full bits)) (sub k) [] [] s W E).
  destruct HB as [-> | ->]; destruct s; try discriminate; vm_compute; reflexivity.
Qed.

Theorem library_types_only bits sub names exclude lib : bits = 32 \/ bits = 64 -> plain_sub sub -> library bits sub names exclude = Some lib ->
  well_typed bits lib -> self_contained lib /\ forall it n, In it lib -> item_name it = Some n -> ~ In n ill_typed.
Proof.
  intros HB HP HL W. assert (SC : self_contained lib).
  { intros it n I Fr T. destruct (special_free n T) as (S1 & S2 & S3). destruct (item_def bits (decls lib) it n (W it I) Fr) as [A|[A|[A|A]]]; try tauto.
    unfold decls in A. destruct (find_item lib n) as [i|] eqn:E; [|congruence]. apply find_some in E. destruct E as [Ii N].
    destruct (item_name i) as [m|] eqn:M; [|discriminate]. apply String.eqb_eq in N. subst m. exists i. auto. }
  split; [exact SC|]. intros it n I N B. specialize (W it I). rewrite (item_full bits sub names exclude lib HB HP HL SC it I) in W.
  destruct (lib_row bits sub names exclude lib HB HL it I) as (i & f & En & J & _ & N'). rewrite N in N'. injection N' as ->.
  pose proof (ill_full bits sub (f_name f) HB B) as K. rewrite forallb_forall in K. specialize (K it J). rewrite W in K. discriminate.
Qed.
Theorem library_types bits sub names exclude lib : bits = 32 \/ bits = 64 -> plain_sub sub -> fits bits sub ->
  library bits sub names exclude = Some lib ->
  (well_typed bits lib <-> self_contained lib /\ forall it n, In it lib -> item_name it = Some n -> ~ In n ill_typed).
Proof.
  intros HB HP Fi HL. split; [exact (library_types_only bits sub names exclude lib HB HP HL)|].
  intros [SC NB] it I. rewrite (item_full bits sub names exclude lib HB HP HL SC it I).
  destruct (lib_row bits sub names exclude lib HB HL it I) as (i & f & En & J & _ & N).
  exact (fill bits sub f HB Fi (entry_In _ _ En) (NB it _ I N) it J).
Qed.

(** ** Requests *)
Theorem library_libm bits sub names exclude lib : bits = 32 \/ bits = 64 -> plain_sub sub ->
  (forall n, In n exclude -> ~ In n table_names) -> In "libm" names \/ In "all" names ->
  library bits sub names exclude = Some lib -> ~ well_typed bits lib.
Proof.
  intros HB HP X HN HL W. destruct (library_types_only bits sub names exclude lib HB HP HL W) as [_ NB].
  assert (T : In "log2" table_names) by (apply contains_In; vm_compute; reflexivity).
  assert (R : reach FUNCTIONS names exclude "log2").
  { apply (reach_from _ _ _ X T). destruct HN as [H|H]; [exists "libm"|exists "all"]; (split; [exact H|]); apply contains_In; vm_compute; reflexivity. }
  destruct (proj2 (lib_name bits sub HB names exclude lib HL "log2") (conj R eq_refl)) as (it & I & N). apply (NB it "log2" I N). cbn. tauto.
Qed.
Definition typed_alone : list string :=
  ["fty"; "uty"; "ity"; "round"; "nextafter"; "asin"; "acos"; "ln_1p"; "pnorm"; "sin"; "cos"; "sin_cos"; "invtrig"; "trig"].
Theorem library_small bits sub names exclude lib : bits = 32 \/ bits = 64 -> plain_sub sub -> fits bits sub ->
  (forall n, In n exclude -> ~ In n table_names) -> (forall n, In n names -> In n table_names -> In n typed_alone) ->
  library bits sub names exclude = Some lib -> well_typed bits lib.
Proof.
  intros HB HP Fi X HN HL. apply (library_types bits sub names exclude lib HB HP Fi HL). split.
  - refine (library_safe bits sub names exclude lib HB HP X (or_introl _) HL). intros n I T. specialize (HN n I T).
    cbn in HN |- *. tauto.
  - intros it n I N B. assert (T : In n table_names).
    { assert (K : forallb (contains table_names) ill_typed = true) by (vm_compute; reflexivity). rewrite forallb_forall in K. apply contains_In. exact (K n B). }
    pose proof (proj1 (lib_name bits sub HB names exclude lib HL n) (ex_intro _ it (conj I N))) as [R _].
    apply (reach_from _ _ _ X T) in R. destruct R as (k & Hk & C).
    assert (Tk : In k table_names).
    { apply closure_reach in C. destruct C as [C _]. revert T. clear -C. induction C as [m [<-|[]] _|i g d En _ IH _ _]; intros T; [exact T|]. apply IH. eapply entry_table. exact En. }
    assert (K : forallb (fun k => negb (existsb (contains (closure k)) ill_typed)) typed_alone = true) by (vm_compute; reflexivity).
    rewrite forallb_forall in K. specialize (K k (HN k Hk Tk)). apply negb_true_iff in K.
    assert (Y : existsb (contains (closure k)) ill_typed = true) by (apply existsb_exists; exists n; split; [exact B|apply contains_In; exact C]). congruence.
Qed.
