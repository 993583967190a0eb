(** The type system of GenType.v: it depends on the names an expression mentions
    only, it finds undefined names, and what it accepts does not get stuck. *)
From Coq Require Import List String Bool ZArith Ascii Lia Arith.
From Verif Require Import Res Dec DecStr Syntax Item GenSem GenCodeFacts GenType.
Import ListNotations.
Open Scope string_scope.
Open Scope list_scope.
Open Scope Z_scope.

Section Unfold.
  Variables (bits : Z) (D : string -> option decl) (hole : string -> list (string * sty) -> option sty).
  Notation T := (typeof bits D hole).
  Definition types (env : list (string * sty)) : list expr -> option (list sty) :=
    fix types (l : list expr) : option (list sty) :=
    match l with
    | [] => Some []
    | a :: r => match T env a with Some s => match types r with Some q => Some (s :: q) | None => None end | None => None end
    end.
  Fixpoint block (env : list (string * sty)) (l : list stmt) : option sty :=
    match l with
    | [] => None
    | [SExpr a] => T env a
    | SLocal n t (Some a) :: r =>
        match T env a with
        | Some s =>
            match match t with Some t => declared bits (ty_of D t) s | None => Some s end with
            | Some s => block ((n, s) :: env) r
            | None => None
            end
        | None => None
        end
    | (SSemi a | SExpr a) :: r => match T env a with Some _ => block env r | None => None end
    | SLocal _ _ None :: _ => None
    end.
  Lemma t_method env r m args : T env (EMethodCall r m None args) = match T env r, types env args with Some s, Some l => method_ty bits m s l | _, _ => None end.
  Proof. reflexivity. Qed.
  Lemma t_call env f args : T env (ECall (EPath [f]) args) =
    match slookup f env, types env args with
    | None, Some l => if String.eqb f "(,)" then match l with [a; b] => Some (SPair a b) | _ => None end else call_ty bits D f l
    | _, _ => None
    end.
  Proof. reflexivity. Qed.
  Lemma t_call2 env t f args : T env (ECall (EPath [t; f]) args) =
    match slookup t env, ty_of D t, types env args with
    | None, Some (TFlt w), Some [SInt u] =>
        if String.eqb f "from_bits" && (w =? bits) && ity_eqb u (bits_int bits) then Some SFlt else None
    | _, _, _ => None
    end.
  Proof. reflexivity. Qed.
  Lemma t_if env c t f : T env (EIf c t (Some f)) =
    match T env c, block env t, T env f with Some SBool, Some a, Some b => join a b | _, _, _ => None end.
  Proof. reflexivity. Qed.
  Lemma t_block env l : T env (EBlock l) = block env l.
  Proof. reflexivity. Qed.
End Unfold.

(** ** Only the names that are mentioned matter *)
Lemma bound_slookup n env : is_bound (map fst env) n = false -> slookup n env = None.
Proof.
  induction env as [|[m s] r IH]; [reflexivity|]. cbn. intros H. apply orb_false_iff in H. destruct H as [A B].
  rewrite String.eqb_sym, A. auto.
Qed.
Lemma slookup_bound n env : slookup n env = None -> is_bound (map fst env) n = false.
Proof.
  induction env as [|[m s] r IH]; [reflexivity|]. cbn. rewrite (String.eqb_sym n). destruct (String.eqb m n); [discriminate|]. auto.
Qed.
Section Ext.
  Variables (bits : Z) (hole : string -> list (string * sty) -> option sty) (D D' : string -> option decl).
  Definition agree (l : list string) : Prop := forall n, In n l -> D n = D' n.
  (** the types that the declarations of mentioned items are made of *)
  Hypothesis decls_agree : forall n d t, D n = Some d -> D' n = Some d ->
    In t (match d with DConst t => [t] | DType _ => [] | DFn ps r => r :: (if String.eqb r pair_text then ["fty"] else []) ++ ps end) -> ty_of D t = ty_of D' t.

  Lemma ty_of_agree n : D n = D' n -> ty_of D n = ty_of D' n.
  Proof. intros H. unfold ty_of. rewrite H. reflexivity. Qed.
  Lemma const_agree n : D n = D' n -> const_ty bits D n = const_ty bits D' n.
  Proof.
    intros H. unfold const_ty. rewrite <- H. destruct (D n) as [[t|t|ps r]|] eqn:E; try reflexivity.
    rewrite (decls_agree n (DConst t) t); [reflexivity|exact E|congruence|left; reflexivity]. 
  Qed.
  Lemma args_agree ps : (forall p, In p ps -> ty_of D p = ty_of D' p) -> forall args, args_ok bits D ps args = args_ok bits D' ps args.
  Proof.
    induction ps as [|p ps IH]; intros H [|a args]; try reflexivity. cbn. rewrite (H p) by (left; reflexivity).
    destruct (declared bits (ty_of D' p) a); [|reflexivity]. apply IH. intros q I. apply H. right. exact I.
  Qed.
  Lemma call_agree f args : D f = D' f -> call_ty bits D f args = call_ty bits D' f args.
  Proof.
    intros H. unfold call_ty. rewrite <- H. destruct (D f) as [[t|t|ps r]|] eqn:E; try reflexivity.
    assert (K : forall t, In t (r :: (if String.eqb r pair_text then ["fty"] else []) ++ ps) -> ty_of D t = ty_of D' t)
      by (intros t I; apply (decls_agree f (DFn ps r)); [exact E|congruence|exact I]).
    rewrite (args_agree ps) by (intros p I; apply K; right; apply in_or_app; right; exact I).
    destruct (args_ok bits D' ps args); [|reflexivity]. unfold ret_of.
    destruct (String.eqb r pair_text); [rewrite (K "fty") by (right; left; reflexivity)|
      rewrite (K r) by (left; reflexivity)]; reflexivity.
  Qed.

  Definition ext_e (e : expr) : Prop := forall env, agree (free e (map fst env)) -> typeof bits D hole env e = typeof bits D' hole env e.
  Definition ext_s (s : stmt) : Prop := match s with SLocal _ _ i => OptP ext_e i | SExpr e | SSemi e => ext_e e end.
  Lemma agree_app a b : agree (a ++ b) <-> agree a /\ agree b.
  Proof.
    unfold agree. split.
    - intros H. split; intros n I; apply H, in_or_app; auto.
    - intros [A B] n I. apply in_app_or in I. destruct I; auto.
  Qed.
  Lemma types_ext l : Forall ext_e l -> forall env, agree (free_list l (map fst env)) -> types bits D hole env l = types bits D' hole env l.
  Proof.
    induction 1 as [|e r H _ IH]; intros env A; [reflexivity|]. cbn in A. apply agree_app in A. destruct A as [A1 A2].
    cbn. rewrite (H env A1), (IH env A2). reflexivity.
  Qed.
  Lemma block_ext l : Forall ext_s l -> forall env, agree (free_stmts l (map fst env)) -> block bits D hole env l = block bits D' hole env l.
  Proof.
    induction 1 as [|s r H _ IH]; intros env A; [reflexivity|]. destruct s as [n t i|e|e]; cbn [free_stmts] in A; cbn [block].
    - destruct i as [a|]; [|reflexivity]. apply agree_app in A. destruct A as [A0 A]. apply agree_app in A. destruct A as [A1 A2].
      cbn in H. rewrite (H env A1). destruct (typeof bits D' hole env a) as [s|]; [|reflexivity].
      destruct t as [t|].
      + rewrite (ty_of_agree t) by (apply A0; left; reflexivity). destruct (declared bits (ty_of D' t) s); [|reflexivity]. apply IH. exact A2.
      + apply IH. exact A2.
    - apply agree_app in A. destruct A as [A1 A2]. cbn in H. rewrite (H env A1). destruct r; [reflexivity|].
      destruct (typeof bits D' hole env e); [|reflexivity]. apply IH. exact A2.
    - apply agree_app in A. destruct A as [A1 A2]. cbn in H. rewrite (H env A1).
      destruct (typeof bits D' hole env e); [|reflexivity]. apply IH. exact A2.
  Qed.
  Lemma head_agree n p env : agree (free (EPath (n :: p)) (map fst env)) -> slookup n env = None -> D n = D' n.
  Proof. intros A L. cbn in A. rewrite (slookup_bound n env L) in A. apply A. left. reflexivity. Qed.
  Theorem typeof_ext e : ext_e e.
  Proof.
    induction e using expr_ind_nested with (Ps := ext_s); unfold ext_e in *; try (intros env A); try exact (IHe env A); try reflexivity.
    - (* path *) destruct p as [|n [|m [|k p]]]; try reflexivity. cbn [typeof].
      destruct (slookup n env) eqn:L; [reflexivity|]. apply const_agree. exact (head_agree n [] env A L).
    - cbn [typeof]. rewrite (IHe env A). reflexivity.
    - cbn [free] in A. apply agree_app in A. destruct A as [A1 A2]. cbn [typeof]. rewrite (IHe1 env A1), (IHe2 env A2). reflexivity.
    - rewrite free_method in A. apply agree_app in A. destruct A as [A1 A2]. apply agree_app in A2. destruct A2 as [_ A2].
      destruct t; [reflexivity|]. rewrite !t_method, (IHe env A1), (types_ext args H env A2). reflexivity.
    - rewrite free_call in A. apply agree_app in A. destruct A as [A1 A2].
      destruct e as [|p| | | | | | | | | |]; try reflexivity. destruct p as [|n [|m [|k p]]]; try reflexivity.
      + rewrite !t_call, (types_ext args H env A2). destruct (slookup n env) eqn:L; [reflexivity|].
        destruct (types bits D' hole env args); [|reflexivity]. destruct (String.eqb n "(,)"); [reflexivity|].
        apply call_agree. exact (head_agree n [] env A1 L).
      + rewrite !t_call2, (types_ext args H env A2). destruct (slookup n env) eqn:L; [reflexivity|].
        rewrite (ty_of_agree n) by exact (head_agree n [m] env A1 L). reflexivity.
    - cbn [free] in A. cbn [typeof]. rewrite (IHe env) by (intros n I; apply A; right; exact I).
      rewrite (ty_of_agree t) by (apply A; left; reflexivity). reflexivity.
    - rewrite free_if in A. apply agree_app in A. destruct A as [A1 A]. apply agree_app in A. destruct A as [A2 A3].
      destruct e0 as [f|]; [|reflexivity]. rewrite !t_if, (IHe env A1), (block_ext t H env A2). cbn in H0. rewrite (H0 env A3). reflexivity.
    - rewrite free_block in A. rewrite !t_block. exact (block_ext b H env A).
    - cbn. destruct i; [exact H|exact I].
  Qed.
End Ext.

(** ** Undefined names are found *)
Section Defined.
  Variables (bits : Z) (hole : string -> list (string * sty) -> option sty) (D : string -> option decl).
  Hypothesis hole_free : forall k env, hole k env = None.
  Definition known (n : string) : Prop := prim n <> None \/ D n <> None \/ n = "(,)".
  Lemma ty_known t a b : declared bits (ty_of D t) a = Some b -> known t.
  Proof. unfold known, ty_of. destruct (prim t); [left; discriminate|]. destruct (D t); [right; left; discriminate|discriminate]. Qed.
  Definition def_e (e : expr) : Prop := forall env s n, typeof bits D hole env e = Some s -> In n (free e (map fst env)) -> known n.
  Definition def_s (s : stmt) : Prop := match s with SLocal _ _ i => OptP def_e i | SExpr e | SSemi e => def_e e end.
  Lemma types_def l : Forall def_e l -> forall env s n, types bits D hole env l = Some s -> In n (free_list l (map fst env)) -> known n.
  Proof.
    induction 1 as [|e r H _ IH]; intros env s n E I; [destruct I|]. cbn in E, I.
    destruct (typeof bits D hole env e) eqn:E1; [|discriminate]. destruct (types bits D hole env r) eqn:E2; [|discriminate].
    apply in_app_or in I. destruct I as [I|I]; [exact (H env _ n E1 I)|exact (IH env _ n E2 I)].
  Qed.
  Lemma block_def l : Forall def_s l -> forall env s n, block bits D hole env l = Some s -> In n (free_stmts l (map fst env)) -> known n.
  Proof.
    induction 1 as [|st r H _ IH]; intros env s n E I; [destruct I|]. destruct st as [m t i|e|e]; cbn [free_stmts] in I; cbn [block] in E.
    - destruct i as [a|]; [|discriminate]. destruct (typeof bits D hole env a) as [u|] eqn:E1; [|discriminate].
      destruct (match t with Some t => declared bits (ty_of D t) u | None => Some u end) as [u'|] eqn:E2; [|discriminate].
      apply in_app_or in I. destruct I as [I|I].
      + destruct t as [t|]; [|destruct I]. destruct I as [<-|[]]. exact (ty_known t u u' E2).
      + apply in_app_or in I. destruct I as [I|I]; [exact (H env _ n E1 I)|]. exact (IH ((m, u') :: env) s n E I).
    - apply in_app_or in I. destruct r as [|st r].
      + destruct I as [I|[]]. exact (H env _ n E I).
      + destruct (typeof bits D hole env e) eqn:E1; [|discriminate]. destruct I as [I|I]; [exact (H env _ n E1 I)|exact (IH env s n E I)].
    - apply in_app_or in I. destruct (typeof bits D hole env e) eqn:E1; [|discriminate].
      destruct I as [I|I]; [exact (H env _ n E1 I)|exact (IH env s n E I)].
  Qed.
  Lemma head_known n m p env : slookup m env = None -> known m -> In n (free (EPath (m :: p)) (map fst env)) -> known n.
  Proof. intros L K I. cbn in I. rewrite (slookup_bound m env L) in I. destruct I as [<-|[]]. exact K. Qed.
  Theorem typeof_def e : def_e e.
  Proof.
    induction e using expr_ind_nested with (Ps := def_s); unfold def_e in *.
    - intros env s n _ [].
    - intros env s n E I. destruct p as [|m [|m2 [|k p]]]; try discriminate; cbn [typeof] in E.
      + destruct (slookup m env) eqn:L.
        * cbn in I. destruct (is_bound (map fst env) m) eqn:B; [destruct I|]. rewrite (bound_slookup _ _ B) in L. discriminate.
        * apply (head_known n m [] env L); [|exact I]. right. left. unfold const_ty in E. destruct (D m); discriminate.
      + cbn in I. destruct (is_bound _ m); [destruct I|]. destruct I as [<-|[]]. left. unfold path_ty in E. destruct (prim m); discriminate.
    - intros env s n E I. cbn [typeof] in E. destruct (typeof bits D hole env e) eqn:E1; [|discriminate]. exact (IHe env _ n E1 I).
    - intros env s n E I. cbn [typeof] in E. destruct (typeof bits D hole env e1) eqn:E1; [|discriminate]. destruct (typeof bits D hole env e2) eqn:E2; [|discriminate].
      cbn [free] in I. apply in_app_or in I. destruct I as [I|I]; [exact (IHe1 env _ n E1 I)|exact (IHe2 env _ n E2 I)].
    - intros env s n E I. destruct t; [discriminate|]. rewrite t_method in E. rewrite free_method in I.
      destruct (typeof bits D hole env e) eqn:E1; [|discriminate]. destruct (types bits D hole env args) eqn:E2; [|discriminate].
      apply in_app_or in I. destruct I as [I|I]; [exact (IHe env _ n E1 I)|]. cbn [ty_name app] in I. exact (types_def args H env _ n E2 I).
    - intros env s n E I. exact (IHe env s n E I).
    - intros env s n E I. discriminate.
    - intros env s n E I. rewrite free_call in I. destruct e as [|p| | | | | | | | | |]; try discriminate. destruct p as [|m [|m2 [|k p]]]; try discriminate.
      + rewrite t_call in E. destruct (slookup m env) eqn:L; [discriminate|]. destruct (types bits D hole env args) eqn:E2; [|discriminate].
        apply in_app_or in I. destruct I as [I|I]; [|exact (types_def args H env _ n E2 I)]. apply (head_known n m [] env L); [|exact I].
        destruct (String.eqb_spec m "(,)") as [->|_]; [right; right; reflexivity|]. right. left. unfold call_ty in E. destruct (D m); discriminate.
      + rewrite t_call2 in E. destruct (slookup m env) eqn:L; [discriminate|]. destruct (ty_of D m) as [[w| |]|] eqn:TM; try discriminate.
        destruct (types bits D hole env args) eqn:E2; [|discriminate].
        apply in_app_or in I. destruct I as [I|I]; [|exact (types_def args H env _ n E2 I)]. apply (head_known n m [m2] env L); [|exact I].
        unfold ty_of in TM. unfold known. destruct (prim m); [left; discriminate|]. destruct (D m); [right; left; discriminate|discriminate].
    - intros env s n E I. cbn [typeof] in E. destruct (typeof bits D hole env e) eqn:E1; [|discriminate].
      destruct I as [<-|I]; [|exact (IHe env _ n E1 I)]. unfold cast_ty, ty_of in E. unfold known.
      destruct (prim t); [left; discriminate|]. destruct (D t); [right; left; discriminate|]. destruct s0; discriminate.
    - intros env s n E I. destruct e0 as [f|]; [|discriminate]. rewrite t_if in E. rewrite free_if in I.
      destruct (typeof bits D hole env e) as [c|] eqn:E1; [|discriminate]. destruct c; try discriminate.
      destruct (block bits D hole env t) eqn:E2; [|discriminate]. destruct (typeof bits D hole env f) eqn:E3; [|discriminate].
      apply in_app_or in I. destruct I as [I|I]; [exact (IHe env _ n E1 I)|]. apply in_app_or in I.
      destruct I as [I|I]; [exact (block_def t H env _ n E2 I)|exact (H0 env _ n E3 I)].
    - intros env s n E I. rewrite t_block in E. rewrite free_block in I. exact (block_def b H env s n E I).
    - intros env s n E I. destruct I.
    - cbn. destruct i; [exact H|exact I].
    - exact IHe.
    - exact IHe.
  Qed.
End Defined.

(** ** Filling holes *)
Section Plug.
  Variables (bits : Z) (D : string -> option decl) (hole : string -> list (string * sty) -> option sty) (sub : string -> expr).
  Hypothesis fits : forall k env s, hole k env = Some s -> typeof bits D no_hole env (sub k) = Some s.
  Definition plug_e (e : expr) : Prop := forall env s, typeof bits D hole env e = Some s -> typeof bits D no_hole env (plug sub e) = Some s.
  Definition plug_st (s : stmt) : Prop := match s with SLocal _ _ i => OptP plug_e i | SExpr e | SSemi e => plug_e e end.
  Lemma types_plug l : Forall plug_e l -> forall env q, types bits D hole env l = Some q -> types bits D no_hole env (map (plug sub) l) = Some q.
  Proof.
    induction 1 as [|e r H _ IH]; intros env q E; [exact E|]. cbn in *. destruct (typeof bits D hole env e) eqn:E1; [|discriminate].
    rewrite (H env _ E1). destruct (types bits D hole env r) eqn:E2; [|discriminate]. rewrite (IH env _ E2). exact E.
  Qed.
  Lemma block_plug l : Forall plug_st l -> forall env q, block bits D hole env l = Some q -> block bits D no_hole env (map (plug_s sub) l) = Some q.
  Proof.
    induction 1 as [|st r H _ IH]; intros env q E; [exact E|]. destruct st as [m t i|e|e]; cbn [map plug_s block] in *.
    - destruct i as [a|]; [|discriminate]. destruct (typeof bits D hole env a) as [u|] eqn:E1; [|discriminate]. rewrite (H env _ E1).
      destruct (match t with Some t => declared bits (ty_of D t) u | None => Some u end) as [u'|] eqn:E2; [|discriminate]. exact (IH _ q E).
    - destruct r as [|st r]; [exact (H env q E)|]. destruct (typeof bits D hole env e) eqn:E1; [|discriminate]. rewrite (H env _ E1).
      cbn [map]. exact (IH env q E).
    - destruct (typeof bits D hole env e) eqn:E1; [|discriminate]. rewrite (H env _ E1). exact (IH env q E).
  Qed.
  Theorem plug_typeof e : plug_e e.
  Proof.
    induction e using expr_ind_nested with (Ps := plug_st); unfold plug_e in *; try (intros env s E); cbn [plug].
    - exact E.
    - exact E.
    - cbn [typeof] in *. destruct (typeof bits D hole env e) eqn:E1; [|discriminate]. rewrite (IHe env _ E1). exact E.
    - cbn [typeof] in *. destruct (typeof bits D hole env e1) eqn:E1; [|discriminate]. destruct (typeof bits D hole env e2) eqn:E2; [|discriminate].
      rewrite (IHe1 env _ E1), (IHe2 env _ E2). exact E.
    - destruct t; [discriminate|]. rewrite t_method in *. destruct (typeof bits D hole env e) eqn:E1; [|discriminate].
      destruct (types bits D hole env args) eqn:E2; [|discriminate]. rewrite (IHe env _ E1), (types_plug args H env _ E2). exact E.
    - exact (IHe env s E).
    - discriminate.
    - destruct e as [|p| | | | | | | | | |]; try discriminate. destruct p as [|m [|m2 [|k p]]]; try discriminate; cbn [plug].
      + rewrite t_call in *. destruct (slookup m env); [discriminate|]. destruct (types bits D hole env args) eqn:E2; [|discriminate].
        rewrite (types_plug args H env _ E2). exact E.
      + rewrite t_call2 in *. destruct (slookup m env); [discriminate|]. destruct (ty_of D m) as [[w| |]|]; try discriminate.
        destruct (types bits D hole env args) eqn:E2; [|discriminate]. rewrite (types_plug args H env _ E2). exact E.
    - cbn [typeof] in *. destruct (typeof bits D hole env e) eqn:E1; [|discriminate]. rewrite (IHe env _ E1). exact E.
    - destruct e0 as [f|]; [|discriminate]. rewrite t_if in *. destruct (typeof bits D hole env e) as [c|] eqn:E1; [|discriminate].
      destruct (block bits D hole env t) eqn:E2; [|destruct c; discriminate]. destruct (typeof bits D hole env f) eqn:E3; [|destruct c; discriminate].
      rewrite (IHe env _ E1), (block_plug t H env _ E2). cbn in H0. rewrite (H0 env _ E3). exact E.
    - rewrite t_block in *. exact (block_plug b H env s E).
    - cbn [typeof] in E. exact (fits k env s E).
    - cbn. destruct i; [exact H|exact I].
    - exact (IHe env s E).
    - exact (IHe env s E).
  Qed.
End Plug.
