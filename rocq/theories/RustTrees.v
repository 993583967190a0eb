(** The syntax trees of GenCode.v have the tokens of the streams of GenTokens.v. *)
From Coq Require Import List String Ascii Bool Arith ZArith Lia.
From Verif Require Import Res Syntax Item RustFmt RustLex RustFmtFacts Functions GenCode GenTokens ItemTokens RustLibrary.
Import ListNotations.
Open Scope string_scope.
Open Scope list_scope.

(** ** Putting a tree for the name #sub *)
Definition is_sub (p : list string) : bool := match p with [w] => String.eqb w "#sub" | _ => false end.
Fixpoint put (s e : expr) : expr :=
  match e with
  | EPath p => if is_sub p then s else e
  | EUnary op a => EUnary op (put s a)
  | EBinary op a b => EBinary op (put s a) (put s b)
  | EMethodCall r m t args => EMethodCall (put s r) m t (map (put s) args)
  | EParen a => EParen (put s a)
  | EField a m => EField (put s a) m
  | ECall f args => ECall f (map (put s) args)
  | ECast a t => ECast (put s a) t
  | EIf c t o => EIf (put s c) (map (put_stmt s) t) (match o with Some e => Some (put s e) | None => None end)
  | EBlock b => EBlock (map (put_stmt s) b)
  | ELit _ | EOther _ => e
  end
with put_stmt (s : expr) (st : stmt) : stmt :=
  match st with
  | SLocal n t i => SLocal n t (match i with Some e => Some (put s e) | None => None end)
  | SExpr e => SExpr (put s e)
  | SSemi e => SSemi (put s e)
  end.
Definition put_item (s : expr) (i : item) : item :=
  match i with
  | IConst n t e => IConst n t (put s e)
  | IFn n ps r b => IFn n ps r (map (put_stmt s) b)
  | _ => i
  end.

(** No other name begins with #. *)
Definition nm (w : string) : bool := negb (is_hole (TWord w)).
Definition nmo (t : option string) : bool := match t with Some t => nm t | None => true end.
Fixpoint names (e : expr) : bool :=
  match e with
  | EPath p => is_sub p || forallb nm p
  | EUnary _ a | EParen a => names a
  | EBinary _ a b => names a && names b
  | EMethodCall r m t args => names r && nm m && nmo t && forallb names args
  | EField a m => names a && nm m
  | ECall f args => match f with EPath p => forallb nm p | _ => false end && forallb names args
  | ECast a t => names a && nm t
  | EIf c t o => names c && forallb names_stmt t && match o with Some e => names e | None => true end
  | EBlock b => forallb names_stmt b
  | ELit _ => true
  | EOther w => nm w
  end
with names_stmt (s : stmt) : bool :=
  match s with
  | SLocal n t i => nm n && nmo t && match i with Some e => names e | None => true end
  | SExpr e | SSemi e => names e
  end.
Definition names_item (i : item) : bool :=
  match i with
  | IConst n t e => nm n && nm t && names e
  | IType n t => nm n && nm t
  | IFn n ps r b => nm n && forallb (fun p => nm (fst p) && nm (snd p)) ps && nm r && forallb names_stmt b
  | IOther w => nm w
  end.

Section Put.
  Variable s : expr.
  Let env := sub_env (expr_tts s).
  Notation q := (quote env).

  Lemma q_app a b : q (a ++ b) = q a ++ q b.
  Proof. apply flat_map_app. Qed.
  Lemma q_word w r : nm w = true -> q (TWord w :: r) = TWord w :: q r.
  Proof. intros H. unfold quote. cbn [flat_map]. rewrite interpolate_plain; [reflexivity| |discriminate]. apply negb_true_iff. exact H. Qed.
  Lemma q_punct o r : q (TPunct o :: r) = TPunct o :: q r.
  Proof. reflexivity. Qed.
  Lemma q_lit l r : q (TLit l :: r) = TLit l :: q r.
  Proof. reflexivity. Qed.
  Lemma q_group d l r : q (TGroup d l :: r) = TGroup d (q l) :: q r.
  Proof. reflexivity. Qed.
  Lemma q_nil : q [] = [].
  Proof. reflexivity. Qed.
  Lemma q_type t : nm t = true -> q (type_tts t) = type_tts t.
  Proof. intros H. unfold type_tts. destruct (String.eqb t "(fty, fty)"); [reflexivity|]. rewrite q_word by exact H. reflexivity. Qed.
  Lemma q_sep o l : q (separated (TPunct o) l) = separated (TPunct o) (map (fun x => q x) l).
  Proof.
    induction l as [|a l IH]; [reflexivity|]. destruct l as [|b l]; [reflexivity|].
    change (separated (TPunct o) (a :: b :: l)) with (a ++ TPunct o :: separated (TPunct o) (b :: l)).
    rewrite q_app, q_punct, IH. reflexivity.
  Qed.
  Lemma q_flat {A} (f : A -> list tt) l : q (flat_map f l) = flat_map (fun a => q (f a)) l.
  Proof. induction l as [|a l IH]; [reflexivity|]. cbn [flat_map]. rewrite q_app, IH. reflexivity. Qed.
  Lemma q_lits l : q (lit_tts l) = lit_tts l.
  Proof.
    destruct l as [d x|d x|b|x]; cbn [lit_tts]; [| |destruct b; reflexivity|reflexivity];
      unfold number_tts; destruct d as [|[[] [] [] [] [] [] [] []] d]; reflexivity.
  Qed.
  Lemma q_path p : forallb nm p = true -> q (separated (TPunct "::") (map (fun w => [TWord w]) p)) = separated (TPunct "::") (map (fun w => [TWord w]) p).
  Proof.
    intros H. rewrite q_sep, map_map. f_equal. apply map_ext_in. intros w Hw. rewrite forallb_forall in H. rewrite q_word by exact (H w Hw). reflexivity.
  Qed.
  Lemma sub_here p : is_sub p = true -> p = ["#sub"].
  Proof. destruct p as [|w [|? ?]]; try discriminate. intros H. apply String.eqb_eq in H. subst. reflexivity. Qed.

  Let P e := names e = true -> expr_tts (put s e) = q (expr_tts e).
  Let Ps st := names_stmt st = true -> stmt_tts (put_stmt s st) = q (stmt_tts st).
  Lemma map_P args : Forall P args -> forallb names args = true -> map expr_tts (map (put s) args) = map (fun x => q x) (map expr_tts args).
  Proof. intros F H. rewrite !map_map. apply map_ext_in. intros a Ha. rewrite Forall_forall in F. rewrite forallb_forall in H. exact (F a Ha (H a Ha)). Qed.
  Lemma map_Ps l : Forall Ps l -> forallb names_stmt l = true -> flat_map stmt_tts (map (put_stmt s) l) = q (flat_map stmt_tts l).
  Proof.
    intros F H. rewrite q_flat, flat_map_concat_map, map_map, flat_map_concat_map. f_equal. apply map_ext_in.
    intros a Ha. rewrite Forall_forall in F. rewrite forallb_forall in H. exact (F a Ha (H a Ha)).
  Qed.
  Lemma call_tts f args : (forall p, f = EPath p -> p <> ["(,)"]) ->
    expr_tts (ECall f args) = expr_tts f ++ [TGroup DParen (separated (TPunct ",") (map expr_tts args))].
  Proof.
    intros H. destruct f as [| p | | | | | | | | | | ]; try reflexivity. specialize (H p eq_refl).
    destruct p as [|w [|w' p]]; try reflexivity.
    - cbn [expr_tts]. destruct (string_dec w "(,)") as [->|N]; [contradiction|].
      destruct w as [|c w]; [reflexivity|]. destruct c as [[] [] [] [] [] [] [] []]; try reflexivity.
      destruct w as [|c w]; [reflexivity|]. destruct c as [[] [] [] [] [] [] [] []]; try reflexivity.
      destruct w as [|c w]; [reflexivity|]. destruct c as [[] [] [] [] [] [] [] []]; try reflexivity.
      destruct w as [|c w]; [contradiction|reflexivity].
    - cbn [expr_tts]. destruct w as [|c w]; [reflexivity|]. destruct c as [[] [] [] [] [] [] [] []]; try reflexivity.
      destruct w as [|c w]; [reflexivity|]. destruct c as [[] [] [] [] [] [] [] []]; try reflexivity.
      destruct w as [|c w]; [reflexivity|]. destruct c as [[] [] [] [] [] [] [] []]; try reflexivity.
      destruct w as [|c w]; reflexivity.
  Qed.

  Ltac ands := repeat match goal with H : _ && _ = true |- _ => apply andb_prop in H; destruct H end.
  Lemma put_tts : (forall e, P e) /\ (forall st, Ps st).
  Proof.
    assert (Q : forall e, P e); [|split; [exact Q|]].
    { apply (expr_ind_nested P Ps); unfold P, Ps; cbn [names names_stmt put put_stmt].
      - intros l _. cbn [expr_tts]. symmetry. apply q_lits.
      - intros p H. destruct (is_sub p) eqn:E; [rewrite (sub_here p E); unfold quote, env, sub_env; cbn; symmetry; apply app_nil_r|].
        cbn [orb] in H. cbn [expr_tts]. symmetry. apply q_path, H.
      - intros op e IH H. cbn [expr_tts]. rewrite q_punct, IH by exact H. reflexivity.
      - intros op l r IHl IHr H. ands. cbn [expr_tts]. rewrite q_app, q_punct, IHl, IHr by assumption. reflexivity.
      - intros r m t args IHr F H. ands. cbn [expr_tts]. rewrite q_app, q_punct, q_word, q_app, q_group, q_nil, q_sep by assumption.
        rewrite IHr, (map_P args F) by assumption. do 4 f_equal. destruct t as [t|]; [|reflexivity].
        change (?x ++ ?y ++ ?z) with (x ++ (y ++ z)). rewrite !q_app, q_type by assumption. reflexivity.
      - intros e IH H. cbn [expr_tts]. rewrite q_group, q_nil, IH by exact H. reflexivity.
      - intros e m IH H. ands. cbn [expr_tts]. rewrite q_app, q_punct, q_word, q_nil, IH by assumption. reflexivity.
      - intros f args _ F H. ands. destruct f as [| p | | | | | | | | | | ]; try discriminate.
        destruct (list_eq_dec string_dec p ["(,)"]) as [->|N].
        + cbn [expr_tts]. rewrite q_group, q_nil, q_sep, (map_P args F) by assumption. reflexivity.
        + rewrite !call_tts by (intros p' Ep; injection Ep as <-; exact N). rewrite q_app, q_group, q_nil, q_sep, (map_P args F) by assumption.
          f_equal. cbn [expr_tts]. symmetry. apply q_path. assumption.
      - intros e t IH H. ands. cbn [expr_tts]. rewrite q_app, q_word, q_type, IH by (assumption || reflexivity). reflexivity.
      - intros c t o IHc F IHo H. ands. cbn [expr_tts]. rewrite q_word by reflexivity. rewrite !q_app, q_group, q_nil, IHc, (map_Ps t F) by assumption.
        do 3 f_equal. destruct o as [e|]; [|reflexivity]. cbn [OptP] in IHo. rewrite q_word, IHo by (assumption || reflexivity). reflexivity.
      - intros b F H. cbn [expr_tts]. rewrite q_group, q_nil, (map_Ps b F) by assumption. reflexivity.
      - intros k H. cbn [expr_tts]. rewrite q_word by assumption. reflexivity.
      - intros n t i IHi H. ands. cbn [stmt_tts]. rewrite !q_word by (assumption || reflexivity). rewrite !q_app, q_punct, q_nil. do 2 f_equal.
        f_equal; [destruct t as [t|]; [|reflexivity]; rewrite q_punct, q_type by assumption; reflexivity|]. f_equal.
        destruct i as [e|]; [|reflexivity]. cbn [OptP] in IHi. rewrite q_punct, IHi by assumption. reflexivity.
      - intros e IH H. cbn [stmt_tts]. apply IH, H.
      - intros e IH H. cbn [stmt_tts]. rewrite q_app, IH by exact H. reflexivity. }
    intros [n t i|e|e]; unfold P, Ps in *; cbn [names_stmt put_stmt stmt_tts]; intros H; ands.
    - rewrite !q_word by (assumption || reflexivity). rewrite !q_app, q_punct, q_nil. do 2 f_equal.
      f_equal; [destruct t as [t|]; [|reflexivity]; rewrite q_punct, q_type by assumption; reflexivity|]. f_equal.
      destruct i as [e|]; [|reflexivity]. rewrite q_punct, Q by assumption. reflexivity.
    - apply Q, H.
    - rewrite q_app, Q by exact H. reflexivity.
  Qed.

  Lemma put_item_tts i : names_item i = true -> item_tts (put_item s i) = q (item_tts i).
  Proof.
    destruct put_tts as [HP HS]. unfold P, Ps in *. destruct i as [n t e|n t|n ps r b|w]; cbn [names_item put_item item_tts]; intros H; ands.
    - rewrite !q_word by (assumption || reflexivity). rewrite q_punct, q_app, q_punct, q_app, q_type, HP by assumption. reflexivity.
    - cbn [app]. rewrite !q_word by (assumption || reflexivity). rewrite q_punct, q_app, q_type by assumption. reflexivity.
    - cbn [app]. rewrite !q_word by (assumption || reflexivity). rewrite q_group, q_punct, q_app, q_type, q_group, q_nil, q_sep by assumption.
      rewrite (map_Ps b) by (try assumption; apply Forall_forall; intros x _; exact (HS x)).
      do 3 f_equal. f_equal. f_equal. rewrite map_map. apply map_ext_in. intros p Hp.
      match goal with H : forallb _ ps = true |- _ => rewrite forallb_forall in H; specialize (H p Hp); apply andb_prop in H; destruct H as [A B] end.
      rewrite q_word, q_punct, q_type by assumption. reflexivity.
    - rewrite q_word by assumption. reflexivity.
  Qed.
End Put.

(** ** The generators *)
Definition hole_code (bits : Z) (name : string) : list item := code bits (fun _ => EPath ["#sub"]) name.
Ltac each name :=
  repeat (match goal with |- context [if String.eqb name ?n then _ else _] => destruct (String.eqb name n); [vm_compute; reflexivity|] end).
Lemma code_put bits sub name : bits = 32%Z \/ bits = 64%Z -> code bits sub name = map (put_item (sub name)) (hole_code bits name).
Proof. intros HB. unfold hole_code, code. generalize (sub name). intros s. destruct HB as [-> | ->]; each name; reflexivity. Qed.
Lemma code_names bits name : bits = 32%Z \/ bits = 64%Z -> forallb names_item (hole_code bits name) = true.
Proof. intros HB. unfold hole_code, code. destruct HB as [-> | ->]; each name; reflexivity. Qed.
Lemma code_plain bits name : bits = 32%Z \/ bits = 64%Z -> flat_map item_tts (hole_code bits name) = plain (template bits name).
Proof. intros HB. unfold hole_code, code, template, tokens. destruct HB as [-> | ->]; each name; reflexivity. Qed.

Theorem code_template bits sub name : bits = 32%Z \/ bits = 64%Z ->
  flat_map item_tts (code bits sub name) = quote (sub_env (expr_tts (sub name))) (plain (template bits name)).
Proof.
  intros HB. rewrite (code_put bits sub name HB), <- (code_plain bits name HB).
  pose proof (code_names bits name HB) as N. induction (hole_code bits name) as [|i l IH]; [reflexivity|].
  cbn [forallb] in N. apply andb_prop in N. destruct N as [Ni Nl]. cbn [map flat_map]. rewrite IH by exact Nl.
  unfold quote. rewrite flat_map_app. f_equal. apply put_item_tts. exact Ni.
Qed.
