(** The parser reads printed, sufficiently parenthesised trees back, and reads
    nothing else. *)
From Coq Require Import String Ascii List Bool Arith Lia.
From Verif Require Import Res Syntax Trans TransFacts Parse.
Import ListNotations.
Open Scope list_scope.

(** Induction over expressions when conditionals and blocks need no hypothesis. *)
Lemma expr_ind_ops (P : expr -> Prop) :
  (forall l, P (ELit l)) -> (forall p, P (EPath p)) ->
  (forall op e, P e -> P (EUnary op e)) ->
  (forall op l r, P l -> P r -> P (EBinary op l r)) ->
  (forall r m t args, P r -> Forall P args -> P (EMethodCall r m t args)) ->
  (forall e, P e -> P (EParen e)) ->
  (forall e m, P e -> P (EField e m)) ->
  (forall f args, P f -> Forall P args -> P (ECall f args)) -> (forall e t, P e -> P (ECast e t)) ->
  (forall c t o, P (EIf c t o)) -> (forall b, P (EBlock b)) -> (forall k, P (EOther k)) ->
  forall e, P e.
Proof. intros. apply expr_ind_nested with (Ps := fun _ => True); auto. Qed.

Section P.
  Variable prec : binop -> nat.
  Hypothesis prec_small : forall op, prec op < 100.

  Notation p_unary := (p_unary prec).
  Notation p_trail := (p_trail prec).
  Notation p_args := (p_args prec).
  Notation p_args1 := (p_args1 prec).
  Notation p_expr := (p_expr prec).
  Notation p_loop := (p_loop prec).
  Notation p_rhs := (p_rhs prec).

  Ltac brk :=
    match goal with
    | H : context [match ?x with _ => _ end] |- _ => destruct x eqn:?; try discriminate H
    end.

  (** *** Consumption of tokens *)
  Definition head_op (b : nat) (ts : list token) : bool :=
    match ts with TBin op :: _ => Nat.leb b (prec op) | _ => false end.

  Lemma consume n :
    (forall ts e r, p_unary n ts = Some (e, r) -> length r < length ts) /\
    (forall x ts e r, p_trail n x ts = Some (e, r) -> length r <= length ts) /\
    (forall ts e r, p_args n ts = Some (e, r) -> length r < length ts) /\
    (forall ts e r, p_args1 n ts = Some (e, r) -> length r < length ts) /\
    (forall b ts e r, p_expr n b ts = Some (e, r) -> length r < length ts) /\
    (forall x b ts e r, p_loop n x b ts = Some (e, r) ->
        length r <= length ts /\ (head_op b ts = true -> length r < length ts)) /\
    (forall x p ts e r, p_rhs n x p ts = Some (e, r) -> length r <= length ts).
  Proof.
    induction n as [|n (Iu & It & Ia & Ia1 & Ie & Il & Ir)]; [repeat split; discriminate|].
    repeat match goal with |- _ /\ _ => split end; intros; cbn [Parse.p_unary Parse.p_trail Parse.p_args Parse.p_args1 Parse.p_expr Parse.p_loop Parse.p_rhs] in H;
      repeat brk;
      repeat match goal with
      | H : Some _ = Some _ |- _ => inversion H; subst; clear H
      | H : p_unary n _ = Some _ |- _ => apply Iu in H
      | H : p_trail n _ _ = Some _ |- _ => apply It in H
      | H : p_args n _ = Some _ |- _ => apply Ia in H
      | H : p_args1 n _ = Some _ |- _ => apply Ia1 in H
      | H : p_expr n _ _ = Some _ |- _ => apply Ie in H
      | H : p_loop n _ _ _ = Some _ |- _ => apply Il in H; destruct H
      | H : p_rhs n _ _ _ = Some _ |- _ => apply Ir in H
      end; cbn [length head_op] in *; try lia;
      try (split; [lia|]; intros; try discriminate; try lia; congruence).
  Qed.

  (** *** More fuel changes nothing *)
  Lemma mono n :
    (forall ts x, p_unary n ts = Some x -> forall m, n <= m -> p_unary m ts = Some x) /\
    (forall e ts x, p_trail n e ts = Some x -> forall m, n <= m -> p_trail m e ts = Some x) /\
    (forall ts x, p_args n ts = Some x -> forall m, n <= m -> p_args m ts = Some x) /\
    (forall ts x, p_args1 n ts = Some x -> forall m, n <= m -> p_args1 m ts = Some x) /\
    (forall b ts x, p_expr n b ts = Some x -> forall m, n <= m -> p_expr m b ts = Some x) /\
    (forall e b ts x, p_loop n e b ts = Some x -> forall m, n <= m -> p_loop m e b ts = Some x) /\
    (forall e p ts x, p_rhs n e p ts = Some x -> forall m, n <= m -> p_rhs m e p ts = Some x).
  Proof.
    induction n as [|n (Iu & It & Ia & Ia1 & Ie & Il & Ir)]; [repeat split; discriminate|].
    repeat match goal with |- _ /\ _ => split end; intros;
      destruct m as [|m]; try lia;
      match goal with H : S n <= S m |- _ => apply le_S_n in H; rename H into L end;
      cbn [Parse.p_unary Parse.p_trail Parse.p_args Parse.p_args1 Parse.p_expr Parse.p_loop Parse.p_rhs] in *;
      repeat brk;
      repeat match goal with
      | H : p_unary n _ = Some _ |- _ => apply Iu with (m := m) in H; [rewrite H|exact L]
      | H : p_trail n _ _ = Some _ |- _ => apply It with (m := m) in H; [try rewrite H|exact L]
      | H : p_args n _ = Some _ |- _ => apply Ia with (m := m) in H; [try rewrite H|exact L]
      | H : p_args1 n _ = Some _ |- _ => apply Ia1 with (m := m) in H; [try rewrite H|exact L]
      | H : p_expr n _ _ = Some _ |- _ => apply Ie with (m := m) in H; [try rewrite H|exact L]
      | H : p_loop n _ _ _ = Some _ |- _ => apply Il with (m := m) in H; [try rewrite H|exact L]
      | H : p_rhs n _ _ _ = Some _ |- _ => apply Ir with (m := m) in H; [try rewrite H|exact L]
      end;
      repeat match goal with H : ?a = Some _ |- context [?a] => rewrite H end;
      try assumption; try congruence.
  Qed.

  (** *** Fuel proportional to the length is enough *)
  Lemma adequate n :
    (forall ts x, p_unary n ts = Some x -> forall m, 8 * length ts < m -> p_unary m ts = Some x) /\
    (forall e ts x, p_trail n e ts = Some x -> forall m, 8 * length ts < m -> p_trail m e ts = Some x) /\
    (forall ts x, p_args n ts = Some x -> forall m, 8 * length ts + 3 < m -> p_args m ts = Some x) /\
    (forall ts x, p_args1 n ts = Some x -> forall m, 8 * length ts + 2 < m -> p_args1 m ts = Some x) /\
    (forall b ts x, p_expr n b ts = Some x -> forall m, 8 * length ts + 1 < m -> p_expr m b ts = Some x) /\
    (forall e b ts x, p_loop n e b ts = Some x -> forall m, 8 * length ts < m -> p_loop m e b ts = Some x) /\
    (forall e p ts x, p_rhs n e p ts = Some x -> forall m, 8 * length ts + 1 < m -> p_rhs m e p ts = Some x).
  Proof.
    induction n as [|n (Iu & It & Ia & Ia1 & Ie & Il & Ir)]; [repeat split; discriminate|].
    destruct (consume n) as (Cu & Ct & Ca & Ca1 & Ce & Cl & Cr).
    repeat match goal with |- _ /\ _ => split end; intros;
      destruct m as [|m]; try lia;
      match goal with H : _ < S m |- _ => rename H into L end;
      cbn [Parse.p_unary Parse.p_trail Parse.p_args Parse.p_args1 Parse.p_expr Parse.p_loop Parse.p_rhs] in *;
      repeat brk; subst;
      repeat match goal with
      | H : p_unary n _ = Some (_, _) |- _ => pose proof (Cu _ _ _ H); apply Iu with (m := m) in H; [|cbn [length] in *; lia]
      | H : p_args n _ = Some (_, _) |- _ => pose proof (Ca _ _ _ H); apply Ia with (m := m) in H; [|cbn [length] in *; lia]
      | H : p_args1 n _ = Some (_, _) |- _ => pose proof (Ca1 _ _ _ H); apply Ia1 with (m := m) in H; [|cbn [length] in *; lia]
      | H : p_expr n _ _ = Some (_, _) |- _ => pose proof (Ce _ _ _ _ H); apply Ie with (m := m) in H; [|cbn [length] in *; lia]
      | H : p_rhs n _ _ _ = Some (_, _) |- _ => pose proof (Cr _ _ _ _ _ H); apply Ir with (m := m) in H; [|cbn [length] in *; lia]
      | H : p_loop n _ (prec ?op) (TBin ?op :: _) = Some (_, _) |- _ =>
          pose proof (proj2 (Cl _ _ _ _ _ H) (Nat.leb_refl _)); apply Il with (m := m) in H; [|cbn [length] in *; lia]
      end;
      repeat match goal with
      | H : p_trail n _ _ = Some _ |- _ => apply It with (m := m) in H; [|cbn [length] in *; lia]
      | H : p_args1 n _ = Some _ |- _ => apply Ia1 with (m := m) in H; [|cbn [length] in *; lia]
      | H : p_loop n _ _ _ = Some _ |- _ => apply Il with (m := m) in H; [|cbn [length] in *; lia]
      | H : p_rhs n _ _ _ = Some _ |- _ => apply Ir with (m := m) in H; [|cbn [length] in *; lia]
      end;
      repeat match goal with H : ?a = Some _ |- context [?a] => rewrite H end;
      repeat match goal with H : ?a = _ |- context [if ?a then _ else _] => rewrite H end;
      try assumption; try congruence.
  Qed.

  (** *** Fuel-free parsing relations *)
  Definition UN ts e r := exists n, p_unary n ts = Some (e, r).
  Definition TR x ts e r := exists n, p_trail n x ts = Some (e, r).
  Definition AR ts e r := exists n, p_args n ts = Some (e, r).
  Definition A1 ts e r := exists n, p_args1 n ts = Some (e, r).
  Definition EX b ts e r := exists n, p_expr n b ts = Some (e, r).
  Definition LP x b ts e r := exists n, p_loop n x b ts = Some (e, r).
  Definition RH x p ts e r := exists n, p_rhs n x p ts = Some (e, r).

  Ltac up n1 N :=
    match goal with
    | H : p_unary n1 _ = Some _ |- _ => apply (proj1 (mono n1)) with (m := N) in H; [|lia]
    | H : p_trail n1 _ _ = Some _ |- _ => apply (proj1 (proj2 (mono n1))) with (m := N) in H; [|lia]
    | H : p_args n1 _ = Some _ |- _ => apply (proj1 (proj2 (proj2 (mono n1)))) with (m := N) in H; [|lia]
    | H : p_args1 n1 _ = Some _ |- _ => apply (proj1 (proj2 (proj2 (proj2 (mono n1))))) with (m := N) in H; [|lia]
    | H : p_expr n1 _ _ = Some _ |- _ => apply (proj1 (proj2 (proj2 (proj2 (proj2 (mono n1)))))) with (m := N) in H; [|lia]
    | H : p_loop n1 _ _ _ = Some _ |- _ => apply (proj1 (proj2 (proj2 (proj2 (proj2 (proj2 (mono n1))))))) with (m := N) in H; [|lia]
    | H : p_rhs n1 _ _ _ = Some _ |- _ => apply (proj2 (proj2 (proj2 (proj2 (proj2 (proj2 (mono n1))))))) with (m := N) in H; [|lia]
    end.

  Lemma UN_op op r e r' : UN r e r' -> UN (unop_tok op :: r) (EUnary op e) r'.
  Proof. intros [n H]. exists (S n). destruct op; cbn; rewrite H; reflexivity. Qed.
  Lemma UN_cast ty r e r' : UN r e r' -> UN (TCast ty :: r) (ECast e ty) r'.
  Proof. intros [n H]. exists (S n). cbn; rewrite H; reflexivity. Qed.
  Lemma UN_lit l r e r' : TR (ELit l) r e r' -> UN (TLit l :: r) e r'.
  Proof. intros [n H]. exists (S n). exact H. Qed.
  Lemma UN_path l r e r' : TR (EPath l) r e r' -> UN (TPath l :: r) e r'.
  Proof. intros [n H]. exists (S n). exact H. Qed.
  Lemma UN_paren r e r' e2 r2 :
    EX 0 r e (TRParen :: r') -> TR (EParen e) r' e2 r2 -> UN (TLParen :: r) e2 r2.
  Proof.
    intros [n H] [m K]. exists (S (n + m)). up n (n + m). up m (n + m). cbn. rewrite H. exact K.
  Qed.

  Definition no_trail (ts : list token) : Prop :=
    match ts with TDot :: _ | TLParen :: _ => False | _ => True end.
  Definition no_call (ts : list token) : Prop :=
    match ts with TLParen :: _ => False | TTurbo _ :: TLParen :: _ => False | _ => True end.

  Lemma TR_stop e ts : no_trail ts -> TR e ts e ts.
  Proof. intros H. exists 1. destruct ts as [|[] ts]; cbn in *; tauto. Qed.
  Lemma TR_meth e m t r args r' e2 r2 :
    AR r args r' -> TR (EMethodCall e m t args) r' e2 r2 ->
    TR e (TDot :: TIdent m :: turbo_toks t ++ TLParen :: r) e2 r2.
  Proof.
    intros [n H] [k K]. exists (S (n + k)). up n (n + k). up k (n + k).
    destruct t; cbn; rewrite H; exact K.
  Qed.
  Lemma TR_field e m r e2 r2 :
    no_call r -> TR (EField e m) r e2 r2 -> TR e (TDot :: TIdent m :: r) e2 r2.
  Proof.
    intros H [k K]. exists (S k). cbn. destruct r as [|[] r]; cbn in H; try exact K; try tauto.
    destruct r as [|[] r]; cbn in H; try exact K; tauto.
  Qed.
  Lemma TR_call e r args r' e2 r2 :
    AR r args r' -> TR (ECall e args) r' e2 r2 -> TR e (TLParen :: r) e2 r2.
  Proof.
    intros [n H] [k K]. exists (S (n + k)). up n (n + k). up k (n + k). cbn. rewrite H. exact K.
  Qed.
  Lemma AR_nil r : AR (TRParen :: r) [] r.
  Proof. exists 1. reflexivity. Qed.
  Lemma AR_cons t ts args r : t <> TRParen -> A1 (t :: ts) args r -> AR (t :: ts) args r.
  Proof. intros N [n H]. exists (S n). cbn. destruct t; try exact H. congruence. Qed.
  Lemma A1_last ts e r : EX 0 ts e (TRParen :: r) -> A1 ts [e] r.
  Proof. intros [n H]. exists (S n). cbn. rewrite H. reflexivity. Qed.
  Lemma A1_more ts e r es r' :
    EX 0 ts e (TComma :: r) -> A1 r es r' -> A1 ts (e :: es) r'.
  Proof.
    intros [n H] [m K]. exists (S (n + m)). up n (n + m). up m (n + m). cbn. rewrite H, K. reflexivity.
  Qed.
  Lemma EX_intro b ts u r e r' : UN ts u r -> LP u b r e r' -> EX b ts e r'.
  Proof.
    intros [n H] [m K]. exists (S (n + m)). up n (n + m). up m (n + m). cbn. rewrite H. exact K.
  Qed.
  Lemma LP_stop e b ts : head_op b ts = false -> LP e b ts e ts.
  Proof.
    intros H. exists 1. destruct ts as [|[] ts]; cbn in *; try reflexivity. rewrite H. reflexivity.
  Qed.
  Lemma LP_step x b op r u r1 rhs r2 e r3 :
    b <= prec op -> UN r u r1 -> RH u (prec op) r1 rhs r2 ->
    LP (EBinary op x rhs) b r2 e r3 -> LP x b (TBin op :: r) e r3.
  Proof.
    intros B [n H] [m K] [k L]. exists (S (n + m + k)).
    up n (n + m + k). up m (n + m + k). up k (n + m + k).
    cbn. rewrite (proj2 (Nat.leb_le _ _) B), H, K. exact L.
  Qed.
  Lemma RH_stop e p ts : head_op (S p) ts = false -> RH e p ts e ts.
  Proof.
    intros H. exists 1. destruct ts as [|[] ts]; cbn in *; try reflexivity.
    unfold Nat.ltb. cbn [Nat.leb]. rewrite H. reflexivity.
  Qed.
  Lemma RH_step x p op r e r1 e2 r2 :
    p < prec op -> LP x (prec op) (TBin op :: r) e r1 -> RH e p r1 e2 r2 ->
    RH x p (TBin op :: r) e2 r2.
  Proof.
    intros B [n H] [m K]. exists (S (n + m)). up n (n + m). up m (n + m).
    cbn [Parse.p_rhs]. rewrite (proj2 (Nat.ltb_lt _ _) B), H. exact K.
  Qed.

  (** *** Trees whose printed form needs no further parentheses *)
  Definition lvl (e : expr) : nat :=
    match e with
    | EBinary op _ _ => prec op
    | EUnary _ _ | ECast _ _ => 100
    | _ => 101
    end.
  Definition is_field (e : expr) : bool := match e with EField _ _ => true | _ => false end.

  Fixpoint wp (e : expr) : bool :=
    match e with
    | ELit l => canon_lit l
    | EPath _ => true
    | EUnary _ a | ECast a _ => wp a && Nat.leb 100 (lvl a)
    | EBinary op a b => wp a && wp b && Nat.leb (prec op) (lvl a) && Nat.ltb (prec op) (lvl b)
    | EMethodCall r _ _ args => wp r && Nat.leb 101 (lvl r) && forallb wp args
    | EParen a => wp a
    | EField a _ => wp a && Nat.leb 101 (lvl a)
    | ECall f args => wp f && Nat.leb 101 (lvl f) && negb (is_field f) && forallb wp args
    | _ => false
    end.

  Lemma lvl_le e : lvl e <= 101.
  Proof. destruct e; cbn; try lia. pose proof (prec_small op). lia. Qed.

  Lemma canon_lit_toks l : canon_lit l = true -> lit_toks l = [TLit l].
  Proof.
    unfold lit_toks, num_toks, lex_number.
    destruct l as [d s|d s| |]; cbn; intros H; try reflexivity; apply andb_prop in H; destruct H as [H1 H2];
      destruct d as [|c d]; cbn in *; try (destruct (Ascii.eqb c "-"); [discriminate|]).
    all: try (destruct (float_text _ _); cbn in *; congruence).
  Qed.

  (** The operator at the head of the tokens binds no tighter than [k]. *)
  Definition hd_le (k : nat) (ts : list token) : Prop := head_op (S k) ts = false.

  Lemma hd_le_op k op ts : hd_le k (TBin op :: ts) <-> prec op <= k.
  Proof. unfold hd_le. cbn [head_op]. rewrite Nat.leb_gt. lia. Qed.

  Lemma hd_le_weaken k k' ts : k <= k' -> hd_le k ts -> hd_le k' ts.
  Proof.
    unfold hd_le, head_op. destruct ts as [|[] ts]; auto. rewrite !Nat.leb_gt. lia.
  Qed.

  Lemma hd_le_top ts : hd_le 100 ts.
  Proof. unfold hd_le, head_op. destruct ts as [|[] ts]; auto. apply Nat.leb_gt. pose proof (prec_small op). lia. Qed.

  (** Joining the inner loop with the enclosing one. *)
  Lemma RH_via x p q rest e r :
    p < q -> hd_le q rest -> RH x p rest e r ->
    exists y r1, LP x q rest y r1 /\ RH y p r1 e r.
  Proof.
    intros Hp Hq H.
    destruct (head_op q rest) eqn:E.
    - destruct rest as [|[] rest]; try discriminate E. cbn in E. apply Nat.leb_le in E.
      apply hd_le_op in Hq. assert (prec op = q) by lia. subst q.
      destruct H as [[|n] H]; [discriminate H|]. cbn [Parse.p_rhs] in H.
      rewrite (proj2 (Nat.ltb_lt _ _) Hp) in H.
      destruct (p_loop n x (prec op) (TBin op :: rest)) as [[y r1]|] eqn:L; [|discriminate].
      exists y, r1. split; [exists n; exact L|exists n; exact H].
    - exists x, rest. split; [apply LP_stop; exact E|exact H].
  Qed.

  Definition rest_ok (e : expr) (rest : list token) : Prop :=
    if is_field e then no_call rest else True.

  Lemma no_trail_call ts : no_trail ts -> (match ts with TTurbo _ :: _ => False | _ => True end) -> no_call ts.
  Proof. destruct ts as [|[] ts]; cbn; tauto. Qed.

  (** What may follow an operand. *)
  Definition follow (ts : list token) : Prop :=
    match ts with TDot :: _ | TLParen :: _ | TTurbo _ :: _ => False | _ => True end.
  Lemma follow_trail ts : follow ts -> no_trail ts.
  Proof. destruct ts as [|[] ts]; cbn; tauto. Qed.
  Lemma follow_call ts : follow ts -> no_call ts.
  Proof. destruct ts as [|[] ts]; cbn; tauto. Qed.

  Lemma toks_head e : wp e = true -> exists t ts, toks e = t :: ts /\ t <> TRParen.
  Proof.
    induction e using expr_ind_ops; cbn [wp toks]; intros W; try discriminate.
    - rewrite canon_lit_toks by auto. eexists; eexists; split; [reflexivity|discriminate].
    - eexists; eexists; split; [reflexivity|discriminate].
    - eexists; eexists; split; [reflexivity|]. destruct op; discriminate.
    - apply andb_prop in W. destruct W as [W _]. apply andb_prop in W. destruct W as [W _].
      apply andb_prop in W. destruct W as [W _]. destruct (IHe1 W) as (t & ts & -> & N). cbn. eauto.
    - apply andb_prop in W. destruct W as [W _]. apply andb_prop in W. destruct W as [W _].
      destruct (IHe W) as (t' & ts & -> & N). cbn. eauto.
    - eexists; eexists; split; [reflexivity|discriminate].
    - apply andb_prop in W. destruct W as [W _].
      destruct (IHe W) as (t' & ts & -> & N). cbn. eauto.
    - apply andb_prop in W. destruct W as [W _]. apply andb_prop in W. destruct W as [W _].
      apply andb_prop in W. destruct W as [W _].
      destruct (IHe W) as (t' & ts & -> & N). cbn. eauto.
    - eexists; eexists; split; [reflexivity|discriminate].
  Qed.

  Definition Tprop (e : expr) : Prop :=
    lvl e = 101 -> forall rest e' r', rest_ok e rest -> TR e rest e' r' -> UN (toks e ++ rest) e' r'.
  Definition Uprop (e : expr) : Prop :=
    100 <= lvl e -> forall rest, follow rest -> UN (toks e ++ rest) e rest.
  Definition Rprop (e : expr) : Prop :=
    forall p rest e' r', p < lvl e -> hd_le (lvl e) rest -> follow rest ->
      RH e p rest e' r' -> exists u r1, UN (toks e ++ rest) u r1 /\ RH u p r1 e' r'.
  Definition Eprop (e : expr) : Prop :=
    forall b rest e' r', b <= lvl e -> hd_le (lvl e) rest -> follow rest ->
      LP e b rest e' r' -> EX b (toks e ++ rest) e' r'.

  Lemma prop_atomic e : 100 <= lvl e -> Uprop e -> Rprop e /\ Eprop e.
  Proof.
    intros L U. split.
    - intros p rest e' r' _ _ F H. exists e, rest. split; [apply U; auto|exact H].
    - intros b rest e' r' _ _ F H. apply EX_intro with (u := e) (r := rest); [apply U; auto|exact H].
  Qed.

  Lemma prop_top e : lvl e = 101 -> Tprop e -> Tprop e /\ Uprop e /\ Rprop e /\ Eprop e.
  Proof.
    intros L T. split; [exact T|].
    assert (U : Uprop e).
    { intros _ rest F. apply T; auto.
      - unfold rest_ok. destruct (is_field e); auto. apply follow_call; auto.
      - apply TR_stop, follow_trail; auto. }
    split; [exact U|]. apply prop_atomic; auto. lia.
  Qed.

  Lemma args_parse args :
    Forall (fun e => wp e = true -> Eprop e) args -> forallb wp args = true ->
    forall rest, AR (commas (map toks args) ++ TRParen :: rest) args rest.
  Proof.
    intros H W rest. destruct args as [|a args]; [apply AR_nil|].
    assert (A : A1 (commas (map toks (a :: args)) ++ TRParen :: rest) (a :: args) rest).
    { revert a H W. induction args as [|b args IH]; intros a H W.
      - cbn [map commas]. apply A1_last. cbn in W. rewrite andb_true_r in W.
        inversion H; subst. apply H2; auto; try lia; try exact I; try reflexivity.
        apply LP_stop. reflexivity.
      - cbn [forallb] in W. apply andb_prop in W. destruct W as [Wa W].
        inversion H; subst.
        change (commas (map toks (a :: b :: args))) with (toks a ++ TComma :: commas (map toks (b :: args))).
        rewrite <- app_assoc. cbn [app].
        apply A1_more with (r := commas (map toks (b :: args)) ++ TRParen :: rest).
        + apply H2; auto; try lia; try exact I; try reflexivity. apply LP_stop. reflexivity.
        + apply IH; auto. }
    assert (HD : exists t ts, commas (map toks (a :: args)) ++ TRParen :: rest = t :: ts /\ t <> TRParen).
    { cbn [forallb] in W. apply andb_prop in W. destruct W as [Wa _].
      destruct (toks_head a Wa) as (t & ts & E & N). destruct args; cbn [map commas]; rewrite E; cbn; eauto. }
    destruct HD as (t & ts & E & N). rewrite E in *. apply AR_cons; auto.
  Qed.

  Lemma parse_props e : wp e = true -> Tprop e /\ Uprop e /\ Rprop e /\ Eprop e.
  Proof.
    induction e using expr_ind_ops; cbn [wp]; intros W; try discriminate.
    - apply prop_top; [reflexivity|]. intros _ rest e' r' _ H. cbn [toks].
      rewrite canon_lit_toks by auto. apply UN_lit; auto.
    - apply prop_top; [reflexivity|]. intros _ rest e' r' _ H. apply UN_path; auto.
    - apply andb_prop in W. destruct W as [W L]. apply Nat.leb_le in L.
      destruct (IHe W) as (T & U & R & E).
      assert (U' : Uprop (EUnary op e)). { intros _ rest F. cbn [toks app]. apply UN_op. apply U; auto. }
      split; [intros X; discriminate X|]. split; [exact U'|]. apply prop_atomic; auto.
    - apply andb_prop in W. destruct W as [W Lb]. apply Nat.ltb_lt in Lb.
      apply andb_prop in W. destruct W as [W La]. apply Nat.leb_le in La.
      apply andb_prop in W. destruct W as [Wa Wb].
      destruct (IHe1 Wa) as (_ & _ & R1 & E1). destruct (IHe2 Wb) as (_ & _ & R2 & _).
      pose proof (prec_small op) as PS.
      assert (RHS : forall rest, hd_le (prec op) rest -> follow rest ->
                 exists u r1, UN (toks e2 ++ rest) u r1 /\ RH u (prec op) r1 e2 rest).
      { intros rest HL F. apply R2; auto.
        - apply hd_le_weaken with (k := prec op); auto. lia.
        - apply RH_stop. exact HL. }
      split; [intros X; cbn in X; lia|]. split; [intros X; cbn in X; lia|]. cbn [lvl toks].
      split.
      + intros p rest e' r' Lp HL F H. cbn [lvl toks] in *. rewrite <- app_assoc. cbn [app].
        destruct (RHS rest HL F) as (u & r1 & HU & HR).
        apply R1; [lia|apply hd_le_op; lia|exact I|].
        cbn [lvl] in Lp, HL.
        destruct (RH_via _ _ _ _ _ _ Lp HL H) as (y & r2 & HL2 & HR2).
        apply RH_step with (e := y) (r1 := r2); auto.
        apply LP_step with (u := u) (r1 := r1) (rhs := e2) (r2 := rest); auto.
      + intros b rest e' r' Lb' HL F H. cbn [lvl toks] in *. rewrite <- app_assoc. cbn [app].
        destruct (RHS rest HL F) as (u & r1 & HU & HR).
        apply E1; [cbn in Lb'; lia|apply hd_le_op; lia|exact I|].
        apply LP_step with (u := u) (r1 := r1) (rhs := e2) (r2 := rest); auto.
    - apply andb_prop in W. destruct W as [W Wargs]. apply andb_prop in W. destruct W as [W L].
      apply Nat.leb_le in L. destruct (IHe W) as (T & _). pose proof (lvl_le e).
      apply prop_top; [reflexivity|]. intros _ rest e' r' _ HT. cbn [toks].
      rewrite <- app_assoc. apply T; [lia| |].
      + unfold rest_ok. destruct (is_field e); exact I.
      + cbn [app]. rewrite <- app_assoc. cbn [app]. rewrite <- app_assoc.
        apply TR_meth with (args := args) (r' := rest); auto.
        cbn [app]. apply args_parse; auto.
        apply Forall_forall. intros x Hx Wx. rewrite Forall_forall in H. apply H; auto.
    - destruct (IHe W) as (_ & _ & _ & E).
      apply prop_top; [reflexivity|]. intros _ rest e' r' _ HT. cbn [toks app].
      apply UN_paren with (e := e) (r' := rest); auto. rewrite <- app_assoc. cbn [app].
      apply E; try exact I; try reflexivity; [lia|]. apply LP_stop. reflexivity.
    - apply andb_prop in W. destruct W as [W L]. apply Nat.leb_le in L. destruct (IHe W) as (T & _).
      pose proof (lvl_le e). apply prop_top; [reflexivity|]. intros _ rest e' r' HN HT. cbn [toks].
      rewrite <- app_assoc. apply T; [lia| |].
      + unfold rest_ok. destruct (is_field e); exact I.
      + cbn [app]. apply TR_field; auto.
    - apply andb_prop in W. destruct W as [W Wargs]. apply andb_prop in W. destruct W as [W NF].
      apply andb_prop in W. destruct W as [W L]. apply Nat.leb_le in L.
      destruct (IHe W) as (T & _). pose proof (lvl_le e).
      apply prop_top; [reflexivity|]. intros _ rest e' r' _ HT. cbn [toks].
      rewrite <- app_assoc. apply T; [lia| |].
      + unfold rest_ok. destruct (is_field e); [discriminate|exact I].
      + cbn [app]. rewrite <- app_assoc.
        apply TR_call with (args := args) (r' := rest); auto.
        cbn [app]. apply args_parse; auto.
        apply Forall_forall. intros x Hx Wx. rewrite Forall_forall in H. apply H; auto.
    - apply andb_prop in W. destruct W as [W L]. apply Nat.leb_le in L.
      destruct (IHe W) as (T & U & R & E).
      assert (U' : Uprop (ECast e t)). { intros _ rest F. cbn [toks app]. apply UN_cast. apply U; auto. }
      split; [intros X; discriminate X|]. split; [exact U'|]. apply prop_atomic; auto.
  Qed.

  Lemma parse_wp e : wp e = true -> parse_toks prec (toks e) = Some e.
  Proof.
    intros W. destruct (parse_props e W) as (_ & _ & _ & E).
    assert (X : EX 0 (toks e ++ []) e []).
    { apply E; try exact I; try reflexivity; [lia|]. apply LP_stop. reflexivity. }
    rewrite app_nil_r in X. destruct X as [n Hn]. unfold parse_toks, fuel_for.
    destruct (adequate n) as (_ & _ & _ & _ & A & _).
    apply A with (m := 8 * length (toks e) + 8) in Hn; [|lia]. rewrite Hn. reflexivity.
  Qed.

  (** *** The parser builds only such trees, and their printed form is its input *)
  Definition tok_ok (t : token) : Prop := match t with TLit l => canon_lit l = true | _ => True end.

  Definition not_open (ts : list token) : Prop := match ts with TLParen :: _ => False | _ => True end.
  Definition SU (ts : list token) (e : expr) (r : list token) : Prop :=
    ts = toks e ++ r /\ wp e = true /\ 100 <= lvl e.
  Definition ST x (ts : list token) (e : expr) (r : list token) : Prop :=
    toks x ++ ts = toks e ++ r /\ wp e = true /\ lvl e = 101.
  Definition SA (ts : list token) (es : list expr) (r : list token) : Prop :=
    ts = commas (map toks es) ++ TRParen :: r /\ forallb wp es = true.
  Definition SE b (ts : list token) (e : expr) (r : list token) : Prop :=
    ts = toks e ++ r /\ wp e = true /\ head_op b r = false /\ hd_le (lvl e) r.
  Definition SL x b (ts : list token) (e : expr) (r : list token) : Prop :=
    toks x ++ ts = toks e ++ r /\ wp e = true /\ (e = x \/ b <= lvl e) /\ head_op b r = false /\ hd_le (lvl e) r.
  Definition SR x p (ts : list token) (e : expr) (r : list token) : Prop :=
    toks x ++ ts = toks e ++ r /\ wp e = true /\ p < lvl e /\ hd_le p r.

  Lemma forall_tail t (ts : list token) : Forall tok_ok (t :: ts) -> Forall tok_ok ts.
  Proof. inversion 1; auto. Qed.

  Lemma wp_toks_ok u : wp u = true -> Forall tok_ok (toks u).
  Proof.
    assert (COM : forall l, Forall (fun e => Forall tok_ok (toks e)) l -> Forall tok_ok (commas (map toks l))).
    { induction 1 as [|y l Hy Hl IH]; cbn; [constructor|]. destruct l; cbn [map commas] in *; auto.
      apply Forall_app; split; auto. constructor; [exact I|]. auto. }
    assert (SUB : forall l, Forall (fun u => wp u = true -> Forall tok_ok (toks u)) l -> forallb wp l = true ->
               Forall (fun e => Forall tok_ok (toks e)) l).
    { intros l H1 H2. apply Forall_forall. intros y Hy. rewrite Forall_forall in H1.
      rewrite forallb_forall in H2. auto. }
    induction u using expr_ind_ops; intros W; cbn [wp] in W; try discriminate; cbn [toks];
      repeat match goal with H : _ && _ = true |- _ => apply andb_prop in H; destruct H end.
    - rewrite canon_lit_toks by auto. constructor; [exact W|constructor].
    - repeat constructor.
    - constructor; [destruct op; exact I|auto].
    - apply Forall_app; split; auto. constructor; [exact I|auto].
    - apply Forall_app; split; auto. constructor; [exact I|]. constructor; [exact I|].
      apply Forall_app; split; [destruct t; repeat constructor|]. constructor; [exact I|].
      apply Forall_app; split; [|repeat constructor]. apply COM, SUB; auto.
    - constructor; [exact I|]. apply Forall_app; split; [auto|repeat constructor].
    - apply Forall_app; split; [auto|repeat constructor].
    - apply Forall_app; split; auto. constructor; [exact I|].
      apply Forall_app; split; [|repeat constructor]. apply COM, SUB; auto.
    - constructor; [exact I|auto].
  Qed.

  Lemma wp_unary op e : wp e = true -> 100 <= lvl e -> wp (EUnary op e) = true.
  Proof. intros H L. cbn [wp]. rewrite H. apply Nat.leb_le. auto. Qed.

  Lemma sound n :
    (forall ts e r, Forall tok_ok ts -> p_unary n ts = Some (e, r) -> SU ts e r) /\
    (forall x ts e r, Forall tok_ok ts -> wp x = true -> lvl x = 101 ->
        (is_field x = true -> not_open ts) -> p_trail n x ts = Some (e, r) -> ST x ts e r) /\
    (forall ts e r, Forall tok_ok ts -> p_args n ts = Some (e, r) -> SA ts e r) /\
    (forall ts e r, Forall tok_ok ts -> p_args1 n ts = Some (e, r) -> SA ts e r /\ e <> []) /\
    (forall b ts e r, Forall tok_ok ts -> p_expr n b ts = Some (e, r) -> SE b ts e r) /\
    (forall x b ts e r, Forall tok_ok ts -> wp x = true -> hd_le (lvl x) ts ->
        p_loop n x b ts = Some (e, r) -> SL x b ts e r) /\
    (forall x p ts e r, Forall tok_ok ts -> wp x = true -> p < lvl x -> hd_le (lvl x) ts ->
        p_rhs n x p ts = Some (e, r) -> SR x p ts e r).
  Proof.
    induction n as [|n (Iu & It & Ia & Ia1 & Ie & Il & Ir)]; [repeat split; discriminate|].
    assert (UNA : forall op ts e r, Forall tok_ok (unop_tok op :: ts) ->
              match p_unary n ts with Some (e, r') => Some (EUnary op e, r') | None => None end = Some (e, r) ->
              SU (unop_tok op :: ts) e r).
    { intros op ts e r F H. destruct (p_unary n ts) as [[e' r']|] eqn:E; [|discriminate].
      inversion H; subst. apply Iu in E; [|inversion F; auto]. destruct E as (-> & W & L).
      split; [reflexivity|]. split; [apply wp_unary; auto|cbn; lia]. }
    assert (TRA : forall x m t args ts e r r', Forall tok_ok r' -> wp x = true -> lvl x = 101 ->
               p_trail n (EMethodCall x m t args) r' = Some (e, r) ->
               SA ts args r' -> ST x (TDot :: TIdent m :: turbo_toks t ++ TLParen :: ts) e r).
    { intros x m t args ts e r r' F W L H (-> & Wa).
      apply It in H; auto; try discriminate.
      - destruct H as (H & We & Le). split; [|auto]. rewrite <- H. cbn [toks].
        repeat (cbn [app]; rewrite <- app_assoc). reflexivity.
      - cbn [wp]. rewrite W, Wa, L. reflexivity. }
    repeat match goal with |- _ /\ _ => split end.
    - intros ts e r F H. cbn [Parse.p_unary] in H.
      destruct ts as [|[l|p|s|op| |ty| | |t| | |o] ts]; try discriminate.
      + apply It in H; try discriminate; try reflexivity; try (inversion F; auto; fail).
        destruct H as (H & W & L). cbn [toks] in H. rewrite canon_lit_toks in H by (inversion F; auto).
        split; [exact H|]. split; [exact W|lia].
      + apply It in H; try discriminate; try reflexivity; try (inversion F; auto; fail).
        destruct H as (H & W & L). split; [exact H|]. split; [exact W|lia].
      + destruct op; try discriminate; [apply (UNA UNeg)|apply (UNA UDeref)]; auto.
      + apply (UNA UNot); auto.
      + destruct (p_unary n ts) as [[e' r']|] eqn:E; [|discriminate].
        inversion H; subst. apply Iu in E; [|inversion F; auto]. destruct E as (-> & W & L).
        split; [reflexivity|]. split; [|cbn; lia]. cbn [wp]. rewrite W. apply Nat.leb_le; auto.
      + destruct (p_expr n 0 ts) as [[e' [|[] r']]|] eqn:E; try discriminate.
        apply Ie in E; [|inversion F; auto]. destruct E as (-> & W & _).
        apply forall_tail in F. apply Forall_app in F. destruct F as [_ F]. apply forall_tail in F.
        apply It in H; try discriminate; auto.
        destruct H as (H & We & L). split; [|split; [auto|lia]]. rewrite <- H. cbn [toks app].
        rewrite <- app_assoc. reflexivity.
    - intros x ts e r F W L NF H. cbn [Parse.p_trail] in H.
      assert (STOP : Some (x, ts) = Some (e, r) -> ST x ts e r).
      { intros E. inversion E; subst. split; [reflexivity|auto]. }
      destruct ts as [|[l|p|s|op| |ty| | |t| | |o] ts]; try (apply STOP; exact H).
      + destruct ts as [|[l|p|m|op| |ty| | |t| | |o] ts]; try (apply STOP; exact H).
        apply forall_tail in F. apply forall_tail in F.
        assert (FLD : not_open ts -> p_trail n (EField x m) ts = Some (e, r) ->
                      ST x (TDot :: TIdent m :: ts) e r).
        { intros NO HF. apply It in HF; auto.
          - destruct HF as (HF & We & Le). split; [|auto]. rewrite <- HF. cbn [toks].
            rewrite <- app_assoc. reflexivity.
          - cbn [wp]. rewrite W, L. reflexivity. }
        destruct ts as [|[l|p|s|op| |ty| | |t| | |o] ts]; try (apply FLD; [exact I|exact H]).
        * destruct ts as [|[l|p|s|op| |ty| | |t'| | |o] ts]; try (apply FLD; [exact I|exact H]).
          destruct (p_args n ts) as [[args r']|] eqn:E; [|discriminate].
          apply Ia in E; [|repeat apply forall_tail in F; auto]. 
          apply (TRA x m (Some t) args ts e r r'); auto.
          destruct E as (-> & _). repeat apply forall_tail in F. apply Forall_app in F.
          destruct F as [_ F]. apply forall_tail in F; auto.
        * destruct (p_args n ts) as [[args r']|] eqn:E; [|discriminate].
          apply Ia in E; [|repeat apply forall_tail in F; auto].
          apply (TRA x m None args ts e r r'); auto.
          destruct E as (-> & _). repeat apply forall_tail in F. apply Forall_app in F.
          destruct F as [_ F]. apply forall_tail in F; auto.
      + destruct (p_args n ts) as [[args r']|] eqn:E; [|discriminate].
        apply Ia in E; [|inversion F; auto]. destruct E as (-> & Wa).
        apply forall_tail in F. apply Forall_app in F. destruct F as [_ F]. apply forall_tail in F.
        assert (is_field x = false) as NF'.
        { destruct (is_field x); auto. exfalso. apply NF; auto. }
        apply It in H; try discriminate; auto.
        * destruct H as (H & We & Le). split; [|auto]. rewrite <- H. cbn [toks].
          repeat (cbn [app]; rewrite <- app_assoc). reflexivity.
        * cbn [wp]. rewrite W, Wa, L, NF'. reflexivity.
    - intros ts e r F H. cbn [Parse.p_args] in H.
      assert (NE : p_args1 n ts = Some (e, r) -> SA ts e r) by (intros X; apply Ia1 in X; tauto).
      destruct ts as [|[] ts]; try (apply NE; exact H).
      inversion H; subst. split; reflexivity.
    - intros ts e r F H. cbn [Parse.p_args1] in H.
      destruct (p_expr n 0 ts) as [[e' [|[] r']]|] eqn:E; try discriminate.
      + destruct (p_args1 n r') as [[es r2]|] eqn:E2; [|discriminate]. inversion H; subst.
        apply Ie in E; auto. destruct E as (-> & W & _). apply Forall_app in F. destruct F as [_ F].
        apply forall_tail in F. apply Ia1 in E2; auto. destruct E2 as [(-> & Ws) NE].
        split; [|discriminate]. split; [|cbn; rewrite W, Ws; reflexivity].
        destruct es as [|y es]; [congruence|]. cbn [map commas]. rewrite <- app_assoc. reflexivity.
      + inversion H; subst. apply Ie in E; auto. destruct E as (-> & W & _).
        split; [|discriminate]. split; [reflexivity|]. cbn. rewrite W. reflexivity.
    - intros b ts e r F H. cbn [Parse.p_expr] in H.
      destruct (p_unary n ts) as [[u r1]|] eqn:E; [|discriminate].
      apply Iu in E; auto. destruct E as (-> & W & L). apply Forall_app in F. destruct F as [_ F].
      apply Il in H; auto.
      + destruct H as (H & We & _ & HO & HD). split; [exact H|]. auto.
      + apply hd_le_weaken with (k := 100); auto. apply hd_le_top.
    - intros x b ts e r F W HD H. cbn [Parse.p_loop] in H.
      assert (STOP : head_op b ts = false -> Some (x, ts) = Some (e, r) -> SL x b ts e r).
      { intros HO E. inversion E; subst. repeat split; auto. }
      destruct ts as [|[l|p|s|op| |ty| | |t| | |o] ts]; try (apply STOP; [reflexivity|exact H]).
      destruct (Nat.leb b (prec op)) eqn:B; [|apply STOP; [exact B|exact H]].
      apply Nat.leb_le in B. apply hd_le_op in HD. apply forall_tail in F.
      destruct (p_unary n ts) as [[u r1]|] eqn:E; [|discriminate].
      apply Iu in E; auto. destruct E as (-> & Wu & Lu). apply Forall_app in F. destruct F as [_ F].
      destruct (p_rhs n u (prec op) r1) as [[rhs r2]|] eqn:E2; [|discriminate].
      pose proof (prec_small op) as PS.
      apply Ir in E2; auto; [|lia|apply hd_le_weaken with (k := 100); auto; apply hd_le_top].
      destruct E2 as (E2 & Wr & Lr & HD2).
      apply Il in H; auto.
      + destruct H as (H & We & LE & HO & HDr). split; [|split; [auto|split; [|auto]]].
        * rewrite <- H. cbn [toks]. rewrite <- app_assoc. cbn [app]. rewrite E2. reflexivity.
        * destruct LE as [->|LE]; [right; cbn; lia|auto].
      + assert (FE : Forall tok_ok (toks rhs ++ r2)).
        { rewrite <- E2. apply Forall_app. split; [|auto].
apply wp_toks_ok; auto. }
        apply Forall_app in FE. tauto.
      + cbn [wp]. rewrite W, Wr. cbn [andb]. apply andb_true_intro. split; [apply Nat.leb_le|apply Nat.ltb_lt]; lia.
    - intros x p ts e r F W L HD H. cbn [Parse.p_rhs] in H.
      assert (STOP : head_op (S p) ts = false -> Some (x, ts) = Some (e, r) -> SR x p ts e r).
      { intros HO E. inversion E; subst. repeat split; auto. }
      destruct ts as [|[l|q|s|op| |ty| | |t| | |o] ts]; try (apply STOP; [reflexivity|exact H]).
      destruct (Nat.ltb p (prec op)) eqn:B; [|apply STOP; [exact B|exact H]].
      apply Nat.ltb_lt in B.
      destruct (p_loop n x (prec op) (TBin op :: ts)) as [[y r1]|] eqn:E; [|discriminate].
      assert (F' := F). apply Il in E; auto. destruct E as (E & Wy & LE & HO & HD1).
      assert (LY : p < lvl y) by (destruct LE as [->|LE]; lia).
      assert (FR : Forall tok_ok r1).
      { assert (FE : Forall tok_ok (toks y ++ r1)).
        { rewrite <- E. apply Forall_app. split; auto. apply wp_toks_ok; auto. }
        apply Forall_app in FE. tauto. }
      apply Ir in H; auto. destruct H as (H & We & Le & HDr).
      split; [congruence|auto].
  Qed.

  Lemma parse_sound ts e : Forall tok_ok ts -> parse_toks prec ts = Some e -> ts = toks e /\ wp e = true.
  Proof.
    unfold parse_toks. intros F H.
    destruct (p_expr (fuel_for ts) 0 ts) as [[e' [|]]|] eqn:E; try discriminate. inversion H; subst.
    apply (proj1 (proj2 (proj2 (proj2 (proj2 (sound (fuel_for ts))))))) in E; auto.
    destruct E as (-> & W & _). rewrite app_nil_r. auto.
  Qed.

  Lemma parse_iff ts e : Forall tok_ok ts -> (parse_toks prec ts = Some e <-> ts = toks e /\ wp e = true).
  Proof.
    intros F. split; [apply parse_sound; auto|]. intros [-> W]. apply parse_wp; auto.
  Qed.

  (** A tree survives printing and parsing exactly when it is [wp]. *)
  Lemma reads_back_iff e :
    Forall tok_ok (toks e) -> (parse_toks prec (toks e) = Some e <-> wp e = true).
  Proof. intros F. rewrite parse_iff by auto. tauto. Qed.
End P.
