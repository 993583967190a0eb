(** Proofs about the SIMD conversion. *)
From Coq Require Import List String Bool ZArith Arith Lia.
From Verif Require Import Res Syntax Item Simd SimdSpec.
Import ListNotations.
Open Scope string_scope.
Open Scope list_scope.

(** ** Inner loops as functions of their own *)
Section Loops.
  Variable bits : Z.
  Lemma conv_call f args : conv bits (ECall f args) = (let? x := conv bits f in let? y := rmap (conv bits) args in convert_call x y).
  Proof. reflexivity. Qed.
  Lemma conv_meth r m t args : conv bits (EMethodCall r m t args) =
    (let? x := conv bits r in let? y := rmap (conv bits) args in Ok (EMethodCall x (rename m) (option_map conv_ty t) y)).
  Proof. reflexivity. Qed.
  Lemma conv_if c t o : conv bits (EIf c t o) =
    (let? x := conv bits c in let? y := rmap (conv_stmt bits) t in let? th := deblock1 y in
     match o with
     | Some a => let? z := conv bits a in Ok (EMethodCall (EParen x) "select" None [th; deblock2 z])
     | None => Ok (EIf x y None)
     end).
  Proof. reflexivity. Qed.
  Lemma conv_block b : conv bits (EBlock b) = (let? y := rmap (conv_stmt bits) b in Ok (EBlock y)).
  Proof. reflexivity. Qed.

  Context {V : Type} (A : algebra V).
  Definition omap {X Y} (f : X -> option Y) : list X -> option (list Y) :=
    fix go (l : list X) : option (list Y) :=
      match l with [] => Some [] | a :: r => let! x := f a in let! y := go r in Some (x :: y) end.
  Fixpoint ev_block (env : string -> option V) (b : list stmt) : option V :=
    match b with
    | [] => None
    | [SExpr a] => ev A bits env a
    | SLocal n _ (Some a) :: r => let! x := ev A bits env a in ev_block (upd env n x) r
    | _ => None
    end.
  Lemma ev_eblock env b : ev A bits env (EBlock b) = ev_block env b.
  Proof. reflexivity. Qed.
  Lemma ev_meth env r m args : ev A bits env (EMethodCall r m None args) =
    (let! x := ev A bits env r in let! y := omap (ev A bits env) args in Some (a_meth A m x y)).
  Proof. reflexivity. Qed.
  Lemma ev_if env c t o : ev A bits env (EIf c t (Some o)) =
    (let! x := ev A bits env c in let! y := ev_block env t in let! z := ev A bits env o in Some (if a_true A x then y else z)).
  Proof. reflexivity. Qed.

  Context {L : Type}.
  Notation vec := (L -> V).
  Fixpoint vev_block (env : string -> option vec) (b : list stmt) : option vec :=
    match b with
    | [] => None
    | [SExpr a] => vev A bits env a
    | SLocal n _ (Some a) :: r => let! x := vev A bits env a in vev_block (upd env n x) r
    | _ => None
    end.
  Lemma vev_eblock (env : string -> option vec) b : vev A bits env (EBlock b) = vev_block env b.
  Proof. reflexivity. Qed.
  Lemma vev_meth (env : string -> option vec) r m t args : vev A bits env (EMethodCall r m t args) =
    (let! x := vev A bits env r in let! y := omap (vev A bits env) args in call_method A m t x y).
  Proof. reflexivity. Qed.
End Loops.
Lemma ok_block bits b : lanes_ok bits (EBlock b) = body_ok bits b.
Proof. reflexivity. Qed.

(** ** Lanes *)
Definition agree {L V} (names : list string) (s : string -> option V) (r : string -> option (L -> V)) (i : L) : Prop :=
  forall n, In n names -> forall x, s n = Some x -> exists v, r n = Some v /\ v i = x.

Lemma agree_app {L V} l l' s (r : string -> option (L -> V)) (i : L) : agree (l ++ l') s r i -> agree l s r i /\ agree l' s r i.
Proof. intros H. split; intros n Hn; apply H, in_app_iff; auto. Qed.
Lemma agree_upd {L V} l (s : string -> option V) (r : string -> option (L -> V)) i n v :
  agree l s r i -> agree l (upd s n (v i)) (upd r n v) i.
Proof.
  intros H m Hm x E. unfold upd in *. destruct (String.eqb m n); [exists v; split; congruence|]. apply (H m Hm x E).
Qed.

Lemma rename_id n : negb (String.eqb n "fty") = true -> rename n = n.
Proof. unfold rename. destruct (String.eqb n "fty"); [discriminate|reflexivity]. Qed.

Definition direct (e : expr) : Prop := forall m t, attach e m t = Ok (EMethodCall e m (Some t) []).

Definition lanes (bits : Z) (e e' : expr) : Prop :=
  forall (V L : Type) (A : algebra V) (s : string -> option V) (r : string -> option (L -> V)) (i : L) x,
  agree (seen e) s r i -> ev A bits s e = Some x -> exists v, vev A bits r e' = Some v /\ v i = x.
Definition lanes_b (bits : Z) (b b' : list stmt) : Prop :=
  forall (V L : Type) (A : algebra V) (s : string -> option V) (r : string -> option (L -> V)) (i : L) x,
  agree (flat_map seen_stmt b) s r i -> ev_block bits A s b = Some x -> exists v, vev_block bits A r b' = Some v /\ v i = x.

Definition good (bits : Z) (e : expr) : Prop :=
  lanes_ok bits e = true -> exists e', conv bits e = Ok e' /\ lanes bits e e' /\ (unary_or_binary e = false -> direct e').
Definition good_stmt (bits : Z) (s : stmt) : Prop :=
  match s with SLocal _ _ (Some a) | SExpr a => good bits a | _ => True end.

Lemma body_good bits b : Forall (good_stmt bits) b -> body_ok bits b = true ->
  exists b', rmap (conv_stmt bits) b = Ok b' /\ lanes_b bits b b'.
Proof.
  induction b as [|st b IH]; intros HF HB; [discriminate|].
  inversion HF as [|? ? H1 H2]; subst.
  destruct st as [n t [a|]|a|a]; cbn [body_ok] in HB; try discriminate.
  - apply andb_true_iff in HB. destruct HB as [HB HB2]. apply andb_true_iff in HB. destruct HB as [HN HA].
    destruct (H1 HA) as (a' & EA & LA & _). destruct (IH H2 HB2) as (b' & EB & LB).
    exists (SLocal n None (Some a') :: b'). split.
    + cbn [rmap conv_stmt]. rewrite EA. cbn [rbind]. rewrite EB, rename_id by exact HN. reflexivity.
    + intros V L A s r i x AG E. cbn [ev_block vev_block] in *.
      cbn [flat_map seen_stmt] in AG.
      assert (AG1 : agree (seen a) s r i). { intros m Hm. apply AG. right. apply in_app_iff. left. exact Hm. }
      assert (AG2 : agree (flat_map seen_stmt b) s r i). { intros m Hm. apply AG. right. apply in_app_iff. right. exact Hm. }
      destruct (ev A bits s a) as [y|] eqn:EY; [|discriminate]. cbn [obind] in E.
      destruct (LA V L A s r i y AG1 EY) as (v & EV & <-). rewrite EV. cbn [obind].
      apply (LB V L A (upd s n (v i)) (upd r n v) i x); [|exact E]. apply agree_upd, AG2.
  - destruct b as [|st b]; [|discriminate]. destruct (H1 HB) as (a' & EA & LA & _).
    exists [SExpr a']. split; [cbn [rmap conv_stmt]; rewrite EA; reflexivity|].
    intros V L A s r i x AG E. cbn [ev_block vev_block] in *.
    cbn [flat_map seen_stmt] in AG. rewrite app_nil_r in AG. apply (LA V L A s r i x AG E).
Qed.

Lemma args_good bits args : Forall (good bits) args -> forallb (lanes_ok bits) args = true ->
  exists args', rmap (conv bits) args = Ok args'
  /\ forall (V L : Type) (A : algebra V) (s : string -> option V) (r : string -> option (L -> V)) (i : L) xs,
     agree (flat_map seen args) s r i -> omap (ev A bits s) args = Some xs ->
     exists vs, omap (vev A bits r) args' = Some vs /\ map (fun w : L -> V => w i) vs = xs.
Proof.
  induction args as [|a args IH]; intros HF HB.
  - exists []. split; [reflexivity|]. intros V L A s r i xs _ E. cbn in E. injection E as <-. exists []. split; reflexivity.
  - inversion HF as [|? ? H1 H2]; subst. cbn [forallb] in HB. apply andb_true_iff in HB. destruct HB as [HA HB].
    destruct (H1 HA) as (a' & EA & LA & _). destruct (IH H2 HB) as (args' & EB & LB).
    exists (a' :: args'). split; [cbn [rmap]; rewrite EA; cbn [rbind]; rewrite EB; reflexivity|].
    intros V L A s r i xs AG E. cbn [flat_map] in AG. apply agree_app in AG. destruct AG as [AG1 AG2].
    cbn [omap] in E |- *.
    destruct (ev A bits s a) as [y|] eqn:EY; [|discriminate]. cbn [obind] in E.
    destruct (omap (ev A bits s) args) as [ys|] eqn:EYS; [|discriminate]. cbn [obind] in E. injection E as <-.
    destruct (LA V L A s r i y AG1 EY) as (v & EV & <-). destruct (LB V L A s r i ys AG2 EYS) as (vs & EVS & <-).
    rewrite EV. cbn [obind]. rewrite EVS. cbn [obind]. exists (v :: vs). split; reflexivity.
Qed.

Lemma prim_cases bits p : prim_ty bits p = (p ++ "32")%string \/ prim_ty bits p = (p ++ "64")%string.
Proof. unfold prim_ty. destruct (bits =? 32)%Z; auto. Qed.

Lemma all_good bits e : good bits e.
Proof.
  induction e as [l|p|op a IH|op a b IHa IHb|r m t args IHr IHargs|a IH|a m IH|f args IHf IHargs|a t IH|c t o IHc IHt IHo|b IHb|k|n t i IH|a IH|a IH]
    using expr_ind_nested with (Ps := good_stmt bits); try exact I; try (intros H; discriminate H).
  - (* literals *)
    intros H. cbn [lanes_ok] in H.
    assert (X : exists path, conv bits (ELit l) = Ok (splat path (ELit l)) /\ splat_lit bits (path ++ ["splat"]) l = true
            /\ In path [["Self"]; ["Self"; "UintType"]; ["Self"; "IntType"]]).
    { destruct l as [d s|d s|b|t]; try discriminate; cbn [lit_ok] in H; cbn [conv]; unfold convert_lit_int, convert_lit_float.
      - rewrite !orb_true_iff, !String.eqb_eq in H. unfold prim_ty in *.
        destruct H as [[H|H]|H]; subst s; destruct (bits =? 32)%Z eqn:EB; cbn [existsb String.eqb orb String.append Ascii.eqb Bool.eqb];
          eexists; (split; [reflexivity|]); (split; [unfold splat_lit, prim_ty; rewrite EB; reflexivity|cbn; tauto]).
      - rewrite !orb_true_iff, !String.eqb_eq in H. unfold prim_ty in *.
        destruct H as [H|H]; subst s; destruct (bits =? 32)%Z eqn:EB;
          eexists; (split; [reflexivity|]); (split; [unfold splat_lit, prim_ty; rewrite EB; reflexivity|cbn; tauto]). }
    destruct X as (path & E & S & HI). exists (splat path (ELit l)). split; [exact E|]. split; [|intros _ m t; reflexivity].
    intros V L A s r i x _ EX. cbn in EX. injection EX as <-. unfold splat.
    assert (Y : vev A bits r (ECall (EPath (path ++ ["splat"])) [ELit l]) = Some (fun _ => a_lit A l)).
    { cbn [In] in HI. destruct HI as [<-|[<-|[<-|[]]]]; cbn [app vev] in S |- *; rewrite S; reflexivity. }
    rewrite Y. eexists. split; reflexivity.
  - (* names *)
    intros H. cbn [lanes_ok] in H. destruct p as [|n p]; [discriminate|]. destruct p as [|n' p].
    + exists (EPath [n]). cbn [conv map]. rewrite rename_id by exact H.
      split; [reflexivity|]. split; [|intros _ m t; reflexivity].
      intros V L A s r i x AG E. cbn in E |- *. apply (AG n); [left; reflexivity|exact E].
    + apply andb_true_iff in H. destruct H as [H1 H2]. apply String.eqb_eq in H2.
      destruct p as [|n'' p]; [|destruct p; discriminate].
      exists (splat ["Self"] (EPath [n; n'])).
      assert (Hn : rename n = n).
      { apply rename_id. subst n. unfold prim_ty. destruct (bits =? 32)%Z; reflexivity. }
      assert (Hn' : rename n' = n').
      { cbn in H1. apply andb_true_iff in H1. destruct H1 as [_ H1]. unfold rename.
        destruct (String.eqb_spec n' "fty") as [->|_]; [discriminate|reflexivity]. }
      split.
      * cbn [conv map]. rewrite Hn, Hn'. change (special_path [n; n']) with (assoc_const [n; n']). rewrite H1. reflexivity.
      * split; [|intros _ m t; reflexivity].
        intros V L A s r i x _ E. unfold splat. cbn [app].
        assert (Y : vev A bits r (ECall (EPath ["Self"; "splat"]) [EPath [n; n']]) = Some (fun _ => a_const A [n; n'])).
        { cbn [vev]. rewrite H1. rewrite H2, String.eqb_refl. reflexivity. }
        rewrite Y. cbn [ev] in E. rewrite H1 in E. injection E as <-. eexists. split; reflexivity.
  - (* prefix operators *)
    intros H. cbn [lanes_ok] in H. apply andb_true_iff in H. destruct H as [H1 H2].
    destruct (IH H2) as (a' & EA & LA & _). exists (EUnary op a').
    split; [cbn [conv]; rewrite EA; reflexivity|]. split; [|intros X; discriminate].
    intros V L A s r i x AG E. cbn [ev] in E. destruct (ev A bits s a) as [y|] eqn:EY; [|discriminate].
    cbn [obind] in E. injection E as <-. destruct (LA V L A s r i y AG EY) as (v & EV & <-).
    destruct op; [discriminate| |]; cbn [vev]; rewrite EV; eexists; (split; reflexivity).
  - (* binary operators *)
    intros H. cbn [lanes_ok] in H. apply andb_true_iff in H. destruct H as [H H2]. apply andb_true_iff in H. destruct H as [H0 H1].
    destruct (IHa H1) as (a' & EA & LA & _). destruct (IHb H2) as (b' & EB & LB & _).
    exists (convert_binary op a' b'). split; [cbn [conv]; rewrite EA; cbn [rbind]; rewrite EB; reflexivity|].
    split; [|intros X; discriminate].
    intros V L A s r i x AG E. cbn [seen] in AG. apply agree_app in AG. destruct AG as [AG1 AG2].
    cbn [ev] in E. destruct (ev A bits s a) as [y|] eqn:EY; [|discriminate]. cbn [obind] in E.
    destruct (ev A bits s b) as [z|] eqn:EZ; [|discriminate]. cbn [obind] in E. injection E as <-.
    destruct (LA V L A s r i y AG1 EY) as (v & EV & <-). destruct (LB V L A s r i z AG2 EZ) as (w & EW & <-).
    unfold convert_binary. destruct op; try discriminate; cbn [lanes_method];
      first [ cbn [vev vector_op]; rewrite EV, EW; eexists; split; reflexivity
            | rewrite vev_meth; cbn [vev omap]; rewrite EV; cbn [obind]; rewrite EW; eexists; split; reflexivity ].
  - (* methods *)
    intros H. cbn [lanes_ok] in H. destruct t as [t|]; [discriminate|].
    apply andb_true_iff in H. destruct H as [H H2]. apply andb_true_iff in H. destruct H as [H0 H1].
    destruct (IHr H1) as (a' & EA & LA & _). destruct (args_good bits args IHargs H2) as (args' & EB & LB).
    apply negb_true_iff in H0. unfold reserved in H0. destruct (comparison m) as [cm|] eqn:EC; [discriminate|].
    cbn [existsb] in H0. rewrite !orb_false_iff in H0. destruct H0 as (K1 & K2 & K3 & _).
    exists (EMethodCall a' m None args'). split.
    + rewrite conv_meth, EA. cbn [rbind]. rewrite EB. cbn [rbind]. rewrite rename_id by (rewrite K3; reflexivity). reflexivity.
    + split; [|intros _ m' t'; reflexivity].
      intros V L A s r0 i x AG E. cbn [seen] in AG. apply agree_app in AG. destruct AG as [AG1 AG2].
      assert (AG3 : agree (flat_map seen args) s r0 i) by (intros q Hq; apply AG2; right; exact Hq).
      rewrite ev_meth in E. destruct (ev A bits s r) as [y|] eqn:EY; [|discriminate]. cbn [obind] in E.
      destruct (omap (ev A bits s) args) as [ys|] eqn:EYS; [|discriminate]. cbn [obind] in E. injection E as <-.
      destruct (LA V L A s r0 i y AG1 EY) as (v & EV & <-). destruct (LB V L A s r0 i ys AG3 EYS) as (vs & EVS & <-).
      rewrite vev_meth, EV. cbn [obind]. rewrite EVS. cbn [obind]. unfold call_method. rewrite EC, K1, K2.
      eexists. split; reflexivity.
  - (* parentheses *)
    intros H. cbn [lanes_ok] in H. destruct (IH H) as (a' & EA & LA & _). exists (EParen a').
    split; [cbn [conv]; rewrite EA; reflexivity|]. split; [|intros _ m t; reflexivity].
    intros V L A s r i x AG E. exact (LA V L A s r i x AG E).
  - (* casts *)
    intros H. cbn [lanes_ok] in H. apply andb_true_iff in H. destruct H as [H H2]. apply andb_true_iff in H. destruct H as [H0 H1].
    destruct (IH H2) as (a' & EA & LA & DA). apply negb_true_iff in H1. specialize (DA H1).
    exists (EMethodCall a' "cast" (Some (alias bits t)) []). split.
    + cbn [conv]. rewrite EA. cbn [rbind existsb] in H0 |- *. rewrite !orb_true_iff, !String.eqb_eq in H0.
      destruct H0 as [->|[->|[->|H0]]]; [| | |discriminate]; apply DA.
    + split; [|intros _ m t'; reflexivity].
      intros V L A s r i x AG E. cbn [ev] in E. destruct (ev A bits s a) as [y|] eqn:EY; [|discriminate].
      cbn [obind] in E. injection E as <-. destruct (LA V L A s r i y AG EY) as (v & EV & <-).
      rewrite vev_meth, EV. eexists. split; reflexivity.
  - (* conditionals *)
    intros H. cbn [lanes_ok] in H. destruct t as [|[|th|] [|]]; try discriminate. destruct o as [o|]; [|discriminate].
    apply andb_true_iff in H. destruct H as [H H2]. apply andb_true_iff in H. destruct H as [H0 H1].
    inversion IHt as [|? ? IHth _]; subst. cbn [good_stmt OptP] in IHth, IHo.
    destruct (IHc H0) as (c' & EC & LC & _). destruct (IHth H1) as (th' & ET & LT & _). destruct (IHo H2) as (o' & EO & LO & _).
    exists (EMethodCall (EParen c') "select" None [th'; deblock2 o']). split.
    + rewrite conv_if, EC. cbn [rbind rmap conv_stmt]. rewrite ET. cbn [rbind deblock1]. rewrite EO. reflexivity.
    + split; [|intros _ m t'; reflexivity].
      intros V L A s r i x AG E. cbn [seen flat_map seen_stmt] in AG. rewrite app_nil_r in AG.
      apply agree_app in AG. destruct AG as [AG1 AG]. apply agree_app in AG. destruct AG as [AG2 AG3].
      rewrite ev_if in E. cbn [ev_block] in E.
      destruct (ev A bits s c) as [xc|] eqn:XC; [|discriminate]. cbn [obind] in E.
      destruct (ev A bits s th) as [xt|] eqn:XT; [|discriminate]. cbn [obind] in E.
      destruct (ev A bits s o) as [xo|] eqn:XO; [|discriminate]. cbn [obind] in E. injection E as <-.
      destruct (LC V L A s r i xc AG1 XC) as (vc & EVC & <-). destruct (LT V L A s r i xt AG2 XT) as (vt & EVT & <-).
      destruct (LO V L A s r i xo AG3 XO) as (vo & EVO & <-).
      assert (EVO' : vev A bits r (deblock2 o') = Some vo).
      { rewrite <- EVO. unfold deblock2. destruct o' as [| | | | | | | | | |bb|]; try reflexivity.
        destruct bb as [|[|z|] [|]]; try reflexivity. }
      rewrite vev_meth. cbn [vev omap]. rewrite EVC. cbn [obind]. rewrite EVT. cbn [obind]. rewrite EVO'. cbn [obind].
      eexists. split; [reflexivity|]. reflexivity.
  - (* blocks *)
    intros H. rewrite ok_block in H. destruct (body_good bits b IHb H) as (b' & EB & LB).
    exists (EBlock b'). split; [rewrite conv_block, EB; reflexivity|]. split; [|intros _ m t; reflexivity].
    intros V L A s r i x AG E. rewrite ev_eblock in E. rewrite vev_eblock. exact (LB V L A s r i x AG E).
  - (* let *) destruct i as [a|]; [exact IH|exact I].
  - exact IH.
Qed.
