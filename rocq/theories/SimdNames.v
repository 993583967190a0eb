(** Names in converted functions. *)
From Coq Require Import List String Bool ZArith Arith Lia.
From Verif Require Import Res Syntax Item Simd SimdSpec SimdFacts.
Import ListNotations.
Open Scope string_scope.
Open Scope list_scope.

Definition unbound_block : list stmt -> list string -> list string :=
  fix block (b : list stmt) (bound : list string) : list string :=
    match b with
    | [] => []
    | SLocal n _ o :: r => match o with Some a => unbound a bound | None => [] end ++ block r (n :: bound)
    | SExpr a :: r | SSemi a :: r => unbound a bound ++ block r bound
    end.
Definition unbound_all (l : list expr) (bound : list string) : list string := flat_map (fun a => unbound a bound) l.

Lemma u_meth r m t args bound : unbound (EMethodCall r m t args) bound = unbound r bound ++ unbound_all args bound.
Proof. cbn [unbound]. f_equal. Qed.
Lemma u_call f args bound : unbound (ECall f args) bound = unbound f bound ++ unbound_all args bound.
Proof. cbn [unbound]. f_equal. Qed.
Lemma u_if c t o bound : unbound (EIf c t o) bound
  = unbound c bound ++ unbound_block t bound ++ match o with Some a => unbound a bound | None => [] end.
Proof. reflexivity. Qed.
Lemma u_block b bound : unbound (EBlock b) bound = unbound_block b bound.
Proof. reflexivity. Qed.

(** The names conversion adds. *)
Definition simd_names : list string := ["Self"; "UintType"; "IntType"].

(** [l] are names of the source, or the conversion's. *)
Definition named (l : list string) (n : string) : Prop := In n l \/ In n simd_names.
Lemma named_app a b n : named a n \/ named b n -> named (a ++ b) n.
Proof. unfold named. rewrite in_app_iff. tauto. Qed.

(** What is bound in the source is bound after conversion. *)
Definition carried (bound bound' : list string) : Prop := forall m, In m bound -> m <> "fty" -> In m bound'.
Lemma carried_cons bound bound' n : carried bound bound' -> carried (n :: bound) (rename n :: bound').
Proof.
  intros H m [<-|Hm] F; [left|right; apply H; assumption]. unfold rename. destruct (String.eqb_spec n "fty"); [contradiction|reflexivity].
Qed.

Lemma rbind_ok {A B} (a : res A) (f : A -> res B) y : rbind a f = Ok y -> exists x, a = Ok x /\ f x = Ok y.
Proof. destruct a as [x| |]; cbn; intros H; try discriminate. exists x. auto. Qed.

Lemma attach_unbound e m t : forall e', attach e m t = Ok e' -> forall n bound, In n (unbound e' bound) -> In n (unbound e bound).
Proof.
  induction e as [l|p|op a IH|op a b IHa IHb|r m' t' args IHr IHargs|a IH|a m' IH|f args IHf IHargs|a t' IH|c th o IHc IHt IHo|b IHb|k|n t' i IH|a IH|a IH]
    using expr_ind_nested with (Ps := fun _ => True); intros; try exact I;
    match goal with H : attach _ _ _ = Ok _ |- _ => cbn [attach] in H end;
    try (match goal with H : Ok _ = Ok _ |- _ => injection H as <- end;
         match goal with H : In _ (unbound (EMethodCall _ _ _ _) _) |- _ => rewrite u_meth in H; cbn [unbound_all flat_map] in H; rewrite app_nil_r in H; exact H end).
  - apply rbind_ok in H. destruct H as (x & E & H). injection H as <-. cbn [unbound] in *. apply (IH x E), H0.
  - apply rbind_ok in H. destruct H as (x & E & H). injection H as <-. cbn [unbound] in *.
    apply in_app_iff in H0. apply in_app_iff. destruct H0 as [H0|H0]; [left; exact H0|right; apply (IHb x E), H0].
  - discriminate.
Qed.

Definition tracked (bits : Z) (e : expr) : Prop :=
  forall e', conv bits e = Ok e' -> forall n bound bound', carried bound bound' ->
  In n (unbound e' bound') -> named (unbound e bound) n.
Definition tracked_stmt (bits : Z) (s : stmt) : Prop :=
  match s with SLocal _ _ (Some a) | SExpr a | SSemi a => tracked bits a | SLocal _ _ None => True end.

Lemma args_tracked bits args : Forall (tracked bits) args -> forall args', rmap (conv bits) args = Ok args' ->
  forall n bound bound', carried bound bound' -> In n (unbound_all args' bound') -> named (unbound_all args bound) n.
Proof.
  induction args as [|a args IH]; intros HF args' E n bound bound' CB HI.
  - cbn in E. injection E as <-. destruct HI.
  - inversion HF as [|? ? H1 H2]; subst. cbn [rmap] in E. apply rbind_ok in E. destruct E as (x & E1 & E).
    apply rbind_ok in E. destruct E as (y & E2 & E). injection E as <-.
    unfold unbound_all in HI. cbn [flat_map] in HI. unfold unbound_all. cbn [flat_map]. apply in_app_iff in HI. apply named_app.
    destruct HI as [HI|HI]; [left; apply (H1 x E1 n bound bound' CB HI)|right; apply (IH H2 y E2 n bound bound' CB HI)].
Qed.
Lemma block_tracked bits b : Forall (tracked_stmt bits) b -> forall b', rmap (conv_stmt bits) b = Ok b' ->
  forall n bound bound', carried bound bound' -> In n (unbound_block b' bound') -> named (unbound_block b bound) n.
Proof.
  induction b as [|st b IH]; intros HF b' E n bound bound' CB HI.
  - cbn in E. injection E as <-. destruct HI.
  - inversion HF as [|? ? H1 H2]; subst. cbn [rmap] in E. apply rbind_ok in E. destruct E as (x & E1 & E).
    apply rbind_ok in E. destruct E as (y & E2 & E). injection E as <-.
    destruct st as [m t [a|]|a|a]; cbn [conv_stmt] in E1; cbn [tracked_stmt unbound_block] in *; apply named_app.
    + apply rbind_ok in E1. destruct E1 as (a' & EA & E1). injection E1 as <-. cbn [unbound_block] in HI.
      apply in_app_iff in HI. destruct HI as [HI|HI]; [left; apply (H1 a' EA n _ _ CB HI)|right].
      apply (IH H2 y E2 n _ _ (carried_cons _ _ m CB) HI).
    + injection E1 as <-. cbn [unbound_block app] in HI. right. apply (IH H2 y E2 n _ _ (carried_cons _ _ m CB) HI).
    + apply rbind_ok in E1. destruct E1 as (a' & EA & E1). injection E1 as <-. cbn [unbound_block] in HI.
      apply in_app_iff in HI. destruct HI as [HI|HI]; [left; apply (H1 a' EA n _ _ CB HI)|right; apply (IH H2 y E2 n _ _ CB HI)].
    + apply rbind_ok in E1. destruct E1 as (a' & EA & E1). injection E1 as <-. cbn [unbound_block] in HI.
      apply in_app_iff in HI. destruct HI as [HI|HI]; [left; apply (H1 a' EA n _ _ CB HI)|right; apply (IH H2 y E2 n _ _ CB HI)].
Qed.

Lemma splat_unbound path l n bound : In n (unbound (splat path l) bound) ->
  (exists p, path = n :: p) \/ (path = [] /\ n = "splat") \/ In n (unbound l bound).
Proof.
  unfold splat. rewrite u_call. unfold unbound_all. cbn [flat_map]. rewrite app_nil_r. intros H. apply in_app_iff in H.
  destruct H as [H|H]; [|auto]. destruct path as [|m path]; cbn [app unbound] in H.
  - destruct (existsb _ bound); [destruct H|]. destruct H as [H|[]]. auto.
  - destruct (existsb _ bound); [destruct H|]. destruct H as [H|[]]. subst m. left. exists path. reflexivity.
Qed.

Lemma all_tracked bits e : tracked bits e.
Proof.
  induction e as [l|p|op a IH|op a b IHa IHb|r m t args IHr IHargs|a IH|a m IH|f args IHf IHargs|a t IH|c t o IHc IHt IHo|b IHb|k|n t i IH|a IH|a IH]
    using expr_ind_nested with (Ps := tracked_stmt bits); try exact IH; try (destruct i; [exact IH|exact I]);
    intros e' E n bound bound' CB HI.
  - destruct l as [d s|d s|b|x]; cbn [conv] in E; injection E as <-; try destruct HI.
    + unfold convert_lit_int in HI. right.
      destruct (existsb (String.eqb s) ["u32"; "u64"]); [|destruct (existsb (String.eqb s) ["i32"; "i64"])];
        apply splat_unbound in HI; destruct HI as [[q HI]|[[HI _]|[]]]; try discriminate; injection HI as <- _; cbn; tauto.
    + unfold convert_lit_float in HI. right.
      destruct (existsb (String.eqb s) ["u32"; "u64"]); [|destruct (existsb (String.eqb s) ["i32"; "i64"])];
        apply splat_unbound in HI; destruct HI as [[q HI]|[[HI _]|[]]]; try discriminate; injection HI as <- _; cbn; tauto.
  - cbn [conv] in E.
    assert (X : forall q, In n (unbound (EPath (map rename q)) bound') -> named (unbound (EPath q) bound) n).
    { intros q HX. destruct q as [|m q]; [destruct HX|]. cbn [map unbound] in HX |- *.
      destruct (existsb (String.eqb (rename m)) bound') eqn:EB'; [destruct HX|]. destruct HX as [HX|[]].
      unfold rename in HX, EB'. destruct (String.eqb_spec m "fty") as [|F]; [subst n; right; left; reflexivity|]. subst n.
      destruct (existsb (String.eqb m) bound) eqn:EB; [|left; left; reflexivity]. exfalso.
      apply existsb_exists in EB. destruct EB as (z & HZ & EZ). apply String.eqb_eq in EZ. subst z.
      assert (Y : existsb (String.eqb m) bound' = true).
      { apply existsb_exists. exists m. split; [apply (CB m HZ F)|apply String.eqb_refl]. }
      rewrite Y in EB'. discriminate. }
    injection E as <-. destruct (special_path (map rename p)); [|apply (X p HI)].
    apply splat_unbound in HI. destruct HI as [[q HI]|[[HI _]|HI]]; [|discriminate|apply (X p HI)].
    injection HI as <- _. right. left. reflexivity.
  - cbn [conv] in E. apply rbind_ok in E. destruct E as (x & E1 & E). injection E as <-. apply (IH x E1 n bound bound' CB HI).
  - cbn [conv] in E. apply rbind_ok in E. destruct E as (x & E1 & E). apply rbind_ok in E. destruct E as (y & E2 & E).
    injection E as <-. apply named_app.
    assert (HI' : In n (unbound x bound' ++ unbound y bound')).
    { unfold convert_binary in HI. destruct (lanes_method op).
      - rewrite u_meth in HI. unfold unbound_all in HI. cbn [flat_map unbound] in HI. rewrite app_nil_r in HI. exact HI.
      - exact HI. }
    apply in_app_iff in HI'. destruct HI' as [H|H]; [left; apply (IHa x E1 n bound bound' CB H)|right; apply (IHb y E2 n bound bound' CB H)].
  - rewrite conv_meth in E. apply rbind_ok in E. destruct E as (x & E1 & E). apply rbind_ok in E. destruct E as (y & E2 & E).
    injection E as <-. rewrite u_meth in HI |- *. apply named_app. apply in_app_iff in HI.
    destruct HI as [H|H]; [left; apply (IHr x E1 n bound bound' CB H)|right].
    apply (args_tracked bits args IHargs y E2 n bound bound' CB H).
  - cbn [conv] in E. apply rbind_ok in E. destruct E as (x & E1 & E). injection E as <-. apply (IH x E1 n bound bound' CB HI).
  - cbn [conv] in E. apply rbind_ok in E. destruct E as (x & E1 & E). injection E as <-.
    apply (IH x E1 n bound bound' CB HI).
  - rewrite conv_call in E. apply rbind_ok in E. destruct E as (x & E1 & E). apply rbind_ok in E. destruct E as (y & E2 & E).
    rewrite u_call. apply named_app.
    assert (HI' : In n (unbound x bound' ++ unbound_all y bound')).
    { unfold convert_call in E. destruct y as [|y0 y]; [discriminate|].
      assert (C : In n (unbound (ECall x (y0 :: y)) bound') -> In n (unbound x bound' ++ unbound_all (y0 :: y) bound'))
        by (rewrite u_call; exact (fun z => z)).
      destruct x as [| [|m [|m' q]] | | | | | | | | | |]; try (injection E as <-; exact (C HI)).
      destruct (existsb (String.eqb m) method_names); injection E as <-; [|exact (C HI)].
      rewrite u_meth in HI. cbn [unbound_all flat_map]. apply in_app_iff. right. exact HI. }
    apply in_app_iff in HI'. destruct HI' as [H|H]; [left; apply (IHf x E1 n bound bound' CB H)|right].
    apply (args_tracked bits args IHargs y E2 n bound bound' CB H).
  - cbn [conv] in E. apply rbind_ok in E. destruct E as (x & E1 & E). 
    apply (IH x E1 n bound bound' CB). unfold convert_cast in E.
    destruct (existsb _ ["uty"; _]); [apply (attach_unbound _ _ _ _ E _ _ HI)|].
    destruct (existsb _ ["ity"; _]); [apply (attach_unbound _ _ _ _ E _ _ HI)|].
    destruct (existsb _ ["fty"; _]); [apply (attach_unbound _ _ _ _ E _ _ HI)|].
    injection E as <-. exact HI.
  - rewrite conv_if in E. apply rbind_ok in E. destruct E as (x & E1 & E). apply rbind_ok in E. destruct E as (y & E2 & E).
    apply rbind_ok in E. destruct E as (th & E3 & E). rewrite u_if. apply named_app.
    assert (EY : y = [SExpr th]).
    { unfold deblock1 in E3. destruct y as [|[|z|] [|]]; try discriminate. congruence. }
    subst y.
    assert (HT : In n (unbound th bound') -> named (unbound_block t bound) n).
    { intros H. apply (block_tracked bits t IHt [SExpr th] E2 n bound bound' CB). cbn [unbound_block]. rewrite app_nil_r. exact H. }
    destruct o as [a|].
    + apply rbind_ok in E. destruct E as (z & E4 & E). injection E as <-. cbn [OptP] in IHo.
      rewrite u_meth in HI. unfold unbound_all in HI. cbn [flat_map unbound] in HI. rewrite app_nil_r in HI.
      assert (D : In n (unbound (deblock2 z) bound') -> In n (unbound z bound')).
      { unfold deblock2. destruct z as [| | | | | | | | | |bb|]; try (intros H; exact H).
        destruct bb as [|[|zz|] [|]]; try (intros H; exact H).
        intros H. rewrite u_block. cbn [unbound_block]. rewrite app_nil_r. exact H. }
      rewrite !in_app_iff in HI. destruct HI as [H|[H|H]].
      * left. apply (IHc x E1 n bound bound' CB H).
      * right. apply named_app. left. apply HT, H.
      * right. apply named_app. right. apply (IHo z E4 n bound bound' CB), D, H.
    + injection E as <-. rewrite u_if in HI. cbn [unbound_block] in HI. rewrite !app_nil_r in HI.
      apply in_app_iff in HI. destruct HI as [H|H]; [left; apply (IHc x E1 n bound bound' CB H)|right].
      apply named_app. left. apply HT, H.
  - rewrite conv_block in E. apply rbind_ok in E. destruct E as (y & E1 & E). injection E as <-.
    rewrite u_block in HI. apply (block_tracked bits b IHb y E1 n bound bound' CB HI).
  - cbn in E. injection E as <-. destruct HI.
Qed.
