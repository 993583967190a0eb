(** Constants in the methods of generated libraries. *)
From Coq Require Import List String Bool ZArith Arith Lia.
From Verif Require Import Res Syntax Item Functions FunctionsFacts GenCode GenCodeFacts Simd SimdSpec SimdFacts SimdNames SimdFile.
Import ListNotations.
Open Scope string_scope.
Open Scope list_scope.

(** ** Mentions are free names *)
Definition mention_free (e : expr) : Prop := forall n bound, In n (unbound e bound) -> In n (free e bound).
Definition mention_free_s (s : stmt) : Prop :=
  match s with SLocal _ _ (Some a) | SExpr a | SSemi a => mention_free a | SLocal _ _ None => True end.
Lemma free_args l : Forall mention_free l -> forall n bound, In n (unbound_all l bound) -> In n (free_list l bound).
Proof.
  induction 1 as [|a l H _ IH]; intros n bound HI; [destruct HI|]. unfold unbound_all in HI. cbn [flat_map] in HI.
  cbn [free_list]. apply in_app_iff. apply in_app_iff in HI. destruct HI as [HI|HI]; [left; apply (H _ _ HI)|right; apply (IH _ _ HI)].
Qed.
Lemma free_body b : Forall mention_free_s b -> forall n bound, In n (unbound_block b bound) -> In n (free_stmts b bound).
Proof.
  induction b as [|st b IH]; intros HF n bound HI; [destruct HI|]. inversion HF as [|? ? H1 H2]; subst.
  destruct st as [m t [a|]|a|a]; cbn [unbound_block free_stmts mention_free_s] in *; apply in_app_iff in HI; destruct HI as [HI|HI];
    rewrite ?in_app_iff.
  - right. left. apply (H1 _ _ HI).
  - right. right. apply (IH H2 _ _ HI).
  - destruct HI.
  - right. right. apply (IH H2 _ _ HI).
  - left. apply (H1 _ _ HI).
  - right. apply (IH H2 _ _ HI).
  - left. apply (H1 _ _ HI).
  - right. apply (IH H2 _ _ HI).
Qed.
Lemma unbound_free e : mention_free e.
Proof.
  induction e as [l|p|op a IH|op a b IHa IHb|r m t args IHr IHargs|a IH|a m IH|f args IHf IHargs|a t IH|c t o IHc IHt IHo|b IHb|k|n t i IH|a IH|a IH]
    using expr_ind_nested with (Ps := mention_free_s); try exact IH; try (destruct i; [exact IH|exact I]);
    intros n0 bound HI.
  - destruct HI.
  - destruct p as [|x p]; [destruct HI|exact HI].
  - cbn [unbound free] in *. apply in_app_iff in HI. apply in_app_iff. destruct HI as [HI|HI]; [left; apply (IHa _ _ HI)|right; apply (IHb _ _ HI)].
  - rewrite u_meth in HI. rewrite free_method. apply in_app_iff in HI. rewrite !in_app_iff.
    destruct HI as [HI|HI]; [left; apply (IHr _ _ HI)|right; right; apply (free_args args IHargs _ _ HI)].
  - rewrite u_call in HI. rewrite free_call. apply in_app_iff in HI. rewrite in_app_iff.
    destruct HI as [HI|HI]; [left; apply (IHf _ _ HI)|right; apply (free_args args IHargs _ _ HI)].
  - cbn [unbound free] in *. right. apply (IH _ _ HI).
  - rewrite u_if in HI. rewrite free_if. rewrite !in_app_iff in HI. rewrite !in_app_iff. destruct HI as [HI|[HI|HI]].
    + left. apply (IHc _ _ HI).
    + right. left. apply (free_body t IHt _ _ HI).
    + right. right. destruct o as [a|]; [apply (IHo _ _ HI)|destruct HI].
  - rewrite u_block in HI. rewrite free_block. apply (free_body b IHb _ _ HI).
  - destruct HI.
Qed.

(** ** The shipped table *)
Definition is_const (bits : Z) (n : string) : bool := match template bits n with [IConst _ _ _] => true | _ => false end.
Definition const_check (bits : Z) : bool :=
  forallb (fun f => forallb (fun m => negb (is_const bits m)
      || (negb (is_const bits (f_name f)) && Nat.ltb (index_of m) (index_of (f_name f)))) (used bits (f_name f))) FUNCTIONS.
Lemma const_checked bits : bits = 32%Z \/ bits = 64%Z -> const_check bits = true.
Proof. intros [-> | ->]; vm_compute; reflexivity. Qed.
Lemma simd_names_free n : In n table_names -> ~ In n ["Self"; "UintType"; "IntType"] /\ n <> "self".
Proof.
  intros H. assert (X : forallb (fun n => negb (existsb (String.eqb n) ["Self"; "UintType"; "IntType"; "self"])) table_names = true)
    by (vm_compute; reflexivity).
  rewrite forallb_forall in X. specialize (X n H). apply negb_true_iff in X. split.
  - intros I. assert (Y : existsb (String.eqb n) ["Self"; "UintType"; "IntType"; "self"] = true); [|congruence].
    apply existsb_exists. exists n. split; [cbn in *; tauto|apply String.eqb_refl].
  - intros ->. discriminate.
Qed.

Lemma const_defs_in items c e : In (c, e) (const_defs items) <-> exists t, In (IConst c t e) items.
Proof.
  unfold const_defs. rewrite in_flat_map. split.
  - intros (it & H & I). destruct it as [d t a| | |]; cbn in I; try contradiction. destruct I as [I|[]]. injection I as -> ->. exists t. exact H.
  - intros (t & H). exists (IConst c t e). split; [exact H|left; reflexivity].
Qed.
Lemma const_names_in items c : In c (const_names items) <-> exists t e, In (IConst c t e) items.
Proof.
  unfold const_names. rewrite in_map_iff. split.
  - intros ([d e] & <- & H). apply const_defs_in in H. destruct H as (t & H). exists t, e. exact H.
  - intros (t & e & H). exists (c, e). split; [reflexivity|]. apply const_defs_in. exists t. exact H.
Qed.

Section Lib.
  Variables (bits : Z) (sub : string -> expr) (names exclude : list string) (lib : list item).
  Hypothesis HB : bits = 32%Z \/ bits = 64%Z.
  Hypothesis HP : plain_sub sub.
  Hypothesis HL : library bits sub names exclude = Some lib.

  Lemma lib_const c t e : In (IConst c t e) lib -> In c table_names /\ is_const bits c = true.
  Proof.
    intros H. apply (lib_items bits sub HB names exclude lib HL) in H. destruct H as (i & f & En & _ & _ & Hi).
    pose proof (entry_In _ _ En) as HF. destruct (code_items bits sub HB f _ HF Hi) as [Y N]. cbn in N. injection N as ->.
    split; [apply (entry_table _ _ En)|]. unfold is_const.
    rewrite (code_eq bits sub HB f HF) in Hi. destruct (check_fn bits HB f HF) as (_ & _ & L). rewrite Y in L.
    destruct (template bits (f_name f)) as [|x [|y r]]; try discriminate. destruct Hi as [Hi|[]].
    destruct x; try discriminate. reflexivity.
  Qed.
  Lemma lib_mention it n : In it lib -> In n (item_free it) -> In n table_names -> is_const bits n = true ->
    (forall c t e, it <> IConst c t e) /\ index_of n < position it.
  Proof.
    intros H Hn T C. apply (lib_items bits sub HB names exclude lib HL) in H. destruct H as (i & f & En & _ & _ & Hi).
    pose proof (entry_In _ _ En) as HF. pose proof (code_used bits sub HB HP f it n HF Hi Hn T) as U.
    pose proof (const_checked bits HB) as K. unfold const_check in K. rewrite forallb_forall in K. specialize (K f HF).
    rewrite forallb_forall in K. specialize (K n U). rewrite C in K. cbn [negb orb] in K. apply andb_prop in K. destruct K as [K1 K2].
    destruct (code_items bits sub HB f _ HF Hi) as [Y N]. split; [|unfold position; rewrite N; apply Nat.ltb_lt; exact K2].
    intros c t e ->. unfold is_const in K1. rewrite (code_eq bits sub HB f HF) in Hi.
    destruct (check_fn bits HB f HF) as (_ & _ & L). rewrite Y in L.
    destruct (template bits (f_name f)) as [|x [|y r]]; try discriminate. destruct Hi as [Hi|[]].
    destruct x; discriminate.
  Qed.

  Theorem library_consts pre n ps ret b post ms : lib = pre ++ IFn n ps ret b :: post -> to_simd bits lib = Ok ms ->
    exists m, nth_error ms (fn_count pre) = Some m
    /\ forall c, In c (const_names lib) -> ~ In c (unbound (EBlock (m_body m)) (map fst (m_params m))).
  Proof.
    intros EL E. rewrite EL in E. destruct (method_unbound _ _ _ _ _ _ _ _ E) as (m & N & H). exists m. split; [exact N|].
    intros c Hc HI. apply const_names_in in Hc. destruct Hc as (t & e & Hc).
    destruct (lib_const c t e Hc) as [T C]. destruct (simd_names_free c T) as [S1 S2].
    destruct (H c HI) as [X|[(d & e' & X & Y)|(X & [Y|Y])]]; [exact (S1 X)| |exact (S2 Y)|].
    - apply const_defs_in in X. destruct X as (t' & X).
      assert (Z : In (IConst d t' e') lib) by (rewrite EL; apply in_app_iff; left; exact X).
      destruct (lib_mention _ c Z) as [F _]; [right; apply unbound_free, Y|exact T|exact C|]. exact (F _ _ _ eq_refl).
    - assert (Z : In (IFn n ps ret b) lib) by (rewrite EL; apply in_elt).
      destruct (lib_mention _ c Z) as [_ P]; [cbn [item_free]; apply in_app_iff; right; right; apply unbound_free, Y|exact T|exact C|].
      rewrite EL in Hc. apply in_app_iff in Hc. destruct Hc as [Hc|[Hc|Hc]]; [|discriminate|].
      + apply X. apply const_names_in. exists t, e. exact Hc.
      + pose proof (library_positions bits sub HB names exclude lib HL pre _ post EL _ Hc) as Q. unfold position in P, Q. cbn [item_name] in P, Q. lia.
  Qed.
End Lib.
