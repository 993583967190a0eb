(** Whole functions and files. *)
From Coq Require Import List String Bool ZArith Arith Lia.
From Verif Require Import Res Syntax Item Simd SimdSpec SimdFacts SimdNames.
Import ListNotations.
Open Scope string_scope.
Open Scope list_scope.

(** ** The method of a function *)
Lemma to_simd_nth bits pre n ps ret b post : forall consts ms,
  to_simd_from bits consts (pre ++ IFn n ps ret b :: post) = Ok ms ->
  exists m, nth_error ms (fn_count pre) = Some m /\ conv_fn bits (consts ++ const_defs pre) n ps b = Ok m.
Proof.
  induction pre as [|it pre IH]; intros consts ms E.
  - cbn [app to_simd_from] in E. apply rbind_ok in E. destruct E as (m & E1 & E). apply rbind_ok in E. destruct E as (ms' & E2 & E).
    injection E as <-. exists m. split; [reflexivity|]. cbn. rewrite app_nil_r. exact E1.
  - destruct it as [c t e|a t|f fps fr fb|k]; cbn [app to_simd_from] in E.
    + destruct (IH _ _ E) as (m & N & C). exists m. split; [exact N|]. cbn [const_defs flat_map app] in C |- *.
      rewrite <- app_assoc in C. exact C.
    + apply (IH _ _ E).
    + apply rbind_ok in E. destruct E as (m & E1 & E). apply rbind_ok in E. destruct E as (ms' & E2 & E). injection E as <-.
      apply (IH _ _ E2).
    + apply (IH _ _ E).
Qed.

(** ** Names *)
Lemma unbound_not e : forall bound n, In n (unbound e bound) -> In n bound -> False.
Proof.
  assert (B : forall b, Forall (fun s => match s with SLocal _ _ (Some a) | SExpr a | SSemi a =>
      forall bound n, In n (unbound a bound) -> In n bound -> False | _ => True end) b ->
      forall bound n, In n (unbound_block b bound) -> In n bound -> False).
  { induction b as [|s b IH]; intros HF bound n HI HB; [destruct HI|]. inversion HF as [|? ? H1 H2]; subst.
    destruct s as [m t [a|]|a|a]; cbn [unbound_block] in HI; try (apply in_app_iff in HI; destruct HI as [HI|HI]).
    - apply (H1 bound n HI HB).
    - apply (IH H2 (m :: bound) n HI). right. exact HB.
    - destruct HI.
    - apply (IH H2 (m :: bound) n HI). right. exact HB.
    - apply (H1 bound n HI HB).
    - apply (IH H2 bound n HI HB).
    - apply (H1 bound n HI HB).
    - apply (IH H2 bound n HI HB). }
  assert (AL : forall l, Forall (fun a => forall bound n, In n (unbound a bound) -> In n bound -> False) l ->
      forall bound n, In n (unbound_all l bound) -> In n bound -> False).
  { intros l HF bound n HI HB. apply in_flat_map in HI. destruct HI as (a & Ha & HI).
    rewrite Forall_forall in HF. apply (HF a Ha bound n HI HB). }
  induction e as [l|p|op a IH|op a b IHa IHb|r m t args IHr IHargs|a IH|a m IH|f args IHf IHargs|a t IH|c t o IHc IHt IHo|b IHb|k|n t i IH|a IH|a IH]
    using expr_ind_nested with (Ps := fun s => match s with SLocal _ _ (Some a) | SExpr a | SSemi a =>
      forall bound n, In n (unbound a bound) -> In n bound -> False | _ => True end);
    try exact IH; try (destruct i; [exact IH|exact I]); intros bound n0 HI HB; try (destruct HI; fail);
    try (apply (IH bound n0 HI HB)).
  - destruct p as [|x p]; [destruct HI|]. cbn [unbound] in HI. destruct (existsb (String.eqb x) bound) eqn:EX; [destruct HI|].
    destruct HI as [HI|[]]. subst x. assert (Y : existsb (String.eqb n0) bound = true).
    { apply existsb_exists. exists n0. split; [exact HB|apply String.eqb_refl]. }
    rewrite Y in EX. discriminate.
  - cbn [unbound] in HI. apply in_app_iff in HI. destruct HI as [HI|HI]; [apply (IHa bound n0 HI HB)|apply (IHb bound n0 HI HB)].
  - rewrite u_meth in HI. apply in_app_iff in HI. destruct HI as [HI|HI]; [apply (IHr bound n0 HI HB)|apply (AL args IHargs bound n0 HI HB)].
  - rewrite u_call in HI. apply in_app_iff in HI. destruct HI as [HI|HI]; [apply (IHf bound n0 HI HB)|apply (AL args IHargs bound n0 HI HB)].
  - rewrite u_if in HI. rewrite !in_app_iff in HI. destruct HI as [HI|[HI|HI]].
    + apply (IHc bound n0 HI HB).
    + apply (B t IHt bound n0 HI HB).
    + destruct o as [a|]; [|destruct HI]. apply (IHo bound n0 HI HB).
  - rewrite u_block in HI. apply (B b IHb bound n0 HI HB).
Qed.

Lemma unbound_block_not b bound n : In n (unbound_block b bound) -> In n bound -> False.
Proof. intros H. apply (unbound_not (EBlock b) bound n). rewrite u_block. exact H. Qed.

Lemma add_consts_names bits consts : forall used body body', add_consts bits consts used body = Ok body' ->
  forall n bound, In n (unbound_block body' bound) ->
  (exists c e, In (c, e) consts /\ named (unbound e []) n)
  \/ (exists names, In n (unbound_block body (names ++ bound)) /\ forall c, In c (map fst consts) -> In c used -> In c names).
Proof.
  induction consts as [|[c e] r IH]; intros used body body' E n bound HI.
  - cbn in E. injection E as <-. right. exists []. split; [exact HI|]. intros c [].
  - cbn [add_consts] in E. destruct (existsb (String.eqb c) used) eqn:EU.
    + apply rbind_ok in E. destruct E as (x & E1 & E).
      destruct (IH _ _ _ E n bound HI) as [(c' & e' & H1 & H2)|(names & H1 & H2)].
      * left. exists c', e'. split; [right; exact H1|exact H2].
      * cbn [unbound_block] in H1. apply in_app_iff in H1. destruct H1 as [H1|H1].
        -- left. exists c, e. split; [left; reflexivity|]. apply (all_tracked bits e x E1 n [] _ (fun m F => match F with end) H1).
        -- right. exists (c :: names). split; [exact H1|]. intros d Hd Hu. cbn [map fst] in Hd.
           destruct Hd as [->|Hd]; [left; reflexivity|right]. apply H2; [exact Hd|apply in_app_iff; left; exact Hu].
    + destruct (IH _ _ _ E n bound HI) as [(c' & e' & H1 & H2)|(names & H1 & H2)].
      * left. exists c', e'. split; [right; exact H1|exact H2].
      * right. exists names. split; [exact H1|]. intros d Hd Hu. cbn [map fst] in Hd.
        destruct Hd as [->|Hd]; [|apply H2; assumption].
        exfalso. assert (Y : existsb (String.eqb d) used = true).
        { apply existsb_exists. exists d. split; [exact Hu|apply String.eqb_refl]. }
        rewrite Y in EU. discriminate.
Qed.

(** Mentions are seen by the visitor. *)
Definition heads_seen (e : expr) : Prop := forall n bound, In n (unbound e bound) -> In n (seen e).
Definition heads_seen_s (s : stmt) : Prop :=
  match s with SLocal _ _ (Some a) | SExpr a | SSemi a => heads_seen a | SLocal _ _ None => True end.
Lemma seen_args l : Forall heads_seen l -> forall n bound, In n (unbound_all l bound) -> In n (flat_map seen l).
Proof.
  intros HF n bound HI. apply in_flat_map in HI. destruct HI as (a & Ha & HI). apply in_flat_map. exists a.
  split; [exact Ha|]. rewrite Forall_forall in HF. apply (HF a Ha n bound HI).
Qed.
Lemma seen_block b : Forall heads_seen_s b -> forall n bound, In n (unbound_block b bound) -> In n (flat_map seen_stmt b).
Proof.
  induction b as [|st b IH]; intros HF n bound HI; [destruct HI|]. inversion HF as [|? ? H1 H2]; subst.
  cbn [flat_map]. apply in_app_iff.
  destruct st as [m t [a|]|a|a]; cbn [unbound_block seen_stmt heads_seen_s] in *; try (apply in_app_iff in HI; destruct HI as [HI|HI]);
    try (right; apply (IH H2 n _ HI)); try (left; apply (H1 n bound HI)).
  - left. right. apply (H1 n bound HI).
  - destruct HI.
Qed.
Lemma unbound_seen e : heads_seen e.
Proof.
  induction e as [l|p|op a IH|op a b IHa IHb|r m t args IHr IHargs|a IH|a m IH|f args IHf IHargs|a t IH|c t o IHc IHt IHo|b IHb|k|n t i IH|a IH|a IH]
    using expr_ind_nested with (Ps := heads_seen_s); try exact IH; try (destruct i; [exact IH|exact I]);
    intros n0 bound HI.
  - destruct HI.
  - destruct p as [|x p]; [destruct HI|]. cbn [unbound] in HI. destruct (existsb (String.eqb x) bound); [destruct HI|].
    destruct HI as [HI|[]]. left. exact HI.
  - cbn [unbound seen] in *. apply in_app_iff in HI. apply in_app_iff. destruct HI as [HI|HI]; [left; apply (IHa _ _ HI)|right; apply (IHb _ _ HI)].
  - rewrite u_meth in HI. cbn [seen]. apply in_app_iff in HI. apply in_app_iff.
    destruct HI as [HI|HI]; [left; apply (IHr _ _ HI)|right; right; apply (seen_args args IHargs _ _ HI)].
  - cbn [unbound seen] in *. apply in_app_iff. left. apply (IH _ _ HI).
  - rewrite u_call in HI. cbn [seen]. apply in_app_iff in HI. apply in_app_iff.
    destruct HI as [HI|HI]; [left; apply (IHf _ _ HI)|right; apply (seen_args args IHargs _ _ HI)].
  - rewrite u_if in HI. cbn [seen]. rewrite !in_app_iff in HI. rewrite !in_app_iff. destruct HI as [HI|[HI|HI]].
    + left. apply (IHc _ _ HI).
    + right. left. apply (seen_block t IHt _ _ HI).
    + right. right. destruct o as [a|]; [apply (IHo _ _ HI)|destruct HI].
  - rewrite u_block in HI. cbn [seen]. apply (seen_block b IHb _ _ HI).
  - destruct HI.
Qed.

(** What a method mentions without binding it. *)
Theorem method_unbound bits pre n ps ret b post ms :
  to_simd bits (pre ++ IFn n ps ret b :: post) = Ok ms ->
  exists m, nth_error ms (fn_count pre) = Some m
  /\ forall c, In c (unbound (EBlock (m_body m)) (map fst (m_params m))) ->
     In c simd_names
     \/ (exists d e, In (d, e) (const_defs pre) /\ In c (unbound e []))
     \/ (~ In c (const_names pre) /\ (c = "self" \/ In c (unbound (EBlock b) (map fst ps)))).
Proof.
  intros E. destruct (to_simd_nth bits pre n ps ret b post [] ms E) as (m & N & C). cbn [app] in C.
  exists m. split; [exact N|]. intros c HI. rewrite u_block in HI.
  unfold conv_fn in C. destruct ps as [|[arg argty] rest]; [discriminate|].
  set (block := SLocal arg None (Some (EPath ["self"])) :: b) in C.
  apply rbind_ok in C. destruct C as (b1 & E1 & C). apply rbind_ok in C. destruct C as (b2 & E2 & C). injection C as <-.
  cbn [m_body] in HI.
  destruct (add_consts_names bits _ _ _ _ E2 c _ HI) as [(d & e & H1 & [H2|H2])|(names & H1 & H2)].
  - right. left. exists d, e. auto.
  - left. exact H2.
  - assert (T : named (unbound_block block (map fst rest)) c).
    { eapply (block_tracked bits block); [|exact E1| |exact H1].
      - apply Forall_forall. intros s _. destruct s as [? ? [a|]|a|a]; try exact I; apply all_tracked.
      - intros x Hx F. apply in_app_iff. right. cbn [m_params]. rewrite map_map. cbn [fst].
        apply in_map_iff in Hx. destruct Hx as ([x' tx] & <- & Hx). apply in_map_iff. exists (x', tx). split; [|exact Hx].
        cbn [fst] in *. unfold rename. destruct (String.eqb_spec x' "fty"); [contradiction|reflexivity]. }
    destruct T as [T|T]; [|left; exact T]. right. right. split.
    + intros Hc. apply (unbound_block_not _ _ _ H1). apply in_app_iff. left. apply H2; [exact Hc|].
      right. apply in_app_iff. right. apply (seen_block block) in T; [exact T|].
      apply Forall_forall. intros s _. destruct s as [? ? [a|]|a|a]; try exact I; apply unbound_seen.
    + unfold block in T. cbn [unbound_block unbound] in T. apply in_app_iff in T. destruct T as [T|T]; [|right; exact T].
      destruct (existsb (String.eqb "self") (map fst rest)); [destruct T|]. destruct T as [T|[]]. left. congruence.
Qed.

Theorem consts_bound bits pre n ps ret b post ms :
  to_simd bits (pre ++ IFn n ps ret b :: post) = Ok ms ->
  (forall c e d, In (c, e) (const_defs pre) -> In d (const_names pre) -> ~ In d (unbound e [])) ->
  exists m, nth_error ms (fn_count pre) = Some m
  /\ forall c, In c (const_names pre) -> ~ In c ["Self"; "UintType"; "IntType"] ->
     ~ In c (unbound (EBlock (m_body m)) (map fst (m_params m))).
Proof.
  intros E HC. destruct (method_unbound _ _ _ _ _ _ _ _ E) as (m & N & H). exists m. split; [exact N|].
  intros c Hc Hs HI. destruct (H c HI) as [X|[(d & e & X & Y)|(X & _)]]; [exact (Hs X)|exact (HC d e c X Hc Y)|exact (X Hc)].
Qed.

(** ** Values *)
Lemma add_consts_values bits consts : NoDup (map fst consts) ->
  (forall c e, In (c, e) consts -> lanes_ok bits e = true) ->
  forall used body body', add_consts bits consts used body = Ok body' ->
  forall (V L : Type) (A : algebra V) (r : string -> option (L -> V)) (i : L),
  (forall c e, In (c, e) consts -> ev A bits (fun _ => None) e <> None) ->
  exists r', vev_block bits A r body' = vev_block bits A r' body
  /\ (forall n, ~ In n (map fst consts) -> r' n = r n)
  /\ (forall c e x, In (c, e) consts -> In c used -> ev A bits (fun _ => None) e = Some x -> exists v, r' c = Some v /\ v i = x).
Proof.
  induction consts as [|[c e] rest IH]; intros ND OK used body body' E V L A r i DEF.
  - cbn in E. injection E as <-. exists r. split; [reflexivity|]. split; [reflexivity|]. intros c e x [].
  - cbn [map fst] in ND. inversion ND as [|? ? NI ND']; subst.
    assert (OK' : forall c e, In (c, e) rest -> lanes_ok bits e = true) by (intros; apply (OK c0); right; assumption).
    assert (DEF' : forall c e, In (c, e) rest -> ev A bits (fun _ => None) e <> None) by (intros; apply (DEF c0); right; assumption).
    cbn [add_consts] in E. destruct (existsb (String.eqb c) used) eqn:EU.
    + apply rbind_ok in E. destruct E as (x & E1 & E).
      destruct (IH ND' OK' _ _ _ E V L A r i DEF') as (r1 & R1 & R2 & R3).
      destruct (all_good bits e (OK c e (or_introl eq_refl))) as (x' & EX & LX & _).
      assert (x' = x) by congruence. subst x'.
      destruct (ev A bits (fun _ => None) e) as [y|] eqn:EY; [|destruct (DEF c e (or_introl eq_refl) EY)].
      destruct (LX V L A (fun _ => None) r1 i y) as (v & EV & EVI); [intros m _ z Ez; discriminate|exact EY|].
      exists (upd r1 c v). split; [|split].
      * rewrite R1. cbn [vev_block]. rewrite EV. reflexivity.
      * intros n Hn. unfold upd. cbn [map fst In] in Hn. destruct (String.eqb_spec n c) as [->|_]; [tauto|]. apply R2. tauto.
      * intros d f z Hd Hu Ez. unfold upd. destruct (String.eqb_spec d c) as [->|ne].
        -- destruct Hd as [Hd|Hd]; [|exfalso; apply NI; apply (in_map fst) in Hd; exact Hd].
           injection Hd as <-. exists v. split; [reflexivity|congruence].
        -- destruct Hd as [Hd|Hd]; [congruence|]. apply (R3 d f z Hd); [apply in_app_iff; left; exact Hu|exact Ez].
    + destruct (IH ND' OK' _ _ _ E V L A r i DEF') as (r1 & R1 & R2 & R3).
      exists r1. split; [exact R1|]. split.
      * intros n Hn. apply R2. cbn [map fst In] in Hn. tauto.
      * intros d f z Hd Hu Ez. destruct Hd as [Hd|Hd]; [|apply (R3 d f z Hd Hu Ez)].
        exfalso. injection Hd as <- <-. assert (Y : existsb (String.eqb c) used = true).
        { apply existsb_exists. exists c. split; [exact Hu|apply String.eqb_refl]. }
        rewrite Y in EU. discriminate.
Qed.

Lemma lookup_in {A} (l : list (string * A)) n x : lookup l n = Some x -> In (n, x) l.
Proof.
  induction l as [|[m y] l IH]; cbn [lookup]; [discriminate|]. destruct (String.eqb_spec n m) as [->|_]; intros E.
  - left. congruence.
  - right. apply IH, E.
Qed.
Lemma lookup_combine_lane {L V} (ps : list string) (args : list (L -> V)) i n :
  lookup (combine ps (map (fun v => v i) args)) n = option_map (fun v : L -> V => v i) (lookup (combine ps args) n).
Proof.
  revert args. induction ps as [|p ps IH]; intros args; [reflexivity|]. destruct args as [|v args]; [reflexivity|].
  cbn [map combine lookup]. destruct (String.eqb n p); [reflexivity|]. apply IH.
Qed.

Lemma body_conv bits b : body_ok bits b = true -> exists b', rmap (conv_stmt bits) b = Ok b' /\ lanes_b bits b b'.
Proof.
  intros H. apply body_good; [|exact H]. apply Forall_forall. intros s _.
  destruct s as [? ? [a|]|a|a]; try exact I; apply all_good.
Qed.

Theorem fn_lanes bits pre n p0 t0 rest ret b post ms :
  to_simd bits (pre ++ IFn n ((p0, t0) :: rest) ret b :: post) = Ok ms ->
  body_ok bits b = true ->
  (forall c e, In (c, e) (const_defs pre) -> lanes_ok bits e = true) ->
  NoDup (const_names pre) ->
  (forall p, In p (map fst rest) -> p <> "self" /\ p <> "fty" /\ ~ In p (const_names pre)) ->
  p0 <> "fty" -> ~ In "self" (const_names pre) ->
  exists m, nth_error ms (fn_count pre) = Some m
  /\ forall (V L : Type) (A : algebra V) (self : L -> V) (args : list (L -> V)) (i : L) x,
     (forall c e, In (c, e) (const_defs pre) -> ev A bits (fun _ => None) e <> None) ->
     ev A bits (scope A bits (p0 :: map fst rest) (self i :: map (fun v => v i) args) (const_defs pre)) (EBlock b) = Some x ->
     exists v, vev A bits (method_scope self (map fst (m_params m)) args) (EBlock (m_body m)) = Some v /\ v i = x.
Proof.
  intros E HB HC ND HP H0 HS. destruct (to_simd_nth bits pre n _ ret b post [] ms E) as (m & N & C). cbn [app] in C.
  exists m. split; [exact N|].
  unfold conv_fn in C.
  set (block := SLocal p0 None (Some (EPath ["self"])) :: b) in C.
  destruct (body_conv bits b HB) as (b' & EB & LB).
  assert (R0 : rename p0 = p0) by (unfold rename; destruct (String.eqb_spec p0 "fty") as [?|_]; [contradiction|reflexivity]).
  assert (E1 : rmap (conv_stmt bits) block = Ok (SLocal p0 None (Some (EPath ["self"])) :: b')).
  { unfold block. cbn [rmap conv_stmt conv map]. change (special_path [rename "self"]) with false. cbv iota. cbn [rbind].
    rewrite EB, R0. reflexivity. }
  rewrite E1 in C. cbn [rbind] in C. apply rbind_ok in C. destruct C as (b2 & E2 & C). injection C as <-.
  intros V L A self args i x DEF EX. rewrite vev_eblock. cbn [m_body m_params].
  set (r := method_scope self _ args).
  destruct (add_consts_values bits (const_defs pre) ND HC _ _ _ E2 V L A r i DEF) as (r' & R1 & R2 & R3).
  rewrite R1. cbn [vev_block vev]. rewrite (R2 "self" HS). change (r "self") with (Some self). cbn [obind].
  rewrite ev_eblock in EX.
  apply (LB V L A (scope A bits (p0 :: map fst rest) (self i :: map (fun v => v i) args) (const_defs pre)) _ i x); [|exact EX].
  intros q Hq y Ey. unfold scope in Ey. cbn [combine lookup] in Ey. unfold upd.
  destruct (String.eqb q p0); [exists self; split; [reflexivity|congruence]|].
  rewrite lookup_combine_lane in Ey.
  destruct (lookup (combine (map fst rest) args) q) as [v|] eqn:EL.
  - cbn [option_map] in Ey. injection Ey as <-. exists v. split; [|reflexivity].
    pose proof (lookup_in _ _ _ EL) as HI. apply in_combine_l in HI. destruct (HP q HI) as (P1 & P2 & P3).
    rewrite (R2 q P3). unfold r, method_scope. cbn [lookup].
    destruct (String.eqb_spec q "self") as [?|_]; [contradiction|].
    assert (M : map fst (map (fun p => (rename (fst p), conv_ty (snd p))) rest) = map fst rest).
    { rewrite map_map. cbn [fst]. apply map_ext_in. intros [a t] Ha. cbn [fst]. unfold rename.
      destruct (HP a) as (_ & Pf & _); [apply (in_map fst) in Ha; exact Ha|].
      destruct (String.eqb_spec a "fty") as [?|_]; [contradiction|reflexivity]. }
    rewrite M. exact EL.
  - cbn [option_map] in Ey. destruct (lookup (const_defs pre) q) as [e|] eqn:EC; [|discriminate]. cbn [obind] in Ey.
    apply lookup_in in EC. apply (R3 q e y EC); [|exact Ey].
    right. apply in_app_iff. right. right. right. exact Hq.
Qed.
