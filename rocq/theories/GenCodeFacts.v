(** Which names generated code mentions, and which requests give a library
    that defines all of them. *)
From Coq Require Import List String Bool ZArith Arith Lia Sorted.
From Verif Require Import Res Syntax Item Functions FunctionsFacts GenCode.
Import ListNotations.
Open Scope string_scope.
Open Scope list_scope.

(** ** Specification *)
Definition table_names : list string := map f_name FUNCTIONS.

(** The interpolated expressions mention their variable and at most the
    primitive float types. *)
Definition plain_sub (sub : string -> expr) : Prop :=
  forall f n, In n (free (sub f) []) -> In n ["x"; "z"; "f32"; "f64"].

Definition self_contained (lib : list item) : Prop :=
  forall it n, In it lib -> In n (item_free it) -> In n table_names ->
  exists it', In it' lib /\ item_name it' = Some n.

Definition defined_before_use (lib : list item) : Prop :=
  forall a it b n, lib = a ++ it :: b -> In n (item_free it) -> In n table_names ->
  exists it', In it' a /\ item_name it' = Some n.

(** Names used but not declared as dependencies. *)
Definition undeclared : list (string * string) :=
  [("LOG2_SHIFT", "ity"); ("LOG2_OFFSET", "ity"); ("NAN", "fty"); ("INFINITY", "fty"); ("MIN_POSITIVE", "fty");
   ("ONE_MASK", "fty"); ("ONE_BITS", "fty"); ("EXP2_ONE", "fty"); ("EXP2_SCALE", "fty"); ("EXP2_MIN", "fty");
   ("EXP2_MAX", "fty"); ("ONE_THIRD", "fty"); ("TWO_THIRDS", "fty"); ("PI", "fty"); ("PI_BY_2", "fty");
   ("TAN_PI_BY_8", "fty"); ("PI_BY_8", "fty"); ("LOG2_E", "fty"); ("RECIP_LOG2_E", "fty"); ("RECIP_LOG2_10", "fty");
   ("RECIP_PI", "fty"); ("RECIP_2PI", "fty"); ("SQRT_RECIP_2PI", "fty"); ("negate_on_odd", "uty");
   ("negate_on_odd", "ity"); ("recip_approx", "uty"); ("recip_approx", "EXP2_ONE"); ("sqrt_approx", "EXP2_ONE");
   ("cbrt_approx", "uty"); ("cbrt_approx", "EXP2_ONE"); ("sinh", "LOG2_E"); ("sinh", "exp2"); ("cosh", "LOG2_E");
   ("cosh", "exp2"); ("tanh", "exp2"); ("tanh", "LOG2_E"); ("atan", "PI_BY_2"); ("atan2", "PI"); ("exp2", "round");
   ("exp2", "INFINITY"); ("exp_m1", "LOG2_E"); ("exp_m1", "round"); ("exp_m1", "uty"); ("exp_m1", "EXP2_SCALE");
   ("exp_m1", "EXP2_ONE"); ("log2", "uty"); ("log2", "ity"); ("ln", "fty"); ("log10", "fty"); ("powi", "ity");
   ("powi", "powf"); ("cbrt", "uty"); ("cbrt", "EXP2_ONE"); ("hypot", "MIN_POSITIVE"); ("runif", "uty");
   ("runif", "ONE_BITS"); ("tan", "round")].

(** ** Free names and bound names *)
Lemma is_bound_In b n : is_bound b n = true <-> In n b.
Proof.
  unfold is_bound. rewrite existsb_exists. split.
  - intros (x & H & E). apply String.eqb_eq in E. congruence.
  - intros H. exists n. split; [exact H|apply String.eqb_refl].
Qed.
Fixpoint free_stmts (l : list stmt) (bound : list string) : list string :=
  match l with
  | [] => []
  | SLocal n t i :: r => ty_name t ++ match i with Some a => free a bound | None => [] end ++ free_stmts r (n :: bound)
  | SExpr a :: r | SSemi a :: r => free a bound ++ free_stmts r bound
  end.
Fixpoint free_list (l : list expr) (bound : list string) : list string :=
  match l with [] => [] | a :: r => free a bound ++ free_list r bound end.
Lemma free_call f args b : free (ECall f args) b = free f b ++ free_list args b.
Proof. cbn. f_equal. induction args as [|a r IH]; [reflexivity|]. cbn. rewrite IH. reflexivity. Qed.
Lemma free_method r m t args b : free (EMethodCall r m t args) b = free r b ++ ty_name t ++ free_list args b.
Proof. cbn. do 2 f_equal. induction args as [|a q IH]; [reflexivity|]. cbn. rewrite IH. reflexivity. Qed.
Lemma free_block l : forall b, free (EBlock l) b = free_stmts l b.
Proof.
  induction l as [|s r IH]; intros b; [reflexivity|]. destruct s as [n t i|e|e]; cbn [free_stmts]; rewrite <- IH; reflexivity.
Qed.
Lemma free_if c t o b : free (EIf c t o) b = free c b ++ free_stmts t b ++ match o with Some a => free a b | None => [] end.
Proof. rewrite <- free_block. reflexivity. Qed.

Definition mono (e : expr) : Prop := forall b b', incl b' b -> incl (free e b) (free e b').
Definition mono_s (s : stmt) : Prop := match s with SLocal _ _ i => match i with Some e => mono e | None => True end | SExpr e | SSemi e => mono e end.
Lemma incl_app2 {A} (a b c d : list A) : incl a c -> incl b d -> incl (a ++ b) (c ++ d).
Proof. intros H K x. rewrite !in_app_iff. intros [X|X]; auto. Qed.
Lemma mono_list l : Forall mono l -> forall b b', incl b' b -> incl (free_list l b) (free_list l b').
Proof. induction 1 as [|e r H _ IH]; intros b b' I; [intros x []|]. cbn. apply incl_app2; auto. Qed.
Lemma mono_stmts l : Forall mono_s l -> forall b b', incl b' b -> incl (free_stmts l b) (free_stmts l b').
Proof.
  induction 1 as [|s r H _ IH]; intros b b' I; [intros x []|].
  destruct s as [n t i|e|e]; cbn in *.
  - apply incl_app2; [intros x; auto|]. apply incl_app2; [destruct i; [auto|intros x; auto]|].
    apply IH. intros x [<-|Hx]; [left; reflexivity|right; auto].
  - apply incl_app2; auto.
  - apply incl_app2; auto.
Qed.
Lemma free_mono e : mono e.
Proof.
  induction e using expr_ind_nested with (Ps := mono_s); unfold mono in *; intros.
  - intros x [].
  - cbn. destruct p as [|n p]; [intros x []|].
    destruct (is_bound b n) eqn:B; [intros x []|]. destruct (is_bound b' n) eqn:B'; [|intros x; auto].
    apply is_bound_In in B'. apply H in B'. apply is_bound_In in B'. congruence.
  - apply IHe; assumption.
  - cbn. apply incl_app2; auto.
  - rewrite !free_method. apply incl_app2; [auto|]. apply incl_app2; [intros x; auto|]. apply mono_list; assumption.
  - apply IHe; assumption.
  - apply IHe; assumption.
  - rewrite !free_call. apply incl_app2; [auto|]. apply mono_list; assumption.
  - cbn. intros x [<-|Hx]; [left; reflexivity|right]. revert x Hx. apply IHe. assumption.
  - rewrite !free_if. apply incl_app2; [auto|]. apply incl_app2; [apply mono_stmts; assumption|].
    destruct e0; [apply H0; assumption|intros x; auto].
  - rewrite !free_block. apply mono_stmts; assumption.
  - intros x [].
  - unfold mono_s. destruct i; [exact H|exact I].
  - exact IHe.
  - exact IHe.
Qed.

(** ** What each generated item mentions *)
Definition uses (bits : Z) (sub : string -> expr) (f : string) : list string := flat_map item_free (code bits sub f).
Definition sample (_ : string) : expr := EPath ["x"].

Lemma sub_none sub f b n : plain_sub sub -> In n table_names -> In n (free (sub f) b) <-> False.
Proof.
  intros P T. split; [|tauto]. intros H. apply (free_mono _ b []) in H; [|intros x []]. apply P in H.
  revert T. cbn in H. intuition subst; vm_compute in T; intuition discriminate.
Qed.

(** The generated code is a template with holes ([EOther f]) for the
    interpolated expressions. *)
Fixpoint plug (sub : string -> expr) (e : expr) : expr :=
  match e with
  | ELit l => ELit l
  | EPath p => EPath p
  | EUnary op a => EUnary op (plug sub a)
  | EBinary op a b => EBinary op (plug sub a) (plug sub b)
  | EMethodCall r m t args => EMethodCall (plug sub r) m t (map (plug sub) args)
  | EParen a => EParen (plug sub a)
  | EField a m => EField (plug sub a) m
  | ECall f args => ECall (plug sub f) (map (plug sub) args)
  | ECast a t => ECast (plug sub a) t
  | EIf c t o => EIf (plug sub c) (map (plug_s sub) t) (match o with Some a => Some (plug sub a) | None => None end)
  | EBlock b => EBlock (map (plug_s sub) b)
  | EOther k => sub k
  end
with plug_s (sub : string -> expr) (s : stmt) : stmt :=
  match s with
  | SLocal n t i => SLocal n t (match i with Some a => Some (plug sub a) | None => None end)
  | SExpr a => SExpr (plug sub a)
  | SSemi a => SSemi (plug sub a)
  end.
Definition plug_i (sub : string -> expr) (i : item) : item :=
  match i with
  | IConst n t e => IConst n t (plug sub e)
  | IFn n ps r b => IFn n ps r (map (plug_s sub) b)
  | _ => i
  end.

Section Plug.
  Variables (sub : string -> expr) (n : string).
  Hypothesis SN : forall f b, In n (free (sub f) b) <-> False.
  Definition same (e : expr) : Prop := forall b, In n (free (plug sub e) b) <-> In n (free e b).
  Definition same_s (s : stmt) : Prop :=
    match s with SLocal _ _ i => match i with Some e => same e | None => True end | SExpr e | SSemi e => same e end.
  Lemma same_list l : Forall same l -> forall b, In n (free_list (map (plug sub) l) b) <-> In n (free_list l b).
  Proof. induction 1 as [|e r H _ IH]; intros b; [reflexivity|]. cbn. rewrite !in_app_iff, (H b), IH. reflexivity. Qed.
  Lemma same_stmts l : Forall same_s l -> forall b, In n (free_stmts (map (plug_s sub) l) b) <-> In n (free_stmts l b).
  Proof.
    induction 1 as [|s r H _ IH]; intros b; [reflexivity|].
    destruct s as [m t i|e|e]; cbn in *; rewrite !in_app_iff, IH.
    - destruct i as [e|]; [rewrite (H b)|]; reflexivity.
    - rewrite (H b). reflexivity.
    - rewrite (H b). reflexivity.
  Qed.
  Lemma plug_free e : same e.
  Proof.
    induction e using expr_ind_nested with (Ps := same_s); unfold same in *; intros; cbn [plug].
    - reflexivity.
    - reflexivity.
    - apply IHe.
    - cbn. rewrite !in_app_iff, IHe1, IHe2. reflexivity.
    - rewrite !free_method, !in_app_iff, IHe, same_list by assumption. reflexivity.
    - apply IHe.
    - apply IHe.
    - rewrite !free_call, !in_app_iff, IHe, same_list by assumption. reflexivity.
    - cbn. rewrite IHe. reflexivity.
    - rewrite !free_if, !in_app_iff, IHe, same_stmts by assumption. destruct e0; [|reflexivity].
      rewrite (H0 b). reflexivity.
    - rewrite !free_block. apply same_stmts. assumption.
    - cbn. apply SN.
    - unfold same_s. destruct i; [exact H|exact I].
    - exact IHe.
    - exact IHe.
  Qed.
  Lemma plug_item i : In n (item_free (plug_i sub i)) <-> In n (item_free i).
  Proof.
    destruct i as [m t e|m t|m ps r b|k]; cbn [plug_i item_free]; try reflexivity.
    - cbn. pose proof (plug_free e [] : _ <-> _) as H. rewrite H. reflexivity.
    - pose proof (plug_free (EBlock b) (map fst ps) : _ <-> _) as H. cbn [plug] in H.
      rewrite !in_app_iff. cbn [In]. rewrite H. reflexivity.
  Qed.
  Lemma plug_items l : In n (flat_map item_free (map (plug_i sub) l)) <-> In n (flat_map item_free l).
  Proof.
    induction l as [|i l IH]; [reflexivity|]. cbn [map flat_map]. rewrite !in_app_iff, plug_item, IH. reflexivity.
  Qed.
End Plug.

Definition template (bits : Z) (f : string) : list item := code bits EOther f.
Lemma code_template bits sub : bits = 32%Z \/ bits = 64%Z ->
  Forall (fun f => code bits sub (f_name f) = map (plug_i sub) (template bits (f_name f))) FUNCTIONS.
Proof. intros [-> | ->]; unfold FUNCTIONS; repeat (apply Forall_cons; [reflexivity|]); constructor. Qed.

(** ** Facts about the shipped table, by computation *)
Definition used (bits : Z) (f : string) : list string :=
  filter (contains table_names) (flat_map item_free (template bits f)).
Definition mem2 (l : list (string * string)) (a b : string) : bool :=
  existsb (fun p => String.eqb (fst p) a && String.eqb (snd p) b) l.
Lemma mem2_In l a b : mem2 l a b = true <-> In (a, b) l.
Proof.
  unfold mem2. rewrite existsb_exists. split.
  - intros ((x & y) & H & E). cbn in E. apply andb_prop in E. destruct E as [E1 E2].
    apply String.eqb_eq in E1, E2. subst. exact H.
  - intros H. exists (a, b). cbn. rewrite !String.eqb_refl. auto.
Qed.

(** a generator that produces an item *)
Definition yields (f : fn) : bool := f_gen f && negb (String.eqb (f_name f) "pnorm").
Definition yields_name (n : string) : bool :=
  match find_fn FUNCTIONS n 0 with Some (_, f) => yields f | None => false end.
Definition names_of (l : list item) : list string :=
  flat_map (fun i => match item_name i with Some n => [n] | None => [] end) l.
Definition str_list_eqb (a b : list string) : bool := if list_eq_dec string_dec a b then true else false.

Definition later : list (string * string) :=
  [("sinh", "exp2"); ("cosh", "exp2"); ("tanh", "exp2"); ("asinh", "ln"); ("acosh", "ln"); ("atanh", "ln")].
Definition index_of (n : string) : nat := match find_fn FUNCTIONS n 0 with Some (i, _) => i | None => 0 end.

Definition table_check (bits : Z) : bool :=
  forallb (fun f => forallb (fun m =>
     (contains (f_deps f) m || mem2 undeclared (f_name f) m) && yields_name m && f_gen f
       && (Nat.ltb (index_of m) (index_of (f_name f)) || mem2 later (f_name f) m)) (used bits (f_name f))
     && str_list_eqb (names_of (template bits (f_name f))) (if yields f then [f_name f] else [])
     && Nat.eqb (List.length (template bits (f_name f))) (if yields f then 1 else 0)) FUNCTIONS
  && forallb (fun p => contains (used bits (fst p)) (snd p) && yields_name (fst p)) undeclared.
Lemma table_checked bits : bits = 32%Z \/ bits = 64%Z -> table_check bits = true.
Proof. intros [-> | ->]; vm_compute; reflexivity. Qed.

Fixpoint distinct (l : list string) : bool :=
  match l with [] => true | n :: r => negb (contains r n) && distinct r end.
Lemma distinct_NoDup l : distinct l = true -> NoDup l.
Proof.
  induction l as [|n r IH]; intros H; [constructor|]. cbn in H. apply andb_prop in H. destruct H as [H1 H2].
  constructor; [|auto]. intros X. apply contains_In in X. rewrite X in H1. discriminate.
Qed.
Lemma table_distinct : NoDup table_names.
Proof. apply distinct_NoDup. vm_compute. reflexivity. Qed.
Lemma table_entry i f : nth_error FUNCTIONS i = Some f -> entry FUNCTIONS i f.
Proof.
  intros H. split; [exact H|]. intros j g L Hj E.
  assert (j = i); [|lia]. apply (proj1 (NoDup_nth_error table_names) table_distinct).
  - unfold table_names. rewrite map_length. apply nth_error_Some. congruence.
  - unfold table_names. rewrite !nth_error_map, H, Hj. cbn. congruence.
Qed.
Lemma table_find n : In n table_names -> exists i f, entry FUNCTIONS i f /\ f_name f = n.
Proof.
  intros H. apply in_map_iff in H. destruct H as (f & E & H). apply In_nth_error in H. destruct H as (i & H).
  exists i, f. split; [apply table_entry; exact H|exact E].
Qed.
Lemma entry_In i f : entry FUNCTIONS i f -> In f FUNCTIONS.
Proof. intros [H _]. eapply nth_error_In. exact H. Qed.
Lemma entry_table i f : entry FUNCTIONS i f -> In (f_name f) table_names.
Proof. intros H. apply in_map. eapply entry_In. exact H. Qed.
Lemma index_of_entry i f : entry FUNCTIONS i f -> index_of (f_name f) = i.
Proof. intros H. unfold index_of. assert (E : find_fn FUNCTIONS (f_name f) 0 = Some (i, f)) by (apply find_fn_entry; auto). rewrite E. reflexivity. Qed.
Lemma yields_entry i f : entry FUNCTIONS i f -> yields_name (f_name f) = yields f.
Proof. intros H. unfold yields_name. assert (E : find_fn FUNCTIONS (f_name f) 0 = Some (i, f)) by (apply find_fn_entry; auto). rewrite E. reflexivity. Qed.

Section Library.
  Variables (bits : Z) (sub : string -> expr).
  Hypothesis HB : bits = 32%Z \/ bits = 64%Z.

  Lemma plug_name i : item_name (plug_i sub i) = item_name i.
  Proof. destruct i; reflexivity. Qed.
  Lemma code_eq f : In f FUNCTIONS -> code bits sub (f_name f) = map (plug_i sub) (template bits (f_name f)).
  Proof. intros H. pose proof (code_template bits sub HB) as T. rewrite Forall_forall in T. apply T. exact H. Qed.

  Lemma check_fn f : In f FUNCTIONS ->
    (forall m, In m (used bits (f_name f)) ->
       (In m (f_deps f) \/ In (f_name f, m) undeclared) /\ yields_name m = true /\ f_gen f = true /\
       (index_of m < index_of (f_name f) \/ In (f_name f, m) later)) /\
    names_of (template bits (f_name f)) = (if yields f then [f_name f] else []) /\
    List.length (template bits (f_name f)) = (if yields f then 1 else 0).
  Proof.
    intros H. pose proof (table_checked bits HB) as T. unfold table_check in T. apply andb_prop in T. destruct T as [T _].
    rewrite forallb_forall in T. specialize (T f H). apply andb_prop in T. destruct T as [T T3]. apply andb_prop in T. destruct T as [T T2].
    split; [|split].
    - intros m Hm. rewrite forallb_forall in T. specialize (T m Hm). apply andb_prop in T. destruct T as [T B4].
      apply andb_prop in T. destruct T as [T B3]. apply andb_prop in T. destruct T as [B1 B2].
      apply orb_prop in B1. apply orb_prop in B4. rewrite contains_In, mem2_In in B1. rewrite Nat.ltb_lt, mem2_In in B4. auto.
    - unfold str_list_eqb in T2. destruct (list_eq_dec string_dec _ _) as [E|]; [exact E|discriminate].
    - apply Nat.eqb_eq. exact T3.
  Qed.
  Lemma check_undeclared f m : In (f, m) undeclared -> In m (used bits f) /\ yields_name f = true.
  Proof.
    intros H. pose proof (table_checked bits HB) as T. unfold table_check in T. apply andb_prop in T. destruct T as [_ T].
    rewrite forallb_forall in T. specialize (T _ H). cbn in T. apply andb_prop in T. rewrite contains_In in T. exact T.
  Qed.

  (** the items of one function *)
  Lemma code_items f it : In f FUNCTIONS -> In it (code bits sub (f_name f)) -> yields f = true /\ item_name it = Some (f_name f).
  Proof.
    intros H Hi. rewrite (code_eq f H) in Hi. destruct (check_fn f H) as (_ & N & L).
    destruct (template bits (f_name f)) as [|t [|u r]]; [destruct Hi| |].
    - cbn in L. destruct (yields f); [|discriminate]. split; [reflexivity|]. destruct Hi as [<-|[]]. rewrite plug_name.
      cbn in N. destruct (item_name t); cbn in N; [inversion N; reflexivity|discriminate].
    - cbn in L. destruct (yields f); discriminate.
  Qed.
  Lemma code_yields f : In f FUNCTIONS -> yields f = true -> exists it, code bits sub (f_name f) = [it] /\ item_name it = Some (f_name f).
  Proof.
    intros H Y. pose proof (code_items f) as CI. rewrite (code_eq f H) in *. destruct (check_fn f H) as (_ & N & L).
    rewrite Y in L. destruct (template bits (f_name f)) as [|t [|u r]]; try discriminate. exists (plug_i sub t). split; [reflexivity|].
    apply CI; [exact H|left; reflexivity].
  Qed.

  Hypothesis HP : plain_sub sub.
  Lemma code_used f it n : In f FUNCTIONS -> In it (code bits sub (f_name f)) -> In n (item_free it) -> In n table_names ->
    In n (used bits (f_name f)).
  Proof.
    intros H Hi Hn T. apply filter_In. split; [|apply contains_In; exact T].
    rewrite <- (plug_items sub n (fun g b => sub_none sub g b n HP T)), <- code_eq by exact H.
    apply in_flat_map. exists it. auto.
  Qed.
  Lemma used_code f n : In f FUNCTIONS -> In n (used bits (f_name f)) ->
    exists it, In it (code bits sub (f_name f)) /\ In n (item_free it) /\ In n table_names.
  Proof.
    intros H U. apply filter_In in U. destruct U as [U T]. apply contains_In in T.
    rewrite <- (plug_items sub n (fun g b => sub_none sub g b n HP T)), <- code_eq in U by exact H.
    apply in_flat_map in U. destruct U as (it & U & V). exists it. auto.
  Qed.

  Variables (names exclude : list string) (lib : list item).
  Hypothesis HL : library bits sub names exclude = Some lib.
  Notation R := (reach FUNCTIONS names exclude).

  Lemma lib_items it : In it lib <-> exists i f, entry FUNCTIONS i f /\ R (f_name f) /\ f_gen f = true /\ In it (code bits sub (f_name f)).
  Proof.
    unfold library in HL. destruct (closure_ok FUNCTIONS names exclude) as (l & E & _ & C). rewrite E in HL. inversion HL. subst lib.
    rewrite in_flat_map. split.
    - intros ((i & f) & H & Hi). cbn [snd] in Hi. destruct (f_gen f) eqn:G; [|destruct Hi]. apply C in H. exists i, f. tauto.
    - intros (i & f & En & Rf & G & Hi). exists (i, f). split; [apply C; auto|]. cbn [snd]. rewrite G. exact Hi.
  Qed.
  Lemma lib_name n : (exists it, In it lib /\ item_name it = Some n) <-> R n /\ yields_name n = true.
  Proof.
    split.
    - intros (it & H & N). apply lib_items in H. destruct H as (i & f & En & Rf & G & Hi).
      destruct (code_items f it (entry_In _ _ En) Hi) as [Y N']. rewrite N in N'. inversion N'. subst n.
      split; [exact Rf|]. rewrite (yields_entry _ _ En). exact Y.
    - intros [Rn Y]. unfold yields_name in Y. destruct (find_fn FUNCTIONS n 0) as [[i f]|] eqn:F; [|discriminate].
      apply find_fn_entry in F. destruct F as [En <-]. destruct (code_yields f (entry_In _ _ En) Y) as (it & E & N).
      exists it. split; [|exact N]. apply lib_items. exists i, f. split; [exact En|]. split; [exact Rn|].
      split; [apply andb_prop in Y; tauto|rewrite E; left; reflexivity].
  Qed.

  Theorem library_criterion : (forall n, In n exclude -> ~ In n table_names) ->
    (self_contained lib <-> forall f m, In (f, m) undeclared -> R f -> R m).
  Proof.
    intros X. split.
    - intros S f m H Rf. destruct (check_undeclared f m H) as [U Y]. unfold yields_name in Y.
      destruct (find_fn FUNCTIONS f 0) as [[i g]|] eqn:F; [|discriminate]. apply find_fn_entry in F. destruct F as [En <-].
      destruct (used_code g m (entry_In _ _ En) U) as (it & Hi & Hm & T).
      destruct (S it m) as (it' & H1 & H2); [|exact Hm|exact T|].
      + apply lib_items. exists i, g. apply andb_prop in Y. tauto.
      + apply (proj1 (lib_name m)). exists it'. auto.
    - intros C it n Hi Hn T. apply lib_items in Hi. destruct Hi as (i & f & En & Rf & G & Hi).
      pose proof (code_used f it n (entry_In _ _ En) Hi Hn T) as U.
      destruct (proj1 (check_fn f (entry_In _ _ En)) n U) as (D & Y & _ & _). apply lib_name. split; [|exact Y].
      destruct D as [D|D]; [|exact (C _ _ D Rf)]. apply (reach_dep _ _ _ i f); auto.
      intros E. exact (X n E T).
  Qed.

  (** order *)
  Definition position (i : item) : nat := index_of (match item_name i with Some n => n | None => "" end).
  Lemma library_sorted : StronglySorted lt (map position lib).
  Proof.
    pose proof HL as HL2. unfold library in HL2. destruct (closure_ok FUNCTIONS names exclude) as (l & El & Sl & C). rewrite El in HL2. injection HL2 as HL'.
    unfold position.
    rewrite <- HL'. clear -Sl C HB. unfold in_table_order in Sl.
    assert (K : forall i f, In (i, f) l -> entry FUNCTIONS i f) by (intros i f H; apply C; exact H). clear C.
    assert (F : forall l, (forall i f, In (i, f) l -> entry FUNCTIONS i f) -> forall k,
      Forall (lt k) (map fst l) -> Forall (lt k) (map (fun i => index_of (match item_name i with Some n => n | None => "" end))
        (flat_map (fun p => if f_gen (snd p) then code bits sub (f_name (snd p)) else []) l))).
    { clear -HB. intros l K k H. rewrite Forall_forall in *. intros x Hx. apply in_map_iff in Hx. destruct Hx as (it & <- & Hx).
      apply in_flat_map in Hx. destruct Hx as ((i & f) & Hp & Hx). cbn [snd] in Hx. destruct (f_gen f); [|destruct Hx].
      pose proof (K i f Hp) as En. destruct (code_items f it (entry_In _ _ En) Hx) as [_ ->].
      rewrite (index_of_entry i f En). apply H. apply in_map_iff. exists (i, f). auto. }
    induction l as [|(i & f) l IH]; [constructor|]. cbn [map fst] in Sl. inversion Sl as [|? ? S1 F1]; subst.
    cbn [flat_map snd]. rewrite map_app.
    assert (IH' := IH S1 (fun i f H => K i f (or_intror H))).
    pose proof (K i f (or_introl eq_refl)) as En.
    destruct (f_gen f) eqn:G; [|exact IH'].
    destruct (yields f) eqn:Y.
    - destruct (code_yields f (entry_In _ _ En) Y) as (it & -> & Nm). cbn [map app]. rewrite Nm, (index_of_entry i f En).
      constructor; [exact IH'|]. apply F; [intros; apply K; right; assumption|exact F1].
    - destruct (code bits sub (f_name f)) as [|it r] eqn:Cd; [exact IH'|].
      destruct (code_items f it (entry_In _ _ En)) as [Y' _]; [rewrite Cd; left; reflexivity|]. congruence.
  Qed.
  Lemma library_positions a it b : lib = a ++ it :: b -> forall it', In it' b -> position it < position it'.
  Proof.
    intros E it' Hi. pose proof library_sorted as SS. rewrite E, map_app in SS. cbn [map] in SS.
    clear -SS Hi. induction (map _ a) as [|x l IH] in SS |- *; cbn in SS; inversion SS as [|? ? S1 F1]; subst; [|auto].
    rewrite Forall_forall in F1. apply F1. apply in_map. exact Hi.
  Qed.
  Theorem library_order : self_contained lib -> (forall f m, In (f, m) later -> ~ R f) -> defined_before_use lib.
  Proof.
    intros S N a it b n E Hn T.
    assert (Hi : In it lib) by (rewrite E; apply in_elt).
    destruct (S it n Hi Hn T) as (it' & Hi' & N').
    rewrite E in Hi'. apply in_app_or in Hi'. destruct Hi' as [Hi'|Hi']; [exists it'; auto|exfalso].
    apply lib_items in Hi. destruct Hi as (i & f & En & Rf & G & Hc).
    pose proof (code_used f it n (entry_In _ _ En) Hc Hn T) as U.
    destruct (proj1 (check_fn f (entry_In _ _ En)) n U) as (_ & _ & _ & O).
    destruct O as [O|O]; [|exact (N _ _ O Rf)].
    destruct (code_items f it (entry_In _ _ En) Hc) as [_ Nf].
    assert (Lt : index_of (f_name f) <= index_of n).
    { destruct Hi' as [<-|Hi']; [rewrite Nf in N'; inversion N'; lia|].
      pose proof (library_positions a it b E it' Hi') as P. unfold position in P. rewrite Nf, N' in P. lia. }
    lia.
  Qed.

  Theorem library_names : NoDup (map item_name lib).
  Proof.
    unfold library in HL. destruct (closure_ok FUNCTIONS names exclude) as (l & El & Sl & C). rewrite El in HL. inversion HL as [HL'].
    clear HL HL' El. unfold in_table_order in Sl.
    assert (K : forall i f, In (i, f) l -> entry FUNCTIONS i f) by (intros i f H; apply C; exact H). clear C.
    induction l as [|(i & f) l IH]; [constructor|]. cbn [map fst] in Sl. inversion Sl as [|? ? S1 F1]; subst.
    cbn [flat_map snd]. rewrite map_app. assert (IH' := IH S1 (fun i f H => K i f (or_intror H))).
    pose proof (K i f (or_introl eq_refl)) as En.
    destruct (f_gen f) eqn:G; [|exact IH'].
    destruct (yields f) eqn:Y.
    - destruct (code_yields f (entry_In _ _ En) Y) as (it & -> & Nm). cbn [map app]. rewrite Nm. constructor; [|exact IH'].
      intros H. apply in_map_iff in H. destruct H as (it' & N' & H). apply in_flat_map in H. destruct H as ((j & g) & Hp & Hx).
      cbn [snd] in Hx. destruct (f_gen g); [|destruct Hx]. pose proof (K j g (or_intror Hp)) as En'.
      destruct (code_items g it' (entry_In _ _ En') Hx) as [_ N2]. rewrite N' in N2. inversion N2 as [N3].
      destruct (entry_name _ _ _ _ _ En En' N3) as [-> ->]. rewrite Forall_forall in F1.
      assert (j < j); [|lia]. apply F1. apply in_map_iff. exists (j, g). auto.
    - destruct (code bits sub (f_name f)) as [|it r] eqn:Cd; [exact IH'|].
      destruct (code_items f it (entry_In _ _ En)) as [Y' _]; [rewrite Cd; left; reflexivity|]. congruence.
  Qed.
End Library.

(** ** Requests that are safe *)
Definition closure (n : string) : list string :=
  match get_functions_and_deps FUNCTIONS [n] [] with Some l => map (fun p => f_name (snd p)) l | None => [] end.
Lemma closure_reach n m : In m (closure n) <-> reach FUNCTIONS [n] [] m /\ In m table_names.
Proof.
  unfold closure. destruct (closure_ok FUNCTIONS [n] []) as (l & E & _ & C). rewrite E, in_map_iff. split.
  - intros ((i & f) & <- & H). cbn. apply C in H. split; [tauto|]. eapply entry_table. apply H.
  - intros [Rm T]. destruct (table_find m T) as (i & f & En & <-). exists (i, f). split; [reflexivity|]. apply C. auto.
Qed.
Lemma reach_from names exclude m : (forall n, In n exclude -> ~ In n table_names) -> In m table_names ->
  reach FUNCTIONS names exclude m <-> exists n, In n names /\ In m (closure n).
Proof.
  intros X T. split.
  - intros H. assert (G : exists n, In n names /\ reach FUNCTIONS [n] [] m).
    { clear T. induction H as [n Hn _|i f d En _ (n & Hn & IH) Hd _]; [exists n; split; [exact Hn|apply reach_name; [left; reflexivity|intros []]]|].
      exists n. split; [exact Hn|]. apply (reach_dep _ _ _ i f); auto. }
    destruct G as (n & Hn & H'). exists n. split; [exact Hn|]. apply closure_reach. auto.
  - intros (n & Hn & H). apply closure_reach in H. destruct H as [H _]. revert T. 
    induction H as [k Hk _|i f d En H IH Hd _]; intros T.
    + destruct Hk as [<-|[]]. apply reach_name; [exact Hn|]. intros E. exact (X _ E T).
    + apply (reach_dep _ _ _ i f); auto; [apply IH; eapply entry_table; exact En|]. intros E. exact (X _ E T).
Qed.

Definition safe_alone : list string :=
  ["fty"; "uty"; "ity"; "round"; "nextafter"; "asin"; "acos"; "ln_1p"; "pnorm"; "sin"; "cos"; "sin_cos"; "invtrig";
   "trig"; "libm"; "all"].
Definition closed_alone (n : string) : bool :=
  let c := closure n in forallb (fun p => negb (contains c (fst p)) || contains c (snd p)) undeclared.
Lemma safe_alone_ok : forallb closed_alone safe_alone = true.
Proof. vm_compute. reflexivity. Qed.
(** no other single request is *)
Lemma unsafe_alone : forallb (fun n => contains safe_alone n || negb (closed_alone n)) table_names = true.
Proof. vm_compute. reflexivity. Qed.
Lemma libm_has_all : forallb (fun n => forallb (fun p => contains (closure n) (snd p)) undeclared) ["libm"; "all"] = true.
Proof. vm_compute. reflexivity. Qed.
Lemma undeclared_table : forallb (fun p => contains table_names (fst p) && contains table_names (snd p)) undeclared = true.
Proof. vm_compute. reflexivity. Qed.
Lemma undeclared_names f m : In (f, m) undeclared -> In f table_names /\ In m table_names.
Proof.
  intros H. pose proof undeclared_table as U. rewrite forallb_forall in U. specialize (U _ H). cbn [fst snd] in U.
  apply andb_prop in U. rewrite !contains_In in U. exact U.
Qed.

Theorem library_safe bits sub names exclude lib : bits = 32%Z \/ bits = 64%Z -> plain_sub sub ->
  (forall n, In n exclude -> ~ In n table_names) ->
  (forall n, In n names -> In n table_names -> In n safe_alone) \/ In "libm" names \/ In "all" names ->
  library bits sub names exclude = Some lib -> self_contained lib.
Proof.
  intros HB HP X HN HL. apply (library_criterion bits sub HB HP names exclude lib HL X).
  intros f m H Rf. destruct (undeclared_names f m H) as [Tf Tm].
  apply (reach_from _ _ _ X Tf) in Rf. destruct Rf as (n & Hn & Hf). apply (reach_from _ _ _ X Tm).
  destruct HN as [HN|HN].
  - exists n. split; [exact Hn|]. pose proof safe_alone_ok as S. rewrite forallb_forall in S.
    assert (Tn : In n table_names).
    { apply closure_reach in Hf. destruct Hf as [Hf _]. clear -Hf Tf.
      revert Tf. induction Hf as [k [<-|[]] _|i g d En _ IH _ _]; intros T; [exact T|]. apply IH. eapply entry_table. exact En. }
    specialize (S n (HN n Hn Tn)). unfold closed_alone in S. rewrite forallb_forall in S. specialize (S _ H). cbn [fst snd] in S.
    apply orb_prop in S. destruct S as [S|S]; [|apply contains_In; exact S].
    apply contains_In in Hf. rewrite Hf in S. discriminate.
  - pose proof libm_has_all as L. rewrite forallb_forall in L.
    assert (G : forall k, In k ["libm"; "all"] -> In m (closure k)).
    { intros k Hk. specialize (L k Hk). rewrite forallb_forall in L. specialize (L _ H). apply contains_In in L. exact L. }
    destruct HN as [HN|HN]; [exists "libm"|exists "all"]; (split; [exact HN|]); apply G; cbn; auto.
Qed.

Theorem library_exists bits sub names exclude : exists lib, library bits sub names exclude = Some lib.
Proof. unfold library. destruct (closure_ok FUNCTIONS names exclude) as (l & E & _). rewrite E. eauto. Qed.

Theorem library_unsafe bits sub n lib : bits = 32%Z \/ bits = 64%Z -> plain_sub sub ->
  In n table_names -> ~ In n safe_alone -> library bits sub [n] [] = Some lib -> ~ self_contained lib.
Proof.
  intros HB HP T N HL S.
  assert (X : forall k, In k (@nil string) -> ~ In k table_names) by (intros k []).
  pose proof (proj1 (library_criterion bits sub HB HP [n] [] lib HL X) S) as C.
  pose proof unsafe_alone as U. rewrite forallb_forall in U. specialize (U n T). apply orb_prop in U.
  destruct U as [U|U]; [apply N, contains_In; exact U|].
  assert (K : closed_alone n = true); [|rewrite K in U; discriminate].
  unfold closed_alone. apply forallb_forall. intros (f & m) H. cbn [fst snd].
  destruct (undeclared_names f m H) as [Tf Tm].
  destruct (contains (closure n) f) eqn:Cf; [|reflexivity]. cbn [negb orb]. apply contains_In, closure_reach. split; [|exact Tm].
  apply (C f m H). apply contains_In, closure_reach in Cf. tauto.
Qed.

Theorem library_defines bits sub names exclude lib : bits = 32%Z \/ bits = 64%Z ->
  library bits sub names exclude = Some lib ->
  forall i f, entry FUNCTIONS i f -> f_gen f = true -> f_name f <> "pnorm" ->
  ((exists it, In it lib /\ item_name it = Some (f_name f)) <-> reach FUNCTIONS names exclude (f_name f)).
Proof.
  intros HB HL i f En G N. rewrite (lib_name bits sub HB names exclude lib HL (f_name f)), (yields_entry i f En).
  unfold yields. rewrite G. destruct (String.eqb_spec (f_name f) "pnorm"); [contradiction|]. cbn. tauto.
Qed.
Theorem library_only bits sub names exclude lib : bits = 32%Z \/ bits = 64%Z ->
  library bits sub names exclude = Some lib ->
  forall it, In it lib -> exists i f, entry FUNCTIONS i f /\ f_gen f = true /\ item_name it = Some (f_name f) /\
    reach FUNCTIONS names exclude (f_name f).
Proof.
  intros HB HL it H. apply (lib_items bits sub HB names exclude lib HL) in H. destruct H as (i & f & En & R & G & Hi).
  exists i, f. destruct (code_items bits sub HB f it (entry_In _ _ En) Hi) as [_ N]. auto.
Qed.
