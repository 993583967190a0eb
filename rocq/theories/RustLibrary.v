(** The text of generated Rust libraries: quoting, spacing, and the agreement of
    the token streams with the syntax trees. *)
From Coq Require Import List String Ascii Bool Arith ZArith Lia.
From Verif Require Import Res Syntax Item RustFmt RustLex RustFmtFacts Functions GenCode GenTokens ItemTokens.
Import ListNotations.
Open Scope string_scope.
Open Scope list_scope.

(** ** Streams that may stand for an interpolated expression

    One or more well made tokens, not running together, no brace groups; before
    them [=] and after them [*], [+] and [;] may stand. *)
Definition first_tt (s : list tt) : tt := hd (TPunct ";") s.
Definition last_tt (s : list tt) : tt := last s (TPunct ";").
Definition insertable (s : list tt) : bool :=
  negb (is_empty s) && forallb well_made s && spaced s && (list_max (map levels s) =? 0)%nat
  && negb (runs_together (TPunct "=") (first_tt s))
  && forallb (fun op => negb (runs_together (last_tt s) (TPunct op))) ["*"; "+"; ";"].

(** ** Quoting *)
Definition is_hole (t : tt) : bool := match t with TWord (String "#" _) => true | _ => false end.
Definition value_of (env : list (string * list tt)) (v : string) : list tt :=
  match find (fun p => String.eqb (fst p) v) env with Some p => snd p | None => [] end.

Fixpoint well_or_hole (t : tt) : bool :=
  match t with
  | TGroup d ts => (match d with DNone => false | _ => true end) && forallb well_or_hole ts
  | _ => is_hole t || well_made t
  end.

Lemma interpolate_plain env t : is_hole t = false -> (forall d ts, t <> TGroup d ts) -> interpolate env t = [t].
Proof.
  intros H N. destruct t as [d ts|s|op|s|s]; try reflexivity; [exfalso; exact (N d ts eq_refl)|].
  destruct s as [|c s]; [reflexivity|]. destruct c as [[] [] [] [] [] [] [] []]; try reflexivity. discriminate.
Qed.
Definition allowed (allow : string -> bool) (t : tt) : bool := match t with TWord (String "#" v) => allow v | _ => true end.
Lemma hole_value allow env t : is_hole t = true -> exists v, interpolate env t = value_of env v /\ allowed allow t = allow v.
Proof.
  intros H. destruct t as [d ts|s|op|s|s]; try discriminate. destruct s as [|c s]; [discriminate|].
  destruct c as [[] [] [] [] [] [] [] []]; try discriminate. exists s. split; reflexivity.
Qed.
Lemma not_hole allow t : is_hole t = false -> allowed allow t = true.
Proof.
  intros H. destruct t as [d ts|s|op|s|s]; try reflexivity. destruct s as [|c s]; [reflexivity|].
  destruct c as [[] [] [] [] [] [] [] []]; try reflexivity. discriminate.
Qed.

Lemma forallb_flat {A B} (f : A -> list B) (p : B -> bool) l : (forall a, In a l -> forallb p (f a) = true) -> forallb p (flat_map f l) = true.
Proof.
  induction l as [|a l IH]; intros H; [reflexivity|]. cbn [flat_map]. rewrite forallb_app, (H a (or_introl eq_refl)).
  apply IH. intros b Hb. apply H. right. exact Hb.
Qed.

Lemma interpolate_well env : (forall v, forallb well_made (value_of env v) = true) ->
  forall t, well_or_hole t = true -> forallb well_made (interpolate env t) = true.
Proof.
  intros HE. refine (tt_ind' _ _ _ _ _ _).
  - intros d ts IH W. cbn [well_or_hole] in W. apply andb_prop in W. destruct W as [D W]. rewrite forallb_forall in W.
    cbn [interpolate forallb well_made]. rewrite D, andb_true_r. apply forallb_flat.
    intros a Ha. rewrite Forall_forall in IH. exact (IH a Ha (W a Ha)).
  - intros s W. destruct (is_hole (TWord s)) eqn:H.
    + destruct (hole_value (fun _ => true) env _ H) as (v & -> & _). apply HE.
    + rewrite interpolate_plain by (auto; discriminate). cbn [well_or_hole] in W. rewrite H in W. cbn [orb] in W. cbn [forallb]. rewrite W. reflexivity.
  - intros s W. cbn in W. cbn [interpolate forallb]. change (well_made (TPunct s) = true) in W. rewrite W. reflexivity.
  - intros s W. change (well_made (TLit s) = true) in W. cbn [interpolate forallb]. rewrite W. reflexivity.
  - intros s W. change (well_made (TLife s) = true) in W. cbn [interpolate forallb]. rewrite W. reflexivity.
Qed.
Lemma quote_well env ts : (forall v, forallb well_made (value_of env v) = true) ->
  forallb well_or_hole ts = true -> forallb well_made (quote env ts) = true.
Proof. intros HE W. apply forallb_flat. intros a Ha. rewrite forallb_forall in W. apply interpolate_well; auto. Qed.

(** ** Spacing *)
Definition pair_ok (allow : string -> bool) (a b : tt) : bool :=
  if is_hole b then
    allowed allow b && negb (is_hole a) && match a with TWord _ | TGroup _ _ | TLife _ => true | TPunct op => existsb (String.eqb op) ["="; ";"] | _ => false end
  else if is_hole a then
    allowed allow a && match b with TGroup _ _ => true | TPunct op => existsb (String.eqb op) ["*"; "+"; ";"] | _ => false end
  else negb (runs_together a b).
Fixpoint gaps (allow : string -> bool) (ts : list tt) : bool :=
  match ts with
  | a :: ((b :: _) as r) => pair_ok allow a b && gaps allow r
  | [a] => allowed allow a
  | [] => true
  end.
Fixpoint gaps_in (allow : string -> bool) (t : tt) : bool :=
  match t with TGroup DBrace ts => gaps allow ts && forallb (gaps_in allow) ts | _ => true end.
Definition gapped (allow : string -> bool) (ts : list tt) : bool := gaps allow ts && forallb (gaps_in allow) ts.

Lemma no_run_app x y : x <> [] -> y <> [] ->
  no_run (x ++ y) = no_run x && negb (runs_together (last_tt x) (first_tt y)) && no_run y.
Proof.
  intros Hx Hy. induction x as [|a x IH]; [contradiction|]. destruct x as [|b x].
  - destruct y as [|b y]; [contradiction|]. cbn [app]. cbn. reflexivity.
  - specialize (IH ltac:(discriminate)). change ((a :: b :: x) ++ y) with (a :: b :: (x ++ y)).
    change (no_run (a :: b :: (x ++ y))) with (negb (runs_together a b) && no_run ((b :: x) ++ y)). rewrite IH.
    change (no_run (a :: b :: x)) with (negb (runs_together a b) && no_run (b :: x)).
    change (last_tt (a :: b :: x)) with (last_tt (b :: x)). rewrite !andb_assoc. reflexivity.
Qed.

Section Spacing.
  Variables (env : list (string * list tt)) (allow : string -> bool).
  Hypothesis HE : forall v, allow v = true -> insertable (value_of env v) = true.

  Lemma insertable_parts s : insertable s = true ->
    s <> [] /\ spaced s = true /\ list_max (map levels s) = 0 /\ runs_together (TPunct "=") (first_tt s) = false
    /\ runs_together (last_tt s) (TPunct "*") = false /\ runs_together (last_tt s) (TPunct "+") = false /\ runs_together (last_tt s) (TPunct ";") = false.
  Proof.
    clear. unfold insertable. intros H.
    repeat match goal with H : _ && _ = true |- _ => apply andb_prop in H; destruct H end.
    cbn [forallb] in *. rewrite andb_true_r in *.
    repeat match goal with H : _ && _ = true |- _ => apply andb_prop in H; destruct H end.
    repeat match goal with H : negb _ = true |- _ => apply negb_true_iff in H end.
    repeat split; auto.
    - intros ->. discriminate.
    - apply Nat.eqb_eq. assumption.
  Qed.

  Lemma one t : is_hole t = false -> exists t', interpolate env t = [t'] /\
    (forall b, runs_together t' b = runs_together t b) /\ (forall a, runs_together a t' = runs_together a t).
  Proof.
    intros H. destruct t as [d ts|s|op|s|s].
    - eexists. split; [reflexivity|]. split; [reflexivity|]. intros a. destruct a; reflexivity.
    - exists (TWord s). rewrite interpolate_plain by (auto; discriminate). auto.
    - exists (TPunct op). auto.
    - exists (TLit s). auto.
    - exists (TLife s). auto.
  Qed.
  Lemma hole_ins t : allowed allow t = true -> is_hole t = true -> insertable (interpolate env t) = true.
  Proof. intros A H. destruct (hole_value allow env t H) as (v & -> & E). rewrite E in A. exact (HE v A). Qed.
  Lemma after_semi b : runs_together (TPunct ";") b = false.
  Proof. destruct b; reflexivity. Qed.
  Lemma junction a b : pair_ok allow a b = true ->
    interpolate env a <> [] /\ interpolate env b <> [] /\
    runs_together (last_tt (interpolate env a)) (first_tt (interpolate env b)) = false.
  Proof.
    unfold pair_ok. destruct (is_hole b) eqn:Hb; intros H.
    - apply andb_prop in H. destruct H as [H P]. apply andb_prop in H. destruct H as [A Ha]. apply negb_true_iff in Ha.
      destruct (insertable_parts _ (hole_ins b A Hb)) as (N & _ & _ & EQ & _).
      destruct (one a Ha) as (a' & Ea & L & _). rewrite Ea. split; [discriminate|]. split; [exact N|].
      cbn [last_tt last]. change (last_tt [a']) with a'. rewrite L.
      destruct a as [d ts|s|op|s|s]; try reflexivity; [|discriminate].
      cbn [existsb] in P. rewrite orb_false_r in P. apply orb_prop in P. destruct P as [P|P]; apply String.eqb_eq in P; subst op.
      + exact EQ.
      + apply after_semi.
    - destruct (one b Hb) as (b' & Eb & _ & R). destruct (is_hole a) eqn:Ha.
      + apply andb_prop in H. destruct H as [A P].
        destruct (insertable_parts _ (hole_ins a A Ha)) as (N & _ & _ & _ & M & A' & S'). split; [exact N|]. split; [rewrite Eb; discriminate|].
        rewrite Eb. change (first_tt [b']) with b'. rewrite R. destruct b as [d ts|s|op|s|s]; try discriminate.
        * destruct (last_tt _); reflexivity.
        * cbn [existsb] in P. rewrite orb_false_r in P. apply orb_prop in P. destruct P as [P|P]; [apply String.eqb_eq in P; subst op; assumption|].
          apply orb_prop in P. destruct P as [P|P]; apply String.eqb_eq in P; subst op; assumption.
      + destruct (one a Ha) as (a' & Ea & L & _). rewrite Ea, Eb. split; [discriminate|]. split; [discriminate|].
        change (last_tt [a']) with a'. change (first_tt [b']) with b'. rewrite L, R. apply negb_true_iff in H. exact H.
  Qed.

  Lemma single a : gaps allow [a] = true -> no_run (interpolate env a) = true.
  Proof.
    cbn [gaps]. intros H. destruct (is_hole a) eqn:Ha.
    - destruct (insertable_parts _ (hole_ins a H Ha)) as (_ & S' & _). apply andb_prop in S'. apply S'.
    - destruct (one a Ha) as (a' & -> & _). reflexivity.
  Qed.
  Lemma pair_single a b : pair_ok allow a b = true -> gaps allow [a] = true.
  Proof.
    unfold pair_ok. cbn [gaps]. destruct (is_hole b); intros H.
    - apply andb_prop in H. destruct H as [H _]. apply andb_prop in H. destruct H as [_ H]. apply negb_true_iff in H. apply not_hole, H.
    - destruct (is_hole a) eqn:Ha; [apply andb_prop in H; apply H|apply not_hole, Ha].
  Qed.
  Lemma flat_first (a : tt) r : interpolate env a <> [] -> first_tt (flat_map (interpolate env) (a :: r)) = first_tt (interpolate env a).
  Proof. intros N. cbn [flat_map]. destruct (interpolate env a); [contradiction|reflexivity]. Qed.

  Lemma gaps_run ts : gaps allow ts = true -> no_run (flat_map (interpolate env) ts) = true.
  Proof.
    induction ts as [|a r IH]; intros H; [reflexivity|]. destruct r as [|b r].
    - cbn [flat_map]. rewrite app_nil_r. apply single. exact H.
    - cbn [gaps] in H. apply andb_prop in H. destruct H as [P G]. specialize (IH G).
      destruct (junction a b P) as (Na & Nb & J). change (flat_map (interpolate env) (a :: b :: r)) with (interpolate env a ++ flat_map (interpolate env) (b :: r)).
      rewrite no_run_app; [|exact Na|].
      + rewrite (flat_first b r Nb), J, IH, (single a (pair_single a b P)). reflexivity.
      + cbn [flat_map]. intros E. apply app_eq_nil in E. apply Nb, (proj1 E).
  Qed.
  Lemma gaps_hole t ts : gaps allow ts = true -> In t ts -> allowed allow t = true.
  Proof.
    induction ts as [|a r IH]; intros G I; [destruct I|]. destruct I as [->|I].
    - destruct r as [|b r]; [exact G|cbn [gaps] in G; apply andb_prop in G; apply (pair_single t b), G].
    - destruct r as [|b r]; [destruct I|]. cbn [gaps] in G. apply andb_prop in G. apply IH; [apply G|exact I].
  Qed.
  Lemma gaps_spaced t : allowed allow t = true -> gaps_in allow t = true -> forallb spaced_tt (interpolate env t) = true.
  Proof.
    revert t. refine (tt_ind' _ _ _ _ _ _); try reflexivity.
    - intros d ts IH _ H. cbn [interpolate forallb]. rewrite andb_true_r. destruct d; try reflexivity.
      cbn [gaps_in] in H. apply andb_prop in H. destruct H as [G W]. cbn [spaced_tt]. apply andb_true_intro. split; [exact (gaps_run ts G)|].
      apply forallb_flat. intros a Ha. rewrite Forall_forall in IH. rewrite forallb_forall in W.
      apply (IH a Ha); [exact (gaps_hole a ts G Ha)|exact (W a Ha)].
    - intros s A _. destruct (is_hole (TWord s)) eqn:Hh.
      + destruct (insertable_parts _ (hole_ins _ A Hh)) as (_ & S' & _). apply andb_prop in S'. apply S'.
      + rewrite interpolate_plain by (auto; discriminate). reflexivity.
  Qed.
  Lemma quote_spaced ts : gapped allow ts = true -> spaced (quote env ts) = true.
  Proof.
    intros H. apply andb_prop in H. destruct H as [G W]. apply andb_true_intro. split; [exact (gaps_run ts G)|].
    apply forallb_flat. intros a Ha. rewrite forallb_forall in W. apply gaps_spaced; [exact (gaps_hole a ts G Ha)|exact (W a Ha)].
  Qed.

  (** Nesting is that of the template. *)
  Lemma max_app l l' : list_max (l ++ l') = Nat.max (list_max l) (list_max l').
  Proof. clear. induction l as [|a l IH]; [reflexivity|]. change (Nat.max a (list_max (l ++ l')) = Nat.max (Nat.max a (list_max l)) (list_max l')). rewrite IH. lia. Qed.
  Lemma flat_levels ts : (forall a, In a ts -> list_max (map levels (interpolate env a)) <= levels a) ->
    list_max (map levels (flat_map (interpolate env) ts)) <= list_max (map levels ts).
  Proof.
    clear. induction ts as [|a r IH]; intros H; [reflexivity|]. cbn [flat_map]. rewrite map_app, max_app.
    change (list_max (map levels (a :: r))) with (Nat.max (levels a) (list_max (map levels r))).
    pose proof (H a (or_introl eq_refl)). pose proof (IH (fun b Hb => H b (or_intror Hb))). lia.
  Qed.
  Lemma interpolate_levels t : allowed allow t = true -> gaps_in allow t = true ->
    list_max (map levels (interpolate env t)) <= levels t.
  Proof.
    revert t. refine (tt_ind' _ _ _ _ _ _).
    - intros d ts IH _ H. change (Nat.max (levels (TGroup d (flat_map (interpolate env) ts))) 0 <= levels (TGroup d ts)). rewrite Nat.max_0_r.
      destruct d; try (cbn; lia). cbn [gaps_in] in H. apply andb_prop in H. destruct H as [G W].
      change (S (list_max (map levels (flat_map (interpolate env) ts))) <= S (list_max (map levels ts))). apply le_n_S, flat_levels.
      intros a Ha. rewrite Forall_forall in IH. rewrite forallb_forall in W. apply (IH a Ha); [exact (gaps_hole a ts G Ha)|exact (W a Ha)].
    - intros s A _. destruct (is_hole (TWord s)) eqn:Hh.
      + destruct (insertable_parts _ (hole_ins _ A Hh)) as (_ & _ & -> & _). lia.
      + rewrite interpolate_plain by (auto; discriminate). cbn. lia.
    - intros; cbn; lia.
    - intros; cbn; lia.
    - intros; cbn; lia.
  Qed.
  Lemma quote_levels ts : gapped allow ts = true -> list_max (map levels (quote env ts)) <= list_max (map levels ts).
  Proof.
    intros H. apply andb_prop in H. destruct H as [G W]. apply flat_levels. intros a Ha. rewrite forallb_forall in W.
    apply interpolate_levels; [exact (gaps_hole a ts G Ha)|exact (W a Ha)].
  Qed.
End Spacing.

(** ** The streams of the generators *)

Definition sub_env (s : list tt) : list (string * list tt) := [("sub", s)].
Definition template (bits : Z) (name : string) : list tt := tokens bits (fun _ => [TWord "#sub"]) name.

Lemma tokens_template bits sub name : bits = 32%Z \/ bits = 64%Z ->
  tokens bits sub name = quote (sub_env (sub name)) (template bits name).
Proof.
  intros HB. unfold template, tokens. generalize (sub name). intros s.
  destruct HB as [-> | ->];
  repeat (match goal with |- context [if String.eqb name ?n then _ else _] => destruct (String.eqb name n); [vm_compute; reflexivity|] end);
  reflexivity.
Qed.

(** A stream after which anything may follow. *)
Definition closes (ts : list tt) : bool := match last_tt ts with TGroup _ _ => true | TPunct ";" => true | _ => false end.
Definition only_sub (v : string) : bool := String.eqb v "sub".
Definition template_ok (ts : list tt) : bool :=
  forallb well_or_hole ts && gapped only_sub ts && (list_max (map levels ts) <=? 30)%nat && closes ts.
Lemma templates_ok bits name : bits = 32%Z \/ bits = 64%Z -> template_ok (template bits name) = true.
Proof.
  intros HB. unfold template, tokens.
  destruct HB as [-> | ->];
  repeat (match goal with |- context [if String.eqb name ?n then _ else _] => destruct (String.eqb name n); [vm_compute; reflexivity|] end);
  reflexivity.
Qed.

(** The streams that [C29_lex_partial] and [C30_returns_partial] speak about,
    and that close. *)
Definition good (ts : list tt) : Prop :=
  forallb well_made ts = true /\ spaced ts = true /\ (list_max (map levels ts) <= 30)%nat /\ closes ts = true.

Lemma closes_run x b : closes x = true -> runs_together (last_tt x) b = false.
Proof.
  unfold closes. destruct (last_tt x) as [d ts|s|op|s|s]; try discriminate; [reflexivity|].
  intros H. destruct (String.eqb op ";") eqn:E; [apply String.eqb_eq in E; subst; apply after_semi|].
  exfalso. destruct op as [|[[] [] [] [] [] [] [] []] [|? ?]]; try discriminate.
Qed.
Lemma last_app {A} (x y : list A) d : y <> [] -> last (x ++ y) d = last y d.
Proof.
  intros N. induction x as [|a x IH]; [reflexivity|]. cbn [app]. rewrite <- IH. destruct (x ++ y) eqn:E; [|reflexivity].
  apply app_eq_nil in E. destruct E as [_ E]. contradiction.
Qed.
Lemma good_nil : good [].
Proof. repeat split; cbn; auto; lia. Qed.
Lemma good_app x y : good x -> good y -> good (x ++ y).
Proof.
  intros (W & Sx & L & C) (W' & Sy & L' & C'). destruct x as [|a x]; [repeat split; auto|]. destruct y as [|b y]; [rewrite app_nil_r; repeat split; auto|].
  repeat split.
  - rewrite forallb_app, W, W'. reflexivity.
  - unfold spaced in *. apply andb_prop in Sx, Sy. destruct Sx as [Nx Fx], Sy as [Ny Fy].
    rewrite no_run_app by discriminate. rewrite Nx, Ny, (closes_run (a :: x) _ C), forallb_app, Fx, Fy. reflexivity.
  - rewrite map_app, max_app. lia.
  - unfold closes, last_tt. rewrite last_app by discriminate. exact C'.
Qed.

Lemma good_flat {A} (f : A -> list tt) l : (forall a, In a l -> good (f a)) -> good (flat_map f l).
Proof.
  induction l as [|a l IH]; intros H; [exact good_nil|]. cbn [flat_map]. apply good_app; [apply H; left; reflexivity|].
  apply IH. intros b Hb. apply H. right. exact Hb.
Qed.

Lemma quote_closes env ts : gapped only_sub ts = true -> closes ts = true -> closes (quote env ts) = true.
Proof.
  intros _ C. destruct ts as [|a ts]; [reflexivity|].
  destruct (exists_last (l := a :: ts) ltac:(discriminate)) as (i & t & E). rewrite E in *. unfold quote. rewrite flat_map_app.
  cbn [flat_map]. rewrite app_nil_r. unfold closes, last_tt in *. rewrite last_last in C.
  destruct t as [d l|s|op|s|s]; try discriminate; cbn [interpolate]; rewrite last_last; [reflexivity|exact C].
Qed.
Lemma template_good ts s : template_ok ts = true -> insertable s = true -> good (quote (sub_env s) ts).
Proof.
  intros H I. unfold template_ok in H. apply andb_prop in H. destruct H as [H C]. apply andb_prop in H. destruct H as [H L].
  apply andb_prop in H. destruct H as [W G]. apply Nat.leb_le in L.
  assert (HE : forall v, only_sub v = true -> insertable (value_of (sub_env s) v) = true).
  { intros v Hv. apply String.eqb_eq in Hv. subst v. exact I. }
  repeat split.
  - apply quote_well; [|exact W]. intros v. unfold value_of, sub_env. cbn [find fst]. destruct (String.eqb "sub" v); [|reflexivity].
    unfold insertable in I. repeat (apply andb_prop in I; destruct I as [I ?]). assumption.
  - exact (quote_spaced (sub_env s) only_sub HE ts G).
  - pose proof (quote_levels (sub_env s) only_sub HE ts G). lia.
  - exact (quote_closes _ ts G C).
Qed.
Lemma tokens_good bits sub name : bits = 32%Z \/ bits = 64%Z -> insertable (sub name) = true -> good (tokens bits sub name).
Proof. intros HB I. rewrite tokens_template by exact HB. apply template_good; [exact (templates_ok bits name HB)|exact I]. Qed.

(** ** The tests *)
Definition row := (list tt * list tt * list tt)%type.
Definition row_ok (r : row) : bool := let '(x, y, ye) := r in forallb well_made x && forallb well_made y && forallb well_made ye.
Definition row_tokens (r : row) : list tt := let '(x, y, ye) := r in quote [("x", x); ("y", y); ("ye", ye)] q_row.
Lemma row_well r : row_ok r = true -> forallb well_made (row_tokens r) = true.
Proof.
  destruct r as [[x y] ye]. cbn [row_ok row_tokens]. intros H. apply andb_prop in H. destruct H as [H Z]. apply andb_prop in H. destruct H as [X Y].
  apply quote_well; [|vm_compute; reflexivity]. intros v. unfold value_of. cbn [find fst].
  destruct (String.eqb "x" v); [exact X|]. destruct (String.eqb "y" v); [exact Y|]. destruct (String.eqb "ye" v); [exact Z|reflexivity].
Qed.

Definition table_env (R : list tt) (acc : string) : list (string * list tt) := [("rows", R); ("acc", [TLit acc])].
Definition test_template (plots : bool) (t : spec) : list tt :=
  let str := TLit (String """" (s_name t) ++ """") in
  let vars := [("test_name", [TWord (s_name t)]); ("test_name_str", [str]); ("expr", s_expr t); ("accuracy", [TWord "#acc"]);
               ("accurate_values", [TWord "#rows"])] in
  quote (("plot_function", if plots then quote vars q_max_abs_plot else []) :: vars) q_max_abs.
Definition no_holes (v : string) : bool := false.
Definition test_ok (ts : list tt) : bool :=
  forallb well_or_hole ts && gapped no_holes ts && (list_max (map levels ts) <=? 30)%nat && closes ts.

Lemma test_good ts env : test_ok ts = true -> (forall v, forallb well_made (value_of env v) = true) -> good (quote env ts).
Proof.
  intros H HW. unfold test_ok in H. apply andb_prop in H. destruct H as [H C]. apply andb_prop in H. destruct H as [H L].
  apply andb_prop in H. destruct H as [W G]. apply Nat.leb_le in L.
  assert (HE : forall v, no_holes v = true -> insertable (value_of env v) = true) by discriminate.
  repeat split.
  - apply quote_well; assumption.
  - exact (quote_spaced env no_holes HE ts G).
  - pose proof (quote_levels env no_holes HE ts G). lia.
  - destruct ts as [|a ts]; [reflexivity|]. clear - C.
    destruct (exists_last (l := a :: ts) ltac:(discriminate)) as (i & t & E). rewrite E in *. unfold quote. rewrite flat_map_app.
    cbn [flat_map]. rewrite app_nil_r. unfold closes, last_tt in *. rewrite last_last in C.
    destruct t as [d l|s|op|s|s]; try discriminate; cbn [interpolate]; rewrite last_last; [reflexivity|exact C].
Qed.

Lemma max_abs_template plots rows acc name t : In t (specs name) -> s_hist t = None ->
  gen_max_abs plots rows acc t = quote (table_env (flat_map row_tokens rows) acc) (test_template plots t)
  /\ test_ok (test_template plots t) = true.
Proof.
  intros I H. unfold gen_max_abs. change (flat_map (fun r => let '(x, y, ye) := r in quote [("x", x); ("y", y); ("ye", ye)] q_row) rows) with (flat_map row_tokens rows).
  generalize (flat_map row_tokens rows). intros R. revert I H. unfold specs.
  repeat (match goal with |- context [if String.eqb name ?n then _ else _] => destruct (String.eqb name n) end; [cbn [In]; intros I H;
    repeat (destruct I as [<-|I]; [try discriminate H; split; destruct plots; vm_compute; reflexivity|]); destruct I|]).
  intros [].
Qed.

Lemma histogram_good name t pdf tmin tmax : In t (specs name) -> s_hist t = Some (pdf, tmin, tmax) -> good (gen_histogram pdf tmin tmax t).
Proof.
  intros I H. assert (K : test_ok (gen_histogram pdf tmin tmax t) = true /\ quote [] (gen_histogram pdf tmin tmax t) = gen_histogram pdf tmin tmax t).
  { revert I H. unfold specs.
    repeat (match goal with |- context [if String.eqb name ?n then _ else _] => destruct (String.eqb name n) end; [cbn [In]; intros I H;
      repeat (destruct I as [<-|I]; [cbn [s_hist] in H; first [discriminate H|injection H as <- <- <-; split; vm_compute; reflexivity]|]); destruct I|]).
    intros []. }
  destruct K as [K E]. rewrite <- E. apply test_good; [exact K|reflexivity].
Qed.
Lemma gen_test_good plots rows acc name t : In t (specs name) -> (forall r, In r (rows (s_name t)) -> row_ok r = true) ->
  lit_text (acc (s_name t)) = true -> good (gen_test plots rows acc t).
Proof.
  intros I HR HA. unfold gen_test. destruct (s_hist t) as [[[pdf tmin] tmax]|] eqn:H; [exact (histogram_good name t pdf tmin tmax I H)|].
  destruct (max_abs_template plots (rows (s_name t)) (acc (s_name t)) name t I H) as [-> T]. apply test_good; [exact T|].
  intros v. unfold value_of, table_env. cbn [find fst]. destruct (String.eqb "rows" v).
  - cbn [snd]. apply forallb_flat. intros r Hr. exact (row_well r (HR r Hr)).
  - destruct (String.eqb "acc" v); [|reflexivity]. cbn [snd forallb well_made]. rewrite HA. reflexivity.
Qed.
Lemma test_function_good plots : good (gen_test_function plots).
Proof.
  assert (E : quote [] (gen_test_function plots) = gen_test_function plots) by (destruct plots; vm_compute; reflexivity).
  rewrite <- E. apply test_good; [destruct plots; vm_compute; reflexivity|reflexivity].
Qed.

(** ** The library *)
Theorem library_text bits tests plots sub rows acc names exclude ts :
  bits = 32%Z \/ bits = 64%Z ->
  (forall n, insertable (sub n) = true) -> (forall t r, In r (rows t) -> row_ok r = true) -> (forall t, lit_text (acc t) = true) ->
  library_tokens bits tests plots sub rows acc names exclude = Some ts ->
  exists text, format_token_stream ts = Ok text /\ rust_lex text = stream_tokens ts.
Proof.
  intros HB HS HR HA. unfold library_tokens. destruct (get_functions_and_deps FUNCTIONS names exclude) as [l|]; [|discriminate].
  intros E. injection E as <-. set (fs := map snd l).
  match goal with |- context [format_token_stream ?T] => assert (G : good T) end.
  { apply good_app.
    - apply good_flat. intros f _. destruct (f_gen f); [apply tokens_good; auto|exact good_nil].
    - destruct tests; cbv iota; [|exact good_nil]. refine (good_app _ _ (test_function_good plots) _).
      apply good_flat. intros f _. apply good_flat. intros t Ht. apply (gen_test_good plots rows acc (f_name f) t Ht); auto. intros r. apply HR. }
  destruct G as (W & Sp & L & _). destruct (proj1 (format_levels _) L) as [text F]. exists text. split; [exact F|].
  exact (format_reads _ _ W Sp F).
Qed.

