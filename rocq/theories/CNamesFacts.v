(** Which generated libraries declare in C what they use. *)
From Coq Require Import List String Ascii Bool Arith ZArith Lia Sorted.
From Verif Require Import Res Syntax Item Functions FunctionsFacts GenCode GenCodeFacts CGen CGenFacts CLex CText CLibrary CNames CNamesText GenTypeLib.
Import ListNotations.
Open Scope string_scope.
Open Scope list_scope.

Lemma mem_In w l : mem w l = true <-> In w l.
Proof.
  unfold mem. rewrite existsb_exists. split.
  - intros (x & I & E). apply String.eqb_eq in E. subst. exact I.
  - intros I. exists w. split; [exact I|apply String.eqb_refl].
Qed.

Definition all_types : list string := ["fty"; "uty"; "ity"].
Lemma is_type_mem T w : is_type T w = mem w c_keyword_types || mem w T.
Proof. reflexivity. Qed.

(** ** Lists of words with holes *)
Fixpoint decl_words (T : list string) (ws : list wd) : list string :=
  match ws with
  | W a :: r =>
      match r with
      | W b :: _ => if is_type T a && is_ident b && negb (is_type T b) then b :: decl_words T r else decl_words T r
      | _ => decl_words T r
      end
  | H _ :: r => decl_words T r
  | [] => []
  end.
(** the most that can be declared *)
Fixpoint decl_any (ws : list wd) : list string :=
  match ws with
  | W a :: r =>
      match r with
      | W b :: _ => if is_type all_types a && is_ident b then b :: decl_any r else decl_any r
      | _ => decl_any r
      end
  | H _ :: r => decl_any r
  | [] => []
  end.
Fixpoint no_type_hole (ws : list wd) : bool :=
  match ws with
  | W a :: r => match r with H _ :: _ => negb (is_type all_types a) | _ => true end && no_type_hole r
  | H _ :: r => no_type_hole r
  | [] => true
  end.
Fixpoint whole (depth : nat) (ws : list wd) : bool :=
  match ws with
  | [] => false
  | H _ :: r => whole depth r
  | W w :: r =>
      let d := if String.eqb w "{" then S depth else if String.eqb w "}" then pred depth else depth in
      if Nat.eqb d 0 && (String.eqb w ";" || String.eqb w "}") then match r with [] => true | _ => false end else whole d r
  end.
Definition has (ws : list wd) (w : string) : bool := existsb (fun x => match x with W v => String.eqb w v | H _ => false end) ws.
Definition holes (ws : list wd) : list string := flat_map (fun x => match x with W _ => [] | H k => [k] end) ws.
Lemma has_In ws w : has ws w = true <-> In (W w) ws.
Proof.
  unfold has. rewrite existsb_exists. split.
  - intros ([v|k] & I & E); [|discriminate]. apply String.eqb_eq in E. subst. exact I.
  - intros I. exists (W w). split; [exact I|apply String.eqb_refl].
Qed.

Section Filled.
  Variables (o : copts) (sub : string -> expr).
  Notation F := (flat_map (filled o sub)).
  Definition tame : Prop := forall k w, In w (c_lex (expr_text o (cof (sub k)))) -> is_type all_types w = false /\ w <> "{" /\ w <> "}" /\ w <> ";".
  Hypothesis TA : tame.

  Lemma decls_hole depth cur h rest : (forall w, In w h -> w <> "{" /\ w <> "}" /\ w <> ";") ->
    decls_from depth cur (h ++ rest) = decls_from depth (rev h ++ cur) rest.
  Proof.
    revert cur. induction h as [|w h IH]; intros cur Hw; [reflexivity|]. destruct (Hw w (or_introl eq_refl)) as (A & B & C).
    cbn [List.app decls_from]. rewrite (proj2 (String.eqb_neq w "{") A), (proj2 (String.eqb_neq w "}") B), (proj2 (String.eqb_neq w ";") C). cbn [orb].
    rewrite andb_false_r, IH by (intros v I; apply Hw; right; exact I). cbn [rev]. rewrite <- app_assoc. reflexivity.
  Qed.
  Lemma decls_whole ws : forall depth cur rest, whole depth ws = true ->
    decls_from depth cur (F ws ++ rest) = (rev cur ++ F ws) :: decls_from 0 [] rest.
  Proof.
    induction ws as [|[w|k] r IH]; intros depth cur rest K; [discriminate| |].
    - cbn [whole] in K. cbn [flat_map filled List.app decls_from].
      destruct (Nat.eqb (if String.eqb w "{" then S depth else if String.eqb w "}" then pred depth else depth) 0 && (String.eqb w ";" || String.eqb w "}")).
      + destruct r; [|discriminate]. cbn. reflexivity.
      + rewrite IH by exact K. cbn [rev]. rewrite <- app_assoc. reflexivity.
    - cbn [whole] in K. cbn [flat_map filled]. rewrite <- app_assoc, decls_hole by (intros w I; apply (TA k w I)). rewrite IH by exact K. rewrite rev_app_distr, rev_involutive, app_assoc. reflexivity.
  Qed.

  Variable T : list string.
  Hypothesis TT : incl T all_types.
  Lemma type_up w : is_type T w = true -> is_type all_types w = true.
  Proof. rewrite !is_type_mem. intros E. apply orb_prop in E. apply orb_true_intro. destruct E as [E|E]; [left; exact E|right]. apply mem_In in E. apply mem_In. auto. Qed.
  Lemma type_down w : is_type all_types w = false -> is_type T w = false.
  Proof. intros E. destruct (is_type T w) eqn:K; [|reflexivity]. apply type_up in K. congruence. Qed.
  Lemma declared_skip w l : is_type T w = false -> declared T (w :: l) = declared T l.
  Proof. intros E. cbn [declared]. destruct l as [|b r]; [reflexivity|]. rewrite E. reflexivity. Qed.
  Lemma declared_hole h l : (forall w, In w h -> is_type T w = false) -> declared T (h ++ l) = declared T l.
  Proof. induction h as [|w h IH]; intros K; [reflexivity|]. cbn [List.app]. rewrite declared_skip by (apply K; left; reflexivity). apply IH. intros v I. apply K. right. exact I. Qed.
  Lemma declared_filled ws : no_type_hole ws = true -> declared T (F ws) = decl_words T ws.
  Proof.
    induction ws as [|[w|k] r IH]; intros K; [reflexivity| |].
    - cbn [no_type_hole] in K. apply andb_prop in K. destruct K as [K1 K2]. specialize (IH K2). cbn [flat_map filled List.app].
      destruct r as [|[b|k] r'].
      + reflexivity.
      + cbn [flat_map filled List.app] in IH |- *. change (declared T (w :: b :: F r')) with (if is_type T w && is_ident b && negb (is_type T b) then b :: declared T (b :: F r') else declared T (b :: F r')).
        rewrite IH. reflexivity.
      + apply negb_true_iff in K1. rewrite declared_skip by (apply type_down; exact K1). exact IH.
    - cbn [flat_map filled]. rewrite declared_hole by (intros w I; apply type_down, (TA k w I)). apply IH. exact K.
  Qed.
  Lemma decl_words_any ws : incl (decl_words T ws) (decl_any ws).
  Proof.
    induction ws as [|[w|k] r IH]; [intros x []| |exact IH]. cbn [decl_words decl_any]. destruct r as [|[b|k] r']; [exact IH| |exact IH].
    destruct (is_type T w && is_ident b && negb (is_type T b)) eqn:E.
    - apply andb_prop in E. destruct E as [E _]. apply andb_prop in E. destruct E as [E1 E2]. rewrite (type_up _ E1), E2. cbn [andb].
      intros x [<-|I]; [left; reflexivity|right; apply IH; exact I].
    - intros x I. apply IH in I. destruct (is_type all_types w && is_ident b); [right; exact I|exact I].
  Qed.
  Lemma decl_words_agree ws : (forall w, In (W w) ws -> is_type T w = is_type all_types w) -> decl_words T ws = decl_words all_types ws.
  Proof.
    induction ws as [|[w|k] r IH]; intros A; [reflexivity| |apply IH; intros v I; apply A; right; exact I].
    assert (IH' := IH (fun v I => A v (or_intror I))). cbn [decl_words]. destruct r as [|[b|k] r']; [reflexivity| |exact IH'].
    rewrite (A w (or_introl eq_refl)), (A b (or_intror (or_introl eq_refl))), IH'. reflexivity.
  Qed.
End Filled.

(** ** The table *)
Definition tmpl (bits : Z) (n : string) : item := hd (IOther "") (template bits n).
Definition tw (bits : Z) (n : string) : list wd := item_words (c_opts bits) (tmpl bits n).
Definition one_item (bits : Z) (n : string) : bool := match template bits n with [_] => true | _ => false end.

(** Everything they mention is declared in C. *)
Definition good_c : list string :=
  ["fty"; "uty"; "ity"; "LOG2_SHIFT"; "LOG2_OFFSET"; "ONE_MASK"; "ONE_BITS"; "EXP2_ONE"; "EXP2_SCALE"; "EXP2_MIN"; "EXP2_MAX";
   "ONE_THIRD"; "TWO_THIRDS"; "PI"; "PI_BY_2"; "TAN_PI_BY_8"; "PI_BY_8"; "LOG2_E"; "RECIP_LOG2_E"; "RECIP_LOG2_10"; "RECIP_PI";
   "RECIP_2PI"; "SQRT_RECIP_2PI"; "asin"; "acos"].
(** the variables of what is spliced in *)
Definition hole_vars (bits : Z) (n : string) : list string :=
  if is_const_item (template bits n) then [] else [hole_var n].
Definition is_typedef (n : string) : bool := mem n all_types.
Definition own (bits : Z) (n : string) : string := if is_typedef n then n else hd "" (decl_words all_types (tw bits n)).
Definition starts_typedef (ws : list wd) : bool := match ws with W w :: _ => String.eqb w "typedef" | _ => false end.

Definition row_ok (bits : Z) (owns : list string) (n : string) : bool :=
  let ws := tw bits n in
  if one_item bits n then
  whole 0 ws && no_type_hole ws && match ws with W _ :: _ => true | _ => false end && forallb (fun k => String.eqb k n) (holes ws) &&
  if mem n good_c then
    let us := used bits n in
    if is_typedef n then match us with [] => true | _ => false end
    else
      let ds := decl_words all_types ws in
      let da := decl_any ws in
      negb (starts_typedef ws) && match ds with [] => false | _ => true end
      && forallb (fun w => negb (has ws w) || mem w us) all_types
      && forallb (fun x => match x with
           | W w => negb (is_ident w) || mem w c_keywords || is_type all_types w || in_math_h w || mem w us || mem w ds
           | H k => forallb (fun v => mem v ds) (hole_vars bits k)
           end) ws
      && forallb (fun m => has ws m && is_ident m && negb (mem m c_keywords) && negb (mem m c_keyword_types) && negb (in_math_h m) && negb (mem m da)) us
  else
    let da := decl_any ws in
    existsb (fun x => match x with
      | W u => is_ident u && negb (mem u c_keywords) && negb (is_type all_types u) && negb (in_math_h u) && negb (mem u da) && negb (mem u owns)
      | H _ => false end) ws
  else true.
Lemma rows_ok bits : bits = 32%Z \/ bits = 64%Z -> forallb (row_ok bits (map (own bits) good_c)) table_names = true.
Proof. intros [-> | ->]; vm_compute; reflexivity. Qed.
(** a good item that shares its name in C with an entry of the table is that entry *)
Lemma own_ok bits : bits = 32%Z \/ bits = 64%Z ->
  forallb (fun n => String.eqb (own bits n) n || negb (mem (own bits n) table_names)) good_c = true.
Proof. intros [-> | ->]; vm_compute; reflexivity. Qed.
Lemma used_own bits : bits = 32%Z \/ bits = 64%Z ->
  forallb (fun n => forallb (fun m => String.eqb (own bits m) m) (used bits n)) good_c = true.
Proof. intros [-> | ->]; vm_compute; reflexivity. Qed.


Lemma typedef_words bits n : bits = 32%Z \/ bits = 64%Z -> In n all_types -> exists ts, tw bits n = W "typedef" :: map W ts ++ [W n; W ";"] /\ (ts = ["float"] \/ ts = ["double"] \/ ts = ["int"] \/ ts = ["unsigned"; "int"] \/ ts = ["long"; "long"] \/ ts = ["unsigned"; "long"; "long"]).
Proof.
  intros B [<-|[<-|[<-|[]]]]; destruct B as [-> | ->].
  - exists ["float"]. split; [vm_compute; reflexivity|tauto].
  - exists ["double"]. split; [vm_compute; reflexivity|tauto].
  - exists ["unsigned"; "int"]. split; [vm_compute; reflexivity|tauto].
  - exists ["unsigned"; "long"; "long"]. split; [vm_compute; reflexivity|tauto].
  - exists ["int"]. split; [vm_compute; reflexivity|tauto].
  - exists ["long"; "long"]. split; [vm_compute; reflexivity|tauto].
Qed.
Lemma typedef_declared T n ts : In n all_types -> ~ In n T ->
  ts = ["float"] \/ ts = ["double"] \/ ts = ["int"] \/ ts = ["unsigned"; "int"] \/ ts = ["long"; "long"] \/ ts = ["unsigned"; "long"; "long"] ->
  declared T ("typedef" :: ts ++ [n; ";"]) = [n].
Proof.
  intros I N E.
  assert (KT : forall w, mem w c_keyword_types = true -> is_type T w = true) by (intros w H; rewrite is_type_mem, H; reflexivity).
  assert (NT : is_type T n = false).
  { rewrite is_type_mem. apply orb_false_iff. split.
    - destruct I as [<-|[<-|[<-|[]]]]; reflexivity.
    - destruct (mem n T) eqn:M; [|reflexivity]. apply mem_In in M. contradiction. }
  assert (NI : is_ident n = true) by (destruct I as [<-|[<-|[<-|[]]]]; reflexivity).
  assert (K1 := KT "float" eq_refl). assert (K2 := KT "double" eq_refl). assert (K3 := KT "int" eq_refl). assert (K4 := KT "unsigned" eq_refl). assert (K5 := KT "long" eq_refl).
  assert (NS : is_ident ";" = false) by reflexivity.
  destruct E as [->|[->|[->|[->|[->| ->]]]]]; cbn [List.app declared]; rewrite ?K1, ?K2, ?K3, ?K4, ?K5, ?NI, ?NT, ?NS; cbn [negb andb]; rewrite ?andb_false_r; reflexivity.
Qed.

Section Library.
  Variables (bits : Z) (sub : string -> expr).
  Hypothesis HB : bits = 32%Z \/ bits = 64%Z.
  Notation o := (c_opts bits).
  (** what is spliced in has only the variables it should have *)
  Definition spliced_words : Prop := forall k w, In w (c_lex (expr_text o (cof (sub k)))) ->
    (is_ident w = true -> In w (hole_vars bits k)) /\ w <> "{" /\ w <> "}" /\ w <> ";".
  Hypothesis SW : spliced_words.
  Lemma spliced_tame : tame o sub.
  Proof.
    intros k w I. destruct (SW k w I) as (A & B). split; [|exact B]. destruct (is_type all_types w) eqn:E; [|reflexivity]. exfalso.
    assert (V : In w (hole_vars bits k)).
    { apply A. rewrite is_type_mem in E. apply orb_prop in E. destruct E as [E|E]; apply mem_In in E.
      - destruct E as [<-|[<-|[<-|[<-|[<-|[]]]]]]; reflexivity.
      - destruct E as [<-|[<-|[<-|[]]]]; reflexivity. }
    unfold hole_vars, hole_var in V. destruct (is_const_item (template bits k)); [destruct V|]. destruct (String.eqb k "atan2"); destruct V as [<-|[]]; discriminate.
  Qed.
  Definition D (n : string) : list string := flat_map (filled o sub) (tw bits n).

  Lemma row n : In n table_names -> row_ok bits (map (own bits) good_c) n = true.
  Proof. intros T. pose proof (rows_ok bits HB) as R. rewrite forallb_forall in R. exact (R n T). Qed.

  (** what is known after the entries [done] *)
  Definition inv (done T K : list string) : Prop :=
    (forall w, In w T <-> In w all_types /\ In w done) /\ (forall w, In w K <-> exists m, In m done /\ own bits m = w).
  Definition fine (done : list string) (n : string) : Prop := In n good_c /\ forall m, In m (used bits n) -> In m done.

  Lemma own_table n m : In n good_c -> own bits n = m -> In m table_names -> n = m.
  Proof.
    intros G E T. pose proof (own_ok bits HB) as R. rewrite forallb_forall in R. specialize (R n G). rewrite E in R. apply orb_prop in R. destruct R as [R|R].
    - apply String.eqb_eq in R. congruence.
    - apply negb_true_iff in R. assert (M : mem m table_names = true) by (apply mem_In; exact T). congruence.
  Qed.

  Section Step.
    Variables (n : string) (done T K : list string).
    Hypothesis TN : In n table_names.
    Hypothesis O : one_item bits n = true.
    Hypothesis ND : ~ In n done.
    Hypothesis DG : incl done good_c.
    Hypothesis IV : inv done T K.
    Definition passes : bool := forallb (known_word T K (D n)) (D n).

    Lemma TT : incl T all_types.
    Proof. intros w I. apply (proj1 IV) in I. tauto. Qed.
    Lemma parts : no_type_hole (tw bits n) = true /\ match tw bits n with W _ :: _ => true | _ => false end = true /\ (forall k, In (H k) (tw bits n) -> k = n).
    Proof.
      pose proof (row n TN) as R. unfold row_ok in R. rewrite O in R.
      apply andb_prop in R. destruct R as [R RG]. apply andb_prop in R. destruct R as [R RH]. apply andb_prop in R. destruct R as [R RW]. apply andb_prop in R. destruct R as [_ RN].
      split; [exact RN|]. split; [exact RW|]. intros k I. rewrite forallb_forall in RH. apply String.eqb_eq. apply RH. unfold holes. apply in_flat_map. exists (H k). split; [exact I|left; reflexivity].
    Qed.
    Lemma D_declared : declared T (D n) = decl_words T (tw bits n).
    Proof. apply (declared_filled o sub spliced_tame T TT). apply parts. Qed.
    Lemma D_head : (match D n with w :: _ => String.eqb w "typedef" | [] => false end) = starts_typedef (tw bits n).
    Proof. unfold D. destruct parts as (_ & P & _). destruct (tw bits n) as [|[w|k] r]; [discriminate|reflexivity|discriminate]. Qed.
    Lemma D_In w : In w (D n) <-> In (W w) (tw bits n) \/ exists k, In (H k) (tw bits n) /\ In w (c_lex (expr_text o (cof (sub k)))).
    Proof.
      unfold D. rewrite in_flat_map. split.
      - intros ([v|k] & I & J); cbn [filled] in J; [destruct J as [<-|[]]; left; exact I|right; exists k; auto].
      - intros [I|(k & I & J)]; [exists (W w); split; [exact I|left; reflexivity]|exists (H k); auto].
    Qed.
    (** a word that nothing declares *)
    Lemma unknown_word u : In (W u) (tw bits n) -> is_ident u = true -> mem u c_keywords = false -> is_type T u = false -> in_math_h u = false -> ~ In u K -> ~ In u (decl_any (tw bits n)) ->
      passes = false.
    Proof.
      intros I A B C M NK ND'. destruct passes eqn:P; [|reflexivity]. exfalso. unfold passes in P. rewrite forallb_forall in P. specialize (P u (proj2 (D_In u) (or_introl I))).
      unfold known_word in P. rewrite A, B, C, M, D_declared in P. cbn [negb orb] in P. apply orb_prop in P. destruct P as [P|P]; apply mem_In in P; [exact (NK P)|].
      apply ND'. exact (decl_words_any T TT _ u P).
    Qed.

    Lemma step_bad : ~ In n good_c -> passes = false.
    Proof.
      intros NG. pose proof (row n TN) as R. unfold row_ok in R. rewrite O in R. apply andb_prop in R. destruct R as [_ R].
      destruct (mem n good_c) eqn:G; [apply mem_In in G; contradiction|]. apply existsb_exists in R. destruct R as ([u|k] & I & R); [|discriminate].
      apply andb_prop in R. destruct R as [R R6]. apply andb_prop in R. destruct R as [R R5]. apply andb_prop in R. destruct R as [R R4]. apply andb_prop in R. destruct R as [R R3]. apply andb_prop in R. destruct R as [R1 R2].
      apply negb_true_iff in R2, R3, R4, R5, R6. apply (unknown_word u I R1 R2); [exact (type_down T TT u R3)|exact R4| |].
      - intros X. apply (proj2 IV) in X. destruct X as (m & X & E).
        assert (Y : mem u (map (own bits) good_c) = true) by (apply mem_In, in_map_iff; exists m; split; [exact E|exact (DG m X)]). congruence.
      - intros X. apply mem_In in X. congruence.
    Qed.

    Lemma step_typedef : In n all_types -> used bits n = [] /\ passes = true /\ declared T (D n) = [n] /\ starts_typedef (tw bits n) = true.
    Proof.
      intros TY.
      assert (U : used bits n = []).
      { destruct HB as [-> | ->]; destruct TY as [<-|[<-|[<-|[]]]]; vm_compute; reflexivity. }
      destruct (typedef_words bits n HB TY) as (ts & E & TS).
      assert (NT : ~ In n T) by (intros X; apply (proj1 IV) in X; tauto).
      assert (DE : D n = "typedef" :: ts ++ [n; ";"]).
      { unfold D. rewrite E. cbn [flat_map filled List.app]. rewrite flat_map_app, filled_known. reflexivity. }
      pose proof (typedef_declared T n ts TY NT TS) as DD. rewrite <- DE in DD. split; [exact U|]. split; [|split; [exact DD|rewrite E; reflexivity]].
      unfold passes. apply forallb_forall. intros w I. unfold known_word. rewrite DD. rewrite DE in I.
      destruct I as [<-|I]; [reflexivity|]. apply in_app_or in I. destruct I as [I|[<-|[<-|[]]]].
      - assert (KW : mem w c_keyword_types = true) by (destruct TS as [->|[->|[->|[->|[->| ->]]]]]; repeat (destruct I as [<-|I]; [reflexivity|]); destruct I).
        rewrite is_type_mem, KW. cbn [orb]. rewrite !orb_true_r. reflexivity.
      - unfold mem at 3. cbn [existsb]. rewrite String.eqb_refl. cbn [orb]. rewrite !orb_true_r. reflexivity.
      - reflexivity.
    Qed.

    Lemma step_good : In n good_c -> ~ In n all_types ->
      starts_typedef (tw bits n) = false /\
      ((forall m, In m (used bits n) -> In m done) -> passes = true /\ exists r, declared T (D n) = own bits n :: r) /\
      (passes = true -> forall m, In m (used bits n) -> In m done).
    Proof.
      intros G NTY. pose proof (row n TN) as R. unfold row_ok in R. rewrite O in R. apply andb_prop in R. destruct R as [_ R].
      assert (MG : mem n good_c = true) by (apply mem_In; exact G). rewrite MG in R.
      assert (IT : is_typedef n = false) by (unfold is_typedef; destruct (mem n all_types) eqn:E; [apply mem_In in E; contradiction|reflexivity]). rewrite IT in R.
      apply andb_prop in R. destruct R as [R RU]. apply andb_prop in R. destruct R as [R RK]. apply andb_prop in R. destruct R as [R RT]. apply andb_prop in R. destruct R as [RS RD].
      apply negb_true_iff in RS. split; [exact RS|]. rewrite forallb_forall in RU, RK, RT.
      assert (UO : forall m, In m (used bits n) -> own bits m = m).
      { intros m I. pose proof (used_own bits HB) as X. rewrite forallb_forall in X. specialize (X n G). rewrite forallb_forall in X. apply String.eqb_eq. exact (X m I). }
      split.
      - intros UD.
        assert (AG : forall w, In (W w) (tw bits n) -> is_type T w = is_type all_types w).
        { intros w I. rewrite !is_type_mem. f_equal. destruct (mem w all_types) eqn:E.
          - apply mem_In in E. pose proof (RT w E) as X. rewrite (proj2 (has_In (tw bits n) w) I) in X. cbn [negb orb] in X. apply mem_In in X. apply mem_In. apply (proj1 IV). split; [exact E|exact (UD w X)].
          - destruct (mem w T) eqn:E'; [|reflexivity]. apply mem_In in E'. apply TT in E'. apply mem_In in E'. congruence. }
        assert (DA : declared T (D n) = decl_words all_types (tw bits n)) by (rewrite D_declared; apply decl_words_agree; exact AG).
        split.
        + unfold passes. apply forallb_forall. intros w I. unfold known_word. rewrite DA. apply D_In in I. destruct I as [I|(k & I & J)].
          * pose proof (RK (W w) I) as X. cbn beta iota in X. rewrite (AG w I).
            apply orb_prop in X. destruct X as [X|X]; [|rewrite X; apply orb_true_r]. apply orb_prop in X. destruct X as [X|X]; [rewrite X; reflexivity|].
            assert (Y : mem w K = true) by (apply mem_In; apply (proj2 IV); exists w; apply mem_In in X; split; [exact (UD w X)|exact (UO w X)]). rewrite Y, !orb_true_r. reflexivity.
          * pose proof (RK (H k) I) as X. cbn beta iota in X. rewrite forallb_forall in X. destruct (is_ident w) eqn:ID; [|reflexivity].
            rewrite (X w (proj1 (SW k w J) ID)). apply orb_true_r.
        + rewrite DA. unfold own. rewrite IT. destruct (decl_words all_types (tw bits n)) as [|x r]; [discriminate|]. exists r. reflexivity.
      - intros P m I. pose proof (RU m I) as X. apply andb_prop in X. destruct X as [X X6]. apply andb_prop in X. destruct X as [X X5]. apply andb_prop in X. destruct X as [X X4]. apply andb_prop in X. destruct X as [X X3]. apply andb_prop in X. destruct X as [X1 X2].
        apply negb_true_iff in X3, X4, X5, X6. apply has_In in X1.
        assert (TM : In m table_names) by (unfold used in I; apply filter_In in I; apply contains_In; tauto).
        destruct (in_dec string_dec m done) as [Y|Y]; [exact Y|exfalso].
        assert (Z : passes = false); [|congruence].
        apply (unknown_word m X1 X2 X3); [|exact X5| |].
        + rewrite is_type_mem, X4. destruct (mem m T) eqn:E; [|reflexivity]. apply mem_In in E. apply (proj1 IV) in E. tauto.
        + intros Q. apply (proj2 IV) in Q. destruct Q as (q & Q & E). pose proof (own_table q m (DG q Q) E TM). subst q. contradiction.
        + intros Q. apply mem_In in Q. congruence.
    Qed.

    Lemma step_next : fine done n -> inv (n :: done) (if starts_typedef (tw bits n) then own bits n :: T else T) (own bits n :: K) /\ passes = true /\ exists r, declared T (D n) = own bits n :: r.
    Proof.
      intros (G & U). assert (IK : forall w, In w (own bits n :: K) <-> exists m, In m (n :: done) /\ own bits m = w).
      { intros w. cbn [In]. rewrite (proj2 IV w). split.
        - intros [<-|(m & A & B)]; [exists n; auto|exists m; auto].
        - intros (m & [<-|A] & B); [left; exact B|right; exists m; auto]. }
      destruct (in_dec string_dec n all_types) as [TY|TY].
      - destruct (step_typedef TY) as (_ & P & DD & ST). assert (OW : own bits n = n) by (unfold own, is_typedef; rewrite (proj2 (mem_In n all_types) TY); reflexivity).
        rewrite ST. split; [split; [|exact IK]|split; [exact P|exists []; rewrite OW; exact DD]]. intros w. cbn [In]. rewrite OW, (proj1 IV w). split; [intros [<-|[A B]]; auto|intros (A & [B|B]); auto].
      - destruct (step_good G TY) as (ST & A & _). destruct (A U) as (P & DD). rewrite ST. split; [split; [|exact IK]|split; [exact P|exact DD]].
        intros w. cbn [In]. rewrite (proj1 IV w). split; [intros [X Y]; auto|intros (X & [Y|Y]); [subst; contradiction|auto]].
    Qed.
    Lemma step_fine : passes = true -> fine done n.
    Proof.
      intros P. destruct (in_dec string_dec n good_c) as [G|G]; [|rewrite (step_bad G) in P; discriminate]. split; [exact G|].
      destruct (in_dec string_dec n all_types) as [TY|TY].
      - destruct (step_typedef TY) as (U & _). rewrite U. intros m [].
      - destruct (step_good G TY) as (_ & _ & A). exact (A P).
    Qed.
  End Step.

  Fixpoint ordered (done ns : list string) : Prop :=
    match ns with [] => True | n :: r => fine done n /\ ordered (n :: done) r end.
  Lemma run_all ns : forall done T K, NoDup ns -> (forall n, In n ns -> In n table_names /\ one_item bits n = true /\ ~ In n done) -> incl done good_c -> inv done T K ->
    (all_known T K (map D ns) = true <-> ordered done ns).
  Proof.
    induction ns as [|n ns IH]; intros done T K N A DG IV; [cbn; tauto|].
    destruct (A n (or_introl eq_refl)) as (TN & O & ND). inversion N as [|? ? N1 N2]; subst. cbn [map all_known ordered].
    change (forallb (known_word T K (D n)) (D n)) with (passes n T K).
    rewrite (D_head n TN O).
    assert (A' : forall m, In m ns -> In m table_names /\ one_item bits m = true /\ ~ In m (n :: done)).
    { intros m I. destruct (A m (or_intror I)) as (X & Y & Z). split; [exact X|]. split; [exact Y|]. intros [<-|Q]; contradiction. }
    split.
    - intros E. apply andb_prop in E. destruct E as [P E]. pose proof (step_fine n done T K TN O ND DG IV P) as FN. split; [exact FN|].
      destruct (step_next n done T K TN O ND DG IV FN) as (IV' & _ & (r & DD)). rewrite DD in E.
      apply (IH (n :: done) _ _ N2 A' (incl_cons (proj1 FN) DG) IV'). exact E.
    - intros (FN & OR). destruct (step_next n done T K TN O ND DG IV FN) as (IV' & P & (r & DD)). rewrite P, DD. cbn [andb].
      apply (IH (n :: done) _ _ N2 A' (incl_cons (proj1 FN) DG) IV'). exact OR.
  Qed.
End Library.

(** ** Libraries *)
Definition nm (it : item) : string := match item_name it with Some n => n | None => "" end.

Section Lib.
  Variables (bits : Z) (sub : string -> expr) (names exclude : list string) (lib : list item).
  Hypothesis HB : bits = 32%Z \/ bits = 64%Z.
  Hypothesis HL : library bits sub names exclude = Some lib.
  Notation o := (c_opts bits).
  Hypothesis SW : spliced_words bits sub.

  Lemma lib_tmpl it : In it lib -> item_name it = Some (nm it) /\ In (nm it) table_names /\ one_item bits (nm it) = true /\ it = plug_i sub (tmpl bits (nm it)) /\ In (tmpl bits (nm it)) (template bits (nm it)).
  Proof.
    intros I. destruct (lib_row bits sub names exclude lib HB HL it I) as (i & f & En & _ & C & N). unfold nm. rewrite N.
    rewrite (code_eq bits sub HB f (entry_In _ _ En)) in C. unfold one_item, tmpl. destruct (template bits (f_name f)) as [|t [|u r]]; try discriminate.
    cbn in C. injection C as C. split; [reflexivity|]. split; [exact (entry_table _ _ En)|]. split; [reflexivity|]. split; [symmetry; exact C|left; reflexivity].
  Qed.
  Lemma lex_lib it : In it lib -> c_lex (item_text o (cof_item it)) = D bits sub (nm it).
  Proof.
    intros I. destruct (lib_tmpl it I) as (_ & T & _ & E & IT). rewrite E at 1. unfold D, tw. apply lex_item.
    pose proof (templates_ok bits HB) as R. rewrite forallb_forall in R. specialize (R _ T). rewrite forallb_forall in R. exact (R _ IT).
  Qed.
  Lemma lex_concat l : forall x, c_lex (String.concat (nl ++ nl) (x :: l)) = c_lex x ++ flat_map c_lex l.
  Proof.
    induction l as [|y l IH]; intros x; [cbn; rewrite app_nil_r; reflexivity|]. rewrite concat_cons, append_assoc', c_lex_nl. f_equal.
    cbn [flat_map]. rewrite <- IH. exact (c_lex_nl "" (String.concat (nl ++ nl) (y :: l))).
  Qed.
  Lemma decls_lib l : incl l lib -> decls_from 0 [] (flat_map c_lex (map (item_text o) (map cof_item l))) = map (D bits sub) (map nm l).
  Proof.
    induction l as [|it l IH]; intros I; [reflexivity|]. cbn [map flat_map]. rewrite (lex_lib it) by (apply I; left; reflexivity).
    assert (WH : whole 0 (tw bits (nm it)) = true).
    { destruct (lib_tmpl it (I it (or_introl eq_refl))) as (_ & T & O & _). pose proof (row bits HB (nm it) T) as R. unfold row_ok in R. rewrite O in R.
      apply andb_prop in R. destruct R as [R _]. apply andb_prop in R. destruct R as [R _]. apply andb_prop in R. destruct R as [R _]. apply andb_prop in R. tauto. }
    unfold D at 1. rewrite (decls_whole o sub (spliced_tame bits sub SW) (tw bits (nm it)) 0 [] _ WH). cbn [rev List.app]. f_equal. apply IH. intros y J. apply I. right. exact J.
  Qed.
  Lemma closed_all : c_closed (file_text o (map cof_item lib)) = all_known [] [] (map (D bits sub) (map nm lib)).
  Proof.
    unfold c_closed, file_text. rewrite lex_concat. change (c_lex "#include <math.h>") with include_line. cbn [include_line List.app firstn skipn combine forallb fst snd List.length Nat.leb].
    rewrite !String.eqb_refl. cbn [andb]. rewrite decls_lib by (intros x J; exact J). reflexivity.
  Qed.
  Lemma lib_nodup : NoDup (map nm lib).
  Proof.
    pose proof (library_names bits sub HB names exclude lib HL) as N.
    assert (E : map item_name lib = map Some (map nm lib)).
    { rewrite map_map. apply map_ext_in. intros it I. apply (lib_tmpl it I). }
    rewrite E in N. exact (NoDup_map_inv _ _ N).
  Qed.

  Lemma ordered_iff l : forall done, ordered bits done l <-> (forall a n b, l = a ++ n :: b -> In n good_c /\ forall m, In m (used bits n) -> In m (a ++ done)).
  Proof.
    induction l as [|n l IH]; intros done.
    - cbn. split; [|tauto]. intros _ a n b E. destruct a; discriminate.
    - cbn [ordered]. rewrite IH. split.
      + intros ((G & U) & A) a m b E. destruct a as [|x a]; cbn [List.app] in E; injection E as -> E.
        * split; [exact G|exact U].
        * destruct (A a m b E) as (G' & U'). split; [exact G'|]. intros k K. specialize (U' k K). cbn [List.app In]. rewrite in_app_iff in *. cbn [In] in U'. tauto.
      + intros A. split.
        * destruct (A [] n l eq_refl) as (G & U). split; [exact G|exact U].
        * intros a m b E. destruct (A (n :: a) m b) as (G & U); [rewrite E; reflexivity|]. split; [exact G|]. intros k K. specialize (U k K). cbn [List.app In] in U. rewrite in_app_iff in *. cbn [In]. tauto.
  Qed.

  Hypothesis HP : plain_sub sub.
  Theorem library_c_closed :
    c_closed (file_text o (map cof_item lib)) = true <-> self_contained lib /\ forall it n, In it lib -> item_name it = Some n -> In n good_c.
  Proof.
    rewrite closed_all, (run_all bits sub HB SW (map nm lib) [] [] []), ordered_iff.
    - split.
      + intros A.
        assert (B : forall it, In it lib -> In (nm it) good_c /\ forall m, In m (used bits (nm it)) -> exists it', In it' lib /\ nm it' = m).
        { intros it I. apply in_split in I. destruct I as (l1 & l2 & E). destruct (A (map nm l1) (nm it) (map nm l2)) as (G & U); [rewrite E, map_app; reflexivity|].
          split; [exact G|]. intros m K. specialize (U m K). rewrite app_nil_r in U. apply in_map_iff in U. destruct U as (it' & X & Y). exists it'. split; [rewrite E; apply in_or_app; left; exact Y|exact X]. }
        split.
        * intros it n I K T. destruct (lib_row bits sub names exclude lib HB HL it I) as (i & f & En & IC & _ & N).
          pose proof (code_used bits sub HB HP f it n (entry_In _ _ En) IC K T) as U. destruct (B it I) as (_ & B2).
          assert (NE : nm it = f_name f) by (unfold nm; rewrite N; reflexivity). rewrite NE in B2. destruct (B2 n U) as (it' & I' & E'). exists it'. split; [exact I'|]. rewrite (proj1 (lib_tmpl it' I')), E'. reflexivity.
        * intros it n I N. destruct (B it I) as (G & _). unfold nm in G. rewrite N in G. exact G.
      + intros (SC & G).
        assert (OR : defined_before_use lib).
        { apply (library_order bits sub HB HP names exclude lib HL SC). intros f m K R.
          assert (Y : yields_name f = true /\ ~ In f good_c) by (revert K; unfold later; cbn [In]; intros K; repeat (destruct K as [K|K]; [injection K as <- <-; split; [vm_compute; reflexivity|intros X; apply mem_In in X; vm_compute in X; discriminate]|]); destruct K).
          destruct (proj2 (lib_name bits sub HB names exclude lib HL f) (conj R (proj1 Y))) as (it & I & N). exact (proj2 Y (G it f I N)). }
        intros a n b E.
        assert (X : exists l1 it l2, lib = l1 ++ it :: l2 /\ a = map nm l1 /\ nm it = n).
        { clear -E. revert a E. induction lib as [|x l IH]; intros a E; [destruct a; discriminate|]. destruct a as [|y a]; cbn in E; injection E as E1 E2.
          - exists [], x, l. auto.
          - destruct (IH a E2) as (l1 & it & l2 & P & Q & R). exists (x :: l1), it, l2. cbn. rewrite P, Q, E1. auto. }
        destruct X as (l1 & it & l2 & EL & EA & EN). assert (I : In it lib) by (rewrite EL; apply in_elt). destruct (lib_tmpl it I) as (N & T & _).
        split; [rewrite <- EN; exact (G it (nm it) I N)|]. intros m K. rewrite app_nil_r, EA.
        destruct (lib_row bits sub names exclude lib HB HL it I) as (i & f & En & IC & C & N').
        assert (NE : n = f_name f) by (rewrite <- EN; unfold nm; rewrite N'; reflexivity). rewrite NE in K.
        destruct (used_code bits sub HB HP f m (entry_In _ _ En) K) as (it2 & I2 & F2 & T2). rewrite C in I2. destruct I2 as [<-|[]].
        destruct (OR l1 it l2 m EL F2 T2) as (it' & I' & N2). apply in_map_iff. exists it'. split; [unfold nm; rewrite N2; reflexivity|exact I'].
    - exact lib_nodup.
    - intros n I. apply in_map_iff in I. destruct I as (it & <- & I). destruct (lib_tmpl it I) as (_ & T & O & _). split; [exact T|]. split; [exact O|intros []].
    - intros x [].
    - split; intros w; split; [intros []|intros (_ & [])|intros []|intros (m & [] & _)].
  Qed.
End Lib.

Definition c_alone : list string := ["fty"; "uty"; "ity"; "asin"; "acos"; "pnorm"].
Theorem library_c_small bits sub names exclude lib : bits = 32%Z \/ bits = 64%Z -> plain_sub sub -> spliced_words bits sub ->
  (forall n, In n exclude -> ~ In n table_names) -> (forall n, In n names -> In n table_names -> In n c_alone) ->
  library bits sub names exclude = Some lib -> c_closed (file_text (c_opts bits) (map cof_item lib)) = true.
Proof.
  intros HB HP SW X HN HL. apply (library_c_closed bits sub names exclude lib HB HL SW HP). split.
  - refine (library_safe bits sub names exclude lib HB HP X (or_introl _) HL). intros n I T. specialize (HN n I T). cbn in HN |- *. tauto.
  - intros it n I N.
    assert (T : In n table_names) by (exact (lib_table bits sub names exclude lib HB HL n (ex_intro _ it (conj I N)))).
    pose proof (proj1 (lib_name bits sub HB names exclude lib HL n) (ex_intro _ it (conj I N))) as [R Y].
    apply (reach_from _ _ _ X T) in R. destruct R as (k & Hk & C).
    assert (Tk : In k table_names).
    { apply closure_reach in C. destruct C as [C _]. revert T. clear -C. induction C as [m [<-|[]] _|i g d En _ IH _ _]; intros T; [exact T|]. apply IH. eapply entry_table. exact En. }
    assert (K : forallb (fun k => forallb (fun m => mem m good_c || negb (yields_name m)) (closure k)) c_alone = true) by (vm_compute; reflexivity).
    rewrite forallb_forall in K. specialize (K k (HN k Hk Tk)). rewrite forallb_forall in K. specialize (K n C). rewrite Y in K. cbn [negb] in K. rewrite orb_false_r in K. apply mem_In. exact K.
Qed.
Theorem library_c_function bits sub names exclude lib f ps r b : bits = 32%Z \/ bits = 64%Z -> plain_sub sub -> spliced_words bits sub ->
  library bits sub names exclude = Some lib -> In (IFn f ps r b) lib -> f <> "asin" -> f <> "acos" -> c_closed (file_text (c_opts bits) (map cof_item lib)) = false.
Proof.
  intros HB HP SW HL I N1 N2. destruct (c_closed (file_text (c_opts bits) (map cof_item lib))) eqn:E; [|reflexivity]. exfalso.
  apply (library_c_closed bits sub names exclude lib HB HL SW HP) in E. destruct E as (_ & G). pose proof (G _ f I eq_refl) as GF.
  destruct (lib_tmpl bits sub names exclude lib HB HL _ I) as (_ & _ & _ & E & _). unfold nm in E. cbn [item_name] in E.
  assert (K : forallb (fun n => match tmpl bits n with IFn _ _ _ _ => String.eqb n "asin" || String.eqb n "acos" | _ => true end) good_c = true) by (destruct HB as [-> | ->]; vm_compute; reflexivity).
  rewrite forallb_forall in K. specialize (K f GF). destruct (tmpl bits f) as [| |q w e c|]; try discriminate. apply orb_prop in K. destruct K as [K|K]; apply String.eqb_eq in K; contradiction.
Qed.
