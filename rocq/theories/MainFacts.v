(** What a run of libmgen writes. *)
From Coq Require Import List String Ascii Bool Arith ZArith Lia Sorted.
From Verif Require Import Res Syntax Item Functions FunctionsFacts RustFmt RustLex RustFmtFacts GenCode GenCodeFacts GenTokens ItemTokens
  CGen CGenFacts CLibrary Simd RustLibrary RustSub Main.
Import ListNotations.
Open Scope string_scope.
Open Scope list_scope.

(** ** Specification *)

(** Asked for: requested, or listed by a function that is generated. *)
Definition asked (names exclude : list string) (n : string) : Prop :=
  In n names \/ exists i f, entry FUNCTIONS i f /\ reach FUNCTIONS names exclude (f_name f) /\ In n (f_deps f).
Definition no_comma (s : string) : Prop := ~ In ","%char (list_ascii_of_string s).

(** ** split *)
Lemma chars_string l : list_ascii_of_string (string_of_list_ascii l) = l.
Proof. apply list_ascii_of_string_of_list_ascii. Qed.
Lemma append_chars a b : list_ascii_of_string (a ++ b) = list_ascii_of_string a ++ list_ascii_of_string b.
Proof. induction a as [|c a IH]; [reflexivity|]. cbn. rewrite IH. reflexivity. Qed.
Lemma chars_inj a b : list_ascii_of_string a = list_ascii_of_string b -> a = b.
Proof. intros E. rewrite <- (string_of_list_ascii_of_string a), E. apply string_of_list_ascii_of_string. Qed.
Lemma split_nonempty cs : forall p, split_from p cs <> [].
Proof. induction cs as [|c cs IH]; intros p; cbn; [discriminate|]. destruct (Ascii.eqb c ","); [discriminate|apply IH]. Qed.
Lemma split_concat cs : forall p, list_ascii_of_string (String.concat "," (split_from p cs)) = rev p ++ cs.
Proof.
  induction cs as [|c cs IH]; intros p; cbn [split_from].
  - cbn. rewrite chars_string, app_nil_r. reflexivity.
  - destruct (Ascii.eqb_spec c ",") as [->|N].
    + destruct (split_from [] cs) as [|x r] eqn:E; [exfalso; eapply split_nonempty; exact E|].
      change (String.concat "," (string_of_list_ascii (rev p) :: x :: r))
        with (string_of_list_ascii (rev p) ++ "," ++ String.concat "," (x :: r))%string.
      rewrite !append_chars, chars_string, <- E, IH. reflexivity.
    + rewrite IH. cbn. rewrite <- app_assoc. reflexivity.
Qed.
Lemma split_parts cs : forall p, ~ In ","%char p -> forall s, In s (split_from p cs) -> no_comma s.
Proof.
  unfold no_comma. induction cs as [|c cs IH]; intros p Hp s I; cbn [split_from] in I.
  - destruct I as [<-|[]]. rewrite chars_string, <- in_rev. exact Hp.
  - destruct (Ascii.eqb_spec c ",") as [->|N].
    + destruct I as [<-|I]; [rewrite chars_string, <- in_rev; exact Hp|]. exact (IH [] (fun x => x) s I).
    + apply (IH (c :: p)); [|exact I]. intros [E|H]; [exact (N E)|exact (Hp H)].
Qed.
Theorem split_ok s : String.concat "," (split_commas s) = s /\ (forall p, In p (split_commas s) -> no_comma p) /\ split_commas s <> [].
Proof.
  split; [apply chars_inj; unfold split_commas; rewrite split_concat; reflexivity|].
  split; [intros p; apply split_parts; intros []|apply split_nonempty].
Qed.

(** ** The names that are visited *)
Lemma visits_collect tbl exclude fuel : forall stack res res', collect tbl exclude fuel stack res = Some res' ->
  exists added, res' = res ++ added /\
  forall n, In n (visits tbl exclude fuel stack res) <-> In n stack \/ exists x, In x added /\ In n (f_deps (snd x)).
Proof.
  induction fuel as [|fuel IH]; intros [|m stack] res res' H; cbn in H; try discriminate.
  1, 2: injection H as <-; exists []; rewrite app_nil_r; split; [reflexivity|]; intros n; cbn; split; [intros []|intros [[]|(x & [] & _)]].
  cbn [visits]. destruct (contains exclude m) eqn:Ex.
  { destruct (IH _ _ _ H) as (ad & -> & V). exists ad. split; [reflexivity|]. intros n. cbn [In]. rewrite V. tauto. }
  destruct (find_fn tbl m 0) as [[i f]|] eqn:F.
  2: { destruct (IH _ _ _ H) as (ad & -> & V). exists ad. split; [reflexivity|]. intros n. cbn [In]. rewrite V. tauto. }
  destruct (existsb _ res).
  { destruct (IH _ _ _ H) as (ad & -> & V). exists ad. split; [reflexivity|]. intros n. cbn [In]. rewrite V. tauto. }
  destruct (IH _ _ _ H) as (ad & -> & V). exists ((i, f) :: ad). split; [rewrite <- app_assoc; reflexivity|].
  intros n. cbn [In]. rewrite V, in_app_iff, <- in_rev. split.
  - intros [E|[[D|S]|(x & I & D)]]; [tauto|right; exists (i, f); tauto|tauto|right; exists x; tauto].
  - intros [[E|S]|(x & [<-|I] & D)]; [tauto|tauto|cbn in D; tauto|right; right; exists x; tauto].
Qed.

Theorem visited_asked names exclude n : In n (visited names exclude) <-> asked names exclude n.
Proof.
  unfold visited, asked. destruct (closure_exact FUNCTIONS names exclude) as (l & E & C).
  unfold get_functions_and_deps in E. destruct (collect _ _ _ _ _) as [r|] eqn:K; [|discriminate].
  injection E as <-. destruct (visits_collect _ _ _ _ _ _ K) as (ad & -> & V). cbn [app] in *. rewrite V, <- in_rev.
  split; (intros [H|H]; [left; exact H|right]).
  - destruct H as ([i f] & I & D). exists i, f.
    destruct (proj1 (C i f)) as [A B]; [|auto]. apply (Permutation.Permutation_in _ (Permutation.Permutation_sym (sort_perm ad))). exact I.
  - destruct H as (i & f & A & B & D). exists (i, f). split; [|exact D].
    apply (Permutation.Permutation_in _ (sort_perm ad)). apply C. auto.
Qed.

Lemma filter_nil {A} (p : A -> bool) l : filter p l = [] <-> forall x, In x l -> p x = false.
Proof.
  split.
  - intros E x I. destruct (p x) eqn:P; [|reflexivity]. assert (In x (filter p l)) by (apply filter_In; auto). rewrite E in H. destruct H.
  - intros H. induction l as [|x l IH]; [reflexivity|]. cbn. rewrite (H x (or_introl eq_refl)). apply IH. intros y I. apply H. right. exact I.
Qed.
Lemma ignoring_shape names exclude :
  (ignoring names exclude = "" /\ forall n, In n exclude -> ~ asked names exclude n)
  \/ (exists n s, ignoring names exclude = ("ignoring " ++ n ++ s)%string /\ In n exclude /\ asked names exclude n).
Proof.
  unfold ignoring. destruct (filter (contains exclude) (visited names exclude)) as [|n l] eqn:E.
  - left. split; [reflexivity|]. intros n X A. apply visited_asked in A. pose proof (proj1 (filter_nil _ _) E n A) as K.
    apply contains_In in X. congruence.
  - right. assert (I : In n (filter (contains exclude) (visited names exclude))) by (rewrite E; left; reflexivity).
    apply filter_In in I. destruct I as [I X]. apply contains_In in X. apply visited_asked in I.
    exists n. eexists. split; [|split; [exact X|exact I]]. cbn [lines fold_right]. cbn [append]. reflexivity.
Qed.

(** ** The first token of a library *)
Definition starts (ts : list tt) : bool :=
  match ts with
  | [] => true
  | TWord w :: _ => negb (String.eqb w "ignoring") && negb (is_hole (TWord w))
  | TPunct p :: _ => negb (String.eqb p "ignoring")
  | _ => false
  end.
Lemma starts_app x y : starts x = true -> starts y = true -> starts (x ++ y) = true.
Proof. destruct x; [auto|]. cbn. intros H _. exact H. Qed.
Lemma starts_head x y : x <> [] -> starts x = true -> starts (x ++ y) = true.
Proof. destruct x; [congruence|]. intros _ H. exact H. Qed.
Lemma starts_flat {A} (f : A -> list tt) l : (forall a, In a l -> starts (f a) = true) -> starts (flat_map f l) = true.
Proof. induction l as [|a l IH]; intros H; [reflexivity|]. cbn. apply starts_app; [apply H; left; reflexivity|apply IH; intros; apply H; right; assumption]. Qed.
Lemma starts_quote env ts : starts ts = true -> starts (quote env ts) = true.
Proof.
  destruct ts as [|[d l|w|p|s|s] ts]; try discriminate; [reflexivity| |].
  - intros H. unfold quote. cbn [flat_map]. assert (K : interpolate env (TWord w) = [TWord w]).
    { apply andb_prop in H. destruct H as [_ H]. destruct w as [|c w]; [reflexivity|].
      unfold is_hole in H. cbn [interpolate]. destruct c as [[][][][][][][][]]; try reflexivity; discriminate. }
    rewrite K. exact H.
  - intros H. exact H.
Qed.
Lemma template_starts bits name : bits = 32%Z \/ bits = 64%Z -> starts (template bits name) = true.
Proof.
  intros HB. unfold template, tokens.
  repeat match goal with |- context [if String.eqb name ?n then _ else _] => destruct (String.eqb name n) end;
    try reflexivity; destruct HB as [->| ->]; vm_compute; reflexivity.
Qed.
Lemma tokens_starts bits sub name : bits = 32%Z \/ bits = 64%Z -> starts (tokens bits sub name) = true.
Proof. intros HB. rewrite (tokens_template bits sub name HB). apply starts_quote, template_starts, HB. Qed.
Lemma test_function_starts plots : gen_test_function plots <> [] /\ starts (gen_test_function plots) = true.
Proof. destruct plots; (split; [vm_compute; discriminate|vm_compute; reflexivity]). Qed.
Lemma library_starts bits tests plots sub rows acc names exclude ts : bits = 32%Z \/ bits = 64%Z ->
  library_tokens bits tests plots sub rows acc names exclude = Some ts -> starts ts = true.
Proof.
  intros HB. unfold library_tokens. destruct (get_functions_and_deps _ _ _) as [l|]; [|discriminate]. intros E. injection E as <-.
  apply starts_app.
  - apply starts_flat. intros f _. destruct (f_gen f); [apply tokens_starts, HB|reflexivity].
  - destruct tests; [|reflexivity]. destruct (test_function_starts plots) as [A B]. refine (starts_head _ _ A B).
Qed.

Lemma starts_first ts rest : starts ts = true -> stream_tokens ts <> "ignoring" :: rest.
Proof.
  destruct ts as [|[d l|w|p|s|s] ts]; try discriminate; intros H E; cbn in E.
  - injection E as E _. subst w. discriminate.
  - injection E as E _. subst p. discriminate.
Qed.
Lemma lex_ignoring s : exists rest, rust_lex ("ignoring " ++ s) = "ignoring" :: rest.
Proof. eexists. unfold rust_lex. rewrite append_chars. cbn [list_ascii_of_string app]. cbn. reflexivity. Qed.

(** ** Runs *)
Definition usual (w : world) : Prop :=
  (forall n, simple (w_sub w n) = true) /\ (forall t r, In r (w_rows w t) -> row_ok r = true) /\ (forall t, lit_text (w_accuracy w t) = true).
Definition asks (o : opt) : Prop := o_functions o <> "" /\ o_functions o <> "help" /\ o_debug o = None.
Definition tokens_for (w : world) (o : opt) : option (list tt) :=
  library_tokens (o_bits o) (o_tests o) (o_plots o) (fun n => expr_tts (w_sub w n)) (w_rows w) (w_accuracy w)
    (split_commas (o_functions o)) (split_commas (o_exclude o)).
Lemma tokens_some w o : exists ts, tokens_for w o = Some ts.
Proof.
  unfold tokens_for, library_tokens. destruct (closure_exact FUNCTIONS (split_commas (o_functions o)) (split_commas (o_exclude o))) as (l & -> & _).
  eauto.
Qed.
Lemma append_nil_r s : (s ++ "")%string = s.
Proof. induction s as [|c s IH]; [reflexivity|]. cbn. rewrite IH. reflexivity. Qed.
Lemma append_assoc_s a b c : ((a ++ b) ++ c)%string = (a ++ b ++ c)%string.
Proof. induction a as [|x a IH]; [reflexivity|]. cbn. rewrite IH. reflexivity. Qed.

Lemma main_asks w o : asks o -> forall ts, tokens_for w o = Some ts ->
  main w o =
    let? t := text_of_tokens w o ts in
    match t with
    | inr message => Ok (Effects (ignoring (split_commas (o_functions o)) (split_commas (o_exclude o)))
                           (not_found (split_commas (o_functions o)) (split_commas (o_exclude o)) ++ message) None)
    | inl text =>
        match o_output o with
        | Some path => if w_writable w path then Ok (Effects (ignoring (split_commas (o_functions o)) (split_commas (o_exclude o)))
                           (not_found (split_commas (o_functions o)) (split_commas (o_exclude o))) (Some (path, text))) else Panic
        | None => Ok (Effects (ignoring (split_commas (o_functions o)) (split_commas (o_exclude o)) ++ text)
                           (not_found (split_commas (o_functions o)) (split_commas (o_exclude o))) None)
        end
    end.
Proof.
  intros (A & B & D) ts E. unfold main. rewrite D. apply String.eqb_neq in A, B. rewrite A, B.
  unfold tokens_for in E. rewrite E. cbn [unwrap rbind append]. reflexivity.
Qed.

Theorem main_rust w o ts : usual w -> asks o -> (o_bits o = 32 \/ o_bits o = 64)%Z -> o_language o = "rust" ->
  tokens_for w o = Some ts ->
  exists text, rust_lex text = stream_tokens ts /\
  match o_output o with
  | Some path => main w o =
      (if w_writable w path
       then Ok (Effects (ignoring (split_commas (o_functions o)) (split_commas (o_exclude o)))
                  (not_found (split_commas (o_functions o)) (split_commas (o_exclude o))) (Some (path, text)))
       else Panic)
  | None => exists e, main w o = Ok e /\ e_file e = None /\
      ((forall n, In n (split_commas (o_exclude o)) -> ~ asked (split_commas (o_functions o)) (split_commas (o_exclude o)) n) ->
         e_out e = text) /\
      (rust_lex (e_out e) = stream_tokens ts <->
       forall n, In n (split_commas (o_exclude o)) -> ~ asked (split_commas (o_functions o)) (split_commas (o_exclude o)) n)
  end.
Proof.
  intros (U1 & U2 & U3) A HB L E.
  destruct (library_text (o_bits o) (o_tests o) (o_plots o) (fun n => expr_tts (w_sub w n)) (w_rows w) (w_accuracy w)
    (split_commas (o_functions o)) (split_commas (o_exclude o)) ts HB (fun n => simple_insertable _ (U1 n)) U2 U3 E) as (text & F & R).
  exists text. split; [exact R|]. rewrite (main_asks w o A ts E). unfold text_of_tokens. rewrite L, String.eqb_refl, F. cbn [rbind].
  destruct (o_output o) as [path|]; [reflexivity|].
  eexists. split; [reflexivity|]. split; [reflexivity|]. cbn [e_out].
  destruct (ignoring_shape (split_commas (o_functions o)) (split_commas (o_exclude o))) as [(-> & N)|(n & s & -> & X & K)].
  - split; [reflexivity|]. cbn [append]. split; auto.
  - split; [intros H; exfalso; exact (H n X K)|]. split; [|intros H; exfalso; exact (H n X K)].
    intros H. exfalso. rewrite append_assoc_s in H. destruct (lex_ignoring ((n ++ s) ++ text)) as (rest & Q). rewrite Q in H.
    symmetry in H. revert H. apply starts_first. eapply library_starts; [exact HB|exact E].
Qed.

(** ** Unknown names *)
Definition known (n : string) : bool := match find_fn FUNCTIONS n 0 with Some _ => true | None => false end.
Lemma known_entry i f : entry FUNCTIONS i f -> known (f_name f) = true.
Proof. intros E. unfold known. rewrite (proj2 (find_fn_entry FUNCTIONS (f_name f) i f) (conj E eq_refl)). reflexivity. Qed.
Lemma reach_known names exclude n : known n = true -> (reach FUNCTIONS names exclude n <-> reach FUNCTIONS (filter known names) exclude n).
Proof.
  intros K. split; intros R.
  - revert K. induction R as [n I X|i f d En R IH D X]; intros K.
    + apply reach_name; [apply filter_In; auto|exact X].
    + eapply reach_dep; [exact En|apply IH; eapply known_entry; exact En|exact D|exact X].
  - apply (reach_ext FUNCTIONS (filter known names) names exclude exclude); auto. intros m I. apply filter_In in I. tauto.
Qed.
Theorem known_only names exclude :
  get_functions_and_deps FUNCTIONS names exclude = get_functions_and_deps FUNCTIONS (filter known names) exclude.
Proof.
  destruct (closure_ok FUNCTIONS names exclude) as (l & -> & S & C).
  destruct (closure_ok FUNCTIONS (filter known names) exclude) as (l' & -> & S' & C').
  f_equal. apply sorted_unique; [exact S|exact S'|]. intros [i f]. rewrite C, C'. split; intros [A B]; (split; [exact A|]).
  - exact (proj1 (reach_known names exclude _ (known_entry i f A)) B).
  - exact (proj2 (reach_known names exclude _ (known_entry i f A)) B).
Qed.
Theorem unknown_dropped bits tests plots sub rows acc names exclude :
  library_tokens bits tests plots sub rows acc names exclude = library_tokens bits tests plots sub rows acc (filter known names) exclude.
Proof. unfold library_tokens. rewrite known_only. reflexivity. Qed.

Lemma deps_known f d : In f FUNCTIONS -> In d (f_deps f) -> known d = true.
Proof.
  assert (H : forallb (fun f => forallb known (f_deps f)) FUNCTIONS = true) by (vm_compute; reflexivity).
  rewrite forallb_forall in H. intros I D. specialize (H f I). rewrite forallb_forall in H. exact (H d D).
Qed.
Lemma known_table n : known n = true <-> In n (map f_name FUNCTIONS).
Proof.
  unfold known. split.
  - destruct (find_fn FUNCTIONS n 0) as [[i f]|] eqn:E; [|discriminate]. intros _. apply find_fn_entry in E. destruct E as [[E _] <-].
    apply in_map. eapply nth_error_In. exact E.
  - intros I. assert (H : forallb known (map f_name FUNCTIONS) = true) by (vm_compute; reflexivity). rewrite forallb_forall in H. exact (H n I).
Qed.
Theorem silent names exclude :
  not_found names exclude = "" <-> forall n, In n names -> In n exclude \/ In n (map f_name FUNCTIONS).
Proof.
  unfold not_found. set (p := fun n => _ && _). split.
  - intros E n I. destruct (filter p (visited names exclude)) as [|m l] eqn:F; [|cbn in E; discriminate].
    assert (V : In n (visited names exclude)) by (apply visited_asked; left; exact I).
    pose proof (proj1 (filter_nil _ _) F n V) as K. unfold p in K. apply andb_false_iff in K. destruct K as [K|K].
    + left. apply negb_false_iff in K. apply contains_In. exact K.
    + right. apply known_table. unfold known. destruct (find_fn FUNCTIONS n 0); [reflexivity|discriminate].
  - intros H. assert (F : filter p (visited names exclude) = []); [|rewrite F; reflexivity].
    apply filter_nil. intros n V. apply visited_asked in V. unfold p. apply andb_false_iff.
    assert (Q : In n exclude \/ known n = true).
    { destruct V as [V|(i & f & [En _] & _ & D)]; [destruct (H n V) as [X|T]; [left; exact X|right; apply known_table; exact T]|].
      right. eapply deps_known; [eapply nth_error_In; exact En|exact D]. }
    destruct Q as [X|Q]; [left; apply negb_false_iff, contains_In; exact X|right]. unfold known in Q. destruct (find_fn FUNCTIONS n 0); [reflexivity|discriminate].
Qed.

(** ** Other languages *)
Theorem main_language w o : asks o -> ~ In (o_language o) ["rust"; "c"; "portable-simd"] ->
  exists e, main w o = Ok e /\ e_file e = None /\ e_err e <> "" /\
  e_out e = ignoring (split_commas (o_functions o)) (split_commas (o_exclude o)).
Proof.
  intros A N. destruct (tokens_some w o) as (ts & E). rewrite (main_asks w o A ts E). unfold text_of_tokens.
  destruct (String.eqb_spec (o_language o) "rust") as [K|_]; [exfalso; apply N; rewrite K; cbn; tauto|].
  destruct (String.eqb_spec (o_language o) "c") as [K|_]; [exfalso; apply N; rewrite K; cbn; tauto|].
  destruct (String.eqb_spec (o_language o) "portable-simd") as [K|_]; [exfalso; apply N; rewrite K; cbn; tauto|].
  destruct (String.eqb (o_language o) "help"); cbn [rbind]; (eexists; split; [reflexivity|]; split; [reflexivity|]; split; [|reflexivity]);
    cbn [e_err]; destruct (not_found _ _); discriminate.
Qed.

Theorem main_c w o ts lib path : asks o -> o_language o = "c" -> o_output o = Some path -> w_writable w path = true ->
  tokens_for w o = Some ts ->
  library (o_bits o) (w_sub w) (split_commas (o_functions o)) (split_commas (o_exclude o)) = Some lib ->
  w_parse_c w ts = Some (map cof_item lib) -> (forall n, expr_ok (cof (w_sub w n)) = true) ->
  exists e, main w o = Ok e /\ e_file e = Some (path,
    file_text (if (o_bits o =? 32)%Z then COpts "ds32_" "f" else COpts "ds64_" "") (map cof_item lib)).
Proof.
  intros A L O W E HL HP HS. rewrite (main_asks w o A ts E). unfold text_of_tokens. rewrite L, O, W, HP. cbn [String.eqb unwrap rbind].
  change (String.eqb "c" "rust") with false. change (String.eqb "c" "c") with true. cbv iota.
  rewrite (library_to_c _ _ _ _ _ _ HL HS). cbn [rbind]. eexists. split; [reflexivity|]. cbn [e_file].
  unfold cfg_prefix, cfg_suffix. rewrite L. cbn. destruct (o_bits o =? 32)%Z; reflexivity.
Qed.
