(** The functions that generated tests call. *)
From Coq Require Import List String Ascii Bool Arith ZArith Lia.
From Verif Require Import Res Syntax Item RustFmt Functions FunctionsFacts GenCode GenCodeFacts GenTokens.
Import ListNotations.
Open Scope string_scope.
Open Scope list_scope.

(** The names in the expression of a test and in the density of a histogram,
    but for the variables [x] and [i] and the word [as]. *)
Fixpoint words (t : tt) : list string := match t with TGroup _ ts => flat_map words ts | TWord w => [w] | _ => [] end.
Definition called (t : spec) : list string :=
  filter (fun w => negb (contains ["x"; "i"; "as"] w))
    (flat_map words (s_expr t ++ match s_hist t with Some (pdf, _, _) => pdf | None => [] end)).

Definition found (n : string) : bool :=
  match find_fn FUNCTIONS n 0 with Some (_, g) => f_gen g && negb (String.eqb n "pnorm") | None => false end.
Definition declared (f w : string) : bool :=
  String.eqb f w || match find_fn FUNCTIONS f 0 with Some (_, g) => contains (f_deps g) w | None => false end
  || (String.eqb f "rnorm" && String.eqb w "dnorm").
Lemma specs_found f t : In t (specs f) -> found f = true /\ forallb found (called t) = true /\ forallb (declared f) (called t) = true.
Proof.
  unfold specs. intros I.
  repeat (match type of I with context [if String.eqb f ?n then _ else _] => destruct (String.eqb f n) eqn:E end;
    [apply String.eqb_eq in E; subst f; cbn [In] in I; repeat (destruct I as [<-|I]; [repeat split; vm_compute; reflexivity|]); destruct I|clear E]).
  destruct I.
Qed.

Theorem tests_called bits sub names exclude lib : bits = 32%Z \/ bits = 64%Z ->
  library bits sub names exclude = Some lib -> (forall n, In n exclude -> ~ In n table_names) ->
  forall f t w, In t (specs f) -> reach FUNCTIONS names exclude f -> In w (called t) ->
  (f = "rnorm" -> w = "dnorm" -> reach FUNCTIONS names exclude "dnorm") ->
  exists it, In it lib /\ item_name it = Some w.
Proof.
  intros HB HL X f t w I R Iw D. destruct (specs_found f t I) as (Ff & Fc & Dc).
  rewrite forallb_forall in Fc, Dc. specialize (Fc w Iw). specialize (Dc w Iw).
  unfold found in Fc. destruct (find_fn FUNCTIONS w 0) as [[i g]|] eqn:Fw; [|discriminate]. apply andb_prop in Fc. destruct Fc as [G NP].
  apply negb_true_iff, String.eqb_neq in NP. apply find_fn_entry in Fw. destruct Fw as [En Nw].
  assert (Rw : reach FUNCTIONS names exclude w).
  { unfold declared in Dc. apply orb_prop in Dc. destruct Dc as [Dc|Dc].
    - apply orb_prop in Dc. destruct Dc as [Dc|Dc]; [apply String.eqb_eq in Dc; rewrite <- Dc; exact R|].
      destruct (find_fn FUNCTIONS f 0) as [[j h]|] eqn:E; [|discriminate]. apply find_fn_entry in E. destruct E as [Eh Nh].
      apply (reach_dep _ _ _ j h); [exact Eh|rewrite Nh; exact R|apply contains_In; exact Dc|].
      intros Hx. apply (X w Hx). rewrite <- Nw. eapply entry_table. exact En.
    - apply andb_prop in Dc. destruct Dc as [A B]. apply String.eqb_eq in A, B. rewrite B. exact (D A B). }
  subst w. apply (proj2 (library_defines bits sub names exclude lib HB HL i g En G NP)). exact Rw.
Qed.

Theorem rnorm_test bits sub lib t : bits = 32%Z \/ bits = 64%Z -> library bits sub ["rnorm"] [] = Some lib -> In t (specs "rnorm") ->
  In "dnorm" (called t) /\ ~ exists it, In it lib /\ item_name it = Some "dnorm".
Proof.
  intros HB HL I. split; [vm_compute in I; destruct I as [<-|[]]; vm_compute; tauto|].
  intros H. apply (lib_name bits sub HB ["rnorm"] [] lib HL) in H. destruct H as [H _].
  assert (K : In "dnorm" (closure "rnorm")) by (apply closure_reach; split; [exact H|apply contains_In; vm_compute; reflexivity]).
  apply contains_In in K. vm_compute in K. discriminate.
Qed.

Definition test_names : list string := map s_name (flat_map (fun f => specs (f_name f)) FUNCTIONS).
Lemma tests_distinct : NoDup (test_names ++ ["test_function"; "plot_function"] ++ table_names).
Proof.
  set (l := test_names ++ _). assert (K : nodup string_dec l = l) by (vm_compute; reflexivity). rewrite <- K. apply NoDup_nodup.
Qed.
