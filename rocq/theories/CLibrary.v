(** [to_c] on generated libraries. *)
From Coq Require Import List String Ascii Bool ZArith.
From Verif Require Import Res Syntax Item Functions FunctionsFacts GenCode GenCodeFacts CGen CGenFacts CText.
Import ListNotations.
Open Scope string_scope.
Open Scope list_scope.

Lemma code_c_ok bits sub n :
  (forall n, expr_ok (cof (sub n)) = true) -> forallb item_ok (map cof_item (code bits sub n)) = true.
Proof.
  intros H. specialize (H n). unfold code. generalize dependent (sub n). intros e H.
  repeat match goal with |- context [if String.eqb n ?x then _ else _] => destruct (String.eqb n x) end;
    try reflexivity;
    match goal with |- forallb _ (map _ (?f bits e)) = _ => unfold f end;
    try destruct (bits =? 32)%Z; cbn -[String.eqb]; rewrite ?H; reflexivity.
Qed.

Lemma library_c_ok bits sub names exclude lib :
  library bits sub names exclude = Some lib -> (forall n, expr_ok (cof (sub n)) = true) ->
  forallb item_ok (map cof_item lib) = true.
Proof.
  unfold library. destruct (get_functions_and_deps FUNCTIONS names exclude) as [l|]; [|discriminate].
  intros E H. inversion E; subst. clear E. induction l as [|[i f] l IH]; [reflexivity|].
  cbn [flat_map snd]. rewrite map_app, forallb_app, IH, andb_true_r.
  destruct (f_gen f); [apply code_c_ok, H|reflexivity].
Qed.

Lemma library_to_c o bits sub names exclude lib :
  library bits sub names exclude = Some lib -> (forall n, expr_ok (cof (sub n)) = true) ->
  to_c o (map cof_item lib) = Ok (file_text o (map cof_item lib)).
Proof. intros. apply to_c_ok. eapply library_c_ok; eauto. Qed.
