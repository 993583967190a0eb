(** Formatting streams with invisible groups. *)
From Coq Require Import List String Ascii Bool Arith NArith Lia.
From Verif Require Import Res CLex RustFmt RustLex RustFmtFacts.
Import ListNotations.
Open Scope list_scope.
(** Invisible groups: their text is spaced throughout, and ends with the last token inside. *)
Fixpoint made (t : tt) : bool :=
  match t with TGroup _ ts => forallb made ts | _ => well_made t end.
Lemma show_reads_any t : made t = true -> forall rest, safe_rest rest -> reads (show t) (tokens_of t) rest.
Proof.
  unfold reads. induction t as [d ts IH|s|s|s|s] using tt_ind'; intros W rest HS;
    [|match goal with |- context [show ?t] => apply (leaf_out t _ rest eq_refl W), (leaf_safe t _ rest eq_refl W HS) end..].
  cbn [made] in W. rename W into WT.
  assert (B : forall rest, safe_rest rest ->
    rlex_from None (chars (String.concat " " (map show ts)) ++ rest) = flat_map tokens_of ts ++ rlex_from None rest).
  { clear rest HS. induction ts as [|t ts IHts]; intros rest HS; [reflexivity|].
    inversion IH as [|? ? Ht Hts]; subst. cbn [forallb] in WT. apply andb_true_iff in WT. destruct WT as [W1 W2].
    destruct ts as [|u ts].
    - cbn [map String.concat flat_map]. rewrite Ht by assumption. rewrite app_nil_r. reflexivity.
    - change (String.concat " " (map show (t :: u :: ts)))
        with (show t ++ " " ++ String.concat " " (map show (u :: ts)))%string.
      rewrite !chars_app, <- !app_assoc.
      rewrite Ht; [|exact W1|reflexivity].
      rewrite (white_out (chars " ")) by reflexivity.
      rewrite IHts by assumption. cbn [flat_map]. rewrite <- !app_assoc. reflexivity. }
  cbn [show tokens_of]. rewrite !chars_app, <- !app_assoc.
  destruct d; cbn [open_text close_text open_tok close_tok].
  - change (chars "(") with ["("%char]. cbn [app]. rewrite delim_out by reflexivity.
    change (chars ")" ++ rest)%list with (")"%char :: rest)%list.
    rewrite B by (apply delim_safe; reflexivity). rewrite delim_out by reflexivity.
    reflexivity.
  - change (chars "{ ") with ["{"%char; " "%char]. cbn [app]. rewrite delim_out by reflexivity.
    rewrite lex_restart. change (is_white " ") with true. cbv iota.
    destruct (is_empty ts) eqn:EE.
    + destruct ts; [|discriminate]. cbn [map String.concat chars list_ascii_of_string app flat_map].
      rewrite delim_out by reflexivity. reflexivity.
    + change (chars " }" ++ rest)%list with (" "%char :: "}"%char :: rest)%list.
      rewrite B by reflexivity. rewrite lex_restart. change (is_white " ") with true. cbv iota.
      rewrite delim_out by reflexivity. reflexivity.
  - change (chars "[") with ["["%char]. cbn [app]. rewrite delim_out by reflexivity.
    change (chars "]" ++ rest)%list with ("]"%char :: rest)%list.
    rewrite B by (apply delim_safe; reflexivity). rewrite delim_out by reflexivity.
    reflexivity.
  - cbn [list_ascii_of_string app]. apply B. exact HS.
Qed.
Theorem invisible_reads ts text : forallb made ts = true -> format_token_stream [TGroup DNone ts] = Ok text -> rust_lex text = stream_tokens ts.
Proof.
  intros W E. unfold format_token_stream in E. cbn [map append_token rcats rcat rbind] in E. injection E as <-.
  pose proof (show_reads_any (TGroup DNone ts) W [] I) as K. unfold reads in K. cbn [tokens_of open_tok close_tok app] in K. rewrite !app_nil_r in K.
  unfold rust_lex, stream_tokens. rewrite chars_app. change (list_ascii_of_string "") with (@nil ascii). rewrite app_nil_r. exact K.
Qed.
