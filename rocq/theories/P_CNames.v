(** Names in the C output of libmgen. *)
From Coq Require Import List String Ascii Bool ZArith.
From Verif Require Import Res Syntax Item Functions FunctionsFacts GenCode GenCodeFacts CGen CGenFacts CLex CText CLibrary CNames CNamesText GenTypeLib CNamesFacts.
Import ListNotations.
Open Scope string_scope.
Open Scope list_scope.

(** ** C70 *)

(** Exactly the libraries of these constants, of asin and of acos declare what
    they use. *)
Theorem C70_criterion_partial :
  forall bits sub names exclude lib text, bits = 32%Z \/ bits = 64%Z -> plain_sub sub -> spliced_words bits sub ->
  (forall n, expr_ok (cof (sub n)) = true) ->
  library bits sub names exclude = Some lib -> to_c (c_opts bits) (map cof_item lib) = Ok text ->
  (c_closed text = true <->
   self_contained lib /\ forall it n, In it lib -> item_name it = Some n ->
     In n ["fty"; "uty"; "ity"; "LOG2_SHIFT"; "LOG2_OFFSET"; "ONE_MASK"; "ONE_BITS"; "EXP2_ONE"; "EXP2_SCALE"; "EXP2_MIN"; "EXP2_MAX";
           "ONE_THIRD"; "TWO_THIRDS"; "PI"; "PI_BY_2"; "TAN_PI_BY_8"; "PI_BY_8"; "LOG2_E"; "RECIP_LOG2_E"; "RECIP_LOG2_10"; "RECIP_PI";
           "RECIP_2PI"; "SQRT_RECIP_2PI"; "asin"; "acos"]).
Proof.
  intros bits sub names exclude lib text HB HP SW OK HL E. rewrite (library_to_c (c_opts bits) bits sub names exclude lib HL OK) in E.
  injection E as <-. exact (library_c_closed bits sub names exclude lib HB HL SW HP).
Qed.
Print Assumptions C70_criterion_partial.

Theorem C70_requests_partial :
  forall bits sub names exclude lib text, bits = 32%Z \/ bits = 64%Z -> plain_sub sub -> spliced_words bits sub ->
  (forall n, expr_ok (cof (sub n)) = true) -> (forall n, In n exclude -> ~ In n table_names) ->
  (forall n, In n names -> In n table_names -> In n ["fty"; "uty"; "ity"; "asin"; "acos"; "pnorm"]) ->
  library bits sub names exclude = Some lib -> to_c (c_opts bits) (map cof_item lib) = Ok text -> c_closed text = true.
Proof.
  intros bits sub names exclude lib text HB HP SW OK X HN HL E. rewrite (library_to_c (c_opts bits) bits sub names exclude lib HL OK) in E.
  injection E as <-. exact (library_c_small bits sub names exclude lib HB HP SW X HN HL).
Qed.
Print Assumptions C70_requests_partial.

(** One other function is enough for an undeclared name. *)
Theorem C70_functions_refuted :
  forall bits sub names exclude lib text f ps r b, bits = 32%Z \/ bits = 64%Z -> plain_sub sub -> spliced_words bits sub ->
  (forall n, expr_ok (cof (sub n)) = true) ->
  library bits sub names exclude = Some lib -> In (IFn f ps r b) lib -> f <> "asin" -> f <> "acos" ->
  to_c (c_opts bits) (map cof_item lib) = Ok text -> c_closed text = false.
Proof.
  intros bits sub names exclude lib text f ps r b HB HP SW OK HL I N1 N2 E. rewrite (library_to_c (c_opts bits) bits sub names exclude lib HL OK) in E.
  injection E as <-. exact (library_c_function bits sub names exclude lib f ps r b HB HP SW HL I N1 N2).
Qed.
Print Assumptions C70_functions_refuted.

(** Something to splice in: 0.5 for constants, x.mul_add(x, -0.25f32) for functions. *)
Definition small_poly (f : string) : expr :=
  if is_const_item (template 32 f) then ELit (LFloat "0.5" "")
  else if String.eqb f "atan2" then EPath ["z"]
  else EMethodCall (EPath ["x"]) "mul_add" None [EPath ["x"]; EUnary UNeg (ELit (LFloat "0.25" "f32"))].
Lemma small_poly_ok : plain_sub small_poly /\ spliced_words 32 small_poly /\ forall n, expr_ok (cof (small_poly n)) = true.
Proof.
  unfold plain_sub, spliced_words, small_poly, hole_vars, hole_var. repeat split.
  - intros f n I. destruct (is_const_item (template 32 f)); [destruct I|]. destruct (String.eqb f "atan2"); cbn in I |- *; tauto.
  - intros ID. destruct (is_const_item (template 32 k)).
    + destruct H as [<-|[]]. discriminate.
    + destruct (String.eqb k "atan2"); [exact H|]. cbn in H. repeat (destruct H as [<-|H]; [first [discriminate|left; reflexivity]|]). destruct H.
  - intros ->. revert H. destruct (is_const_item (template 32 k)); [|destruct (String.eqb k "atan2")]; cbn; intuition discriminate.
  - intros ->. revert H. destruct (is_const_item (template 32 k)); [|destruct (String.eqb k "atan2")]; cbn; intuition discriminate.
  - intros ->. revert H. destruct (is_const_item (template 32 k)); [|destruct (String.eqb k "atan2")]; cbn; intuition discriminate.
  - intros n. destruct (is_const_item (template 32 n)); [|destruct (String.eqb n "atan2")]; reflexivity.
Qed.

(** round declares no type for half, so sin does not compile; asin and acos do. *)
Theorem C70_refuted : exists names lib text, library 32 small_poly names [] = Some lib /\ self_contained lib /\
  to_c (c_opts 32) (map cof_item lib) = Ok text /\ c_closed text = false /\ In "half" (c_lex text).
Proof.
  exists ["sin"]. destruct (library_exists 32 small_poly ["sin"] []) as (lib & E). exists lib, (file_text (c_opts 32) (map cof_item lib)). split; [exact E|].
  destruct small_poly_ok as (HP & _ & OK). split.
  - refine (library_safe 32 small_poly ["sin"] [] lib (or_introl eq_refl) HP _ (or_introl _) E); [intros n []|]. intros n [<-|[]] _. cbn. tauto.
  - split; [exact (library_to_c (c_opts 32) 32 small_poly ["sin"] [] lib E OK)|].
    assert (K : option_map (fun l => (c_closed (file_text (c_opts 32) (map cof_item l)), mem "half" (c_lex (file_text (c_opts 32) (map cof_item l))))) (library 32 small_poly ["sin"] []) = Some (false, true)) by (vm_compute; reflexivity).
    rewrite E in K. cbn [option_map] in K. injection K as K1 K2. split; [exact K1|]. apply mem_In. exact K2.
Qed.
Print Assumptions C70_refuted.

Example C70_example :
  exists lib text, library 32 small_poly ["asin"; "acos"] [] = Some lib /\ List.length lib = 5%nat /\
  to_c (c_opts 32) (map cof_item lib) = Ok text /\ c_closed text = true /\ In "ds32_acos" (c_lex text).
Proof.
  destruct (library_exists 32 small_poly ["asin"; "acos"] []) as (lib & E). exists lib, (file_text (c_opts 32) (map cof_item lib)). split; [exact E|].
  assert (K : option_map (fun l => (List.length l, c_closed (file_text (c_opts 32) (map cof_item l)), mem "ds32_acos" (c_lex (file_text (c_opts 32) (map cof_item l))))) (library 32 small_poly ["asin"; "acos"] []) = Some (5%nat, true, true)) by (vm_compute; reflexivity).
  rewrite E in K. cbn [option_map] in K. injection K as K0 K1 K2. split; [exact K0|].
  split; [exact (library_to_c (c_opts 32) 32 small_poly ["asin"; "acos"] [] lib E (proj2 (proj2 small_poly_ok)))|]. split; [exact K1|]. apply mem_In. exact K2.
Qed.
