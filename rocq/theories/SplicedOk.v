(** Consequences of the shape of what libmgen puts into its templates. *)
From Coq Require Import List String Ascii Bool ZArith Lia NArith.
From Flocq Require Import IEEE754.Binary.
From Verif Require Import Res Dec DecStr DecStrFacts Syntax Visitor Trans Parse Poly MulAddFacts BdMath Eval EvalFacts GenSem GenFloat FloatBits UseNumberType NumberTypeFacts
  TestTable ConstSource Item Functions FunctionsFacts RustFmt CGen CGenFacts CLex CText CNames CNamesText
  RustLex ItemTokens RustLibrary RustSub Main MainFacts GenCode GenCodeFacts GenType GenTypeFacts GenTypeLib GenTypeSub CNamesFacts Spliced SplicedFacts.
Import ListNotations.
Open Scope string_scope.
Open Scope list_scope.

(** ** Numbers and polynomials are tokens that do not run together *)
Lemma numeral_simple kind e : numeral kind e -> simple e = true.
Proof.
  induction 1 as [b a s l K Hn Hb Ha Hs L|e _ IH|n K Hn].
  - destruct L as [-> | ->]; cbn [simple]; apply digits_fine; auto; destruct Hs as [<-|[<-|[]]]; cbn; auto.
  - exact IH.
  - unfold hex_number. cbn [simple forallb]. destruct (zdigits_spec n Hn) as (D & N & _).
    pose proof (digits_fine (zdigits n) [] "u32" N D (Forall_nil _) ltac:(cbn; auto)) as G. cbn [after_point] in G. rewrite app_nil_r in G. rewrite G. reflexivity.
Qed.
Lemma horner_simple kind v e : word_text v = true -> horner kind v e -> simple e = true /\ runs_together (last_tt (expr_tts e)) (TPunct ".") = false.
Proof.
  intros V. induction 1 as [e N|r a e H [IH IR] A N].
  - split; [exact (numeral_simple kind e N)|reflexivity].
  - split.
    + assert (SA : simple a = true) by (destruct A as [-> | ->]; cbn [simple var_square path_ok is_empty negb forallb andb]; unfold path_ok; cbn [is_empty negb forallb andb]; rewrite V; reflexivity).
      cbn [simple forallb]. rewrite IH, IR, SA, (numeral_simple kind e N). reflexivity.
    + cbn [expr_tts app]. unfold last_tt. rewrite (last_app _ (TPunct "." :: TWord "mul_add" :: _)) by discriminate. reflexivity.
Qed.
Lemma shaped_simple kind v e : word_text v = true -> shaped kind v e -> simple e = true.
Proof.
  intros V [x H|x H]; destruct (horner_simple kind v x V H) as [S _]; [exact S|]. cbn [simple path_ok]. rewrite S. unfold path_ok. cbn. rewrite V. reflexivity.
Qed.

(** ** Their names *)
Lemma numeral_free kind e n : numeral kind e -> In n (free e []) -> n = "f32".
Proof.
  induction 1 as [b a s l K Hn Hb Ha Hs L|e _ IH|k K Hn]; [destruct L as [-> | ->]; intros []|exact IH|].
  unfold hex_number. rewrite free_call. cbn. intuition congruence.
Qed.
Lemma horner_free kind v e n : horner kind v e -> In n (free e []) -> n = "f32" \/ n = v.
Proof.
  induction 1 as [e N|r a e H IH A N].
  - intros I. left. exact (numeral_free kind e n N I).
  - rewrite free_method. cbn [ty_name app free_list]. rewrite !in_app_iff. intros [I|[I|[I|[]]]]; [exact (IH I)| |left; exact (numeral_free kind e n N I)].
    right. destruct A as [-> | ->]; cbn in I; intuition congruence.
Qed.
Lemma shaped_free kind v e n : shaped kind v e -> In n (free e []) -> n = "f32" \/ n = v.
Proof.
  intros [x H|x H] I; [exact (horner_free kind v x n H I)|]. cbn [free] in I. apply in_app_or in I. destruct I as [I|I]; [exact (horner_free kind v x n H I)|].
  right. cbn in I. intuition congruence.
Qed.

(** ** Evaluated numbers *)
Definition number_expr (e : expr) : Prop := exists x, e = ELit (LFloat (string_of_list_ascii (dec_repr x)) "").
Lemma bd_number x r : expr_of_bd x = Ok r -> number_expr r.
Proof. rewrite expr_of_bd_eq. intros E. injection E as <-. exists x. reflexivity. Qed.
Section Evaluated.
  Context (o : oracles) (fuel : nat) (nd : Z).
  Lemma eval_method_number r m t args c : eval o fuel nd (EMethodCall r m t args) = Ok c -> number_expr c.
  Proof.
    rewrite eval_meth. unfold eval_method. destruct (eval o fuel nd r); try discriminate. cbn [rbind].
    destruct (rseq (map (eval o fuel nd) args)); try discriminate. cbn [rbind]. destruct (bd_of_expr _); try discriminate. cbn [rbind].
    destruct (rseq _); try discriminate. cbn [rbind]. destruct (eval_call _ _ _ _ _ _); try discriminate. cbn [rbind]. apply bd_number.
  Qed.
  Lemma eval_binary_number op a b c : op = BSub \/ op = BDiv -> eval o fuel nd (EBinary op a b) = Ok c -> number_expr c.
  Proof.
    intros O. rewrite eval_bin. unfold eval_binary. destruct (eval o fuel nd a); try discriminate. destruct (eval o fuel nd b); try discriminate. cbn [rbind].
    destruct (_ && _); try discriminate. destruct (ExprOps.unwrap _); try discriminate. cbn [rbind]. destruct (ExprOps.unwrap _); try discriminate. cbn [rbind].
    destruct O as [-> | ->]; cbn [eval_op]; [apply bd_number|]. destruct (ddiv _ _); try discriminate. cbn [rbind]. apply bd_number.
  Qed.
  Lemma eval_pi_number c : eval o fuel nd (EPath ["PI"]) = Ok c -> number_expr c.
  Proof. intros H. change (eval_path o nd ["PI"] = Ok c) in H. cbn in H. destruct (bpi o nd); try discriminate. exact (bd_number _ _ H). Qed.
End Evaluated.
Lemma constant_number o bits m c : made_constant o bits m c -> number_expr c.
Proof.
  intros (e & fuel & S & E). unfold const_source in S.
  repeat match type of S with (if ?b then _ else _) = _ => destruct b end; try discriminate; injection S as <-;
  first [exact (eval_pi_number _ _ _ _ E) | exact (eval_method_number _ _ _ _ _ _ _ _ E) | exact (eval_binary_number _ _ _ _ _ _ _ (or_intror eq_refl) E)].
Qed.
Lemma must_ok {A} (r : res A) a : must r = Ok a -> r = Ok a.
Proof. destruct r as [b|[]|]; try discriminate; auto. Qed.
Lemma row_numbers o fuel nd bits refe tmin tmax n i x y ye :
  table_row o fuel nd bits refe tmin tmax n i = Ok (x, y, ye) -> number_expr x /\ number_expr y /\ number_expr ye.
Proof.
  unfold table_row. destruct (must (eval o fuel nd (rounded_expr (grid_expr tmin tmax n i) bits))) as [a| |] eqn:A; try discriminate. cbn [rbind].
  destruct (must (Trans.subst _ refe)) as [s| |]; try discriminate. cbn [rbind]. destruct (must (eval o fuel nd s)) as [z| |]; try discriminate. cbn [rbind].
  destruct (must (eval o fuel nd (rounded_expr z bits))) as [b| |] eqn:B; try discriminate. cbn [rbind].
  destruct (must (eval o fuel nd (EBinary BSub z (rounded_expr z bits)))) as [c| |] eqn:C; try discriminate. cbn [rbind]. intros E. injection E as <- <- <-.
  apply must_ok in A, B, C. split; [exact (eval_method_number _ _ _ _ _ _ _ _ A)|]. split; [exact (eval_method_number _ _ _ _ _ _ _ _ B)|].
  exact (eval_binary_number _ _ _ _ _ _ _ (or_introl eq_refl) C).
Qed.
Lemma number_simple e : number_expr e -> simple e = true.
Proof. intros (x & ->). cbn [simple]. apply repr_fine. left. reflexivity. Qed.
Lemma number_typeof bits e : number_expr e -> typeof bits no_decl no_hole [] e = Some SLitF.
Proof.
  intros (x & ->). cbn [typeof lit_ty]. rewrite list_ascii_of_string_of_list_ascii. destruct (parse_dec_repr x) as (y & -> & _). reflexivity.
Qed.

(** ** The words of their C text *)
Lemma lex_chars ext cs : forall cur w c, In w (lex_from ext cur cs) -> In c (list_ascii_of_string w) ->
  In c cs \/ match cur with Some p => In c (p_rev p) | None => False end.
Proof.
  assert (T : forall p w c, w = text_of p -> In c (list_ascii_of_string w) -> In c (p_rev p)).
  { intros p w c ->. unfold text_of. rewrite list_ascii_of_string_of_list_ascii. apply in_rev. }
  induction cs as [|d cs IH]; intros cur w c I C.
  - cbn in I. destruct cur as [p|]; [|destruct I]. destruct I as [I|[]]. right. exact (T p w c (eq_sym I) C).
  - assert (N : In w (if is_white d then lex_from ext None cs else lex_from ext (Some (start d)) cs) -> In c (d :: cs)).
    { destruct (is_white d); intros J; destruct (IH _ _ _ J C) as [K|K]; cbn in *; tauto. }
    cbn [lex_from] in I. destruct cur as [p|]; [|left; exact (N I)]. destruct (ext p d).
    + destruct (IH _ _ _ I C) as [K|K]; cbn in *; tauto.
    + destruct I as [I|I]; [right; exact (T p w c (eq_sym I) C)|left; exact (N I)].
Qed.
Lemma lex_nonempty ext cs : forall cur, (forall p, cur = Some p -> p_rev p <> []) -> ~ In "" (lex_from ext cur cs).
Proof.
  assert (T : forall p, p_rev p <> [] -> text_of p <> "").
  { intros p H E. unfold text_of in E. apply (f_equal list_ascii_of_string) in E. rewrite list_ascii_of_string_of_list_ascii in E. cbn in E.
    apply (f_equal (@rev _)) in E. rewrite rev_involutive in E. contradiction. }
  induction cs as [|d cs IH]; intros cur Hc I.
  - destruct cur as [p|]; [|destruct I]. destruct I as [I|[]]. exact (T p (Hc p eq_refl) I).
  - assert (N : ~ In "" (if is_white d then lex_from ext None cs else lex_from ext (Some (start d)) cs)).
    { destruct (is_white d); apply IH; intros p E; [discriminate|injection E as <-; discriminate]. }
    cbn [lex_from] in I. destruct cur as [p|]; [|exact (N I)]. destruct (ext p d).
    + revert I. apply IH. intros q E. injection E as <-. discriminate.
    + destruct I as [I|I]; [exact (T p (Hc p eq_refl) I)|exact (N I)].
Qed.
(** [w] is no name, no brace and no semicolon, or one of [vs] *)
Definition tame_word (vs : list string) (w : string) : Prop := (is_ident w = true -> In w vs) /\ w <> "{" /\ w <> "}" /\ w <> ";".
Definition numeric (c : ascii) : bool := DecStr.is_digit c || Ascii.eqb c "-" || Ascii.eqb c ".".
Lemma numeric_words s vs : Forall (fun c => numeric c = true) (list_ascii_of_string s) -> forall w, In w (c_lex s) -> tame_word vs w.
Proof.
  intros H w I. assert (C : forall c, In c (list_ascii_of_string w) -> numeric c = true).
  { intros c J. destruct (lex_chars _ _ _ _ _ I J) as [K|[]]. rewrite Forall_forall in H. exact (H c K). }
  destruct w as [|c w]; [exfalso; revert I; apply lex_nonempty; discriminate|]. specialize (C c (or_introl eq_refl)).
  unfold tame_word, is_ident. cbn [first_char]. clear -C.
  assert (A : is_alpha c = false /\ c <> "{"%char /\ c <> "}"%char /\ c <> ";"%char).
  { destruct c as [[] [] [] [] [] [] [] []]; try discriminate C; repeat split; discriminate. }
  destruct A as (A & B & D & E). rewrite A. repeat split; try discriminate; intros X; injection X as X _; contradiction.
Qed.
Lemma numeric_plain b a : digits b -> digits a -> Forall (fun c => numeric c = true) (b ++ after_point a).
Proof.
  assert (D : forall l, digits l -> Forall (fun c => numeric c = true) l).
  { intros l. apply Forall_impl. intros c H. unfold numeric. rewrite H. reflexivity. }
  intros Hb Ha. apply Forall_app. split; [auto|]. destruct a; [constructor|]. constructor; [reflexivity|auto].
Qed.
Section CWords.
  Variable opts : copts.
  Definition words (e : expr) : list string := c_lex (expr_text opts (cof e)).
  Lemma repr_words x vs w : In w (c_lex (string_of_list_ascii (dec_repr x))) -> tame_word vs w.
  Proof.
    apply numeric_words. rewrite list_ascii_of_string_of_list_ascii. destruct (dec_repr_plain x) as (b & a & -> & Hn & Hb & Ha & _).
    unfold plain_text. fold (after_point a). apply Forall_app. split; [destruct (mant x <? 0)%Z; repeat constructor|]. apply numeric_plain; assumption.
  Qed.
  Lemma numeral_text e : numeral "decimal" e -> Forall (fun c => numeric c = true) (list_ascii_of_string (expr_text opts (cof e))).
  Proof.
    induction 1 as [b a s l K Hn Hb Ha Hs L|e _ IH|n K Hn]; [| |discriminate].
    - destruct L as [-> | ->]; cbn [cof expr_text]; rewrite list_ascii_of_string_of_list_ascii; apply numeric_plain; assumption.
    - cbn [cof expr_text unop_text append list_ascii_of_string]. constructor; [reflexivity|exact IH].
  Qed.
  Lemma step_words r a e : words (EMethodCall r "mul_add" None [a; e]) =
    "(" :: "(" :: words r ++ ")" :: "*" :: "(" :: words a ++ ")" :: "+" :: "(" :: words e ++ [")"; ")"].
  Proof.
    unfold words. cbn [cof expr_text map method_text String.eqb Ascii.eqb Bool.eqb].
    set (x := expr_text opts (cof r)). set (y := expr_text opts (cof a)). set (z := expr_text opts (cof e)).
    change (c_lex (("((" ++ x ++ nl ++ ") * (" ++ y ++ ") + (" ++ z ++ "))")%string) =
      "(" :: "(" :: c_lex x ++ ")" :: "*" :: "(" :: c_lex y ++ ")" :: "+" :: "(" :: c_lex z ++ [")"; ")"]).
    change (("((" ++ x ++ nl ++ ") * (" ++ y ++ ") + (" ++ z ++ "))")%string)
      with ("(" ++ "(" ++ x ++ nl ++ ")" ++ " " ++ "*" ++ " " ++ "(" ++ y ++ ")" ++ " " ++ "+" ++ " " ++ "(" ++ z ++ ")" ++ ")")%string.
    rewrite !c_lex_open0, c_lex_nl, c_lex_close0, c_lex_space0, !c_lex_space, c_lex_open0, c_lex_close, c_lex_space0, !c_lex_space, c_lex_open0, c_lex_close.
    change (c_lex "*") with ["*"]. change (c_lex "+") with ["+"]. change (c_lex ")") with [")"].
    do 6 (rewrite <- ?app_assoc; cbn [List.app]). reflexivity.
  Qed.
  Lemma paren_words e : words (EParen e) = "(" :: words e ++ [")"].
  Proof. unfold words. cbn [cof expr_text]. rewrite c_lex_open0, c_lex_close1. reflexivity. Qed.
  Lemma mul_words a b : words (EBinary BMul a b) = words a ++ "*" :: words b.
  Proof. unfold words. cbn [cof expr_text binop_text]. rewrite !c_lex_space. reflexivity. Qed.
  Lemma tame_punct vs w : In w ["("; ")"; "*"; "+"] -> tame_word vs w.
  Proof. intros [<-|[<-|[<-|[<-|[]]]]]; repeat split; discriminate. Qed.
  Lemma var_words v w : v = "x" \/ v = "z" -> In w (words (EPath [v])) -> tame_word [v] w.
  Proof. intros [-> | ->] [<-|[]]; repeat split; try discriminate; intros _; left; reflexivity. Qed.
  Lemma horner_words v e : v = "x" \/ v = "z" -> horner "decimal" v e -> forall w, In w (words e) -> tame_word [v] w.
  Proof.
    intros V. induction 1 as [e N|r a e H IH A N]; intros w.
    - rewrite paren_words. cbn [In]. rewrite in_app_iff. intros [<-|[I|[<-|[]]]]; try (apply tame_punct; cbn; tauto).
      exact (numeric_words _ _ (numeral_text e N) w I).
    - rewrite step_words. cbn [In]. rewrite in_app_iff. cbn [In]. rewrite in_app_iff. cbn [In]. rewrite in_app_iff. cbn [In].
      assert (WA : In w (words a) -> tame_word [v] w).
      { destruct A as [-> | ->]; [exact (var_words v w V)|]. unfold var_square. rewrite mul_words, in_app_iff. cbn [In].
        intros [I|[<-|I]]; try exact (var_words v w V I). apply tame_punct. cbn. tauto. }
      intros [<-|[<-|[I|[<-|[<-|[<-|[I|[<-|[<-|[<-|[I|[<-|[<-|[]]]]]]]]]]]]]]; try (apply tame_punct; cbn; tauto).
      + exact (IH w I).
      + exact (WA I).
      + exact (numeric_words _ _ (numeral_text e N) w I).
  Qed.
  Lemma shaped_words v e : v = "x" \/ v = "z" -> shaped "decimal" v e -> forall w, In w (words e) -> tame_word [v] w.
  Proof.
    intros V [x H|x H] w; [exact (horner_words v x V H w)|]. rewrite mul_words, in_app_iff. cbn [In].
    intros [I|[<-|I]]; [exact (horner_words v x V H w I)|apply tame_punct; cbn; tauto|exact (var_words v w V I)].
  Qed.
End CWords.
(** ** The C translation does not stop at them *)
Lemma numeral_c kind e : numeral kind e -> expr_ok (cof e) = true.
Proof. induction 1 as [b a s l K Hn Hb Ha Hs L|e _ IH|n K Hn]; [destruct L as [-> | ->]; reflexivity|exact IH|reflexivity]. Qed.
Lemma horner_c kind v e : horner kind v e -> expr_ok (cof e) = true.
Proof.
  induction 1 as [e N|r a e H IH A N]; [exact (numeral_c kind e N)|].
  assert (OA : expr_ok (cof a) = true) by (destruct A as [-> | ->]; reflexivity).
  cbn [cof expr_ok map forallb]. rewrite IH, OA, (numeral_c kind e N). reflexivity.
Qed.
Lemma shaped_c kind v e : shaped kind v e -> expr_ok (cof e) = true.
Proof. intros [x H|x H]; pose proof (horner_c kind v x H) as C; [exact C|]. cbn [cof expr_ok]. rewrite C. reflexivity. Qed.

(** ** All that is spliced in *)
Section All.
  Context (F : floats) (o : oracles) (kind : string) (bits : Z) (W : working kind bits) (PS : plain_show F) (sub : string -> expr) (SP : spliced F o kind bits sub).
  Lemma var_cases n : hole_var n = "x" \/ hole_var n = "z".
  Proof. unfold hole_var. destruct (String.eqb n "atan2"); auto. Qed.
  Lemma var_word n : word_text (hole_var n) = true.
  Proof. destruct (var_cases n) as [-> | ->]; reflexivity. Qed.
  Lemma split_cases n : (is_const_item (template bits n) = true /\ number_expr (sub n)) \/
    (is_const_item (template bits n) = false /\ made_polynomial F kind bits (hole_var n) (sub n) /\ shaped kind (hole_var n) (sub n)).
  Proof.
    specialize (SP n). destruct (is_const_item (template bits n)).
    - left. destruct SP as (m & _ & C). split; [reflexivity|exact (constant_number o bits m _ C)].
    - right. split; [reflexivity|]. split; [exact SP|exact (poly_shape F kind bits W PS (hole_var n) (sub n) SP)].
  Qed.
  Theorem spliced_simple n : simple (sub n) = true.
  Proof.
    destruct (split_cases n) as [(_ & N)|(_ & _ & S)]; [exact (number_simple _ N)|exact (shaped_simple kind _ _ (var_word n) S)].
  Qed.
  Theorem spliced_plain : plain_sub sub.
  Proof.
    intros f n I. destruct (split_cases f) as [(_ & x & E)|(_ & _ & S)]; [rewrite E in I; destruct I|].
    destruct (shaped_free kind _ _ n S I) as [-> | ->]; [cbn; tauto|]. destruct (var_cases f) as [-> | ->]; cbn; tauto.
  Qed.
  Theorem spliced_fits : reads_back F -> fits bits sub.
  Proof.
    intros RB n. destruct (split_cases n) as [(-> & N)|(-> & (ts & p & e & M & U) & _)].
    - exists SLitF. split; [exact (number_typeof bits _ N)|reflexivity].
    - exact (poly_typed F kind bits W RB (hole_var n) (var_cases n) ts p e (sub n) M U).
  Qed.
  Theorem spliced_c n : expr_ok (cof (sub n)) = true.
  Proof. destruct (split_cases n) as [(_ & x & ->)|(_ & _ & S)]; [reflexivity|exact (shaped_c kind _ _ S)]. Qed.
  Theorem spliced_decimal : kind = "decimal" -> spliced_words bits sub.
  Proof.
    intros K n w I. change (tame_word (hole_vars bits n) w). unfold hole_vars. destruct (split_cases n) as [(-> & x & E)|(-> & _ & S)].
    - rewrite E in I. exact (repr_words x [] w I).
    - rewrite K in S. exact (shaped_words (c_opts bits) _ _ (var_cases n) S w I).
  Qed.
End All.

(** ** Runs *)
Lemma number_row e : number_expr e -> forallb well_made (expr_tts e) = true.
Proof. intros N. exact (proj1 (proj2 (simple_sound e (number_simple e N)))). Qed.
Theorem made_usual F o kind bits w : working kind bits -> plain_show F -> made F o kind bits w -> usual w.
Proof.
  intros W PS (S & R & L). split; [exact (spliced_simple F o kind bits W PS _ S)|]. split.
  - intros t r I. destruct (R t r I) as (fuel & refe & tmin & tmax & n & i & x & y & ye & E & ->).
    destruct (row_numbers _ _ _ _ _ _ _ _ _ _ _ _ E) as (X & Y & Z). cbn [RustLibrary.row_ok]. rewrite !number_row by assumption. reflexivity.
  - intros t. destruct (L t) as (x & Fx & Sx & ->). destruct (PS 64%Z x (or_intror eq_refl) Fx Sx) as (b & a & -> & Hn & Hb & Ha).
    fold (after_point a). pose proof (number_good b a "f64" Hn Hb Ha ltac:(cbn; tauto)) as G.
    rewrite app_assoc, <- string_app, string_of_list_ascii_of_string in G. unfold number_ok in G. apply andb_prop in G. exact (proj1 G).
Qed.

(** ** Hexadecimal numbers in C *)
Definition hex_word : string := "ds32_f32_from_bits".
Lemma numeral_hex e : numeral "hex" e -> In hex_word (words (c_opts 32) e).
Proof.
  assert (B : forall n r, (0 <= n)%Z -> list_ascii_of_string r = zdigits n -> c_lex (hex_word ++ "(" ++ r ++ ")")%string = hex_word :: "(" :: c_lex r ++ [")"]).
  { intros n r _ _. rewrite c_lex_open, c_lex_close1. reflexivity. }
  assert (T : forall e, numeral "hex" e -> exists m n r, (0 <= n)%Z /\ list_ascii_of_string r = zdigits n /\
    expr_text (c_opts 32) (cof e) = (string_of_list_ascii (repeat "-"%char m) ++ hex_word ++ "(" ++ r ++ ")")%string).
  { induction 1 as [b a s l K Hn Hb Ha Hs L|e' _ (m & n & r & Hn & R & E)|n K Hn]; [discriminate| |].
    - exists (S m), n, r. split; [exact Hn|]. split; [exact R|]. cbn [cof expr_text unop_text]. rewrite E. reflexivity.
    - exists O, n, (string_of_list_ascii (zdigits n)). split; [exact Hn|]. split; [apply list_ascii_of_string_of_list_ascii|]. reflexivity. }
  intros N. destruct (T e N) as (m & n & r & Hn & R & E). unfold words. rewrite E. clear E N e.
  assert (L : forall k cur, (cur = None \/ exists p, cur = Some p /\ p_first p = "-"%char /\ forall c, In c (p_rev p) -> c = "-"%char) ->
    forall rest, In hex_word (lex_from c_ext None rest) -> (exists c t, rest = c :: t /\ is_alpha c = true) ->
    In hex_word (lex_from c_ext cur (repeat "-"%char k ++ rest))).
  { assert (Q : forall p c, p_first p = "-"%char -> (forall d, In d (p_rev p) -> d = "-"%char) -> is_alpha c = true -> c_ext p c = false).
    { intros p c Pf Pr A. unfold c_ext. rewrite Pf. change (is_digit "-") with false. change (is_alpha "-") with false. cbv iota.
      apply Bool.not_true_is_false. intros X. apply existsb_exists in X. destruct X as (w & I & E). apply String.eqb_eq in E.
      assert (J : In c (list_ascii_of_string w)).
      { rewrite <- E. unfold text_of, grow. cbn [p_rev]. rewrite list_ascii_of_string_of_list_ascii. apply -> in_rev. left. reflexivity. }
      clear -I J A. unfold c_puncts in I. repeat (destruct I as [<-|I]; [cbn in J; repeat (destruct J as [<-|J]; [discriminate A|]); destruct J|]). destruct I. }
    assert (Wh : forall c, is_alpha c = true -> is_white c = false).
    { intros c A. destruct c as [[] [] [] [] [] [] [] []]; try discriminate A; reflexivity. }
    induction k as [|k IH]; intros cur Hc rest I A.
    - cbn [repeat app]. destruct Hc as [->|(p & -> & Pf & Pr)]; [exact I|]. destruct A as (c & t & -> & A). cbn [lex_from] in *. rewrite (Q p c Pf Pr A).
      right. exact I.
    - cbn [repeat app lex_from]. assert (S1 : forall x, In hex_word (lex_from c_ext (Some (start "-"%char)) (repeat "-"%char k ++ rest)) ->
        In hex_word (x :: lex_from c_ext (Some (start "-"%char)) (repeat "-"%char k ++ rest))) by (intros x J; right; exact J).
      assert (S2 : In hex_word (lex_from c_ext (Some (start "-"%char)) (repeat "-"%char k ++ rest))).
      { apply IH; auto. right. exists (start "-"%char). repeat split. intros c [<-|[]]. reflexivity. }
      destruct Hc as [->|(p & -> & Pf & Pr)]; [exact S2|]. destruct (c_ext p "-").
      + apply IH; auto. right. exists (grow p "-"%char). split; [reflexivity|]. split; [exact Pf|]. intros c [<-|J]; [reflexivity|exact (Pr c J)].
      + apply S1. exact S2. }
  unfold c_lex, lex. rewrite list_ascii_app, list_ascii_of_string_of_list_ascii. apply L; [left; reflexivity| |].
  - change (In hex_word (c_lex (hex_word ++ "(" ++ r ++ ")")%string)). rewrite (B n r Hn R). left. reflexivity.
  - eexists _, _. split; reflexivity.
Qed.
Lemma horner_hex v e : horner "hex" v e -> In hex_word (words (c_opts 32) e).
Proof.
  intros [x N|r a x H A N].
  - rewrite paren_words. right. apply in_or_app. left. exact (numeral_hex x N).
  - rewrite step_words. do 2 right. apply in_or_app. right. do 3 right. apply in_or_app. right. do 3 right. apply in_or_app. left. exact (numeral_hex x N).
Qed.
Theorem spliced_hex F o sub n : plain_show F -> spliced F o "hex" 32 sub -> is_const_item (template 32 n) = false -> In hex_word (words (c_opts 32) (sub n)).
Proof.
  intros PS SP C. destruct (split_cases F o "hex" 32 (or_intror (conj eq_refl eq_refl)) PS sub SP n) as [(E & _)|(_ & _ & [x H|x H])]; [congruence| |].
  - exact (horner_hex _ _ H).
  - rewrite mul_words. apply in_or_app. left. exact (horner_hex _ _ H).
Qed.
