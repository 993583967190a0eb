(** The C text of an expression, lexed and parsed by C's rules, gives the tree
    of the Rust expression. *)
From Coq Require Import List String Ascii Bool Arith NArith Lia.
From Verif Require Import Res Syntax Trans TransFacts Parse ParseFacts TransParse CGen CGenFacts CLex.
Import ListNotations.
Open Scope string_scope.
Open Scope list_scope.

(** ** Specification *)

(** The C tree an expression should become: calls for methods, [_] in paths,
    casts to the C type, numbers without suffix.  [mul_add] is written out. *)
Section Spec.
  Variable o : copts.
  Fixpoint c_tree (e : expr) : expr :=
    match e with
    | ELit (LInt d _) | ELit (LFloat d _) => ELit (lex_number d "")
    | EPath p => EPath [path_text p]
    | EUnary op a => EUnary op (c_tree a)
    | EBinary op a b => EBinary op (c_tree a) (c_tree b)
    | EParen a => EParen (c_tree a)
    | ECast a t => ECast (c_tree a) (basic_type t)
    | ECall (EPath p) args => ECall (EPath [(prefix o ++ path_text p)%string]) (map c_tree args)
    | ECall f args => ECall (c_tree f) (map c_tree args)
    | EMethodCall r m _ args =>
        if String.eqb m "round" then ECall (EPath [("round" ++ float_suffix o)%string]) (c_tree r :: map c_tree args)
        else if String.eqb m "mul_add" then
          match map c_tree args with
          | b :: c :: _ => EParen (EBinary BAdd (EBinary BMul (EParen (c_tree r)) (EParen b)) (EParen c))
          | _ => EOther "mul_add"
          end
        else ECall (EPath [m]) (c_tree r :: map c_tree args)
    | _ => e
    end.

  (** *** Trees the Rust parser builds

      Like [wp rust_prec], with casts, which bind tighter than every binary
      operator and less tightly than unary operators. *)
  Definition rust_lvl (e : expr) : nat :=
    match e with
    | EBinary op _ _ => rust_prec op
    | ECast _ _ => 50
    | EUnary _ _ => 100
    | _ => 101
    end.
  Fixpoint rust_wp (e : expr) : bool :=
    match e with
    | ELit l => canon_lit l
    | EPath _ => true
    | EUnary _ a => rust_wp a && Nat.leb 100 (rust_lvl a)
    | ECast a _ => rust_wp a && Nat.leb 50 (rust_lvl a)
    | EBinary op a b =>
        rust_wp a && rust_wp b && Nat.leb (rust_prec op) (rust_lvl a) && Nat.ltb (rust_prec op) (rust_lvl b)
    | EMethodCall r _ _ args => rust_wp r && Nat.leb 101 (rust_lvl r) && forallb rust_wp args
    | EParen a => rust_wp a
    | ECall f args => rust_wp f && Nat.leb 101 (rust_lvl f) && forallb rust_wp args
    | _ => false
    end.

  (** *** Where C and Rust agree *)

  (** C binds [&], [^], [|] weaker than comparisons, Rust tighter; and C has two
      levels of comparisons.  The condition: no operand of a comparison is a
      comparison or a bit operation without parentheses. *)
  Definition is_cmp (op : binop) : bool :=
    match op with BEq | BLt | BLe | BNe | BGe | BGt => true | _ => false end.
  Definition cmp_or_bit (e : expr) : bool :=
    match e with
    | EBinary (BBitAnd | BBitOr | BBitXor) _ _ => true
    | EBinary op _ _ => is_cmp op
    | _ => false
    end.
  Definition is_neg (e : expr) : bool := match e with EUnary UNeg _ => true | _ => false end.

  Fixpoint c_agrees (e : expr) : bool :=
    match e with
    | EUnary op a => c_agrees a && match op with UNeg => negb (is_neg a) | _ => true end
    | EParen a | ECast a _ => c_agrees a
    | EBinary op a b =>
        c_agrees a && c_agrees b && (negb (is_cmp op) || negb (cmp_or_bit a) && negb (cmp_or_bit b))
    | EMethodCall r _ _ args => c_agrees r && forallb c_agrees args
    | ECall f args => c_agrees f && forallb c_agrees args
    | _ => true
    end.

  (** *** Names and numbers that can be written in C *)
  Variable typedefs : list string.
  Definition words_eqb (a b : list string) : bool := if list_eq_dec string_dec a b then true else false.
  Definition c_name (w : string) : bool :=
    words_eqb (c_lex w) [w] && is_alpha (first_char w) && negb (is_type typedefs w).
  Definition c_number (d : string) : bool := words_eqb (c_lex d) [d] && is_digit (first_char d).
  Definition c_type (t : string) : bool :=
    let ws := c_lex t in
    negb (words_eqb ws []) && forallb (is_type typedefs) ws && String.eqb (String.concat " " ws) t.

  Fixpoint c_names (e : expr) : bool :=
    match e with
    | ELit (LInt d _) | ELit (LFloat d _) => c_number d
    | EPath p => c_name (path_text p)
    | EUnary _ a | EParen a => c_names a
    | EBinary _ a b => c_names a && c_names b
    | ECast a t => c_names a && c_type (basic_type t)
    | ECall (EPath p) args =>
        negb (is_tuple (EPath p)) && negb (String.eqb (path_text p) "fty_from_bits") && c_name (prefix o ++ path_text p) && forallb c_names args
    | ECall f args => String.eqb (prefix o) "" && c_names f && forallb c_names args
    | EMethodCall r m _ args =>
        c_names r && forallb c_names args
        && (if String.eqb m "round" then c_name ("round" ++ float_suffix o)
            else if String.eqb m "mul_add" then Nat.eqb (List.length args) 2
            else c_name m)
    | _ => false
    end.
End Spec.

(** ** Longest match at isolating characters *)

Lemma list_ascii_app a b :
  list_ascii_of_string (a ++ b)%string = (list_ascii_of_string a ++ list_ascii_of_string b)%list.
Proof. induction a; cbn; congruence. Qed.

Lemma append_assoc' a b c : ((a ++ b) ++ c = a ++ b ++ c)%string.
Proof. induction a; cbn; congruence. Qed.

Definition last_char (w : string) : option ascii :=
  match rev (list_ascii_of_string w) with c :: _ => Some c | [] => None end.

Definition isolating (c : ascii) : bool :=
  existsb (Ascii.eqb c) [" "%char; ascii_of_nat 10; "("%char; ")"%char; ","%char; ";"%char].

Lemma iso_cases (P : ascii -> Prop) :
  P " "%char -> P (ascii_of_nat 10) -> P "("%char -> P ")"%char -> P ","%char -> P ";"%char -> forall c, isolating c = true -> P c.
Proof.
  intros. unfold isolating in H5. cbn [existsb] in H5.
  repeat match goal with
  | H : (Ascii.eqb c ?x || _)%bool = true |- _ =>
      destruct (Ascii.eqb_spec c x); [subst; assumption|cbn [orb] in H]
  end. discriminate.
Qed.

Lemma last_not l c ws :
  (forall w, In w ws -> last_char w <> Some c) -> existsb (String.eqb (string_of_list_ascii (rev (c :: l)))) ws = false.
Proof.
  intros H. apply not_true_iff_false. intros E. apply existsb_exists in E. destruct E as (w & Hw & E).
  apply String.eqb_eq in E. apply (H w Hw). subst w. unfold last_char.
  rewrite list_ascii_of_string_of_list_ascii, rev_involutive. reflexivity.
Qed.

Lemma iso_ends c p : isolating c = true -> c_ext p c = false.
Proof.
  intros I. unfold c_ext. 
  assert (D : is_digit c = false) by (apply (iso_cases (fun c => is_digit c = false)); auto).
  assert (A : is_alpha c = false) by (apply (iso_cases (fun c => is_alpha c = false)); auto).
  destruct (is_digit (p_first p)).
  - unfold num_ext. rewrite D, A.
    assert (Ascii.eqb c "." = false /\ Ascii.eqb c "+" = false /\ Ascii.eqb c "-" = false) as (-> & -> & ->).
    { apply (iso_cases (fun c => Ascii.eqb c "." = false /\ Ascii.eqb c "+" = false /\ Ascii.eqb c "-" = false)); auto. }
    reflexivity.
  - rewrite D, A. destruct (is_alpha (p_first p)); [reflexivity|].
    unfold text_of, grow. cbn [p_rev]. apply last_not.
    apply (iso_cases (fun c => forall w, In w c_puncts -> last_char w <> Some c)); [..|exact I];
      intros w Hw; cbn in Hw;
      repeat match goal with H : _ \/ _ |- _ => destruct H as [H|H]; [subst w; discriminate|] end; contradiction.
Qed.

Lemma iso_alone c c' : isolating c = true -> is_white c = false -> c_ext (start c) c' = false.
Proof.
  intros I. revert c I. apply (iso_cases (fun c => is_white c = false -> c_ext (start c) c' = false));
    intros W; try discriminate W; reflexivity.
Qed.

Definition iso_tok (c : ascii) : list string := if is_white c then [] else [String c ""].

Lemma lex_restart c c' r :
  c_ext (start c) c' = false ->
  lex_from c_ext (Some (start c)) (c' :: r) = String c "" :: lex_from c_ext None (c' :: r).
Proof. intros H. cbn [lex_from]. rewrite H. reflexivity. Qed.

Lemma lex_from_iso cur a c r :
  isolating c = true ->
  lex_from c_ext cur (a ++ c :: r) = lex_from c_ext cur a ++ iso_tok c ++ lex_from c_ext None r.
Proof.
  intros I. assert (R : is_white c = false -> lex_from c_ext (Some (start c)) r = String c "" :: lex_from c_ext None r).
  { intros W. destruct r as [|c' r]; [reflexivity|]. apply lex_restart, iso_alone; auto. }
  revert cur. induction a as [|x a IH]; intros cur; cbn [List.app lex_from].
  - unfold iso_tok. destruct cur as [p|].
    + rewrite iso_ends by auto. destruct (is_white c) eqn:W; [reflexivity|]. rewrite R by auto. reflexivity.
    + destruct (is_white c) eqn:W; [reflexivity|]. rewrite R by auto. reflexivity.
  - destruct cur as [p|]; [destruct (c_ext p x)|]; cbn [List.app]; destruct (is_white x); rewrite IH; reflexivity.
Qed.

Lemma c_lex_iso a c b :
  isolating c = true -> c_lex (a ++ String c "" ++ b)%string = c_lex a ++ iso_tok c ++ c_lex b.
Proof.
  intros I. unfold c_lex, lex. rewrite list_ascii_app. cbn [String.append list_ascii_of_string].
  apply lex_from_iso, I.
Qed.
Lemma c_lex_space a b : c_lex (a ++ " " ++ b)%string = c_lex a ++ c_lex b.
Proof. now rewrite c_lex_iso. Qed.
Lemma c_lex_nl a b : c_lex (a ++ nl ++ b)%string = c_lex a ++ c_lex b.
Proof. unfold nl. now rewrite c_lex_iso. Qed.
Lemma c_lex_open a b : c_lex (a ++ "(" ++ b)%string = c_lex a ++ "(" :: c_lex b.
Proof. now rewrite c_lex_iso. Qed.
Lemma c_lex_close a b : c_lex (a ++ ")" ++ b)%string = c_lex a ++ ")" :: c_lex b.
Proof. now rewrite c_lex_iso. Qed.
Lemma c_lex_comma a b : c_lex (a ++ ", " ++ b)%string = c_lex a ++ "," :: c_lex b.
Proof.
  change (", " ++ b)%string with ("," ++ " " ++ b)%string. rewrite c_lex_iso by reflexivity.
  change (" " ++ b)%string with ("" ++ " " ++ b)%string. rewrite c_lex_space. reflexivity.
Qed.
Lemma c_lex_open0 b : c_lex ("(" ++ b)%string = "(" :: c_lex b.
Proof. exact (c_lex_open "" b). Qed.
Lemma c_lex_close0 b : c_lex (")" ++ b)%string = ")" :: c_lex b.
Proof. exact (c_lex_close "" b). Qed.
Lemma c_lex_close1 a : c_lex (a ++ ")")%string = c_lex a ++ [")"].
Proof. exact (c_lex_close a ""). Qed.
Lemma c_lex_space0 b : c_lex (" " ++ b)%string = c_lex b.
Proof. exact (c_lex_space "" b). Qed.

(** A unary operator stays a token of its own unless a minus sign follows a
    minus sign. *)
Definition plain_first (c : ascii) : bool :=
  is_alpha c || is_digit c || existsb (Ascii.eqb c) ["("; "*"; "!"]%char.
Lemma unop_alone op c :
  plain_first c = true \/ (c = "-"%char /\ op <> UNeg) ->
  c_ext (start (first_char (unop_text op))) c = false.
Proof.
  intros [H|[E H]]; [|subst c].
  - destruct op; destruct c as [[] [] [] [] [] [] [] []]; try discriminate H; reflexivity.
  - destruct op; try reflexivity. congruence.
Qed.
Lemma plain_not_white c : plain_first c = true \/ c = "-"%char -> is_white c = false.
Proof. intros [H|H]; [|now subst]. destruct c as [[] [] [] [] [] [] [] []]; try discriminate H; reflexivity. Qed.

Lemma c_lex_unop op c r :
  plain_first c = true \/ (c = "-"%char /\ op <> UNeg) ->
  c_lex (unop_text op ++ String c r)%string = unop_text op :: c_lex (String c r).
Proof.
  intros H. pose proof (unop_alone op c H) as E.
  assert (U : unop_text op = String (first_char (unop_text op)) "") by (destruct op; reflexivity).
  rewrite U at 1 2. cbn [String.append]. unfold c_lex, lex. cbn [list_ascii_of_string].
  rewrite <- lex_restart by assumption.
  cbn [lex_from]. destruct op; reflexivity.
Qed.

(** ** From words to tokens *)
Definition oapp (l : list token) (x : option (list token)) : option (list token) := option_map (List.app l) x.
Lemma oapp_app a b x : oapp (a ++ b) x = oapp a (oapp b x).
Proof. destruct x; cbn; [now rewrite app_assoc|reflexivity]. Qed.
Lemma oapp_cons t l x : oapp (t :: l) x = ocons (Some t) (oapp l x).
Proof. destruct x; reflexivity. Qed.
Lemma ocons_oapp t x : ocons (Some t) x = oapp [t] x.
Proof. destruct x; reflexivity. Qed.

Lemma words_eqb_eq a b : words_eqb a b = true -> a = b.
Proof. unfold words_eqb. destruct (list_eq_dec string_dec a b); congruence. Qed.

Section Read.
  Variable o : copts.
  Variable typedefs : list string.
  Hypothesis typedefs_ok : forallb (fun w => is_alpha (first_char w)) typedefs = true.
  Notation C := (c_toks typedefs).
  Notation ty := (is_type typedefs).
  Definition etext (e : expr) : string := expr_text o (cof e).
  Definition L (e : expr) : list string := c_lex (etext e).

  Lemma type_alpha w : ty w = true -> is_alpha (first_char w) = true.
  Proof.
    unfold is_type. intros H. apply orb_prop in H. destruct H as [H|H]; apply existsb_exists in H; destruct H as (x & Hx & E);
      apply String.eqb_eq in E; subst x.
    - cbn in Hx. repeat (destruct Hx as [<-|Hx]; [reflexivity|]). contradiction.
    - rewrite forallb_forall in typedefs_ok. auto.
  Qed.
  Lemma punct_not_type w : is_alpha (first_char w) = false -> ty w = false.
  Proof. intros H. apply not_true_iff_false. intros E. apply type_alpha in E. congruence. Qed.

  Lemma C_punct w t r :
    is_alpha (first_char w) = false -> String.eqb w "(" = false -> c_tok [] w = Some t -> C None (w :: r) = ocons (Some t) (C None r).
  Proof.
    intros A P T. cbn [c_toks]. rewrite P. f_equal. revert T. unfold c_tok. rewrite (punct_not_type w A).
    destruct (is_type [] w) eqn:E; [discriminate|]. auto.
  Qed.
  Lemma C_close r : C None (")" :: r) = ocons (Some TRParen) (C None r).
  Proof. now apply C_punct. Qed.
  Lemma C_comma r : C None ("," :: r) = ocons (Some TComma) (C None r).
  Proof. now apply C_punct. Qed.
  Lemma C_bin op r : C None (binop_text op :: r) = ocons (Some (TBin op)) (C None r).
  Proof. destruct op; now apply C_punct. Qed.
  Lemma C_un op r : C None (unop_text op :: r) = ocons (Some (unop_tok op)) (C None r).
  Proof. destruct op; now apply C_punct. Qed.
  Lemma C_open w r : ty w = false -> C None ("(" :: w :: r) = ocons (Some TLParen) (C None (w :: r)).
  Proof. intros H. cbn [c_toks String.eqb Ascii.eqb Bool.eqb]. now rewrite H. Qed.
  Lemma C_name w r : c_name typedefs w = true -> C None (w :: r) = ocons (Some (TPath [w])) (C None r).
  Proof.
    intros H. unfold c_name in H. repeat (apply andb_prop in H; destruct H as [H ?]).
    apply negb_true_iff in H0. cbn [c_toks].
    assert (X : forall p, is_alpha (first_char p) = false -> String.eqb w p = false).
    { intros p Hp. apply String.eqb_neq. intros ->. congruence. }
    rewrite X by reflexivity. f_equal. unfold c_tok. rewrite H0. rewrite !X by reflexivity.
    destruct (is_digit (first_char w)) eqn:D; [|now rewrite H1].
    exfalso. revert H1 D. destruct (first_char w) as [[] [] [] [] [] [] [] []]; discriminate.
  Qed.
  Lemma C_number w r : c_number w = true -> C None (w :: r) = ocons (Some (TLit (lex_number w ""))) (C None r).
  Proof.
    intros H. unfold c_number in H. apply andb_prop in H. destruct H as [_ D]. cbn [c_toks].
    assert (X : forall p, is_digit (first_char p) = false -> String.eqb w p = false).
    { intros p Hp. apply String.eqb_neq. intros ->. congruence. }
    rewrite X by reflexivity. f_equal. unfold c_tok. rewrite punct_not_type.
    2:{ revert D. destruct (first_char w) as [[] [] [] [] [] [] [] []]; try discriminate; reflexivity. }
    rewrite !X by reflexivity. now rewrite D.
  Qed.
  Lemma C_cast ws : forall ts, forallb ty ws = true -> ts ++ ws <> [] -> forall r,
    C (Some ts) (ws ++ ")" :: r) = ocons (Some (TCast (String.concat " " (ts ++ ws)))) (C None r).
  Proof.
    induction ws as [|w ws IH]; intros ts H N r.
    - rewrite app_nil_r in *. cbn [List.app c_toks]. rewrite punct_not_type by reflexivity.
      destruct ts; [congruence|]. reflexivity.
    - cbn [forallb] in H. apply andb_prop in H. destruct H as [H1 H2]. cbn [List.app c_toks]. rewrite H1.
      rewrite IH by (auto; destruct ts; discriminate). rewrite <- app_assoc. reflexivity.
  Qed.

  (** *** Words and tokens of an expression *)
  Definition reads (e : expr) : Prop :=
    (exists w ws, L e = w :: ws /\ ty w = false) /\
    (forall r, C None (L e ++ r) = oapp (toks (c_tree o e)) (C None r)).

  Lemma reads_open e r : reads e -> C None ("(" :: L e ++ r) = oapp (TLParen :: toks (c_tree o e)) (C None r).
  Proof.
    intros ((w & ws & E & T) & H). rewrite oapp_cons, <- H, E. cbn [List.app]. now apply C_open.
  Qed.

  Lemma L_args_cons x y l :
    c_lex (commas_text (map etext (x :: y :: l))) = L x ++ "," :: c_lex (commas_text (map etext (y :: l))).
  Proof. unfold commas_text. cbn [map String.concat]. rewrite c_lex_comma. reflexivity. Qed.
  Lemma L_args_one x : c_lex (commas_text (map etext [x])) = L x.
  Proof. reflexivity. Qed.

  Lemma args_read args : Forall reads args -> forall r,
    C None ("(" :: c_lex (commas_text (map etext args)) ++ ")" :: r) =
    oapp (TLParen :: commas (map toks (map (c_tree o) args)) ++ [TRParen]) (C None r).
  Proof.
    intros F r.
    assert (G : args <> [] -> (exists w ws, c_lex (commas_text (map etext args)) = w :: ws /\ ty w = false) /\
      forall r, C None (c_lex (commas_text (map etext args)) ++ r) =
                oapp (commas (map toks (map (c_tree o) args))) (C None r)).
    { induction F as [|x l Hx Hl IH]; [congruence|intros _]. destruct l as [|y l].
      - rewrite L_args_one. cbn [map commas]. exact Hx.
      - rewrite L_args_cons. destruct Hx as ((w & ws & E & T) & Hx). split.
        + exists w. eexists. rewrite E. split; [reflexivity|exact T].
        + intros r'. rewrite <- app_assoc. cbn [List.app]. rewrite Hx, C_comma.
          rewrite (proj2 (IH ltac:(discriminate))). cbn [map commas]. rewrite oapp_app, oapp_cons. reflexivity. }
    destruct args as [|x l].
    - cbn [map commas]. change (c_lex (commas_text [])) with (@nil string).
      cbn [List.app]. rewrite C_open by (now apply punct_not_type). rewrite C_close, !oapp_cons.
      destruct (C None r); reflexivity.
    - destruct G as ((w & ws & E & T) & G); [discriminate|].
      rewrite oapp_cons. rewrite oapp_app. rewrite <- ocons_oapp, <- C_close, <- G, E. cbn [List.app].
      now apply C_open.
  Qed.

  (** First characters *)
  Fixpoint minus_first (e : expr) : bool :=
    match e with
    | EUnary UNeg _ => true
    | EBinary _ a _ => minus_first a
    | ECall (EPath _) _ => false
    | ECall f _ => minus_first f
    | _ => false
    end.

  Lemma first_app a b c r : a = String c r -> exists r', (a ++ b)%string = String c r'.
  Proof. intros ->. cbn. eauto. Qed.
  Lemma name_first w : c_name typedefs w = true -> exists c r, w = String c r /\ plain_first c = true.
  Proof.
    unfold c_name. intros H. repeat (apply andb_prop in H; destruct H as [H ?]).
    destruct w as [|c r]; [discriminate|]. cbn [first_char] in H1. exists c, r. unfold plain_first. rewrite H1. auto.
  Qed.
  Lemma number_first w : c_number w = true -> exists c r, w = String c r /\ plain_first c = true.
  Proof.
    unfold c_number. intros H. apply andb_prop in H. destruct H as [_ H].
    destruct w as [|c r]; [discriminate|]. cbn [first_char] in H. exists c, r. unfold plain_first.
    rewrite H, orb_true_r. auto.
  Qed.

  Lemma path_or e : (exists p, e = EPath p) \/ (forall p, e <> EPath p).
  Proof. destruct e; try (right; discriminate). left. eauto. Qed.
  Lemma not_tuple f : (forall p, f <> EPath p) -> is_tuple f = false.
  Proof. intros N. destruct f; try reflexivity. exfalso. exact (N _ eq_refl). Qed.
  Lemma cof_call f args : is_tuple f = false -> cof (ECall f args) = CCall (cof f) (map cof args).
  Proof. intros H. cbn [cof]. now rewrite H. Qed.
  Lemma names_call f args : (forall p, f <> EPath p) ->
    c_names o typedefs (ECall f args) = String.eqb (prefix o) "" && c_names o typedefs f && forallb (c_names o typedefs) args.
  Proof. intros N. destruct f; try reflexivity. exfalso. exact (N _ eq_refl). Qed.
  Lemma minus_call f args : (forall p, f <> EPath p) -> minus_first (ECall f args) = minus_first f.
  Proof. intros N. destruct f; try reflexivity. Qed.
  Lemma tree_call f args : (forall p, f <> EPath p) ->
    c_tree o (ECall f args) = ECall (c_tree o f) (map (c_tree o) args).
  Proof. intros N. destruct f; try reflexivity. exfalso. exact (N _ eq_refl). Qed.

  Lemma text_first e : c_names o typedefs e = true ->
    exists c r, etext e = String c r /\ (plain_first c = true \/ (c = "-"%char /\ minus_first e = true)).
  Proof.
    unfold etext. induction e using expr_ind_ops; cbn [c_names]; intros H0; try discriminate.
    - destruct l as [d s|d s|b|t]; try discriminate; cbn [cof expr_text];
        destruct (number_first _ H0) as (c & r & E & P); eauto.
    - cbn [cof expr_text]. destruct (name_first _ H0) as (c & r & E & P); eauto.
    - cbn [cof expr_text]. destruct op; cbn [unop_text String.append]; eexists; eexists; split; eauto.
    - apply andb_prop in H0. destruct H0 as [A _]. destruct (IHe1 A) as (c & r & E & P). cbn [cof expr_text minus_first].
      destruct (first_app _ (" " ++ binop_text op ++ " " ++ expr_text o (cof e2)) _ _ E) as [r' ->]. eauto.
    - apply andb_prop in H0. destruct H0 as [A M]. cbn [cof expr_text]. unfold method_text.
      destruct (String.eqb m "round") eqn:R.
      + apply String.eqb_eq in R. subst m. cbn [String.append]. eauto.
      + destruct (String.eqb m "mul_add") eqn:MA.
        * apply andb_prop in A. destruct A as [_ A]. apply Nat.eqb_eq in M.
          destruct args as [|x [|y [|]]]; try discriminate M. cbn [map String.append]. eauto.
        * destruct (name_first _ M) as (c & r & E & P). subst m. cbn [String.append]. eauto.
    - cbn [cof expr_text String.append]. eauto.
    - destruct (path_or e) as [[p ->]|N].
      + cbn [c_names] in H0. apply andb_prop in H0. destruct H0 as [A _]. apply andb_prop in A. destruct A as [N A].
        apply andb_prop in N. destruct N as [NT N]. rewrite cof_call by (now apply negb_true_iff). cbn [cof expr_text]. unfold call_text. apply negb_true_iff in N. rewrite N.
        destruct (name_first _ A) as (c & r & E & P). rewrite <- (append_assoc' (prefix o)).
        destruct (first_app _ ("(" ++ commas_text (map (expr_text o) (map cof args)) ++ ")") _ _ E) as [r' ->]. eauto.
      + change (c_names o typedefs (ECall e args) = true) in H0. rewrite names_call in H0 by auto.
        apply andb_prop in H0; destruct H0 as [A B]; apply andb_prop in A; destruct A as [A X].
        apply String.eqb_eq in A; destruct (IHe X) as (c & r & E & P).
        rewrite minus_call by auto. rewrite cof_call by (now apply not_tuple). cbn [expr_text]. unfold call_text.
        destruct (String.eqb (expr_text o (cof e)) "fty_from_bits"); [cbn [String.append]; eauto|].
        rewrite A. match goal with |- context [("" ++ ?x)%string] => change ("" ++ x)%string with x end.
        destruct (first_app _ ("(" ++ commas_text (map (expr_text o) (map cof args)) ++ ")") _ _ E) as [r' ->]. eauto.
    - cbn [cof expr_text String.append]. eauto.
  Qed.

  Lemma minus_neg a : rust_wp a = true -> 100 <= rust_lvl a -> minus_first a = true -> is_neg a = true.
  Proof.
    induction a using expr_ind_ops; intros W N M; try discriminate M.
    - destruct op; auto.
    - cbn [rust_lvl] in N. clear -N. pose proof (rust_prec_small op). lia.
    - destruct (path_or a) as [[p ->]|NP]; [discriminate M|]. rewrite minus_call in M by auto.
      cbn [rust_wp] in W. apply andb_prop in W. destruct W as [W _]. apply andb_prop in W. destruct W as [W X].
      apply Nat.leb_le in X. assert (Y : is_neg a = true) by (apply IHa; auto; lia).
      destruct a; try discriminate Y. cbn in X. lia.
  Qed.

  Lemma name_word w : c_name typedefs w = true -> c_lex w = [w] /\ ty w = false.
  Proof.
    unfold c_name. intros H. repeat (apply andb_prop in H; destruct H as [H ?]).
    apply words_eqb_eq in H. apply negb_true_iff in H0. auto.
  Qed.
  Lemma number_word w : c_number w = true -> c_lex w = [w] /\ ty w = false.
  Proof.
    unfold c_number. intros H. apply andb_prop in H. destruct H as [H D].
    apply words_eqb_eq in H. split; [auto|]. apply punct_not_type. revert D.
    destruct (first_char w) as [[] [] [] [] [] [] [] []]; try discriminate; reflexivity.
  Qed.
  Lemma canon_number w : c_number w = true -> canon_lit (lex_number w "") = true.
  Proof.
    unfold c_number. intros H. apply andb_prop in H. destruct H as [_ D]. unfold lex_number.
    assert (M : match w with String c _ => negb (Ascii.eqb c "-") | "" => true end = true).
    { destruct w as [|c r]; [reflexivity|]. cbn [first_char] in D. destruct (Ascii.eqb_spec c "-"); [subst c; discriminate|reflexivity]. }
    destruct (float_text w "") eqn:F; cbn [canon_lit]; rewrite F, M; reflexivity.
  Qed.

  (** A call: a name followed by arguments. *)
  Lemma call_read f args r :
    c_name typedefs f = true -> Forall reads args ->
    C None (c_lex (f ++ "(" ++ commas_text (map etext args) ++ ")")%string ++ r) =
    oapp (TPath [f] :: TLParen :: commas (map toks (map (c_tree o) args)) ++ [TRParen]) (C None r).
  Proof.
    intros N F. rewrite c_lex_open, c_lex_close1. destruct (name_word f N) as [-> _].
    cbn [List.app]. rewrite C_name by auto. rewrite <- app_assoc. cbn [List.app].
    rewrite args_read by auto. rewrite (oapp_cons (TPath [f])). reflexivity.
  Qed.
  Lemma call_first f g : c_name typedefs f = true -> exists w ws, c_lex (f ++ "(" ++ g)%string = w :: ws /\ ty w = false.
  Proof.
    intros N. rewrite c_lex_open. destruct (name_word f N) as [-> T]. exists f. eexists. split; [reflexivity|auto].
  Qed.
  Lemma open_first g : exists w ws, c_lex ("(" ++ g)%string = w :: ws /\ ty w = false.
  Proof. rewrite c_lex_open0. exists "(". eexists. split; [reflexivity|now apply punct_not_type]. Qed.

  Lemma map_etext args : map (expr_text o) (map cof args) = map etext args.
  Proof. rewrite map_map. reflexivity. Qed.

  Lemma forall_reads args :
    Forall (fun e => c_names o typedefs e = true -> rust_wp e = true -> c_agrees e = true -> reads e) args ->
    forallb (c_names o typedefs) args = true -> forallb rust_wp args = true -> forallb c_agrees args = true ->
    Forall reads args.
  Proof. rewrite !Forall_forall, !forallb_forall. auto. Qed.

  Lemma not_path_tok e x :
    c_names o typedefs e = true -> 101 <= rust_lvl e -> (forall p, e <> EPath p) -> toks (c_tree o e) <> [TPath x].
  Proof.
    assert (Z : forall f g h, toks f ++ TLParen :: g ++ [TRParen] <> [h]).
    { intros f g h E. apply (f_equal (@List.length token)) in E. rewrite app_length in E. cbn [List.length] in E.
      rewrite app_length in E. cbn in E. lia. }
    intros N LV NP. destruct e; cbn [rust_lvl] in LV; try discriminate N; try (clear -LV; lia).
    - destruct l as [d s|d s|b|t]; try discriminate N; cbn [c_tree toks]; cbn [c_names] in N;
        rewrite canon_lit_toks by (apply canon_number; auto); discriminate.
    - exfalso. eapply NP. reflexivity.
    - clear -LV. pose proof (rust_prec_small op). lia.
    - cbn [c_tree]. destruct (String.eqb m "round"); [apply Z|]. destruct (String.eqb m "mul_add"); [|apply Z].
      destruct (map (c_tree o) args) as [|b [|c l]]; discriminate.
    - discriminate.
    - destruct (path_or e) as [[p ->]|Q]; [apply Z|]. rewrite tree_call by auto. apply Z.
  Qed.

  Lemma reads_ok e : c_names o typedefs e = true -> rust_wp e = true -> c_agrees e = true -> reads e.
  Proof.
    induction e using expr_ind_ops; intros N W A; try discriminate N.
    - destruct l as [d s|d s|b|t]; try discriminate N; cbn [c_names] in N;
        destruct (number_word _ N) as [E T]; (split; [exists d, []; split; [exact E|exact T]|]);
        intros r; unfold L, etext; cbn [cof expr_text c_tree toks]; rewrite E;
        rewrite canon_lit_toks by (apply canon_number; auto); cbn [List.app];
        rewrite C_number by auto; now rewrite ocons_oapp.
    - cbn [c_names] in N. destruct (name_word _ N) as [E T]. split; [exists (path_text p), []; auto|].
      intros r. unfold L, etext. cbn [cof expr_text c_tree toks]. rewrite E. cbn [List.app].
      rewrite C_name by auto. now rewrite ocons_oapp.
    - cbn [c_names] in N. cbn [rust_wp] in W. apply andb_prop in W. destruct W as [W LV]. apply Nat.leb_le in LV.
      cbn [c_agrees] in A. apply andb_prop in A. destruct A as [A U].
      destruct (IHe N W A) as [_ R]. destruct (text_first _ N) as (c & t & E & P).
      assert (P' : plain_first c = true \/ c = "-"%char /\ op <> UNeg).
      { destruct P as [P|[P M]]; [auto|right]. split; [auto|]. intros ->.
        rewrite (minus_neg e W LV M) in U. discriminate. }
      assert (X : L (EUnary op e) = unop_text op :: L e).
      { unfold L at 1, etext at 1. cbn [cof expr_text]. unfold L. fold (etext e). rewrite E. now apply c_lex_unop. }
      split.
      + rewrite X. exists (unop_text op), (L e). split; [auto|]. apply punct_not_type. destruct op; reflexivity.
      + intros r. rewrite X. cbn [List.app]. rewrite C_un, R. cbn [c_tree toks]. now rewrite oapp_cons.
    - cbn [c_names] in N. apply andb_prop in N. destruct N as [N1 N2].
      cbn [rust_wp] in W. repeat (apply andb_prop in W; destruct W as [W ?]).
      cbn [c_agrees] in A. repeat (apply andb_prop in A; destruct A as [A ?]).
      destruct (IHe1) as [(w & ws & E & T) R1]; auto. destruct (IHe2) as [_ R2]; auto.
      assert (X : L (EBinary op e1 e2) = L e1 ++ binop_text op :: L e2).
      { unfold L at 1, etext at 1. cbn [cof expr_text]. rewrite !c_lex_space. unfold L, etext. f_equal.
        destruct op; reflexivity. }
      split.
      + rewrite X, E. exists w. eexists. split; [reflexivity|auto].
      + intros r. rewrite X, <- app_assoc. cbn [List.app]. rewrite R1, C_bin, R2. cbn [c_tree toks].
        rewrite oapp_app, oapp_cons. reflexivity.
    - cbn [c_names] in N. apply andb_prop in N. destruct N as [N M]. apply andb_prop in N. destruct N as [N NA].
      cbn [rust_wp] in W. repeat (apply andb_prop in W; destruct W as [W ?]).
      cbn [c_agrees] in A. apply andb_prop in A. destruct A as [A AA].
      assert (F : Forall reads args) by (apply forall_reads; auto).
      assert (Re : reads e) by (apply IHe; auto). assert (FA : Forall reads (e :: args)) by auto.
      unfold reads, L, etext. cbn [cof expr_text c_tree]. rewrite map_etext. unfold method_text.
      destruct (String.eqb m "round") eqn:RD.
      + apply String.eqb_eq in RD. subst m. rewrite <- append_assoc'. split; [now apply call_first|].
        intros r. exact (call_read _ (e :: args) r M FA).
      + destruct (String.eqb m "mul_add") eqn:MA.
        * apply Nat.eqb_eq in M. destruct args as [|x [|y [|]]]; try discriminate M.
          cbn [map]. fold (etext e) (etext x) (etext y).
          change (("((" ++ etext e ++ nl ++ ") * (" ++ etext x ++ ") + (" ++ etext y ++ "))")%string)
            with ("(" ++ "(" ++ etext e ++ nl ++ ")" ++ " " ++ "*" ++ " " ++ "(" ++ etext x ++ ")"
                  ++ " " ++ "+" ++ " " ++ "(" ++ etext y ++ ")" ++ ")")%string.
          split; [apply open_first|]. intros r.
          rewrite !c_lex_open0, c_lex_nl, c_lex_close0, c_lex_space0, !c_lex_space, c_lex_open0,
            c_lex_close, c_lex_space0, !c_lex_space, c_lex_open0, c_lex_close.
          change (c_lex "*") with ["*"]. change (c_lex "+") with ["+"]. change (c_lex ")") with [")"].
          fold (L e) (L x) (L y). inversion F as [|? ? Rx F2]; subst. inversion F2 as [|? ? Ry _]; subst.
          do 4 (rewrite <- ?app_assoc; cbn [List.app]).
          rewrite C_open by (now apply punct_not_type). rewrite reads_open by auto.
          rewrite C_close. rewrite (C_bin BMul). rewrite reads_open by auto. rewrite C_close, (C_bin BAdd).
          rewrite reads_open by auto. rewrite !C_close. cbn [toks]. rewrite !ocons_oapp, <- !oapp_app.
          f_equal. rewrite <- ?app_assoc. cbn [List.app]. rewrite <- ?app_assoc. cbn [List.app].
          rewrite <- ?app_assoc. reflexivity.
        * split; [now apply call_first|]. intros r. exact (call_read _ (e :: args) r M FA).
    - cbn [c_names] in N. cbn [rust_wp] in W. cbn [c_agrees] in A. assert (Re : reads e) by auto.
      unfold reads, L, etext. cbn [cof expr_text c_tree]. split; [apply open_first|]. intros r.
      rewrite c_lex_open0, c_lex_close1. fold (etext e). fold (L e). cbn [List.app]. rewrite <- app_assoc. cbn [List.app].
      rewrite reads_open by auto. rewrite C_close. cbn [toks]. rewrite ocons_oapp, <- oapp_app. reflexivity.
    - cbn [rust_wp] in W. apply andb_prop in W. destruct W as [W WA]. apply andb_prop in W. destruct W as [W LV].
      cbn [c_agrees] in A. apply andb_prop in A. destruct A as [A AA].
      destruct (path_or e) as [[p ->]|NP].
      + cbn [c_names] in N. apply andb_prop in N. destruct N as [N NA]. apply andb_prop in N. destruct N as [NB N].
        assert (F : Forall reads args) by (apply forall_reads; auto).
        apply andb_prop in NB. destruct NB as [NT NB].
        unfold reads, L, etext. rewrite cof_call by (now apply negb_true_iff).
        cbn [cof expr_text c_tree toks]. unfold call_text. apply negb_true_iff in NB. rewrite NB.
        rewrite map_etext. rewrite <- append_assoc'. split; [now apply call_first|].
        intros r. exact (call_read _ args r N F).
      + rewrite names_call in N by auto. apply andb_prop in N; destruct N as [N NA]; apply andb_prop in N; destruct N as [PX N].
        assert (F : Forall reads args) by (apply forall_reads; auto). destruct (IHe N W A) as [(w & ws & E & T) R].
        apply String.eqb_eq in PX.
        assert (NB : String.eqb (etext e) "fty_from_bits" = false).
        { apply String.eqb_neq. intros X. specialize (R []). unfold L in R. rewrite X in R.
          change (c_lex "fty_from_bits") with ["fty_from_bits"] in R.
          unfold L in E. rewrite X in E. change (c_lex "fty_from_bits") with ["fty_from_bits"] in E.
          inversion E; subst w ws. cbn [List.app] in R. rewrite C_name in R by (unfold c_name; rewrite T; reflexivity).
          change (c_toks typedefs None []) with (Some (@nil token)) in R. unfold oapp, option_map, ocons in R.
          inversion R as [Y]. rewrite app_nil_r in Y. symmetry in Y. revert Y. apply not_path_tok; auto.
          now apply Nat.leb_le. }
        assert (X : L (ECall e args) = L e ++ "(" :: c_lex (commas_text (map etext args)) ++ [")"]).
        { unfold L at 1, etext at 1. rewrite cof_call by (now apply not_tuple). cbn [expr_text]. unfold call_text. fold (etext e). rewrite NB, PX, map_etext.
          change ("" ++ etext e ++ "(" ++ commas_text (map etext args) ++ ")")%string
            with (etext e ++ "(" ++ commas_text (map etext args) ++ ")")%string.
          rewrite c_lex_open, c_lex_close1. reflexivity. }
        unfold reads. rewrite X. split; [rewrite E; exists w; eexists; split; [reflexivity|auto]|].
        intros r. rewrite tree_call by auto. cbn [toks]. rewrite <- app_assoc. cbn [List.app]. rewrite R.
        rewrite <- app_assoc. cbn [List.app]. rewrite args_read by auto. now rewrite oapp_app.
    - cbn [c_names] in N. apply andb_prop in N. destruct N as [N NT].
      cbn [rust_wp] in W. apply andb_prop in W. destruct W as [W _]. cbn [c_agrees] in A.
      destruct (IHe N W A) as [_ R]. unfold c_type in NT.
      apply andb_prop in NT. destruct NT as [NT NC]. apply andb_prop in NT. destruct NT as [NN NT].
      apply String.eqb_eq in NC.
      assert (X : L (ECast e t) = "(" :: c_lex (basic_type t) ++ ")" :: L e).
      { unfold L at 1, etext at 1. cbn [cof expr_text ty_text]. change (path_text [t]) with t.
        rewrite c_lex_open0, c_lex_close. reflexivity. }
      unfold reads. rewrite X. split; [exists "("; eexists; split; [reflexivity|now apply punct_not_type]|].
      intros r. cbn [List.app]. rewrite <- app_assoc. cbn [List.app c_toks String.eqb Ascii.eqb Bool.eqb].
      rewrite C_cast; [|auto|].
      + cbn [List.app]. rewrite NC, R. cbn [c_tree toks]. now rewrite oapp_cons.
      + cbn [List.app]. intros Z. rewrite Z in NN. discriminate.
  Qed.
End Read.

(** ** Precedences *)
Lemma prec_left op op' x y :
  rust_prec op <= rust_prec op' -> (negb (is_cmp op) || negb (cmp_or_bit (EBinary op' x y))) = true ->
  c_prec op <= c_prec op'.
Proof. destruct op, op'; cbn; intros; try discriminate; lia. Qed.
Lemma prec_right op op' x y :
  rust_prec op < rust_prec op' -> (negb (is_cmp op) || negb (cmp_or_bit (EBinary op' x y))) = true ->
  c_prec op < c_prec op'.
Proof. destruct op, op'; cbn; intros; try discriminate; lia. Qed.

Lemma tree_lvl o e : rust_wp e = true -> c_names o [] e = true \/ True ->
  match e with
  | EBinary op _ _ => lvl c_prec (c_tree o e) = c_prec op
  | EUnary _ _ | ECast _ _ => lvl c_prec (c_tree o e) = 100
  | _ => lvl c_prec (c_tree o e) = 101
  end.
Proof.
  intros W _. destruct e; try reflexivity; try discriminate W.
  - destruct l; reflexivity.
  - cbn [c_tree]. destruct (String.eqb m "round"); [reflexivity|]. destruct (String.eqb m "mul_add"); [|reflexivity].
    destruct (map (c_tree o) args) as [|b [|c l]]; reflexivity.
  - destruct e; reflexivity.
Qed.

Lemma tree_top o e : rust_wp e = true -> 101 <= rust_lvl e -> lvl c_prec (c_tree o e) = 101.
Proof.
  intros W LV. pose proof (tree_lvl o e W (or_intror I)) as H. destruct e; auto; cbn [rust_lvl] in LV; clear -LV; try lia.
  pose proof (rust_prec_small op). lia.
Qed.
Lemma tree_unary o e : rust_wp e = true -> 50 <= rust_lvl e -> 100 <= lvl c_prec (c_tree o e).
Proof.
  intros W LV. pose proof (tree_lvl o e W (or_intror I)) as H. destruct e; try (clear -H; lia). cbn [rust_lvl] in LV. clear -LV.
  assert (rust_prec op < 50) by (destruct op; cbn; lia). lia.
Qed.
Lemma tree_not_field o e : rust_wp e = true -> is_field (c_tree o e) = false.
Proof.
  destruct e; try reflexivity; try discriminate; intros _.
  - destruct l; reflexivity.
  - cbn [c_tree]. destruct (String.eqb m "round"); [reflexivity|]. destruct (String.eqb m "mul_add"); [|reflexivity].
    destruct (map (c_tree o) args) as [|b [|c l]]; reflexivity.
  - destruct e; reflexivity.
Qed.

Lemma tree_wp o typedefs e :
  c_names o typedefs e = true -> rust_wp e = true -> c_agrees e = true -> wp c_prec (c_tree o e) = true.
Proof.
  assert (FA : forall args, Forall (fun e => c_names o typedefs e = true -> rust_wp e = true -> c_agrees e = true ->
                 wp c_prec (c_tree o e) = true) args ->
    forallb (c_names o typedefs) args = true -> forallb rust_wp args = true -> forallb c_agrees args = true ->
    forallb (wp c_prec) (map (c_tree o) args) = true).
  { intros args F A B D. rewrite Forall_forall in F. rewrite forallb_forall in A, B, D |- *.
    intros x Hx. apply in_map_iff in Hx. destruct Hx as (y & <- & Hy). auto. }
  induction e using expr_ind_ops; intros N W A; try discriminate N.
  - destruct l as [d s|d s|b|t]; try discriminate N; cbn [c_tree wp]; apply canon_number; auto.
  - reflexivity.
  - cbn [rust_wp] in W. apply andb_prop in W. destruct W as [W LV]. apply Nat.leb_le in LV.
    cbn [c_agrees] in A. apply andb_prop in A. destruct A as [A _]. cbn [c_tree wp].
    rewrite IHe by auto. cbn [andb]. apply Nat.leb_le, tree_unary; auto. lia.
  - cbn [c_names] in N. apply andb_prop in N. destruct N as [N1 N2].
    cbn [rust_wp] in W. repeat (apply andb_prop in W; destruct W as [W ?]).
    cbn [c_agrees] in A. repeat (apply andb_prop in A; destruct A as [A ?]).
    apply Nat.leb_le in H0. apply Nat.ltb_lt in H. cbn [c_tree wp]. rewrite IHe1, IHe2 by auto. cbn [andb].
    assert (X1 : negb (is_cmp op) || negb (cmp_or_bit e1) = true).
    { destruct (is_cmp op); auto. cbn [negb orb] in H2 |- *. apply andb_prop in H2. tauto. }
    assert (X2 : negb (is_cmp op) || negb (cmp_or_bit e2) = true).
    { destruct (is_cmp op); auto. cbn [negb orb] in H2 |- *. apply andb_prop in H2. tauto. }
    pose proof (c_prec_small op) as PS. apply andb_true_intro. split.
    + apply Nat.leb_le. pose proof (tree_lvl o e1 W (or_intror I)) as T. 
      destruct e1; try (rewrite T; clear -PS; lia).
      rewrite T. cbn [rust_lvl] in H0. eapply prec_left; eauto.
    + apply Nat.ltb_lt. pose proof (tree_lvl o e2 ltac:(auto) (or_intror I)) as T. 
      destruct e2; try (rewrite T; clear -PS; lia).
      rewrite T. cbn [rust_lvl] in H. eapply prec_right; eauto.
  - cbn [c_names] in N. apply andb_prop in N. destruct N as [N M]. apply andb_prop in N. destruct N as [N NA].
    cbn [rust_wp] in W. repeat (apply andb_prop in W; destruct W as [W ?]).
    cbn [c_agrees] in A. apply andb_prop in A. destruct A as [A AA].
    assert (F : forallb (wp c_prec) (map (c_tree o) args) = true) by (apply FA; auto).
    assert (E : wp c_prec (c_tree o e) = true) by (apply IHe; auto).
    assert (Z : forall f, wp c_prec (ECall (EPath f) (c_tree o e :: map (c_tree o) args)) = true).
    { intros f. cbn [wp lvl is_field forallb]. rewrite E, F. reflexivity. }
    cbn [c_tree]. destruct (String.eqb m "round"); [apply Z|]. destruct (String.eqb m "mul_add"); [|apply Z].
    apply Nat.eqb_eq in M. destruct args as [|x [|y [|]]]; try discriminate M. cbn [map forallb] in F |- *.
    apply andb_prop in F. destruct F as [Fx F]. apply andb_prop in F. destruct F as [Fy _].
    cbn [wp]. rewrite E, Fx, Fy. reflexivity.
  - cbn [c_tree wp]. apply IHe; auto.
  - cbn [rust_wp] in W. apply andb_prop in W. destruct W as [W WA]. apply andb_prop in W. destruct W as [W LV].
    apply Nat.leb_le in LV. cbn [c_agrees] in A. apply andb_prop in A. destruct A as [A AA].
    destruct (path_or e) as [[p ->]|NP].
    + cbn [c_names] in N. apply andb_prop in N. destruct N as [N NA]. cbn [c_tree wp lvl is_field].
      rewrite FA by auto. reflexivity.
    + rewrite names_call in N by auto. apply andb_prop in N; destruct N as [N NA]; apply andb_prop in N; destruct N as [PX N].
      rewrite tree_call by auto. cbn [wp]. rewrite IHe, FA, tree_top, tree_not_field by auto. reflexivity.
  - cbn [c_names] in N. apply andb_prop in N. destruct N as [N NT].
    cbn [rust_wp] in W. apply andb_prop in W. destruct W as [W LV]. apply Nat.leb_le in LV. cbn [c_agrees] in A.
    cbn [c_tree wp]. rewrite IHe by auto. cbn [andb]. apply Nat.leb_le, tree_unary; auto.
Qed.

(** [to_c]'s text of an expression, read as C, is the tree. *)
Lemma text_parses o typedefs e :
  forallb (fun w => is_alpha (first_char w)) typedefs = true ->
  c_names o typedefs e = true -> rust_wp e = true -> c_agrees e = true ->
  c_parse typedefs (expr_text o (cof e)) = Some (c_tree o e).
Proof.
  intros T N W A. unfold c_parse. fold (etext o e). fold (L o e).
  destruct (reads_ok o typedefs T e N W A) as [_ R]. specialize (R []). rewrite app_nil_r in R. rewrite R.
  cbn [c_toks oapp option_map]. rewrite app_nil_r. apply parse_wp; [apply c_prec_small|]. eapply tree_wp; eauto.
Qed.

(** The whole visitor run on an expression the translation supports. *)
Lemma names_ok o typedefs e : c_names o typedefs e = true -> expr_ok (cof e) = true.
Proof.
  assert (FA : forall args, Forall (fun e => c_names o typedefs e = true -> expr_ok (cof e) = true) args ->
    forallb (c_names o typedefs) args = true -> forallb expr_ok (map cof args) = true).
  { intros args F H. rewrite Forall_forall in F. rewrite forallb_forall in H |- *.
    intros x Hx. apply in_map_iff in Hx. destruct Hx as (y & <- & Hy). auto. }
  induction e using expr_ind_ops; intros N; try discriminate N; auto.
  - destruct l; reflexivity || discriminate N.
  - cbn [c_names] in N. apply andb_prop in N. destruct N. cbn [cof expr_ok]. rewrite IHe1, IHe2 by auto. reflexivity.
  - cbn [c_names] in N. apply andb_prop in N. destruct N as [N M]. apply andb_prop in N. destruct N as [N NA].
    cbn [cof expr_ok]. rewrite IHe, FA by auto. cbn [andb]. destruct (String.eqb m "mul_add") eqn:E; [|reflexivity].
    apply String.eqb_eq in E. subst m. cbn in M. rewrite map_length. cbn [negb orb]. apply Nat.eqb_eq in M. rewrite M. reflexivity.
  - destruct (path_or e) as [[p ->]|NP].
    + cbn [c_names] in N. apply andb_prop in N. destruct N as [N NA]. apply andb_prop in N. destruct N as [N _].
      apply andb_prop in N. destruct N as [N _]. rewrite cof_call by (now apply negb_true_iff).
      cbn [cof expr_ok]. rewrite FA by auto. reflexivity.
    + rewrite names_call in N by auto. apply andb_prop in N; destruct N as [N NA]; apply andb_prop in N; destruct N as [PX N].
      rewrite cof_call by (now apply not_tuple). cbn [expr_ok]. rewrite IHe, FA by auto. reflexivity.
  - cbn [c_names] in N. apply andb_prop in N. destruct N. cbn [cof expr_ok]. rewrite IHe by auto. reflexivity.
Qed.

Lemma visit_expr_text o e s : expr_ok e = true -> expr_leak e = 0 -> visit_expr o e s = Ok (expr_text o e :: s).
Proof. intros H Z. rewrite (proj1 (visit_ok o) e H s), Z. reflexivity. Qed.

Lemma total_zero {A} (f : A -> nat) l : Forall (fun x => f x = 0) l -> total f l = 0.
Proof. induction 1 as [|x r Hx _ IH]; [reflexivity|]. unfold total in *. cbn [fold_right]. rewrite Hx, IH. reflexivity. Qed.
Lemma cof_leak : (forall e, expr_leak (cof e) = 0).
Proof.
  assert (M : forall A B (f : A -> B) (g : B -> nat) l, Forall (fun x => g (f x) = 0) l -> total g (map f l) = 0).
  { intros. apply total_zero. rewrite Forall_map. auto. }
  intros e. apply (expr_ind_nested (fun e => expr_leak (cof e) = 0) (fun t => stmt_leak (cof_stmt t) = 0));
    intros; cbn [cof cof_stmt expr_leak stmt_leak]; rewrite ?M by auto; auto; try lia.
  - destruct l; reflexivity.
  - destruct (is_tuple f); cbn [expr_leak]; rewrite ?M by auto; lia.
  - destruct e0; cbn [OptP option_map] in *; lia.
  - destruct i; cbn [OptP option_map] in *; auto.
Qed.
