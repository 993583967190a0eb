(** What libmgen puts into its templates reads back, fits and brings no names. *)
From Coq Require Import List String Ascii Bool ZArith Lia NArith.
From Flocq Require Import IEEE754.Binary.
From Verif Require Import Res Dec DecStr DecStrFacts Syntax Visitor Parse Poly MulAddFacts BdMath Eval EvalFacts GenSem GenFloat FloatBits UseNumberType NumberTypeFacts
  HornerFloat HornerParity TestTable ConstSource Item GenCode GenCodeFacts Functions FunctionsFacts RustFmt CGen CGenFacts CLex CText CNames CNamesText GenType GenTypeFacts GenTypeLib GenTypeSub CNamesFacts
  RustLex ItemTokens RustLibrary RustSub Main MainFacts Spliced.
Import ListNotations.
Open Scope string_scope.
Open Scope list_scope.

(** ** Characters *)
Lemma digit_same c : DecStr.is_digit c = true -> CLex.is_digit c = true.
Proof. destruct c as [[] [] [] [] [] [] [] []]; vm_compute; auto. Qed.
Lemma digit_quiet c : DecStr.is_digit c = true -> is_alpha c = false /\ Ascii.eqb c "-" = false /\ Ascii.eqb c "." = false.
Proof. destruct c as [[] [] [] [] [] [] [] []]; vm_compute; auto; discriminate. Qed.
Definition digits (l : list ascii) : Prop := Forall (fun c => DecStr.is_digit c = true) l.

(** ** Numbers are Rust tokens *)
Lemma text_partial f l : text_of (Partial f (rev l)) = string_of_list_ascii l.
Proof. unfold text_of. cbn [p_rev]. rewrite rev_involutive. reflexivity. Qed.
Lemma lex_tail f r l : CLex.is_digit f = true -> forallb (fun d => CLex.is_digit d || is_alpha d) l = true ->
  rlex_from (Some (Partial f r)) l = [text_of (Partial f (rev l ++ r))].
Proof.
  intros Hf. revert r. induction l as [|c l IH]; intros r H; [reflexivity|]. cbn [forallb] in H. apply andb_prop in H. destruct H as [Hc Hl].
  cbn [rlex_from]. unfold rust_ext. cbn [p_first]. rewrite Hf, Hc. cbn [orb]. unfold grow. cbn [p_first p_rev]. rewrite (IH _ Hl). cbn [rev].
  rewrite <- app_assoc. reflexivity.
Qed.
Lemma lex_whole f r ds c l : CLex.is_digit f = true -> forallb CLex.is_digit r = true -> forallb CLex.is_digit ds = true ->
  CLex.is_digit c = true -> forallb (fun d => CLex.is_digit d || is_alpha d) l = true ->
  rlex_from (Some (Partial f r)) (ds ++ "."%char :: c :: l) = [text_of (Partial f (rev (ds ++ "."%char :: c :: l) ++ r))].
Proof.
  intros Hf. revert r. induction ds as [|d ds IH]; intros r Hr Hd Hc Hl.
  - cbn [app rlex_from hd_error]. unfold rust_ext at 1. cbn [p_first p_rev]. rewrite Hf.
    assert (R : forallb (fun d => CLex.is_digit d || Ascii.eqb d "_") r = true).
    { rewrite forallb_forall in *. intros x I. rewrite (Hr x I). reflexivity. }
    rewrite R. unfold dot_ends.
    assert (D : is_alpha c || Ascii.eqb c "." = false) by (clear -Hc; destruct c as [[] [] [] [] [] [] [] []]; try discriminate Hc; reflexivity).
    rewrite D. cbn [negb andb orb Ascii.eqb Bool.eqb]. rewrite !orb_true_r. cbn [orb]. unfold grow. cbn [p_first p_rev].
    change (rlex_from (Some (Partial f ("."%char :: r))) (c :: l) = [text_of (Partial f (rev ("."%char :: c :: l) ++ r))]).
    rewrite lex_tail; [|exact Hf|cbn [forallb]; rewrite Hc, Hl; reflexivity]. cbn [rev]. rewrite <- !app_assoc. reflexivity.
  - cbn [forallb] in Hd. apply andb_prop in Hd. destruct Hd as [Hd Hds]. cbn [app rlex_from]. unfold rust_ext at 1. cbn [p_first]. rewrite Hf, Hd. cbn [orb].
    unfold grow. cbn [p_first p_rev]. rewrite IH; auto; [|cbn [forallb]; rewrite Hd; exact Hr]. cbn [rev]. rewrite <- app_assoc. reflexivity.
Qed.
Lemma digits_all l : digits l -> forallb CLex.is_digit l = true.
Proof. intros D. apply forallb_forall. intros c I. apply digit_same. revert c I. apply Forall_forall. exact D. Qed.
Lemma digits_alnum l : digits l -> forallb (fun d => CLex.is_digit d || is_alpha d) l = true.
Proof. intros D. apply forallb_forall. intros c I. pose proof (digits_all l D) as H. rewrite forallb_forall in H. rewrite (H c I). reflexivity. Qed.

Definition after_point (a : list ascii) : list ascii := match a with [] => [] | _ => "."%char :: a end.
Definition suffixes : list string := [""; "f32"; "f64"; "u32"; "u64"].
Lemma number_lex b a s : b <> [] -> digits b -> digits a -> In s suffixes ->
  let t := string_of_list_ascii (b ++ after_point a ++ list_ascii_of_string s) in rust_lex t = [t].
Proof.
  intros Hn Hb Ha Hs. cbn zeta. unfold rust_lex. rewrite list_ascii_of_string_of_list_ascii. destruct b as [|f b]; [contradiction|].
  apply Forall_cons_iff in Hb. destruct Hb as [Hf Hb]. assert (S : forallb (fun d => CLex.is_digit d || is_alpha d) (list_ascii_of_string s) = true).
  { destruct Hs as [<-|[<-|[<-|[<-|[<-|[]]]]]]; reflexivity. }
  pose proof (digit_same f Hf) as Hf'. cbn [app rlex_from].
  assert (W : is_white f = false) by (clear -Hf'; destruct f as [[] [] [] [] [] [] [] []]; try discriminate Hf'; reflexivity). rewrite W. unfold start.
  destruct a as [|c a].
  - cbn [after_point app]. rewrite lex_tail; [|exact Hf'|].
    + change [f] with (rev [f]). rewrite <- rev_app_distr. rewrite text_partial. reflexivity.
    + rewrite forallb_app, S, digits_alnum by exact Hb. reflexivity.
  - apply Forall_cons_iff in Ha. destruct Ha as [Hc Ha]. cbn [after_point]. change (("."%char :: c :: a) ++ list_ascii_of_string s) with ("."%char :: c :: a ++ list_ascii_of_string s).
    rewrite lex_whole; [|exact Hf'|cbn [forallb]; rewrite Hf'; reflexivity|apply digits_all; exact Hb|apply digit_same; exact Hc|].
    + change [f] with (rev [f]). rewrite <- rev_app_distr. rewrite text_partial. reflexivity.
    + rewrite forallb_app, S, digits_alnum by exact Ha. reflexivity.
Qed.
Lemma last_last (l : list ascii) x d : last (l ++ [x]) d = x.
Proof. apply List.last_last. Qed.
Lemma number_last b a s : b <> [] -> digits b -> digits a -> In s suffixes ->
  exists l c, b ++ after_point a ++ list_ascii_of_string s = l ++ [c] /\ CLex.is_digit c = true.
Proof.
  intros Hn Hb Ha Hs.
  assert (D : forall l, l <> [] -> digits l -> exists m c, l = m ++ [c] /\ CLex.is_digit c = true).
  { intros l N. destruct (exists_last N) as (m & c & ->). intros H. apply Forall_app in H. destruct H as [_ H]. inversion H. exists m, c. split; [reflexivity|apply digit_same; assumption]. }
  destruct Hs as [<-|Hs].
  - cbn [list_ascii_of_string]. rewrite app_nil_r. destruct a as [|c a].
    + cbn [after_point]. rewrite app_nil_r. apply D; auto.
    + destruct (D (c :: a)) as (m & x & -> & X); [discriminate|exact Ha|]. exists (b ++ "."%char :: m), x. split; [|exact X].
      unfold after_point. destruct m; cbn [app]; rewrite <- ?app_assoc; reflexivity.
  - assert (exists m x, list_ascii_of_string s = m ++ [x] /\ CLex.is_digit x = true) as (m & x & -> & X).
    { destruct Hs as [<-|[<-|[<-|[<-|[]]]]]; cbn [list_ascii_of_string]; [exists ["f"; "3"]%char, "2"%char|exists ["f"; "6"]%char, "4"%char|exists ["u"; "3"]%char, "2"%char|exists ["u"; "6"]%char, "4"%char]; split; reflexivity. }
    exists (b ++ after_point a ++ m), x. split; [|exact X]. rewrite <- !app_assoc. reflexivity.
Qed.
Lemma number_good b a s : b <> [] -> digits b -> digits a -> In s suffixes ->
  number_ok (string_of_list_ascii (b ++ after_point a ++ list_ascii_of_string s)) = true.
Proof.
  intros Hn Hb Ha Hs. destruct (number_last b a s Hn Hb Ha Hs) as (l & x & E & X).
  assert (P : Ascii.eqb x "." = false /\ Ascii.eqb x "e" = false /\ Ascii.eqb x "E" = false).
  { clear -X. destruct x as [[] [] [] [] [] [] [] []]; try discriminate X; repeat split; reflexivity. }
  destruct P as (P1 & P2 & P3). unfold number_ok. apply andb_true_intro. split.
  - unfold lit_text. rewrite (number_lex b a s Hn Hb Ha Hs), list_ascii_of_string_of_list_ascii. rewrite String.eqb_refl. cbn [andb].
    destruct b as [|f b]; [contradiction|]. cbn [app] in *. inversion Hb as [|? ? Hf Hb']; subst. rewrite (digit_same f Hf).
    replace (last (b ++ after_point a ++ list_ascii_of_string s) f) with x; [rewrite P1; reflexivity|].
    change (x = last (b ++ after_point a ++ list_ascii_of_string s) f). destruct l as [|g l]; cbn [app] in E; injection E as E1 E2; [subst x; rewrite E2; reflexivity|].
    rewrite E2. symmetry. apply List.last_last.
  - unfold runs_together. cbn [op_first]. unfold last_char. rewrite list_ascii_of_string_of_list_ascii, E, List.last_last, P2, P3.
    destruct (is_digit (first_char _)); reflexivity.
Qed.
Lemma string_app a b : (string_of_list_ascii a ++ string_of_list_ascii b)%string = string_of_list_ascii (a ++ b).
Proof. induction a as [|c a IH]; [reflexivity|]. cbn. rewrite IH. reflexivity. Qed.
Lemma digits_fine b a s : b <> [] -> digits b -> digits a -> In s suffixes -> digits_ok (string_of_list_ascii (b ++ after_point a)) s = true.
Proof.
  intros Hn Hb Ha Hs. pose proof (number_good b a s Hn Hb Ha Hs) as G. rewrite app_assoc, <- string_app, string_of_list_ascii_of_string in G.
  destruct b as [|f b]; [contradiction|]. inversion Hb as [|? ? Hf _]; subst. destruct (digit_quiet f Hf) as (_ & M & _).
  unfold digits_ok. cbn [app string_of_list_ascii] in *. unfold number_tts.
  assert (N : number_tts (String f (string_of_list_ascii (b ++ after_point a))) s = [TLit (String f (string_of_list_ascii (b ++ after_point a)) ++ s)]).
  { clear -M. unfold number_tts. destruct f as [[] [] [] [] [] [] [] []]; try reflexivity. discriminate M. }
  unfold number_tts in N. rewrite N. exact G.
Qed.
(** the text of a decimal, with or without its sign *)
Lemma repr_fine x s : In s suffixes -> digits_ok (string_of_list_ascii (dec_repr x)) s = true.
Proof.
  intros Hs. destruct (dec_repr_plain x) as (b & a & -> & Hn & Hb & Ha & _). unfold plain_text. fold (after_point a). destruct (mant x <? 0)%Z; cbn [app].
  - pose proof (number_good b a s Hn Hb Ha Hs) as G. rewrite app_assoc, <- string_app, string_of_list_ascii_of_string in G. exact G.
  - apply digits_fine; assumption.
Qed.

(** ** Numbers after retyping *)
Definition hex_number (n : Z) : expr := ECall (EPath ["f32"; "from_bits"]) [ELit (LInt (string_of_list_ascii (zdigits n)) "u32")].
Inductive numeral (kind : string) : expr -> Prop :=
| N_text b a s l : kind = "decimal" -> b <> [] -> digits b -> digits a -> In s ["f32"; "f64"] ->
    (l = LInt (string_of_list_ascii (b ++ after_point a)) s \/ l = LFloat (string_of_list_ascii (b ++ after_point a)) s) -> numeral kind (ELit l)
| N_neg e : numeral kind e -> numeral kind (EUnary UNeg e)
| N_bits n : kind = "hex" -> (0 <= n)%Z -> numeral kind (hex_number n).

Section Shape.
  Context (F : floats) (kind : string) (bits : Z) (W : working kind bits) (PS : plain_show F).
  Lemma quote_numeral b (x : flt b) e : (b = 32 \/ b = 64)%Z -> kind = "decimal" -> quote_float F b (NumberTypeFacts.float_suffix b) x = Ok e -> numeral kind e.
  Proof.
    intros B K. unfold quote_float. destruct (Binary.is_finite _ _ x) eqn:FX; [|discriminate]. intros E. injection E as <-.
    destruct (fabs_fin b x) as [F1 F2]. assert (F3 : finite (fabs b x) = true) by (rewrite F1; exact FX).
    destruct (PS b (fabs b x) B F3 F2) as (bf & af & E & Hn & Hb & Ha).
    assert (N : numeral kind (ELit (text_lit (UseNumberType.show F b (fabs b x)) (NumberTypeFacts.float_suffix b)))).
    { apply (N_text kind bf af (NumberTypeFacts.float_suffix b)); auto.
      - destruct B as [-> | ->]; cbn; auto.
      - rewrite E. unfold text_lit. fold (after_point af). destruct (has_point _); auto. }
    destruct (Bsign _ _ x); [apply N_neg|]; exact N.
  Qed.
  Lemma lit_numeral l e : is_number l = true -> retype_lit F kind bits l = Ok e -> numeral kind e.
  Proof.
    intros N E. assert (R : exists d, retype F kind bits d l = Ok e) by (destruct l; try discriminate; eauto). destruct R as [d R]. unfold retype in R.
    destruct (parse_dec (list_ascii_of_string d)) as [n|]; [|discriminate].
    destruct W as [[K [Eb|Eb]]|[K Eb]]; rewrite K, Eb in R; cbn [String.eqb Ascii.eqb Bool.eqb andb Z.eqb Pos.eqb] in R.
    - apply (quote_numeral 32 (to_f32 F n)); auto.
    - apply (quote_numeral 64 (to_f64 F n)); auto.
    - injection R as <-. apply N_bits; [exact K|]. apply to_bits_range.
  Qed.
  Lemma num_numeral c e : use_number_type F kind bits (num_expr c) = Ok e -> numeral kind e.
  Proof.
    assert (G : forall t e, retype_lit F kind bits (lex_number t "") = Ok e -> numeral kind e).
    { intros t e'. apply lit_numeral. unfold lex_number. destruct (float_text _ _); reflexivity. }
    unfold use_number_type, num_expr. destruct (dec_repr c) as [|ch r].
    - cbn [visit number_visitor v_expr v_lit]. unfold def_expr. apply G.
    - destruct (Ascii.eqb ch "-").
      + cbn [visit number_visitor v_expr v_unary v_lit]. unfold def_expr, def_unary.
        destruct (retype_lit F kind bits (lex_number (string_of_list_ascii r) "")) as [q| |] eqn:Q; try discriminate. cbn. intros E. injection E as <-.
        apply N_neg. exact (G _ _ Q).
      + cbn [visit number_visitor v_expr v_lit]. unfold def_expr. apply G.
  Qed.

  (** ** Polynomials after retyping *)
  Variable v : string.
  Inductive horner : expr -> Prop :=
  | h_first e : numeral kind e -> horner (EParen e)
  | h_step r a e : horner r -> a = EPath [v] \/ a = var_square [v] -> numeral kind e -> horner (EMethodCall r "mul_add" None [a; e]).
  Inductive shaped : expr -> Prop :=
  | s_plain e : horner e -> shaped e
  | s_odd e : horner e -> shaped (EBinary BMul e (EPath [v])).
  Lemma chain_shape a h l : a = EPath [v] \/ a = var_square [v] -> forall e, use_number_type F kind bits (MulAddFacts.chain a h (rev l)) = Ok e -> horner e.
  Proof.
    intros A. assert (Ua : visit (number_visitor F kind bits) a = Ok a) by (destruct A as [-> | ->]; reflexivity).
    unfold MulAddFacts.chain. induction l as [|c l IH]; intros e.
    - cbn [rev fold_left]. unfold use_number_type. cbn [visit number_visitor v_expr v_paren]. unfold def_expr, def_paren. fold (number_visitor F kind bits).
      destruct (visit (number_visitor F kind bits) (num_expr h)) as [q| |] eqn:Q; try discriminate. cbn. intros E. injection E as <-.
      apply h_first. exact (num_numeral h q Q).
    - cbn [rev]. rewrite fold_left_app. cbn [fold_left]. unfold use_number_type in *. cbn [visit number_visitor v_expr v_method map]. unfold def_expr, def_method.
      fold (number_visitor F kind bits). rewrite Ua.
      destruct (visit (number_visitor F kind bits) (fold_left _ (rev l) _)) as [q| |] eqn:Q; try discriminate.
      destruct (visit (number_visitor F kind bits) (num_expr c)) as [qc| |] eqn:Qc; try discriminate. cbn. intros E. injection E as <-.
      apply h_step; [exact (IH q eq_refl)|exact A|exact (num_numeral c qc Qc)].
  Qed.
  Theorem poly_shape e' : made_polynomial F kind bits v e' -> shaped e'.
  Proof.
    intros (ts & p & e & ME & U). destruct (List.length ts) as [|k'] eqn:L.
    { exfalso. destruct ts; [|discriminate]. revert ME. unfold mul_add_polynomial. destruct p; discriminate. }
    destruct (last_split ts k' L) as (h & E & Hn). destruct (right_parity p (S k')) eqn:RP.
    2:{ destruct ts as [|c r]; [discriminate L|]. rewrite (proj2 (mul_add_refused (c :: r) [v] p)) in ME; [discriminate|]. split; [discriminate|]. rewrite L. exact RP. }
    rewrite (mul_add_ok ts [v] p k' h L Hn RP) in ME. injection ME as <-. unfold emitted in U. rewrite L in U. cbn [pred] in U. destruct p.
    - unfold use_number_type in U. cbn [visit number_visitor v_expr v_binary] in U. unfold def_expr, def_binary in U. fold (number_visitor F kind bits) in U.
      match type of U with context [MulAddFacts.chain ?a ?b (rev ?c)] => set (l := c) in *; pose proof (chain_shape a b l (or_intror eq_refl)) as G end. unfold use_number_type in G.
      destruct (visit (number_visitor F kind bits) (MulAddFacts.chain (var_square [v]) h (rev l))) as [q| |]; try discriminate. cbn in U. injection U as <-.
      apply s_odd. exact (G q eq_refl).
    - apply s_plain. exact (chain_shape (var_square [v]) h _ (or_intror eq_refl) e' U).
    - apply s_plain. exact (chain_shape (EPath [v]) h _ (or_introl eq_refl) e' U).
  Qed.
End Shape.
