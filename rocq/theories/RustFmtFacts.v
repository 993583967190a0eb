(** Proofs about the Rust formatter. *)
From Coq Require Import List String Ascii Bool Arith NArith Lia.
From Verif Require Import Res CLex RustFmt RustLex.
Import ListNotations.
Open Scope list_scope.

Section TtInd.
  Variable P : tt -> Prop.
  Hypothesis Hg : forall d ts, Forall P ts -> P (TGroup d ts).
  Hypothesis Hw : forall s, P (TWord s).
  Hypothesis Hp : forall s, P (TPunct s).
  Hypothesis Hl : forall s, P (TLit s).
  Hypothesis Hf : forall s, P (TLife s).
  Fixpoint tt_ind' (t : tt) : P t :=
    match t with
    | TGroup d ts =>
        Hg d ts ((fix go l := match l return Forall P l with [] => Forall_nil P | x :: r => Forall_cons x (tt_ind' x) (go r) end) ts)
    | TWord s => Hw s | TPunct s => Hp s | TLit s => Hl s | TLife s => Hf s
    end.
End TtInd.

(** ** Nesting *)

(** How deep brace groups nest, not counting those inside other groups. *)
Fixpoint levels (t : tt) : nat :=
  match t with
  | TGroup DBrace ts => S (list_max (map levels ts))
  | _ => 0
  end.

Lemma indent_ok d : d <= 30 -> exists s, indent d = Ok s.
Proof.
  intros H. unfold indent. destruct (Nat.leb_spec (d * 2) 60) as [_|H']; [eexists; reflexivity|].
  exfalso. clear -H H'. lia.
Qed.
Lemma indent_panic d : 30 < d -> indent d = Panic.
Proof.
  intros H. unfold indent. destruct (Nat.leb_spec (d * 2) 60) as [H'|_]; [|reflexivity].
  exfalso. clear -H H'. lia.
Qed.

Lemma rcats_ok l : (forall x, In x l -> exists s, x = Ok s) -> exists s, rcats l = Ok s.
Proof.
  induction l as [|x l IH]; intros H; [eexists; reflexivity|].
  destruct (H x (or_introl eq_refl)) as [s ->].
  destruct IH as [s' E]; [intros y Hy; apply H; right; exact Hy|].
  cbn [rcats]. rewrite E. eexists. reflexivity.
Qed.
Lemma rcats_panic l : (forall x, In x l -> (exists s, x = Ok s) \/ x = Panic) -> In Panic l -> rcats l = Panic.
Proof.
  induction l as [|x l IH]; intros H HI; [destruct HI|].
  destruct (H x (or_introl eq_refl)) as [[s E]|E]; subst x; [|reflexivity].
  destruct HI as [HI|HI]; [discriminate|].
  cbn [rcats]. rewrite IH; [reflexivity|intros y Hy; apply H; right; exact Hy|exact HI].
Qed.

Lemma append_levels t : forall d, d <= 30 ->
  (d + levels t <= 30 -> exists s, append_token t d = Ok s) /\ (30 < d + levels t -> append_token t d = Panic).
Proof.
  induction t as [g ts IH|s|s|s|s] using tt_ind'; intros d Hd.
  - destruct g; try (split; [intros _; eexists; reflexivity|cbn [levels]; intros H; exfalso; clear -H Hd; lia]).
    destruct (Nat.eq_dec d 30) as [->|Hn].
    { cbn [levels]. split; [intros H; exfalso; clear -H; lia|intros _].
      cbn [append_token]. rewrite (indent_panic 31) by (clear; lia). reflexivity. }
    assert (HS : S d <= 30) by (clear -Hd Hn; lia).
    destruct (indent_ok (S d) HS) as [s1 E1]. destruct (indent_ok d Hd) as [s2 E2].
    cbn [append_token]. rewrite E1, E2.
    assert (HA : forall x, In x (map (fun t => append_token t (S d)) ts) -> (exists s, x = Ok s) \/ x = Panic).
    { intros x Hx. apply in_map_iff in Hx. destruct Hx as (t & <- & Ht).
      rewrite Forall_forall in IH. destruct (IH t Ht (S d) HS) as [A B].
      destruct (Nat.le_gt_cases (S d + levels t) 30) as [C|C]; [left; apply A, C|right; apply B, C]. }
    split; intros H.
    + destruct (rcats_ok (map (fun t => append_token t (S d)) ts)) as [s3 E3].
      { intros x Hx. apply in_map_iff in Hx. destruct Hx as (t & <- & Ht).
        rewrite Forall_forall in IH. apply (IH t Ht (S d) HS).
        assert (M : levels t <= list_max (map levels ts)).
        { pose proof (proj1 (list_max_le (map levels ts) (list_max (map levels ts))) (le_n _)) as F.
          rewrite Forall_forall in F. apply F, in_map, Ht. }
        cbn [levels] in H. clear -H M. lia. }
      rewrite E3. eexists. reflexivity.
    + rewrite (rcats_panic _ HA); [reflexivity|].
      cbn [levels] in H.
      destruct (existsb (fun t => Nat.ltb 30 (S d + levels t)) ts) eqn:EX.
      * apply existsb_exists in EX. destruct EX as (t & Ht & C). apply Nat.ltb_lt in C.
        apply in_map_iff. exists t. split; [|exact Ht].
        rewrite Forall_forall in IH. apply (IH t Ht (S d) HS), C.
      * exfalso. assert (M : list_max (map levels ts) <= 29 - d).
        { apply list_max_le, Forall_forall. intros n Hn'. apply in_map_iff in Hn'. destruct Hn' as (t & <- & Ht).
          destruct (Nat.le_gt_cases (S d + levels t) 30) as [C|C]; [clear -C; lia|].
          exfalso. assert (X : existsb (fun t => Nat.ltb 30 (S d + levels t)) ts = true)
            by (apply existsb_exists; exists t; split; [exact Ht|apply Nat.ltb_lt, C]).
          rewrite X in EX. discriminate. }
        clear -H M HS. lia.
  - split; [intros _; eexists; reflexivity|cbn [levels]; intros H; exfalso; clear -H Hd; lia].
  - split; [|cbn [levels]; intros H; exfalso; clear -H Hd; lia]. intros _. cbn [append_token].
    destruct (indent_ok d Hd) as [s' E]. rewrite E. destruct (String.eqb s ";"); eexists; reflexivity.
  - split; [intros _; eexists; reflexivity|cbn [levels]; intros H; exfalso; clear -H Hd; lia].
  - split; [intros _; eexists; reflexivity|cbn [levels]; intros H; exfalso; clear -H Hd; lia].
Qed.

(** The formatter returns exactly on streams of at most 30 nested brace groups. *)
Theorem format_levels ts :
  (list_max (map levels ts) <= 30 -> exists s, format_token_stream ts = Ok s)
  /\ (30 < list_max (map levels ts) -> format_token_stream ts = Panic).
Proof.
  unfold format_token_stream. split; intros H.
  - apply rcats_ok. intros x Hx. apply in_map_iff in Hx. destruct Hx as (t & <- & Ht).
    apply append_levels; [clear; lia|].
    apply list_max_le in H. rewrite Forall_forall in H. apply (H (levels t)), in_map, Ht.
  - apply rcats_panic.
    + intros x Hx. apply in_map_iff in Hx. destruct Hx as (t & <- & Ht).
      destruct (append_levels t 0 ltac:(clear; lia)) as [A B].
      destruct (Nat.le_gt_cases (0 + levels t) 30) as [C|C]; [left; apply A, C|right; apply B, C].
    + destruct (existsb (fun t => Nat.ltb 30 (levels t)) ts) eqn:EX.
      * apply existsb_exists in EX. destruct EX as (t & Ht & C). apply Nat.ltb_lt in C.
        apply in_map_iff. exists t. split; [|exact Ht]. apply append_levels; [clear; lia|exact C].
      * exfalso. assert (M : list_max (map levels ts) <= 30).
        { apply list_max_le, Forall_forall. intros n Hn'. apply in_map_iff in Hn'. destruct Hn' as (t & <- & Ht).
          destruct (Nat.le_gt_cases (levels t) 30) as [C|C]; [exact C|].
          exfalso. assert (X : existsb (fun t => Nat.ltb 30 (levels t)) ts = true)
            by (apply existsb_exists; exists t; split; [exact Ht|apply Nat.ltb_lt, C]).
          rewrite X in EX. discriminate. }
        clear -H M. lia.
Qed.

(** ** Lexing *)

Definition chars : string -> list ascii := list_ascii_of_string.
Lemma chars_app a b : chars (a ++ b) = (chars a ++ chars b)%list.
Proof. induction a as [|c a IH]; [reflexivity|]. cbn. f_equal. exact IH. Qed.
Lemma chars_inv l : chars (string_of_list_ascii l) = l.
Proof. apply list_ascii_of_string_of_list_ascii. Qed.
Lemma string_chars s : string_of_list_ascii (chars s) = s.
Proof. apply string_of_list_ascii_of_string. Qed.

Fixpoint stays (p : partial) (w : list ascii) (la : option ascii) : bool :=
  match w with
  | [] => true
  | c :: r => rust_ext p c (match r with [] => la | d :: _ => Some d end) && stays (grow p c) r la
  end.
Fixpoint grow_all (p : partial) (w : list ascii) : partial :=
  match w with [] => p | c :: r => grow_all (grow p c) r end.
Lemma grow_all_eq w : forall p, grow_all p w = Partial (p_first p) (rev w ++ p_rev p).
Proof.
  induction w as [|c w IH]; intros [f r]; [reflexivity|]. cbn. rewrite IH. cbn. rewrite <- app_assoc. reflexivity.
Qed.
Lemma hd_app (w rest : list ascii) : hd_error (w ++ rest) = match w with [] => hd_error rest | d :: _ => Some d end.
Proof. destruct w; reflexivity. Qed.

Lemma lex_grow w : forall p rest, stays p w (hd_error rest) = true ->
  rlex_from (Some p) (w ++ rest) = rlex_from (Some (grow_all p w)) rest.
Proof.
  induction w as [|c w IH]; intros p rest H; [reflexivity|].
  cbn [stays] in H. apply andb_true_iff in H. destruct H as [H1 H2].
  cbn [rlex_from grow_all app]. rewrite hd_app, H1. apply IH, H2.
Qed.

Definition full (s : list ascii) : partial :=
  match s with c :: w => grow_all (start c) w | [] => start "000"%char end.
Definition ends (s : list ascii) (rest : list ascii) : Prop :=
  match rest with [] => True | c :: r => rust_ext (full s) c (hd_error r) = false end.

Lemma lex_restart c r : rlex_from None (c :: r) = (if is_white c then rlex_from None r else rlex_from (Some (start c)) r).
Proof. reflexivity. Qed.

Lemma word_out c w rest :
  is_white c = false -> stays (start c) w (hd_error rest) = true -> ends (c :: w) rest ->
  rlex_from None ((c :: w) ++ rest) = string_of_list_ascii (c :: w) :: rlex_from None rest.
Proof.
  intros Hw Hs He. cbn [app]. rewrite lex_restart, Hw, lex_grow by exact Hs.
  assert (T : text_of (grow_all (start c) w) = string_of_list_ascii (c :: w)).
  { rewrite grow_all_eq. unfold text_of. cbn [p_rev start]. rewrite rev_app_distr, rev_involutive. reflexivity. }
  unfold ends, full in He. destruct rest as [|a r].
  - cbn [rlex_from]. rewrite T. reflexivity.
  - cbn [rlex_from]. rewrite He, T. reflexivity.
Qed.

Lemma white_out s : forall rest, forallb is_white s = true -> rlex_from None (s ++ rest) = rlex_from None rest.
Proof.
  induction s as [|c s IH]; intros rest H; [reflexivity|]. cbn [forallb] in H. apply andb_true_iff in H.
  destruct H as [H1 H2]. cbn [app]. rewrite lex_restart, H1. apply IH, H2.
Qed.

(** *** Words of each kind *)

Lemma alpha_white c : is_alpha c = true -> is_white c = false.
Proof. destruct c as [[][][][][][][][]]; vm_compute; congruence. Qed.
Lemma digit_white c : is_digit c = true -> is_white c = false.
Proof. destruct c as [[][][][][][][][]]; vm_compute; congruence. Qed.
Lemma alpha_digit c : is_alpha c = true -> is_digit c = false.
Proof. destruct c as [[][][][][][][][]]; vm_compute; congruence. Qed.

Definition safe (c : ascii) : bool := is_white c || existsb (Ascii.eqb c) (chars "()[]{}").
Definition safe_rest (rest : list ascii) : Prop := match rest with [] => True | c :: _ => safe c = true end.

Definition wordlike (f : ascii) : bool := is_alpha f || Ascii.eqb f "'".
Lemma wordlike_digit f : wordlike f = true -> is_digit f = false.
Proof. destruct f as [[][][][][][][][]]; vm_compute; congruence. Qed.
Lemma wordlike_white f : wordlike f = true -> is_white f = false.
Proof. destruct f as [[][][][][][][][]]; vm_compute; congruence. Qed.
Lemma ext_word p c la : wordlike (p_first p) = true -> rust_ext p c la = is_digit c || is_alpha c.
Proof. intros H. unfold rust_ext. rewrite (wordlike_digit _ H). unfold wordlike in H. rewrite H. reflexivity. Qed.
Lemma stays_word w la : forall p, wordlike (p_first p) = true -> forallb (fun d => is_digit d || is_alpha d) w = true -> stays p w la = true.
Proof.
  induction w as [|c w IH]; intros p Hp Hw; [reflexivity|]. cbn [stays]. cbn [forallb] in Hw.
  apply andb_true_iff in Hw. destruct Hw as [H1 H2]. rewrite ext_word by exact Hp. rewrite H1. cbn [andb].
  apply IH; [exact Hp|exact H2].
Qed.
Lemma full_first c w : p_first (full (c :: w)) = c.
Proof. cbn [full]. rewrite grow_all_eq. reflexivity. Qed.
Lemma full_rev c w : p_rev (full (c :: w)) = rev w ++ [c].
Proof. cbn [full]. rewrite grow_all_eq. reflexivity. Qed.

(** *** Numbers and strings *)

Lemma ext_la p c la la' : c <> "."%char -> rust_ext p c la = rust_ext p c la'.
Proof.
  intros H. unfold rust_ext. destruct (Ascii.eqb_spec c ".") as [E|_]; [destruct (H E)|]. reflexivity.
Qed.
Lemma stays_la w la la' : forall p, last w "000"%char <> "."%char -> stays p w la = stays p w la'.
Proof.
  induction w as [|c w IH]; intros p H; [reflexivity|]. cbn [stays].
  destruct w as [|d w].
  - cbn [last] in H. rewrite (ext_la p c la la' H). reflexivity.
  - f_equal. apply IH. exact H.
Qed.
Lemma ext_la_str p c la la' : is_digit (p_first p) = false -> rust_ext p c la = rust_ext p c la'.
Proof. intros H. unfold rust_ext. rewrite H. reflexivity. Qed.
Lemma stays_la_str w la la' : forall p, is_digit (p_first p) = false -> stays p w la = stays p w la'.
Proof.
  induction w as [|c w IH]; intros p H; [reflexivity|]. cbn [stays].
  f_equal; [destruct w; [apply ext_la_str, H|reflexivity]|apply IH, H].
Qed.

(** A text that lexes to itself is read without a break. *)
Lemma string_len l : String.length (string_of_list_ascii l) = List.length l.
Proof. induction l as [|x l IH]; [reflexivity|cbn; f_equal; exact IH]. Qed.

Lemma lex_stays w : forall p, rlex_from (Some p) w = [string_of_list_ascii (rev (p_rev p) ++ w)] -> stays p w None = true.
Proof.
  induction w as [|c w IH]; intros p H; [reflexivity|]. cbn [rlex_from] in H. cbn [stays].
  change (match w with [] => None | d :: _ => Some d end) with (hd_error w).
  destruct (rust_ext p c (hd_error w)).
  - apply IH. cbn [grow p_rev rev]. rewrite <- app_assoc. exact H.
  - exfalso. assert (E : text_of p = string_of_list_ascii (rev (p_rev p) ++ c :: w)).
    { set (tl := if is_white c then _ else _) in H. clearbody tl. injection H as E _. exact E. }
    apply (f_equal String.length) in E. unfold text_of in E. rewrite !string_len, app_length in E. cbn in E.
    clear -E. lia.
Qed.

Lemma quote_white c : Ascii.eqb c """" = true -> is_white c = false.
Proof. destruct c as [[][][][][][][][]]; vm_compute; congruence. Qed.

Lemma last_default {A} (l : list A) a b : l <> [] -> last l a = last l b.
Proof.
  induction l as [|x l IH]; intros H; [destruct (H eq_refl)|]. destruct l as [|y l]; [reflexivity|].
  apply IH. discriminate.
Qed.

(** What [lit_text] says. *)
Lemma lit_text_inv s : lit_text s = true ->
  exists c w, chars s = c :: w /\ is_white c = false
    /\ (forall la, stays (start c) w la = true)
    /\ ((is_digit c = true /\ last w c <> "."%char) \/ (c = """"%char /\ str_state w = SClosed)).
Proof.
  unfold lit_text. destruct (rust_lex s) as [|x [|y z]] eqn:EL; try discriminate.
  destruct (list_ascii_of_string s) as [|c w] eqn:EC; [discriminate|].
  intros H. apply andb_true_iff in H. destruct H as [H1 H2]. apply String.eqb_eq in H1. subst x.
  exists c, w. split; [exact EC|].
  assert (W : is_white c = false).
  { apply orb_true_iff in H2. destruct H2 as [H2|H2]; apply andb_true_iff in H2; destruct H2 as [H2 _];
      [apply digit_white, H2|apply quote_white, H2]. }
  split; [exact W|].
  assert (S0 : stays (start c) w None = true).
  { apply lex_stays. unfold rust_lex in EL. rewrite EC, lex_restart, W in EL. rewrite EL. f_equal.
    rewrite <- (string_chars s). unfold chars. rewrite EC. reflexivity. }
  apply orb_true_iff in H2. destruct H2 as [H2|H2]; apply andb_true_iff in H2; destruct H2 as [H2 H3].
  - apply negb_true_iff in H3. apply Ascii.eqb_neq in H3. split; [|left; split; assumption].
    intros la. rewrite <- S0. destruct w as [|d w]; [reflexivity|].
    apply stays_la. rewrite (last_default _ _ c) by discriminate. exact H3.
  - split.
    + intros la. rewrite <- S0. apply stays_la_str. cbn [start p_first]. apply Ascii.eqb_eq in H2. subst c. reflexivity.
    + right. apply Ascii.eqb_eq in H2. split; [exact H2|]. destruct (str_state w); try discriminate. reflexivity.
Qed.

(** *** Operators *)
Lemma op_in op : existsb (String.eqb op) rust_ops = true -> In op rust_ops.
Proof.
  intros E. apply existsb_exists in E. destruct E as (x & HI & E). apply String.eqb_eq in E. subst x. exact HI.
Qed.
Definition op_shape (op : string) : bool :=
  match chars op with
  | c :: w =>
      negb (is_white c) && negb (is_digit c) && negb (wordlike c) && negb (Ascii.eqb c """") && stays (start c) w None
      && negb (safe c)
  | [] => false
  end.
Lemma ops_shape : forallb op_shape rust_ops = true.
Proof. vm_compute. reflexivity. Qed.
Lemma op_inv op : existsb (String.eqb op) rust_ops = true ->
  exists c w, chars op = c :: w /\ is_white c = false /\ (forall la, stays (start c) w la = true)
    /\ is_digit c = false /\ wordlike c = false /\ c <> """"%char.
Proof.
  intros HI. apply op_in in HI. pose proof (proj1 (forallb_forall _ _) ops_shape op HI) as H.
  unfold op_shape in H. destruct (chars op) as [|c w]; [discriminate|].
  rewrite !andb_true_iff, !negb_true_iff in H. destruct H as [[[[[H1 H2] H3] H4] H5] _].
  exists c, w. split; [reflexivity|]. split; [exact H1|]. split.
  - intros la. rewrite <- H5. apply stays_la_str. exact H2.
  - split; [exact H2|]. split; [exact H3|]. apply Ascii.eqb_neq, H4.
Qed.
Lemma ext_op p c la : is_digit (p_first p) = false -> wordlike (p_first p) = false -> p_first p <> """"%char ->
  rust_ext p c la = existsb (String.eqb (text_of (grow p c))) rust_puncts.
Proof.
  intros H1 H2 H3. unfold rust_ext. rewrite H1. unfold wordlike in H2. rewrite H2.
  apply Ascii.eqb_neq in H3. rewrite H3. reflexivity.
Qed.

(** No operator ends in a character of [bad]. *)
Definition never_last (bad : ascii -> bool) : bool := forallb (fun op => negb (bad (last_char op))) rust_puncts.
Lemma last_snoc {A} (l : list A) x d : last (l ++ [x]) d = x.
Proof. induction l as [|y l IH]; [reflexivity|]. destruct l as [|z l]; [reflexivity|]. exact IH. Qed.
Lemma op_not_ext bad p c : never_last bad = true -> bad c = true ->
  existsb (String.eqb (text_of (grow p c))) rust_puncts = false.
Proof.
  intros HN HB. destruct (existsb _ rust_puncts) eqn:E; [|reflexivity]. exfalso.
  apply existsb_exists in E. destruct E as (x & HI & E). apply String.eqb_eq in E. subst x.
  unfold never_last in HN. rewrite forallb_forall in HN. specialize (HN _ HI).
  unfold last_char, text_of, grow in HN. cbn [p_rev rev] in HN.
  rewrite list_ascii_of_string_of_list_ascii, last_snoc, HB in HN. discriminate.
Qed.
Definition not_op_char (c : ascii) : bool :=
  safe c || is_digit c || is_alpha c || Ascii.eqb c """" || Ascii.eqb c "'".
Lemma not_op_last : never_last not_op_char = true.
Proof. vm_compute. reflexivity. Qed.

(** *** One leaf *)
Definition leaf_text (t : tt) : option string :=
  match t with
  | TGroup _ _ => None
  | TWord s | TPunct s | TLit s => Some s
  | TLife s => Some ("'" ++ s)%string
  end.

Lemma leaf_shape t s : leaf_text t = Some s -> well_made t = true ->
  exists c w, chars s = c :: w /\ is_white c = false /\ (forall la, stays (start c) w la = true).
Proof.
  destruct t as [d ts|x|x|x|x]; cbn [leaf_text well_made]; intros E W; [discriminate| | | |]; injection E as <-.
  - unfold word_text in W. change (list_ascii_of_string x) with (chars x) in W.
    destruct (chars x) as [|c w]; [discriminate|]. apply andb_true_iff in W. destruct W as [W1 W2].
    exists c, w. split; [reflexivity|]. split; [apply alpha_white, W1|]. intros la. apply stays_word; [|exact W2].
    cbn [start p_first]. unfold wordlike. rewrite W1. reflexivity.
  - destruct (op_inv x W) as (c & w & A & B & C & _). exists c, w. split; [exact A|]. split; [exact B|exact C].
  - destruct (lit_text_inv x W) as (c & w & A & B & C & _). exists c, w. split; [exact A|]. split; [exact B|exact C].
  - unfold word_text in W. change (list_ascii_of_string x) with (chars x) in W.
    exists "'"%char, (chars x). split; [reflexivity|]. split; [reflexivity|]. intros la. apply stays_word; [reflexivity|].
    destruct (chars x) as [|c w]; [discriminate|]. apply andb_true_iff in W. destruct W as [W1 W2].
    cbn [forallb]. rewrite W1, W2, orb_true_r. reflexivity.
Qed.

Lemma leaf_out t s rest : leaf_text t = Some s -> well_made t = true -> ends (chars s) rest ->
  rlex_from None (chars s ++ rest) = s :: rlex_from None rest.
Proof.
  intros E W H. destruct (leaf_shape t s E W) as (c & w & A & B & C). rewrite A in H |- *.
  rewrite (word_out c w rest B (C _) H). f_equal. rewrite <- A. apply string_chars.
Qed.

Lemma safe_not c : safe c = true ->
  is_digit c = false /\ is_alpha c = false /\ Ascii.eqb c "." = false /\ Ascii.eqb c "+" = false /\ Ascii.eqb c "-" = false.
Proof. destruct c as [[][][][][][][][]]; vm_compute; intuition congruence. Qed.

(** What can follow a token: [tail_ok c la] describes the next characters. *)
Lemma word_ends f w c r : wordlike f = true -> is_digit c = false -> is_alpha c = false -> ends (f :: w) (c :: r).
Proof. intros H D A. unfold ends. rewrite ext_word by (rewrite full_first; exact H). rewrite D, A. reflexivity. Qed.

(** A number that ends in an exponent letter, so that a sign would continue it. *)
Definition exp_open (l : list ascii) : bool :=
  (Ascii.eqb (last l "000"%char) "e" || Ascii.eqb (last l "000"%char) "E")
  && forallb (fun d => is_digit d || Ascii.eqb d "_" || Ascii.eqb d ".") (removelast l).

Lemma forallb_rev {A} (f : A -> bool) l : forallb f (rev l) = forallb f l.
Proof.
  induction l as [|x l IH]; [reflexivity|]. cbn [rev]. rewrite forallb_app, IH. cbn. rewrite andb_true_r. apply andb_comm.
Qed.
Lemma full_exp f w :
  (Ascii.eqb (last_of (full (f :: w))) "e" || Ascii.eqb (last_of (full (f :: w))) "E")
  && forallb (fun d => is_digit d || Ascii.eqb d "_" || Ascii.eqb d ".") (tl (p_rev (full (f :: w)))) = exp_open (f :: w).
Proof.
  unfold exp_open. assert (E : p_rev (full (f :: w)) = rev (f :: w)) by (rewrite full_rev; reflexivity).
  unfold last_of. rewrite E. clear E.
  rewrite (app_removelast_last "000"%char (l := f :: w)) at 1 2 3 by discriminate.
  rewrite rev_app_distr. cbn [rev app tl]. rewrite forallb_rev. reflexivity.
Qed.

Lemma num_ends f w c r : is_digit f = true -> is_digit c = false -> is_alpha c = false ->
  (c = "."%char -> forallb (fun d => is_digit d || Ascii.eqb d "_") (f :: w) = true -> dot_ends (hd_error r) = false) ->
  ((c = "+"%char \/ c = "-"%char) -> exp_open (f :: w) = false) ->
  ends (f :: w) (c :: r).
Proof.
  intros H D A HD HS. unfold ends, rust_ext. rewrite full_first, H, D, A. cbn [orb].
  apply orb_false_iff. split.
  - destruct (Ascii.eqb_spec c ".") as [E|_]; [|reflexivity]. cbn [andb].
    rewrite full_rev. destruct (forallb _ (rev w ++ [f])) eqn:EF; [|reflexivity]. cbn [andb].
    apply HD; [exact E|]. rewrite forallb_forall in EF |- *. intros x Hx. apply EF.
    apply in_app_iff. destruct Hx as [<-|Hx]; [right; left; reflexivity|left; apply in_rev in Hx; exact Hx].
  - rewrite <- andb_assoc, full_exp.
    destruct (Ascii.eqb_spec c "+") as [E|_]; [|destruct (Ascii.eqb_spec c "-") as [E|_]; [|reflexivity]];
      cbn [orb andb]; apply HS; auto.
Qed.

Lemma str_ends w c r : str_state w = SClosed -> is_digit c = false -> is_alpha c = false -> ends (""""%char :: w) (c :: r).
Proof.
  intros H D A. unfold ends, rust_ext. rewrite full_first, full_rev, rev_app_distr, rev_involutive.
  cbn [rev app tl]. change (is_digit """") with false. change (is_alpha """" || Ascii.eqb """" "'") with false.
  change (Ascii.eqb """" """") with true. rewrite H, D, A. reflexivity.
Qed.

Lemma op_ends op c r : existsb (String.eqb op) rust_ops = true ->
  existsb (String.eqb (op ++ String c EmptyString)%string) rust_puncts = false -> ends (chars op) (c :: r).
Proof.
  intros W H. destruct (op_inv op W) as (f & w & A & _ & _ & D & Wl & Q). unfold ends. rewrite A.
  rewrite ext_op by (rewrite full_first; assumption).
  replace (text_of (grow (full (f :: w)) c)) with (op ++ String c EmptyString)%string; [exact H|].
  unfold text_of, grow. cbn [p_rev]. rewrite full_rev. cbn [rev]. rewrite rev_app_distr, rev_involutive. cbn [rev app].
  rewrite <- (string_chars (op ++ String c "")). f_equal. rewrite chars_app, A. reflexivity.
Qed.
Lemma op_ends_char op c r : existsb (String.eqb op) rust_ops = true -> not_op_char c = true -> ends (chars op) (c :: r).
Proof.
  intros W H. destruct (op_inv op W) as (f & w & A & _ & _ & D & Wl & Q). unfold ends. rewrite A.
  rewrite ext_op by (rewrite full_first; assumption). apply (op_not_ext not_op_char); [exact not_op_last|exact H].
Qed.

Lemma leaf_safe t s rest : leaf_text t = Some s -> well_made t = true -> safe_rest rest -> ends (chars s) rest.
Proof.
  destruct rest as [|c r]; [intros; exact I|]. cbn [safe_rest]. intros E W HS.
  destruct (safe_not c HS) as (D & A & D1 & D2 & D3).
  destruct t as [d ts|x|x|x|x]; cbn [leaf_text well_made] in E, W; [discriminate| | | |]; injection E as <-.
  - unfold word_text in W. change (list_ascii_of_string x) with (chars x) in W.
    destruct (chars x) as [|f w]; [discriminate|]. apply andb_true_iff in W. destruct W as [W1 W2].
    apply word_ends; [unfold wordlike; rewrite W1; reflexivity|exact D|exact A].
  - apply op_ends_char; [exact W|]. unfold not_op_char. rewrite HS. reflexivity.
  - destruct (lit_text_inv x W) as (f & w & EC & _ & _ & [[K1 K2]|[K1 K2]]); rewrite EC.
    + apply num_ends; [exact K1|exact D|exact A| |].
      * intros ->. discriminate.
      * intros [->| ->]; discriminate.
    + subst f. apply str_ends; assumption.
  - change (chars ("'" ++ x)) with ("'"%char :: chars x). apply word_ends; [reflexivity|exact D|exact A].
Qed.

(** *** proc_macro2's text *)

Lemma delim_out c rest : existsb (Ascii.eqb c) (chars "()[]{}") = true ->
  rlex_from None (c :: rest) = String c EmptyString :: rlex_from None rest.
Proof.
  intros H. change (c :: rest) with ([c] ++ rest). change (String c EmptyString) with (string_of_list_ascii [c]).
  assert (X : is_white c = false /\ is_digit c = false /\ wordlike c = false /\ c <> """"%char).
  { revert H. destruct c as [[][][][][][][][]]; vm_compute; intuition congruence. }
  destruct X as (W & D & L & Q). apply word_out; [exact W|reflexivity|].
  unfold ends. destruct rest as [|a r]; [exact I|]. rewrite ext_op by (cbn; assumption).
  destruct (existsb _ rust_puncts) eqn:E; [|reflexivity]. exfalso.
  apply existsb_exists in E. destruct E as (x & HI & E). apply String.eqb_eq in E. subst x.
  assert (F : forallb (fun op => negb (existsb (Ascii.eqb (first_char op)) (chars "()[]{}"))) rust_puncts = true)
    by (vm_compute; reflexivity).
  rewrite forallb_forall in F. specialize (F _ HI).
  change (text_of (grow (full [c]) a)) with (String c (String a EmptyString)) in F. cbn [first_char] in F.
  rewrite H in F. discriminate.
Qed.
Lemma delim_safe c r : existsb (Ascii.eqb c) (chars "()[]{}") = true -> safe_rest (c :: r).
Proof. intros H. cbn [safe_rest]. unfold safe. rewrite H, orb_true_r. reflexivity. Qed.

Definition reads (text : string) (toks : list string) (rest : list ascii) : Prop :=
  rlex_from None (chars text ++ rest) = toks ++ rlex_from None rest.

(** A group is closed by its own delimiter, whatever follows. *)
Lemma show_reads t : well_made t = true -> forall rest, leaf_text t = None \/ safe_rest rest -> reads (show t) (tokens_of t) rest.
Proof.
  unfold reads. induction t as [d ts IH|s|s|s|s] using tt_ind'; intros W rest HS;
    [|destruct HS as [HS|HS]; [discriminate|];
      match goal with |- context [show ?t] => apply (leaf_out t _ rest eq_refl W), (leaf_safe t _ rest eq_refl W HS) end..].
  cbn [well_made] in W. apply andb_true_iff in W. destruct W as [WD WT].
  assert (B : forall rest, safe_rest rest ->
    rlex_from None (chars (String.concat " " (map show ts)) ++ rest) = flat_map tokens_of ts ++ rlex_from None rest).
  { clear rest HS. induction ts as [|t ts IHts]; intros rest HS; [reflexivity|].
    inversion IH as [|? ? Ht Hts]; subst. cbn [forallb] in WT. apply andb_true_iff in WT. destruct WT as [W1 W2].
    destruct ts as [|u ts].
    - cbn [map String.concat flat_map]. rewrite Ht by (first [right; exact HS|assumption]). rewrite app_nil_r. reflexivity.
    - change (String.concat " " (map show (t :: u :: ts)))
        with (show t ++ " " ++ String.concat " " (map show (u :: ts)))%string.
      rewrite !chars_app, <- !app_assoc.
      rewrite Ht; [|exact W1|right; reflexivity].
      rewrite (white_out (chars " ")) by reflexivity.
      rewrite IHts by assumption. cbn [flat_map]. rewrite <- !app_assoc. reflexivity. }
  cbn [show tokens_of]. rewrite !chars_app, <- !app_assoc.
  destruct d; [| | |discriminate]; cbn [open_text close_text open_tok close_tok].
  - change (chars "(") with ["("%char]. cbn [app]. rewrite delim_out by reflexivity.
    change (chars ")" ++ rest)%list with (")"%char :: rest)%list.
    rewrite B by (apply delim_safe; reflexivity). rewrite delim_out by reflexivity.
    reflexivity.
  - change (chars "{ ") with ["{"%char; " "%char]. cbn [app]. rewrite delim_out by reflexivity.
    rewrite lex_restart. change (is_white " ") with true. cbv iota.
    destruct (is_empty ts) eqn:EE.
    + destruct ts; [|discriminate]. cbn [map String.concat chars list_ascii_of_string app flat_map].
      rewrite delim_out by reflexivity. reflexivity.
    + change (chars " }" ++ rest)%list with (" "%char :: "}"%char :: rest)%list.
      rewrite B by reflexivity. rewrite lex_restart. change (is_white " ") with true. cbv iota.
      rewrite delim_out by reflexivity. reflexivity.
  - change (chars "[") with ["["%char]. cbn [app]. rewrite delim_out by reflexivity.
    change (chars "]" ++ rest)%list with ("]"%char :: rest)%list.
    rewrite B by (apply delim_safe; reflexivity). rewrite delim_out by reflexivity.
    reflexivity.
Qed.


(** *** The formatter's text *)

Lemma spaces_white n : forallb is_white (chars (spaces n)) = true.
Proof. induction n as [|n IH]; [reflexivity|exact IH]. Qed.
Lemma indent_white d s : indent d = Ok s -> forallb is_white (chars s) = true.
Proof. unfold indent. destruct (Nat.leb _ _); [|discriminate]. intros E. injection E as <-. apply spaces_white. Qed.
Lemma top_white d : forallb is_white (chars (at_top d)) = true.
Proof. destruct d; reflexivity. Qed.

Lemma rcat_inv a b s : a +++ b = Ok s -> exists x y, a = Ok x /\ b = Ok y /\ s = (x ++ y)%string.
Proof.
  unfold rcat. destruct a as [x|e|]; try discriminate. destruct b as [y|e|]; try discriminate.
  cbn. intros E. injection E as <-. exists x, y. auto.
Qed.

(** Neighbours that do not run together. *)
Definition glued (t : tt) : option string :=
  match t with TLit s => Some s | TPunct s => if String.eqb s ";" then None else Some s | _ => None end.

Lemma first_char_chars s c w : chars s = c :: w -> first_char s = c.
Proof. destruct s as [|a s]; [discriminate|]. cbn. intros E. injection E as -> _. reflexivity. Qed.
Lemma last_char_chars s c w : chars s = c :: w -> last_char s = last w c.
Proof.
  intros E. unfold last_char. change (list_ascii_of_string s) with (chars s). rewrite E.
  destruct w as [|d w]; [reflexivity|]. change (last (c :: d :: w) "000"%char) with (last (d :: w) "000"%char).
  apply last_default. discriminate.
Qed.

Lemma alpha_plain c : is_alpha c = true -> not_op_char c = true.
Proof. intros H. unfold not_op_char. rewrite H, !orb_true_r. reflexivity. Qed.
Lemma digit_plain c : is_digit c = true -> not_op_char c = true.
Proof. intros H. unfold not_op_char. rewrite H, !orb_true_r. reflexivity. Qed.
Lemma wordlike_plain c : wordlike c = true -> not_op_char c = true.
Proof.
  unfold wordlike. intros H. apply orb_true_iff in H. destruct H as [H|H]; [apply alpha_plain, H|].
  unfold not_op_char. rewrite H, !orb_true_r. reflexivity.
Qed.
Lemma plain_first c : is_digit c = true \/ c = """"%char -> not_op_char c = true.
Proof. intros [H| ->]; [apply digit_plain, H|reflexivity]. Qed.

(** How the text of a token tree begins. *)
Definition begins (t : tt) (text : string) : Prop :=
  match t with
  | TGroup _ _ => exists c r, chars text = c :: r /\ safe c = true
  | TPunct op => exists r, chars text = chars op ++ r
  | TWord _ => exists c r, chars text = c :: r /\ is_alpha c = true
  | TLife _ => exists r, chars text = "'"%char :: r
  | TLit s => chars text = chars s
  end.

Lemma append_begins t d text : well_made t = true -> append_token t d = Ok text -> begins t text.
Proof.
  destruct t as [g ts|s|s|s|s]; intros W E; cbn [append_token] in E; cbn [begins].
  - destruct g; cbn [well_made] in W; try discriminate.
    + injection E as <-. cbn [show open_text]. eexists _, _. split; [reflexivity|reflexivity].
    + apply rcat_inv in E. destruct E as (x & y & E1 & _ & ->). injection E1 as <-.
      eexists _, _. split; [reflexivity|reflexivity].
    + injection E as <-. cbn [show open_text]. eexists _, _. split; [reflexivity|reflexivity].
  - injection E as <-. cbn [well_made] in W. unfold word_text in W. change (list_ascii_of_string s) with (chars s) in W.
    rewrite chars_app. destruct (chars s) as [|c w]; [discriminate|]. apply andb_true_iff in W.
    exists c, (w ++ chars " "). split; [reflexivity|apply W].
  - destruct (String.eqb s ";").
    + apply rcat_inv in E. destruct E as (x & y & E1 & _ & ->). injection E1 as <-.
      rewrite !chars_app, <- !app_assoc. eexists. reflexivity.
    + injection E as <-. exists []. rewrite app_nil_r. reflexivity.
  - injection E as <-. reflexivity.
  - injection E as <-. eexists. reflexivity.
Qed.

Lemma digit_alpha c : is_digit c = true -> is_alpha c = false.
Proof. destruct c as [[][][][][][][][]]; vm_compute; congruence. Qed.

(** A token that the formatter prints without a space ends where the text of a
    neighbour begins, unless they run together. *)
Lemma pair_ends a b s text rest :
  glued a = Some s -> well_made a = true -> well_made b = true -> runs_together a b = false -> begins b text ->
  ends (chars s) (chars text ++ rest).
Proof.
  intros G WA WB R B. destruct a as [?|?|o|l|?]; try discriminate.
  - (* operator *)
    cbn [glued] in G. destruct (String.eqb o ";") eqn:EO; [discriminate|]. injection G as <-. cbn [well_made] in WA.
    destruct b as [g ts|w|op|m|w]; cbn [begins] in B.
    + destruct B as (c & r & -> & HS). apply op_ends_char; [exact WA|]. unfold not_op_char. rewrite HS. reflexivity.
    + destruct B as (c & r & -> & HS). apply op_ends_char; [exact WA|]. apply alpha_plain, HS.
    + destruct B as (r & ->). cbn [well_made] in WB. destruct (op_inv op WB) as (c & w & EC & _).
      rewrite EC. cbn [runs_together] in R. rewrite EO in R. cbn [negb andb] in R.
      unfold op_first in R. rewrite (first_char_chars _ _ _ EC) in R. apply op_ends; [exact WA|exact R].
    + rewrite B. cbn [well_made] in WB. destruct (lit_text_inv m WB) as (c & w & EC & _ & _ & K). rewrite EC.
      apply op_ends_char; [exact WA|]. apply plain_first. destruct K as [[K _]|[K _]]; [left|right]; exact K.
    + destruct B as (r & ->). apply op_ends_char; [exact WA|reflexivity].
  - (* literal *)
    cbn [glued] in G. injection G as <-. cbn [well_made] in WA.
    destruct (lit_text_inv l WA) as (f & v & EL & _ & _ & KL).
    assert (GEN : forall c r, is_digit c = false -> is_alpha c = false ->
      (is_digit f = true -> c = "."%char -> forallb (fun d => is_digit d || Ascii.eqb d "_") (f :: v) = true -> dot_ends (hd_error r) = false) ->
      (is_digit f = true -> (c = "+"%char \/ c = "-"%char) -> exp_open (f :: v) = false) ->
      ends (chars l) (c :: r)).
    { intros c r D A H1 H2. rewrite EL. destruct KL as [[K1 _]|[K1 K2]].
      - apply num_ends; [exact K1|exact D|exact A|apply H1, K1|apply H2, K1].
      - subst f. apply str_ends; assumption. }
    destruct b as [g ts|w|op|m|w]; cbn [begins] in B.
    + destruct B as (c & r & -> & HS). destruct (safe_not c HS) as (D & A & D1 & D2 & D3).
      apply GEN; [exact D|exact A| |].
      * intros _ ->. discriminate.
      * intros _ [->| ->]; discriminate.
    + discriminate.
    + destruct B as (r & ->). cbn [well_made] in WB. destruct (op_inv op WB) as (c & w & EC & _ & _ & D & L & _).
      rewrite EC. cbn [app]. cbn [runs_together] in R. unfold op_first in R.
      rewrite (first_char_chars _ _ _ EC), (first_char_chars _ _ _ EL) in R. unfold last_char in R.
      change (list_ascii_of_string l) with (chars l) in R. rewrite EL in R.
      unfold wordlike in L. apply orb_false_iff in L. destruct L as [L _].
      apply GEN; [exact D|exact L| |].
      * intros K -> HF. rewrite K, HF in R. cbn [andb] in R. apply orb_false_iff in R. destruct R as [R _].
        rewrite andb_true_r in R. clear -WB EC R.
        apply op_in in WB. rename WB into HI. revert EC R. cbn in HI.
        repeat (destruct HI as [<-|HI]; [intros EC; try discriminate EC; injection EC as <-; try discriminate; reflexivity|]).
        destruct HI.
      * intros K HS. rewrite K in R. cbn [andb] in R. apply orb_false_iff in R. destruct R as [_ R].
        assert (X : Ascii.eqb c "+" || Ascii.eqb c "-" = true) by (destruct HS as [->| ->]; reflexivity).
        rewrite X in R. exact R.
    + rewrite B. cbn [well_made] in WB. destruct (lit_text_inv m WB) as (c & w & EC & _ & _ & K). rewrite EC.
      cbn [runs_together] in R. rewrite (first_char_chars _ _ _ EC) in R.
      destruct K as [[K _]|[K _]]; [rewrite R in K; discriminate|]. subst c.
      apply GEN; [reflexivity|reflexivity| |]; [intros _ X; discriminate|intros _ [X|X]; discriminate].
    + destruct B as (r & ->). apply GEN; [reflexivity|reflexivity| |]; [intros _ X; discriminate|intros _ [X|X]; discriminate].
Qed.

(** One token tree: it is read as its tokens if what follows does not extend it. *)
Definition follow_ok (t : tt) (rest : list ascii) : Prop :=
  match glued t with Some s => ends (chars s) rest | None => True end.

Lemma follow_safe t rest : well_made t = true -> safe_rest rest -> follow_ok t rest.
Proof.
  intros W HS. unfold follow_ok. destruct t as [g ts|s|s|s|s]; cbn [glued]; try exact I.
  - destruct (String.eqb s ";"); [exact I|]. apply (leaf_safe (TPunct s) s rest eq_refl W HS).
  - apply (leaf_safe (TLit s) s rest eq_refl W HS).
Qed.

Lemma list_reads ts d :
  (forall t, In t ts -> forall text, append_token t d = Ok text -> forall rest, follow_ok t rest -> reads text (tokens_of t) rest) ->
  forallb well_made ts = true -> no_run ts = true ->
  forall text, rcats (map (fun t => append_token t d) ts) = Ok text -> forall rest, safe_rest rest ->
  reads text (flat_map tokens_of ts) rest.
Proof.
  unfold reads. induction ts as [|t ts IH]; intros HT W R text E rest HS.
  - cbn in E. injection E as <-. reflexivity.
  - cbn [map rcats] in E. apply rcat_inv in E. destruct E as (x & y & E1 & E2 & ->).
    cbn [forallb] in W. apply andb_true_iff in W. destruct W as [W1 W2].
    rewrite chars_app, <- app_assoc. cbn [flat_map]. rewrite <- app_assoc.
    rewrite (HT t (or_introl eq_refl) x E1).
    + f_equal. apply IH; [intros u Hu; apply HT; right; exact Hu|exact W2| |exact E2|exact HS].
      destruct ts as [|u ts]; [reflexivity|]. cbn [no_run] in R. apply andb_true_iff in R. apply R.
    + destruct ts as [|u ts].
      * cbn in E2. injection E2 as <-. apply follow_safe; assumption.
      * cbn [map rcats] in E2. apply rcat_inv in E2. destruct E2 as (x' & y' & E3 & _ & ->).
        cbn [forallb] in W2. apply andb_true_iff in W2. destruct W2 as [W2 _].
        cbn [no_run] in R. apply andb_true_iff in R. destruct R as [R _]. apply negb_true_iff in R.
        rewrite chars_app, <- app_assoc. unfold follow_ok. destruct (glued t) as [s|] eqn:G; [|exact I].
        apply (pair_ends t u); try assumption. apply (append_begins u d); assumption.
Qed.

Lemma append_reads t : forall d text, well_made t = true -> spaced_tt t = true -> append_token t d = Ok text ->
  forall rest, follow_ok t rest -> reads text (tokens_of t) rest.
Proof.
  induction t as [g ts IH|s|s|s|s] using tt_ind'; intros d text W SP E rest F.
  - destruct g; [| | |discriminate].
    + cbn [append_token] in E. injection E as <-. apply (show_reads (TGroup DParen ts)); [exact W|left; reflexivity].
    + cbn [append_token] in E. cbn [spaced_tt] in SP. apply andb_true_iff in SP. destruct SP as [R SP].
      cbn [well_made andb] in W.
      apply rcat_inv in E; destruct E as (x1 & y & E1 & E & ->).
      apply rcat_inv in E; destruct E as (x2 & y2 & E2 & E & ->).
      apply rcat_inv in E; destruct E as (x3 & y3 & E3 & E & ->).
      apply rcat_inv in E; destruct E as (x4 & y4 & E4 & E & ->).
      apply rcat_inv in E; destruct E as (x5 & y5 & E5 & E & ->).
      apply rcat_inv in E; destruct E as (x6 & y6 & E6 & E & ->).
      apply rcat_inv in E; destruct E as (x7 & y7 & E7 & E & ->).
      assert (X1 : x1 = ("{" ++ newline)%string) by congruence. assert (X4 : x4 = newline) by congruence.
      assert (X6 : x6 = ("}" ++ newline)%string) by congruence. assert (X7 : y7 = at_top d) by congruence.
      clear E1 E4 E6 E. subst x1 x4 x6 y7.
      unfold reads. cbn [tokens_of open_tok close_tok]. rewrite !chars_app, <- !app_assoc.
      change (chars "{") with ["{"%char]. cbn [app]. rewrite delim_out by reflexivity.
      rewrite (white_out (chars newline)) by reflexivity.
      rewrite (white_out (chars x2)) by (apply (indent_white (S d)), E2).
      assert (L : reads x3 (flat_map tokens_of ts) (chars newline ++ chars x5 ++ chars "}" ++ chars newline ++ chars x7 ++ chars (at_top d) ++ rest)).
      { apply (list_reads ts (S d)); [|exact W|exact R|exact E3|reflexivity].
        intros t Ht text Et rest' F'. rewrite Forall_forall in IH. rewrite forallb_forall in W, SP.
        apply (IH t Ht (S d) text (W t Ht) (SP t Ht) Et rest' F'). }
      unfold reads in L. rewrite L.
      rewrite (white_out (chars newline)) by reflexivity.
      rewrite (white_out (chars x5)) by (apply (indent_white d), E5).
      change (chars "}") with ["}"%char]. cbn [app]. rewrite delim_out by reflexivity.
      rewrite (white_out (chars newline)) by reflexivity.
      rewrite (white_out (chars x7)) by (apply (indent_white d), E7).
      rewrite (white_out (chars (at_top d))) by (apply top_white).
      reflexivity.
    + change (append_token (TGroup DBracket ts) d) with (Ok (show (TGroup DBracket ts) ++ at_top d)%string) in E.
      assert (X : text = (show (TGroup DBracket ts) ++ at_top d)%string) by congruence. clear E. subst text. unfold reads.
      rewrite chars_app, <- app_assoc.
      rewrite (show_reads (TGroup DBracket ts) W) by (left; reflexivity). f_equal.
      apply white_out, top_white.
  - cbn [append_token] in E. injection E as <-. unfold reads. rewrite chars_app, <- app_assoc.
    rewrite (leaf_out (TWord s) s _ eq_refl W) by (apply (leaf_safe (TWord s) s _ eq_refl W); reflexivity).
    rewrite (white_out (chars " ")) by reflexivity. reflexivity.
  - cbn [append_token] in E. unfold follow_ok in F. cbn [glued] in F. destruct (String.eqb s ";") eqn:ES.
    + apply rcat_inv in E; destruct E as (x1 & y & E1 & E & ->).
      assert (X1 : x1 = (s ++ (newline ++ at_top d))%string) by congruence. clear E1. subst x1.
      unfold reads. rewrite (chars_app _ y), (chars_app s), <- !app_assoc.
      rewrite (leaf_out (TPunct s) s _ eq_refl W) by (apply (leaf_safe (TPunct s) s _ eq_refl W); reflexivity).
      rewrite (white_out (chars (newline ++ at_top d)%string)) by (destruct d; reflexivity).
      rewrite (white_out (chars y)) by (apply (indent_white d), E). reflexivity.
    + injection E as <-. apply (leaf_out (TPunct s) s rest eq_refl W F).
  - cbn [append_token] in E. injection E as <-. apply (leaf_out (TLit s) s rest eq_refl W F).
  - cbn [append_token] in E. injection E as <-. unfold reads.
    change (String "'" (s ++ " ")) with (("'" ++ s) ++ " ")%string.
    rewrite chars_app, <- app_assoc.
    rewrite (leaf_out (TLife s) ("'" ++ s)%string _ eq_refl W)
      by (apply (leaf_safe (TLife s) ("'" ++ s)%string _ eq_refl W); reflexivity).
    rewrite (white_out (chars " ")) by reflexivity. reflexivity.
Qed.

(** The formatted text reads back as the tokens of the stream. *)
Theorem format_reads ts text :
  forallb well_made ts = true -> spaced ts = true -> format_token_stream ts = Ok text -> rust_lex text = stream_tokens ts.
Proof.
  intros W SP E. unfold spaced in SP. apply andb_true_iff in SP. destruct SP as [R SP].
  unfold rust_lex, stream_tokens. rewrite <- (app_nil_r (list_ascii_of_string text)), <- (app_nil_r (flat_map tokens_of ts)).
  apply (list_reads ts 0); [|exact W|exact R|exact E|exact I].
  intros t Ht x Ex rest F. rewrite forallb_forall in W, SP. apply (append_reads t 0 x (W t Ht) (SP t Ht) Ex rest F).
Qed.

(** ** Neighbours that do run together are not read back *)

Lemma first_len cs : forall p, exists w ws, rlex_from (Some p) cs = w :: ws /\ List.length (p_rev p) <= String.length w.
Proof.
  induction cs as [|c cs IH]; intros p.
  - exists (text_of p), []. split; [reflexivity|]. unfold text_of. rewrite string_len, rev_length. apply le_n.
  - cbn [rlex_from]. destruct (rust_ext p c (hd_error cs)).
    + destruct (IH (grow p c)) as (w & ws & E & L). exists w, ws. split; [exact E|]. cbn in L. clear -L. lia.
    + eexists _, _. split; [reflexivity|]. unfold text_of. rewrite string_len, rev_length. apply le_n.
Qed.

Lemma glue_differs t s c r : leaf_text t = Some s -> well_made t = true ->
  rust_ext (full (chars s)) c (hd_error r) = true -> forall ws, rlex_from None (chars s ++ c :: r) <> s :: ws.
Proof.
  intros E W H ws. destruct (leaf_shape t s E W) as (f & w & A & B & C). rewrite A in H |- *.
  cbn [app]. rewrite lex_restart, B, lex_grow by apply C. cbn [rlex_from]. cbn [full] in H. rewrite H.
  destruct (first_len r (grow (grow_all (start f) w) c)) as (x & xs & E' & L). rewrite E'.
  intros X. injection X as X _. subst x.
  rewrite grow_all_eq in L. cbn [grow p_rev start List.length] in L. rewrite app_length, rev_length in L.
  assert (M : String.length s = List.length (chars s)).
  { rewrite <- (string_chars s) at 1. apply string_len. }
  rewrite A in M. cbn in L, M. clear -L M. lia.
Qed.

Lemma pair_differs a b text : well_made a = true -> well_made b = true -> runs_together a b = true ->
  format_token_stream [a; b] = Ok text -> rust_lex text <> stream_tokens [a; b].
Proof.
  intros WA WB R E. unfold format_token_stream in E. cbn [map rcats] in E.
  apply rcat_inv in E. destruct E as (x & y & E1 & E & ->).
  apply rcat_inv in E. destruct E as (z & y' & E2 & E & ->). injection E as <-.
  pose proof (append_begins b 0 z WB E2) as B.
  unfold rust_lex. change list_ascii_of_string with chars. rewrite chars_app, chars_app, app_nil_r.
  destruct a as [?|?|o|l|?]; try discriminate.
  - destruct b as [?|?|op|?|?]; try discriminate. cbn [runs_together] in R. apply andb_true_iff in R. destruct R as [R1 R2].
    cbn [append_token] in E1. apply negb_true_iff in R1. rewrite R1 in E1. injection E1 as <-.
    cbn [begins] in B. destruct B as (r & ->). cbn [well_made] in WA, WB.
    destruct (op_inv op WB) as (c & w & EC & _). rewrite EC. cbn [app].
    apply (glue_differs (TPunct o)); [reflexivity|exact WA|].
    destruct (op_inv o WA) as (f & v & A & _ & _ & D & Wl & Q). rewrite A.
    rewrite ext_op by (rewrite full_first; assumption).
    unfold op_first in R2. rewrite (first_char_chars _ _ _ EC) in R2.
    replace (text_of (grow (full (f :: v)) c)) with (o ++ String c EmptyString)%string; [exact R2|].
    unfold text_of, grow. cbn [p_rev]. rewrite full_rev. cbn [rev]. rewrite rev_app_distr, rev_involutive. cbn [rev app].
    rewrite <- (string_chars (o ++ String c "")). f_equal. rewrite chars_app, A. reflexivity.
  - cbn [append_token] in E1. injection E1 as <-. cbn [well_made] in WA.
    destruct (lit_text_inv l WA) as (f & v & EL & _ & _ & KL).
    assert (AL : forall c la, is_digit c || is_alpha c = true -> rust_ext (full (chars l)) c la = true).
    { intros c la H. rewrite EL. unfold rust_ext. rewrite full_first. destruct KL as [[K1 _]|[K1 K2]].
      - rewrite K1, H. reflexivity.
      - subst f. rewrite full_rev, rev_app_distr, rev_involutive. cbn [rev app tl].
        change (is_digit """") with false. change (is_alpha """" || Ascii.eqb """" "'") with false.
        change (Ascii.eqb """" """") with true. rewrite K2. exact H. }
    destruct b as [?|w|op|m|?]; try discriminate.
    + cbn [begins] in B. destruct B as (c & r & -> & HA).
      apply (glue_differs (TLit l)); [reflexivity|exact WA|]. apply AL. rewrite HA. apply orb_true_r.
    + cbn [begins] in B. destruct B as (r & Er). rewrite Er. cbn [well_made] in WB.
      destruct (op_inv op WB) as (c & w & EC & _). rewrite EC. cbn [app].
      cbn [runs_together] in R. unfold op_first in R.
      rewrite (first_char_chars _ _ _ EC), (first_char_chars _ _ _ EL) in R. unfold last_char in R.
      change (list_ascii_of_string l) with (chars l) in R. rewrite EL in R.
      apply andb_true_iff in R. destruct R as [RD R]. apply orb_true_iff in R.
      apply (glue_differs (TLit l)); [reflexivity|exact WA|]. rewrite EL. unfold rust_ext. rewrite full_first, RD.
      apply orb_true_iff. destruct R as [R|R].
      * left. apply andb_true_iff in R. destruct R as [R1 R2]. apply String.eqb_eq in R1. subst op.
        cbn in E2. injection E2 as <-. cbn in EC. injection EC as <- <-. cbn [app].
        assert (r = []) as -> by (cbn in Er; injection Er as <-; reflexivity).
        rewrite full_rev. change (rev v ++ [f]) with (rev (f :: v)). rewrite forallb_rev, R2. rewrite !orb_true_r. reflexivity.
      * right. rewrite <- andb_assoc, full_exp. rewrite <- andb_assoc in R. exact R.
    + cbn [begins] in B. rewrite B. cbn [well_made] in WB. cbn [runs_together] in R.
      destruct (lit_text_inv m WB) as (c & w & EC & _). rewrite EC. rewrite (first_char_chars _ _ _ EC) in R.
      apply (glue_differs (TLit l)); [reflexivity|exact WA|]. apply AL. rewrite R. reflexivity.
Qed.
