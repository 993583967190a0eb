(** Reading Rust text (specification, independent of the code): the tokens of the
    Rust reference by longest match.  Described are identifiers, lifetimes,
    numbers, plain string literals, delimiters and punctuation; comments are
    described only as the two characters that open them, so that a text with a
    comment never lexes to an ordinary token sequence.  Character, byte and raw
    literals and raw identifiers are left out. *)
From Coq Require Import List String Ascii Bool Arith NArith.
From Verif Require Import CLex RustFmt.
Import ListNotations.
Open Scope list_scope.

(** Operators and punctuation of the Rust reference, and the comment openers. *)
Definition rust_ops : list string :=
  ["+"; "-"; "*"; "/"; "%"; "^"; "!"; "&"; "|"; "="; "<"; ">"; "@"; "."; ","; ";"; ":"; "#"; "$"; "?"; "~";
   "&&"; "||"; "<<"; ">>"; "+="; "-="; "*="; "/="; "%="; "^="; "&="; "|="; "<<="; ">>="; "=="; "!="; ">="; "<=";
   ".."; "..."; "..="; "::"; "->"; "<-"; "=>"]%string.
Definition rust_puncts : list string := rust_ops ++ ["//"; "/*"]%string.

(** Where the reading of a string literal stands, after its opening quote. *)
Inductive sstate : Type := SOpen | SEsc | SClosed.
Definition str_step (s : sstate) (c : ascii) : sstate :=
  match s with
  | SOpen => if Ascii.eqb c "\" then SEsc else if Ascii.eqb c """" then SClosed else SOpen
  | SEsc => SOpen
  | SClosed => SClosed
  end.
Definition str_state (inside : list ascii) : sstate := fold_left str_step inside SOpen.

(** A dot continues a number only if no name and no second dot follows it. *)
Definition dot_ends (la : option ascii) : bool :=
  match la with Some d => negb (is_alpha d || Ascii.eqb d ".") | None => true end.

(** [rust_ext p la c]: does [c], itself followed by [la], continue the token [p]? *)
Definition rust_ext (p : partial) (c : ascii) (la : option ascii) : bool :=
  let f := p_first p in
  if is_digit f then
    is_digit c || is_alpha c
    || (Ascii.eqb c "." && forallb (fun d => is_digit d || Ascii.eqb d "_") (p_rev p) && dot_ends la)
    || ((Ascii.eqb c "+" || Ascii.eqb c "-") && (Ascii.eqb (last_of p) "e" || Ascii.eqb (last_of p) "E")
        && forallb (fun d => is_digit d || Ascii.eqb d "_" || Ascii.eqb d ".") (tl (p_rev p)))
  else if is_alpha f || Ascii.eqb f "'" then is_digit c || is_alpha c
  else if Ascii.eqb f """" then
    match str_state (tl (rev (p_rev p))) with SClosed => is_digit c || is_alpha c | _ => true end
  else existsb (String.eqb (text_of (grow p c))) rust_puncts.

Fixpoint rlex_from (cur : option partial) (cs : list ascii) : list string :=
  match cs with
  | [] => match cur with Some p => [text_of p] | None => [] end
  | c :: r =>
      match cur with
      | Some p =>
          if rust_ext p c (hd_error r) then rlex_from (Some (grow p c)) r
          else text_of p :: (if is_white c then rlex_from None r else rlex_from (Some (start c)) r)
      | None => if is_white c then rlex_from None r else rlex_from (Some (start c)) r
      end
  end.
(** The tokens of a text. *)
Definition rust_lex (s : string) : list string := rlex_from None (list_ascii_of_string s).

(** ** The tokens of a token stream

    An invisible group has no delimiters. *)
Definition open_tok (d : delim) : list string :=
  match d with DParen => ["("] | DBrace => ["{"] | DBracket => ["["] | DNone => [] end%string.
Definition close_tok (d : delim) : list string :=
  match d with DParen => [")"] | DBrace => ["}"] | DBracket => ["]"] | DNone => [] end%string.

Fixpoint tokens_of (t : tt) : list string :=
  match t with
  | TGroup d ts => open_tok d ++ flat_map tokens_of ts ++ close_tok d
  | TWord s | TPunct s | TLit s => [s]
  | TLife s => [("'" ++ s)%string]
  end.
Definition stream_tokens (ts : list tt) : list string := flat_map tokens_of ts.

(** ** Token streams as a Rust parser makes them *)

Definition word_text (s : string) : bool :=
  match list_ascii_of_string s with
  | c :: r => is_alpha c && forallb (fun d => is_digit d || is_alpha d) r
  | [] => false
  end.
Definition last_char (s : string) : ascii := last (list_ascii_of_string s) "000"%char.

(** A literal that is one token of its own: a number not ending in a dot, or a
    closed string. *)
Definition lit_text (s : string) : bool :=
  match rust_lex s, list_ascii_of_string s with
  | [w], c :: r =>
      String.eqb w s
      && ((is_digit c && negb (Ascii.eqb (last r c) "."))
          || (Ascii.eqb c """" && match str_state r with SClosed => true | _ => false end))
  | _, _ => false
  end.

Fixpoint well_made (t : tt) : bool :=
  match t with
  | TGroup d ts => (match d with DNone => false | _ => true end) && forallb well_made ts
  | TWord s | TLife s => word_text s
  | TPunct op => existsb (String.eqb op) rust_ops
  | TLit s => lit_text s
  end.

(** ** Which neighbours run together

    The formatter puts nothing between a literal or an operator and the token
    after it, outside of parentheses and brackets. *)
Definition op_first (op : string) : ascii := first_char op.

Definition runs_together (a b : tt) : bool :=
  match a, b with
  | TLit l, TWord _ => true
  | TLit l, TLit m => is_digit (first_char m)
  | TLit l, TPunct op =>
      is_digit (first_char l)
      && ((String.eqb op "." && forallb (fun d => is_digit d || Ascii.eqb d "_") (list_ascii_of_string l))
          || ((Ascii.eqb (op_first op) "+" || Ascii.eqb (op_first op) "-")
              && (Ascii.eqb (last_char l) "e" || Ascii.eqb (last_char l) "E")
              && forallb (fun d => is_digit d || Ascii.eqb d "_" || Ascii.eqb d ".") (removelast (list_ascii_of_string l))))
  | TPunct o, TPunct op =>
      negb (String.eqb o ";") && existsb (String.eqb (o ++ String (op_first op) EmptyString)%string) rust_puncts
  | _, _ => false
  end.

Fixpoint no_run (ts : list tt) : bool :=
  match ts with
  | a :: ((b :: _) as r) => negb (runs_together a b) && no_run r
  | _ => true
  end.

(** No two neighbours run together, in the stream and in its brace groups. *)
Fixpoint spaced_tt (t : tt) : bool :=
  match t with
  | TGroup DBrace ts => no_run ts && forallb spaced_tt ts
  | _ => true
  end.
Definition spaced (ts : list tt) : bool := no_run ts && forallb spaced_tt ts.
