(** Reading C text (specification, independent of the code): tokens of the C
    standard by longest match (C11 6.4), then expressions by the grammar of
    C11 6.5.  Only the part needed for expressions is described; comments,
    character and string literals and digraphs are left out (a text that uses
    them is rejected or split differently, never accepted as something else by
    the theorems here). *)
From Coq Require Import List String Ascii Bool Arith NArith.
From Verif Require Import Res Syntax Parse.
Import ListNotations.
Open Scope list_scope.

(** ** Characters *)
Definition code (c : ascii) : N := N_of_ascii c.
Definition in_range (lo hi : ascii) (c : ascii) : bool := (code lo <=? code c)%N && (code c <=? code hi)%N.
Definition is_digit (c : ascii) : bool := in_range "0" "9" c.
Definition is_alpha (c : ascii) : bool := in_range "a" "z" c || in_range "A" "Z" c || Ascii.eqb c "_".
Definition is_white (c : ascii) : bool := Ascii.eqb c " " || (code c =? 10)%N || (code c =? 9)%N || (code c =? 13)%N.

(** ** Longest match

    A token is read character by character: [ext first last c] tells whether [c]
    continues the token that starts with [first] and so far ends with [last];
    [len] is its length so far. *)
Record partial : Type := Partial { p_first : ascii; p_rev : list ascii }.

Section Lexer.
  Variable ext : partial -> ascii -> bool.
  Definition start (c : ascii) : partial := Partial c [c].
  Definition grow (p : partial) (c : ascii) : partial := Partial (p_first p) (c :: p_rev p).
  Definition text_of (p : partial) : string := string_of_list_ascii (rev (p_rev p)).

  Fixpoint lex_from (cur : option partial) (cs : list ascii) : list string :=
    match cs with
    | [] => match cur with Some p => [text_of p] | None => [] end
    | c :: r =>
        match cur with
        | Some p =>
            if ext p c then lex_from (Some (grow p c)) r
            else text_of p :: (if is_white c then lex_from None r else lex_from (Some (start c)) r)
        | None => if is_white c then lex_from None r else lex_from (Some (start c)) r
        end
    end.
  Definition lex (s : string) : list string := lex_from None (list_ascii_of_string s).
End Lexer.

(** ** C tokens *)
Definition c_puncts : list string :=
  ["<<"; ">>"; "<="; ">="; "=="; "!="; "&&"; "||"; "->"; "++"; "--"; "+="; "-="; "*="; "/="; "%=";
   "&="; "^="; "|="; "<<="; ">>="; "##"; "//"; "/*"]%string.

(** 6.4.8: a preprocessing number goes on with digits, letters, [_], [.] and with
    a sign after an exponent letter. *)
Definition num_ext (last c : ascii) : bool :=
  is_digit c || is_alpha c || Ascii.eqb c "."
  || ((Ascii.eqb c "+" || Ascii.eqb c "-")
      && (Ascii.eqb last "e" || Ascii.eqb last "E" || Ascii.eqb last "p" || Ascii.eqb last "P")).

Definition last_of (p : partial) : ascii := match p_rev p with c :: _ => c | [] => p_first p end.

Definition c_ext (p : partial) (c : ascii) : bool :=
  if is_digit (p_first p) then num_ext (last_of p) c
  else if is_alpha (p_first p) then is_digit c || is_alpha c
  else existsb (String.eqb (text_of (grow p c))) c_puncts.

Definition c_lex : string -> list string := lex c_ext.

(** ** C expressions *)

Definition c_keyword_types : list string := ["int"; "long"; "unsigned"; "float"; "double"]%string.

Section Tokens.
  (** Names declared by [typedef]. *)
  Variable typedefs : list string.
  Definition is_type (w : string) : bool :=
    existsb (String.eqb w) c_keyword_types || existsb (String.eqb w) typedefs.

  Definition first_char (w : string) : ascii := match w with String c _ => c | EmptyString => "000"%char end.

  (** The token of one word outside of a type name. *)
  Definition c_tok (w : string) : option token :=
    if is_type w then None
    else if String.eqb w "(" then Some TLParen
    else if String.eqb w ")" then Some TRParen
    else if String.eqb w "," then Some TComma
    else if String.eqb w "!" then Some TBang
    else if String.eqb w "+" then Some (TBin BAdd)
    else if String.eqb w "-" then Some (TBin BSub)
    else if String.eqb w "*" then Some (TBin BMul)
    else if String.eqb w "/" then Some (TBin BDiv)
    else if String.eqb w "%" then Some (TBin BRem)
    else if String.eqb w "&&" then Some (TBin BAnd)
    else if String.eqb w "||" then Some (TBin BOr)
    else if String.eqb w "^" then Some (TBin BBitXor)
    else if String.eqb w "&" then Some (TBin BBitAnd)
    else if String.eqb w "|" then Some (TBin BBitOr)
    else if String.eqb w "<<" then Some (TBin BShl)
    else if String.eqb w ">>" then Some (TBin BShr)
    else if String.eqb w "==" then Some (TBin BEq)
    else if String.eqb w "<" then Some (TBin BLt)
    else if String.eqb w "<=" then Some (TBin BLe)
    else if String.eqb w "!=" then Some (TBin BNe)
    else if String.eqb w ">=" then Some (TBin BGe)
    else if String.eqb w ">" then Some (TBin BGt)
    else if is_digit (first_char w) then Some (TLit (lex_number w ""))
    else if is_alpha (first_char w) then Some (TPath [w])
    else None.

  Definition ocons {A} (x : option A) (l : option (list A)) : option (list A) :=
    match x, l with Some x, Some l => Some (x :: l) | _, _ => None end.

  (** [(] followed by a type name and [)] is a cast (6.5.4).  [pend] holds the
      words of a possible type name after an open parenthesis. *)
  Fixpoint c_toks (pend : option (list string)) (ws : list string) : option (list token) :=
    match ws with
    | [] => match pend with Some [] => Some [TLParen] | Some _ => None | None => Some [] end
    | w :: r =>
        match pend with
        | Some tys =>
            if is_type w then c_toks (Some (tys ++ [w])) r
            else match tys with
                 | [] => ocons (Some TLParen)
                           (if String.eqb w "(" then c_toks (Some []) r else ocons (c_tok w) (c_toks None r))
                 | _ => if String.eqb w ")" then ocons (Some (TCast (String.concat " " tys))) (c_toks None r)
                        else None
                 end
        | None => if String.eqb w "(" then c_toks (Some []) r else ocons (c_tok w) (c_toks None r)
        end
    end.

  (** The expression a C text denotes; the operator levels are [c_prec]. *)
  Definition c_parse (s : string) : option expr :=
    match c_toks None (c_lex s) with Some ts => parse_toks c_prec ts | None => None end.
End Tokens.
