(** Printing expressions as tokens and parsing tokens with operator precedences.

    Printing: [Display for Expression], doctor-syn/src/expression.rs:180-185
    ([quote!(#inner).to_string()]); syn's [ToTokens] prints exactly the tree and
    adds no parentheses.
    Parsing: [FromStr for Expression], expression.rs:299-305, [expr!] and
    [parse_quote!]; this is syn 1.0's precedence-climbing expression parser.

    Simplifications: a path is one token; a tuple index is treated as a field
    name; type arguments of a method are one token; trailing commas, tuples,
    blocks, closures, ranges, assignments, references, indexing and [?] are not
    parsed (the parser rejects them).  Spaces are not represented: [to_string]
    separates tokens so that lexing gives the printed tokens back, except for
    the literals treated by [lit_toks].  [ECast] is printed as a prefix cast; it
    is used for C output only, [rust_printable] excludes it. *)
From Coq Require Import List String Ascii Bool Arith.
From Verif Require Import Res Syntax.
Import ListNotations.
Open Scope list_scope.

Inductive token : Type :=
| TLit (l : lit)
| TPath (p : list string)
| TIdent (s : string)
| TBin (op : binop)        (* BSub and BMul are also the prefix - and * *)
| TBang
| TCast (ty : string)
| TDot
| TComma
| TTurbo (t : string)
| TLParen
| TRParen
| TOpaque (e : expr).

(** ** Literals as tokens *)

Definition char_in (c : ascii) (s : string) : bool :=
  existsb (Ascii.eqb c) (list_ascii_of_string s).

(** Text that is lexed as a float literal ([syn::Lit::new]). *)
Definition float_text (digits suffix : string) : bool :=
  char_in "."%char digits || char_in "e"%char digits || char_in "E"%char digits
  || String.eqb suffix "f32" || String.eqb suffix "f64".

(** The literal token read from unsigned text. *)
Definition lex_number (digits suffix : string) : lit :=
  if float_text digits suffix then LFloat digits suffix else LInt digits suffix.

(** Tokens of a literal: a leading minus sign becomes a token of its own, and
    whether the number is an integer or a float is decided by its text. *)
Definition num_toks (digits suffix : string) : list token :=
  match digits with
  | String c rest =>
      if Ascii.eqb c "-"%char then [TBin BSub; TLit (lex_number rest suffix)]
      else [TLit (lex_number digits suffix)]
  | EmptyString => [TLit (lex_number digits suffix)]
  end.
Definition lit_toks (l : lit) : list token :=
  match l with
  | LInt d s | LFloat d s => num_toks d s
  | _ => [TLit l]
  end.

(** A literal as the parser itself produces it. *)
Definition canon_lit (l : lit) : bool :=
  match l with
  | LInt d s => match d with String c _ => negb (Ascii.eqb c "-"%char) | EmptyString => true end
                && negb (float_text d s)
  | LFloat d s => match d with String c _ => negb (Ascii.eqb c "-"%char) | EmptyString => true end
                  && float_text d s
  | _ => true
  end.

(** ** Printing *)

Definition unop_tok (op : unop) : token :=
  match op with UNeg => TBin BSub | UDeref => TBin BMul | UNot => TBang end.

Fixpoint commas (l : list (list token)) : list token :=
  match l with
  | [] => []
  | [x] => x
  | x :: r => x ++ TComma :: commas r
  end.

Definition turbo_toks (t : option string) : list token :=
  match t with Some x => [TTurbo x] | None => [] end.

Fixpoint toks (e : expr) : list token :=
  match e with
  | ELit l => lit_toks l
  | EPath p => [TPath p]
  | EUnary op a => unop_tok op :: toks a
  | EBinary op a b => toks a ++ TBin op :: toks b
  | EMethodCall r m t args =>
      toks r ++ TDot :: TIdent m :: turbo_toks t ++ TLParen :: commas (map toks args) ++ [TRParen]
  | EParen a => TLParen :: toks a ++ [TRParen]
  | EField a m => toks a ++ [TDot; TIdent m]
  | ECall f args => toks f ++ TLParen :: commas (map toks args) ++ [TRParen]
  | ECast a ty => TCast ty :: toks a
  | _ => [TOpaque e]
  end.

(** ** Precedences *)

(** syn 1.0 [Precedence::of] *)
Definition rust_prec (op : binop) : nat :=
  match op with
  | BOr => 1
  | BAnd => 2
  | BEq | BLt | BLe | BNe | BGe | BGt => 3
  | BBitOr => 4
  | BBitXor => 5
  | BBitAnd => 6
  | BShl | BShr => 7
  | BAdd | BSub => 8
  | BMul | BDiv | BRem => 9
  end.

(** The C standard's binary operator levels (C11 6.5.5-6.5.14). *)
Definition c_prec (op : binop) : nat :=
  match op with
  | BOr => 1
  | BAnd => 2
  | BBitOr => 3
  | BBitXor => 4
  | BBitAnd => 5
  | BEq | BNe => 6
  | BLt | BLe | BGe | BGt => 7
  | BShl | BShr => 8
  | BAdd | BSub => 9
  | BMul | BDiv | BRem => 10
  end.

(** ** Parser *)

(** syn 1.0 [parse_expr] ([p_loop]; its inner loop is [p_rhs]), [unary_expr],
    [trailer_expr] ([p_trail]), [atom_expr], [paren_or_tuple].  The fuel bounds
    the recursion; see [fuel_for]. *)
Fixpoint p_unary (prec : binop -> nat) (n : nat) (ts : list token) : option (expr * list token) :=
  match n with
  | O => None
  | S n =>
      match ts with
      | TBin BSub :: r =>
          match p_unary prec n r with Some (e, r') => Some (EUnary UNeg e, r') | None => None end
      | TBin BMul :: r =>
          match p_unary prec n r with Some (e, r') => Some (EUnary UDeref e, r') | None => None end
      | TBang :: r =>
          match p_unary prec n r with Some (e, r') => Some (EUnary UNot e, r') | None => None end
      | TCast ty :: r =>
          match p_unary prec n r with Some (e, r') => Some (ECast e ty, r') | None => None end
      | TLit l :: r => p_trail prec n (ELit l) r
      | TPath p :: r => p_trail prec n (EPath p) r
      | TLParen :: r =>
          match p_expr prec n 0 r with
          | Some (e, TRParen :: r') => p_trail prec n (EParen e) r'
          | _ => None
          end
      | _ => None
      end
  end
with p_trail (prec : binop -> nat) (n : nat) (e : expr) (ts : list token) : option (expr * list token) :=
  match n with
  | O => None
  | S n =>
      match ts with
      | TDot :: TIdent m :: TTurbo t :: TLParen :: r =>
          match p_args prec n r with
          | Some (args, r') => p_trail prec n (EMethodCall e m (Some t) args) r'
          | None => None
          end
      | TDot :: TIdent m :: TLParen :: r =>
          match p_args prec n r with
          | Some (args, r') => p_trail prec n (EMethodCall e m None args) r'
          | None => None
          end
      | TDot :: TIdent m :: r => p_trail prec n (EField e m) r
      | TLParen :: r =>
          match p_args prec n r with
          | Some (args, r') => p_trail prec n (ECall e args) r'
          | None => None
          end
      | _ => Some (e, ts)
      end
  end
with p_args (prec : binop -> nat) (n : nat) (ts : list token) : option (list expr * list token) :=
  match n with
  | O => None
  | S n =>
      match ts with
      | TRParen :: r => Some ([], r)
      | _ => p_args1 prec n ts
      end
  end
with p_args1 (prec : binop -> nat) (n : nat) (ts : list token) : option (list expr * list token) :=
  match n with
  | O => None
  | S n =>
      match p_expr prec n 0 ts with
      | Some (e, TRParen :: r) => Some ([e], r)
      | Some (e, TComma :: r) =>
          match p_args1 prec n r with Some (es, r') => Some (e :: es, r') | None => None end
      | _ => None
      end
  end
with p_expr (prec : binop -> nat) (n : nat) (base : nat) (ts : list token) : option (expr * list token) :=
  match n with
  | O => None
  | S n =>
      match p_unary prec n ts with
      | Some (e, r) => p_loop prec n e base r
      | None => None
      end
  end
with p_loop (prec : binop -> nat) (n : nat) (lhs : expr) (base : nat) (ts : list token) : option (expr * list token) :=
  match n with
  | O => None
  | S n =>
      match ts with
      | TBin op :: r =>
          if Nat.leb base (prec op) then
            match p_unary prec n r with
            | Some (e, r') =>
                match p_rhs prec n e (prec op) r' with
                | Some (rhs, r'') => p_loop prec n (EBinary op lhs rhs) base r''
                | None => None
                end
            | None => None
            end
          else Some (lhs, ts)
      | _ => Some (lhs, ts)
      end
  end
with p_rhs (prec : binop -> nat) (n : nat) (rhs : expr) (p : nat) (ts : list token) : option (expr * list token) :=
  match n with
  | O => None
  | S n =>
      match ts with
      | TBin op :: r =>
          if Nat.ltb p (prec op) then
            match p_loop prec n rhs (prec op) ts with
            | Some (e, r') => p_rhs prec n e p r'
            | None => None
            end
          else Some (rhs, ts)
      | _ => Some (rhs, ts)
      end
  end.

(** Enough fuel for any token list of this length (ParseFacts.v). *)
Definition fuel_for (ts : list token) : nat := 8 * List.length ts + 8.

(** Parse a whole token list. *)
Definition parse_toks (prec : binop -> nat) (ts : list token) : option expr :=
  match p_expr prec (fuel_for ts) 0 ts with
  | Some (e, []) => Some e
  | _ => None
  end.


(** ** Constructs that can be printed as Rust and read back by the parser above *)
Fixpoint rust_printable (e : expr) : bool :=
  match e with
  | ELit l => canon_lit l
  | EPath _ => true
  | EUnary _ a | EParen a | EField a _ => rust_printable a
  | EBinary _ a b => rust_printable a && rust_printable b
  | EMethodCall r _ _ args => rust_printable r && forallb rust_printable args
  | ECall f args => rust_printable f && forallb rust_printable args
  | _ => false
  end.

Definition rust_parse : list token -> option expr := parse_toks rust_prec.
