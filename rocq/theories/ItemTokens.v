(** The tokens of the syntax trees of GenCode.v: what syn's [ToTokens] makes of
    them (external), as token trees of RustFmt.v. *)
From Coq Require Import List String Ascii Bool ZArith NArith.
From Verif Require Import Syntax Item RustFmt DecStr.
Import ListNotations.
Open Scope string_scope.
Open Scope list_scope.

Fixpoint separated (sep : tt) (l : list (list tt)) : list tt :=
  match l with [] => [] | [x] => x | x :: r => x ++ sep :: separated sep r end.

Definition unop_text (op : unop) : string := match op with UDeref => "*" | UNot => "!" | UNeg => "-" end.
Definition binop_text (op : binop) : string :=
  match op with
  | BAdd => "+" | BSub => "-" | BMul => "*" | BDiv => "/" | BRem => "%" | BAnd => "&&" | BOr => "||"
  | BBitXor => "^" | BBitAnd => "&" | BBitOr => "|" | BShl => "<<" | BShr => ">>"
  | BEq => "==" | BLt => "<" | BLe => "<=" | BNe => "!=" | BGe => ">=" | BGt => ">"
  end.

(** A number whose text has a sign is two tokens. *)
Definition number_tts (digits suffix : string) : list tt :=
  match digits with
  | String "-" rest => [TPunct "-"; TLit (rest ++ suffix)]
  | _ => [TLit (digits ++ suffix)]
  end.
Definition lit_tts (l : lit) : list tt :=
  match l with
  | LInt d s | LFloat d s => number_tts d s
  | LBool b => [TWord (if b then "true" else "false")]
  | LOther s => [TLit s]
  end.

(** Types are names, or the pair of floats that sin_cos returns. *)
Definition type_tts (t : string) : list tt :=
  if String.eqb t "(fty, fty)" then [TGroup DParen [TWord "fty"; TPunct ","; TWord "fty"]] else [TWord t].

Fixpoint expr_tts (e : expr) : list tt :=
  match e with
  | ELit l => lit_tts l
  | EPath p => separated (TPunct "::") (map (fun w => [TWord w]) p)
  | EUnary op a => TPunct (unop_text op) :: expr_tts a
  | EBinary op a b => expr_tts a ++ TPunct (binop_text op) :: expr_tts b
  | EMethodCall r m t args =>
      expr_tts r ++ TPunct "." :: TWord m
      :: match t with Some t => [TPunct "::"; TPunct "<"] ++ type_tts t ++ [TPunct ">"] | None => [] end
      ++ [TGroup DParen (separated (TPunct ",") (map expr_tts args))]
  | EParen a => [TGroup DParen (expr_tts a)]
  | EField a m => expr_tts a ++ [TPunct "."; TWord m]
  | ECall (EPath ["(,)"]) args => [TGroup DParen (separated (TPunct ",") (map expr_tts args))]
  | ECall f args => expr_tts f ++ [TGroup DParen (separated (TPunct ",") (map expr_tts args))]
  | ECast a t => expr_tts a ++ TWord "as" :: type_tts t
  | EIf c t o =>
      TWord "if" :: expr_tts c ++ [TGroup DBrace (flat_map stmt_tts t)]
      ++ match o with Some e => TWord "else" :: expr_tts e | None => [] end
  | EBlock b => [TGroup DBrace (flat_map stmt_tts b)]
  | EOther k => [TWord k]
  end
with stmt_tts (s : stmt) : list tt :=
  match s with
  | SLocal n t i =>
      TWord "let" :: TWord n :: match t with Some t => TPunct ":" :: type_tts t | None => [] end
      ++ match i with Some e => TPunct "=" :: expr_tts e | None => [] end ++ [TPunct ";"]
  | SExpr e => expr_tts e
  | SSemi e => expr_tts e ++ [TPunct ";"]
  end.

Definition item_tts (i : item) : list tt :=
  match i with
  | IConst n t e => TWord "const" :: TWord n :: TPunct ":" :: type_tts t ++ TPunct "=" :: expr_tts e ++ [TPunct ";"]
  | IType n t => [TWord "type"; TWord n; TPunct "="] ++ type_tts t ++ [TPunct ";"]
  | IFn n ps r b =>
      [TWord "fn"; TWord n;
       TGroup DParen (separated (TPunct ",") (map (fun p => TWord (fst p) :: TPunct ":" :: type_tts (snd p)) ps));
       TPunct "->"] ++ type_tts r ++ [TGroup DBrace (flat_map stmt_tts b)]
  | IOther k => [TWord k]
  end.

(** ** What the trees leave out

    Literals are written in decimal, without the underscore before the suffix;
    attributes and [pub] are dropped; a [const] inside of a body is a [let]. *)
Definition hex_digit (c : ascii) : option Z :=
  let n := Z.of_nat (nat_of_ascii c) in
  if (48 <=? n)%Z && (n <=? 57)%Z then Some (n - 48)%Z
  else if (97 <=? n)%Z && (n <=? 102)%Z then Some (n - 87)%Z
  else if (65 <=? n)%Z && (n <=? 70)%Z then Some (n - 55)%Z else None.
Fixpoint hex_value (l : list ascii) (acc : Z) : Z * list ascii :=
  match l with
  | [] => (acc, [])
  | c :: r => match hex_digit c with Some d => hex_value r (16 * acc + d)%Z | None => (acc, l) end
  end.
Definition plain_lit (s : string) : string :=
  let drop := filter (fun c => negb (Ascii.eqb c "_")) in
  match list_ascii_of_string s with
  | "0"%char :: "x"%char :: r => let '(v, rest) := hex_value r 0 in string_of_list_ascii (zdigits v ++ drop rest)
  | """"%char :: _ => s
  | l => string_of_list_ascii (drop l)
  end.
Fixpoint plain_body (t : tt) : tt :=
  match t with
  | TGroup d ts => TGroup d (map plain_body ts)
  | TWord "const" => TWord "let"
  | TLit s => TLit (plain_lit s)
  | _ => t
  end.
Fixpoint plain (ts : list tt) : list tt :=
  match ts with
  | TPunct "#" :: TGroup DBracket _ :: r => plain r
  | TWord "pub" :: r => plain r
  | TGroup d l :: r => plain_body (TGroup d l) :: plain r
  | TLit s :: r => TLit (plain_lit s) :: plain r
  | t :: r => t :: plain r
  | [] => []
  end.
