(** Decimal text: Display and FromStr of BigDecimal, LitFloat::new, and the
    conversions Expression <-> BigDecimal at the level of literal text.

    Cites doctor-syn/src/expression.rs:81-91 (From<BigDecimal>), 106-124
    (expr_to).  The text functions belong to bigdecimal 0.2, num-bigint 0.3 and
    syn 1.0 (trusted transcriptions). *)
From Coq Require Import ZArith Ascii String List Bool.
From Verif Require Import Res Dec.
Import ListNotations.
Open Scope Z_scope.

Definition chars := list ascii.

Definition digit_char (d : Z) : ascii := ascii_of_nat (48 + Z.to_nat d).

Definition char_digit (c : ascii) : option Z :=
  let n := Z.of_nat (nat_of_ascii c) in
  if (48 <=? n) && (n <=? 57) then Some (n - 48) else None.

Definition is_digit (c : ascii) : bool :=
  match char_digit c with Some _ => true | None => false end.

(** num-bigint: [to_str_radix(10)] of a non-negative integer. *)
Fixpoint zdigits_aux (fuel : nat) (n : Z) (acc : chars) : chars :=
  match fuel with
  | O => digit_char n :: acc
  | S f => if n <? 10 then digit_char n :: acc
           else zdigits_aux f (n / 10) (digit_char (n mod 10) :: acc)
  end.
Definition zdigits (n : Z) : chars := zdigits_aux (Z.to_nat (Z.log2 n)) n [].

(** bigdecimal: [impl Display] without precision. *)
Definition dec_repr (x : bd) : chars :=
  let a := zdigits (Z.abs (mant x)) in
  let len := Z.of_nat (length a) in
  let '(before, after) :=
    if len <=? scale x
    then (["0"%char], repeat "0"%char (Z.to_nat (scale x - len)) ++ a)
    else
      let location := len - scale x in
      if len <? location
      then (a ++ repeat "0"%char (Z.to_nat (location - len)), [])
      else (firstn (Z.to_nat location) a, skipn (Z.to_nat location) a) in
  (if mant x <? 0 then ["-"%char] else []) ++ before ++
  (match after with [] => [] | _ => "."%char :: after end).

(** num-bigint: [BigUint::from_str_radix(_, 10)] after sign handling; [_] is
    skipped but may not come first. *)
Fixpoint parse_digits (l : chars) (acc : Z) : option Z :=
  match l with
  | [] => Some acc
  | c :: r =>
      if Ascii.eqb c "_" then parse_digits r acc
      else match char_digit c with
           | Some d => parse_digits r (acc * 10 + d)
           | None => None
           end
  end.
Definition parse_biguint (l : chars) : option Z :=
  let l := match l with
           | c :: r => if Ascii.eqb c "+"
                       then match r with
                            | c2 :: _ => if Ascii.eqb c2 "+" then l else r
                            | [] => r
                            end
                       else l
           | [] => l
           end in
  match l with
  | [] => None
  | c :: _ => if Ascii.eqb c "_" then None else parse_digits l 0
  end.
(** num-bigint: [BigInt::from_str_radix(_, 10)]. *)
Definition parse_bigint (l : chars) : option Z :=
  match l with
  | c :: r =>
      if Ascii.eqb c "-"
      then match r with
           | c2 :: _ => if Ascii.eqb c2 "+" then None
                        else option_map Z.opp (parse_biguint r)
           | [] => None
           end
      else parse_biguint l
  | [] => None
  end.

(** core: [i64::from_str] (optional sign, digits, range check). *)
Definition parse_i64 (l : chars) : option Z :=
  let dig l := match l with
               | [] => None
               | _ => if forallb is_digit l then parse_digits l 0 else None
               end in
  let v := match l with
           | c :: r => if Ascii.eqb c "-" then option_map Z.opp (dig r)
                       else if Ascii.eqb c "+" then dig r
                       else dig l
           | [] => None
           end in
  match v with
  | Some z => if (- 2 ^ 63 <=? z) && (z <? 2 ^ 63) then Some z else None
  | None => None
  end.

(** First occurrence of a character satisfying [p]: text before and after it. *)
Fixpoint split_at (p : ascii -> bool) (l : chars) : option (chars * chars) :=
  match l with
  | [] => None
  | c :: r => if p c then Some ([], r)
              else match split_at p r with
                   | Some (a, b) => Some (c :: a, b)
                   | None => None
                   end
  end.

(** bigdecimal: [impl FromStr] / [from_str_radix(_, 10)], exponent part. *)
Definition split_exponent (l : chars) : option (chars * Z) :=
  match split_at (fun c => Ascii.eqb c "e" || Ascii.eqb c "E") l with
  | None => Some (l, 0)
  | Some (base, ex) =>
      let ex := match ex with
                | c :: r => if Ascii.eqb c "+" then r else ex
                | [] => ex
                end in
      option_map (fun v => (base, v)) (parse_i64 ex)
  end.

(** bigdecimal: [impl FromStr] / [from_str_radix(_, 10)]. *)
Definition parse_dec (l : chars) : option bd :=
  match split_exponent l with
  | None => None
  | Some ([], _) => None
  | Some (base, exponent) =>
      let '(digits, offset) :=
        match split_at (fun c => Ascii.eqb c ".") base with
        | None => (base, 0)
        | Some (lead, trail) => (lead ++ trail, Z.of_nat (length trail))
        end in
      option_map (fun n => BD n (offset - exponent)) (parse_bigint digits)
  end.

(** syn 1.0: [value::parse_lit_float], used by [LitFloat::new]: an optional
    minus, a digit, then digits, underscores, one dot, an exponent; whatever
    follows is the suffix.  Returns (base-10 digits, suffix); [None] makes
    [LitFloat::new] panic. *)
Record fscan := FS { has_dot : bool; has_e : bool; has_sign : bool; has_exponent : bool }.

Definition next_is_exp (l : chars) : bool :=
  match List.find (fun c => negb (Ascii.eqb c "_")) l with
  | Some c => Ascii.eqb c "-" || Ascii.eqb c "+" || is_digit c
  | None => false
  end.

Fixpoint scan_float (st : fscan) (l : chars) : option (fscan * chars * chars) :=
  match l with
  | [] => Some (st, [], [])
  | c :: r =>
      let put st' := option_map (fun '(s, d, x) => (s, c :: d, x)) (scan_float st' r) in
      if Ascii.eqb c "_" then scan_float st r
      else if is_digit c then
        put (FS (has_dot st) (has_e st) (has_sign st) (has_e st || has_exponent st))
      else if Ascii.eqb c "." then
        if has_e st || has_dot st then None
        else put (FS true (has_e st) (has_sign st) (has_exponent st))
      else if Ascii.eqb c "e" || Ascii.eqb c "E" then
        if negb (next_is_exp r) then Some (st, [], l)
        else if has_e st then (if has_exponent st then Some (st, [], l) else None)
        else option_map (fun '(s, d, x) => (s, "e"%char :: d, x))
               (scan_float (FS (has_dot st) true (has_sign st) (has_exponent st)) r)
      else if Ascii.eqb c "-" || Ascii.eqb c "+" then
        if has_sign st || has_exponent st || negb (has_e st) then None
        else if Ascii.eqb c "-"
             then put (FS (has_dot st) (has_e st) true (has_exponent st))
             else scan_float (FS (has_dot st) (has_e st) true (has_exponent st)) r
      else Some (st, [], l)
  end.

Definition parse_lit_float (l : chars) : option (chars * chars) :=
  let '(neg, body) := match l with
                      | c :: r => if Ascii.eqb c "-" then (["-"%char], r) else ([], l)
                      | [] => ([], [])
                      end in
  match body with
  | c :: _ =>
      if is_digit c then
        match scan_float (FS false false false false) body with
        | Some (st, digits, suffix) =>
            if has_e st && negb (has_exponent st) then None
            else Some (neg ++ digits, suffix)
        | None => None
        end
      else None
  | [] => None
  end.
