(** Retyping of number literals:
    doctor-syn/src/transformation/use_number_type.rs:6-49 and
    doctor-syn/src/expression.rs:443-450.

    The conversions and the printing come from dependencies that are not in
    the repository:
    - bigdecimal 0.2 [to_f64]: the integer mantissa as f64, times
      [10f64.powi(-scale)]; num-bigint 0.3 converts an integer to the nearest
      f64, infinity when it is too large;
    - num-traits 0.2 [to_f32]: [to_f64], then [as f32];
    - quote 1 prints a float by [Literal::f32_suffixed]/[f64_suffixed], which
      asserts that it is finite, and an unsigned integer with its suffix; a
      leading minus sign becomes a token of its own;
    - syn 1 reads a literal without point or exponent as an integer literal,
      whatever its suffix.
    [f64::powi], Rust's [Display] of a non-negative float and the choice of NaN
    payloads are parameters. *)
From Coq Require Import List String Bool ZArith Ascii.
From Flocq Require Import Core IEEE754.BinarySingleNaN IEEE754.Binary IEEE754.Bits.
From Verif Require Import Res Dec DecStr Syntax Visitor GenSem.
Import ListNotations.
Open Scope string_scope.
Open Scope list_scope.
Open Scope Z_scope.

(** The float routines of the Rust standard library that are used. *)
Record floats : Type := Floats {
  powi10 : Z -> flt 64;
  show : forall bits, flt bits -> string;
  nan_for : forall bits, list (flt bits) -> { x : flt bits | Binary.is_nan _ _ x = true }
}.

Section Numbers.
  Variable F : floats.

  (** [BigDecimal::to_f64] *)
  Definition to_f64 (d : bd) : flt 64 :=
    fmul 64 (nan_for F 64) (of_int 64 (mant d)) (powi10 F (wrap I32 (- scale d))).
  (** [x as f32] *)
  Definition narrow (x : flt 64) : flt 32 :=
    match x with
    | Binary.B754_zero _ _ s => Binary.B754_zero _ _ s
    | Binary.B754_infinity _ _ s => Binary.B754_infinity _ _ s
    | Binary.B754_nan _ _ _ _ _ => proj1_sig (nan_for F 32 [])
    | Binary.B754_finite _ _ s m e _ =>
        Binary.binary_normalize _ _ (prec_gt 32) (prec_lt 32) mode_NE (cond_Zopp s (Z.pos m)) e s
    end.
  (** [BigDecimal::to_f32] *)
  Definition to_f32 (d : bd) : flt 32 := narrow (to_f64 d).

  Definition has_point (t : string) : bool := existsb (Ascii.eqb ".") (list_ascii_of_string t).
  (** the literal syn reads from the text of a float *)
  Definition text_lit (t suffix : string) : lit := if has_point t then LFloat t suffix else LInt t suffix.
  (** [parse_quote!(#x)] for a float *)
  Definition quote_float (bits : Z) (suffix : string) (x : flt bits) : res expr :=
    if Binary.is_finite _ _ x then
      let l := ELit (text_lit (show F bits (fabs bits x)) suffix) in
      Ok (if Binary.Bsign _ _ x then EUnary UNeg l else l)
    else Panic.
  (** [parse_quote!(f32::from_bits(#n))] *)
  Definition quote_bits (suffix : string) (n : Z) : expr :=
    ECall (EPath ["f32"; "from_bits"]) [ELit (LInt (string_of_list_ascii (zdigits n)) suffix)].

  (** use_number_type.rs:17-30 and 33-46: the two arms are the same. *)
  Definition retype (kind : string) (num_bits : Z) (d : string) (orig : lit) : res expr :=
    match parse_dec (list_ascii_of_string d) with
    | None => Panic
    | Some n =>
        if String.eqb kind "decimal" && (num_bits =? 32) then quote_float 32 "f32" (to_f32 n)
        else if String.eqb kind "decimal" && (num_bits =? 64) then quote_float 64 "f64" (to_f64 n)
        else if String.eqb kind "hex" && (num_bits =? 32) then Ok (quote_bits "u32" (to_bits (to_f32 n)))
        else if String.eqb kind "hex" && (num_bits =? 64) then Ok (quote_bits "u64" (to_bits (to_f64 n)))
        else Ok (ELit orig)
    end.
  (** use_number_type.rs:14-49 *)
  Definition retype_lit (kind : string) (num_bits : Z) (l : lit) : res expr :=
    match l with
    | LFloat d _ => retype kind num_bits d l
    | LInt d _ => retype kind num_bits d l
    | _ => Ok (ELit l)
    end.
  Definition number_visitor (kind : string) (num_bits : Z) : visitor :=
    Visitor def_method (retype_lit kind num_bits) def_path def_field def_paren def_binary def_unary def_expr.
  (** expression.rs:443-450 *)
  Definition use_number_type (kind : string) (num_bits : Z) (e : expr) : res expr :=
    visit (number_visitor kind num_bits) e.
End Numbers.
