(** The tables of reference values in the generated tests:
    libmgen/src/test.rs:13-86 [gen_max_abs].

    The strings of the test specification are taken as the expressions they
    parse to; the quoted tokens around the rows are left out. *)
From Coq Require Import ZArith List Bool String.
From Flocq Require Import Core IEEE754.Binary.
From Verif Require Import Res Dec DecStr Syntax Visitor Trans BdMath Eval GenSem UseNumberType.
Import ListNotations.
Open Scope string_scope.
Open Scope list_scope.
Open Scope Z_scope.

(** [Result::unwrap], and the [panic!] of test.rs:57, on the outcome of an
    evaluation; running out of fuel is kept apart. *)
Definition must {A} (r : res A) : res A :=
  match r with Ok a => Ok a | Err OutOfFuel => Err OutOfFuel | _ => Panic end.

(** quote! writes a [usize] with its suffix *)
Definition usize_lit (n : Z) : expr := ELit (LInt (string_of_list_ascii (zdigits n)) "usize").
(** [#e.round_ieee(#bits)].  The tokens of [e] stand unparenthesised before the
    dot; as [e] is in parentheses or a single literal token this is the tree. *)
Definition rounded_expr (e : expr) (bits : Z) : expr := EMethodCall e "round_ieee" None [usize_lit bits].
(** test.rs:35: [((#i * ((#tmax) - (#tmin)) / (#n) + (#tmin)))] *)
Definition grid_expr (tmin tmax : expr) (n i : Z) : expr :=
  EParen (EParen (EBinary BAdd
    (EBinary BDiv (EBinary BMul (usize_lit i) (EParen (EBinary BSub (EParen tmax) (EParen tmin)))) (EParen (usize_lit n)))
    (EParen tmin))).

Section Table.
  Variables (o : oracles) (fuel : nat).
  (** test.rs:35-55, one turn of the loop *)
  Definition table_row (nd bits : Z) (refe tmin tmax : expr) (n i : Z) : res (expr * expr * expr) :=
    let xee := rounded_expr (grid_expr tmin tmax n i) bits in
    let? x := must (eval o fuel nd xee) in
    let? s := must (subst [(["x"], xee)] refe) in
    let? yexpr := must (eval o fuel nd s) in
    let? y := must (eval o fuel nd (rounded_expr yexpr bits)) in
    let? ye := must (eval o fuel nd (EBinary BSub yexpr (rounded_expr yexpr bits))) in
    Ok (x, y, ye).
  (** test.rs:31-59 *)
  Definition table_rows (nd bits : Z) (refe tmin tmax : expr) (n : nat) : res (list (expr * expr * expr)) :=
    rseq (map (fun i => table_row nd bits refe tmin tmax (Z.of_nat n) (Z.of_nat i)) (seq 0 n)).

  (** config.rs:23-29 [num_digits] *)
  Definition config_digits (bits : Z) : Z := if bits =? 32 then 20 else 40.
  (** test.rs:22 and 30: the digits come from the number of bits *)
  Definition max_abs_rows (bits : Z) := table_rows (config_digits bits) bits.
End Table.

(** test.rs:64-68; [2.0_f64.powi(-23)] and [powi(-53)] are exact. *)
Definition test_limit (nan_of : list (flt 64) -> { x : flt 64 | Binary.is_nan (prec 64) (emax 64) x = true })
  (bits : Z) (bits32 bits64 : flt 64) : flt 64 :=
  if bits =? 32 then fmul 64 nan_of bits32 (of_bits 64 ((1023 - 23) * 2 ^ 52))
  else fmul 64 nan_of bits64 (of_bits 64 ((1023 - 53) * 2 ^ 52)).

(** The literal of a row, read by the compiler as a value of the float type
    (the entries are of type [fty], test.rs:80). *)
Definition entry (bits : Z) (e : expr) : option (flt bits) :=
  match bd_of_expr e with Ok d => Some (of_decimal bits d) | _ => None end.
Definition float_row (bits : Z) (r : expr * expr * expr) : option (flt bits * flt bits * flt bits) :=
  let '(x, y, ye) := r in
  match entry bits x, entry bits y, entry bits ye with
  | Some a, Some b, Some c => Some (a, b, c)
  | _, _, _ => None
  end.

(** ** The conversions in [round_ieee] (bdmath.rs:336-346).

    bigdecimal 0.2 [from_f64] reads the text [format!("{:.15e}", x)], [from_f32]
    that of [format!("{:.6e}", x)]: one digit, the point, and [f64::DIGITS] or
    [f32::DIGITS] more.  Rust prints the nearest such decimal, ties to even.
    [inf] and [NaN] do not parse. *)

(** the exact decimal value of [m * 2 ^ e] *)
Definition float_dec (m e : Z) : bd := if 0 <=? e then BD (m * 2 ^ e) 0 else BD (m * 5 ^ (- e)) (- e).
(** [d > 0] to [p] digits after the first, nearest, ties to even *)
Definition scientific (p : Z) (d : bd) : bd :=
  let drop := ndigits (mant d) - (p + 1) in
  if drop <=? 0 then BD (mant d * 10 ^ (- drop)) (scale d - drop)
  else
    let u := 10 ^ drop in
    let q := mant d / u in
    let r := mant d mod u in
    let q' := match Z.compare (2 * r) u with Lt => q | Gt => q + 1 | Eq => if Z.even q then q else q + 1 end in
    if q' =? 10 ^ (p + 1) then BD (10 ^ p) (scale d - drop - 1) else BD q' (scale d - drop).
Definition from_float {bits} (p : Z) (x : flt bits) : option bd :=
  match x with
  | Binary.B754_zero _ _ _ => Some (BD 0 p)
  | Binary.B754_finite _ _ s m e _ =>
      let d := scientific p (float_dec (Z.pos m) e) in Some (BD (cond_Zopp s (mant d)) (scale d))
  | _ => None
  end.
(** [round_ieee] with these conversions; [o_sqrt] and [o_inverse] as before *)
Definition ieee_oracles (F : floats) (o : oracles) : oracles :=
  Oracles (o_sqrt o) (o_inverse o) (fun x => from_float 6 (to_f32 F x)) (fun x => from_float 15 (to_f64 F x)).
