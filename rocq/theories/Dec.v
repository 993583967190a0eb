(** BigDecimal values (crate bigdecimal 0.2) and bdmath::round.

    A BigDecimal is a pair (int_val, scale) denoting int_val * 10^(-scale).
    The crate's source is not in /repo; the definitions below transcribe the
    0.2 series from knowledge and are part of the trusted base.  Scales are
    unbounded integers here (i64 in the crate). *)
From Coq Require Import ZArith QArith List.
From Verif Require Import Res.
Import ListNotations.
Open Scope Z_scope.

Record bd : Type := BD { mant : Z; scale : Z }.

(** bigdecimal: [with_scale] (truncates toward zero when digits are dropped). *)
Definition with_scale (x : bd) (ns : Z) : bd :=
  if mant x =? 0 then BD 0 ns
  else if scale x <? ns then BD (mant x * 10 ^ (ns - scale x)) ns
  else if ns <? scale x then BD (Z.quot (mant x) (10 ^ (scale x - ns))) ns
  else x.

(** bigdecimal: [impl Add]: rescale the operand of smaller scale, add. *)
Definition dadd (x y : bd) : bd :=
  if scale x =? scale y then BD (mant x + mant y) (scale x)
  else if scale x <? scale y
       then BD (mant x * 10 ^ (scale y - scale x) + mant y) (scale y)
       else BD (mant y * 10 ^ (scale x - scale y) + mant x) (scale x).

(** bigdecimal: [impl Neg]. *)
Definition dneg (x : bd) : bd := BD (- mant x) (scale x).

(** bigdecimal: [impl Sub]. *)
Definition dsub (x y : bd) : bd :=
  if scale x =? scale y then BD (mant x - mant y) (scale x)
  else if scale x <? scale y
       then BD (mant x * 10 ^ (scale y - scale x) - mant y) (scale y)
       else BD (mant x - mant y * 10 ^ (scale x - scale y)) (scale x).

(** bigdecimal: [impl Mul]. *)
Definition dmul (x y : bd) : bd := BD (mant x * mant y) (scale x + scale y).

(** bigdecimal: [Signed::abs], [Signed::signum], [is_positive], [is_negative]. *)
Definition dabs (x : bd) : bd := BD (Z.abs (mant x)) (scale x).
Definition dsignum (x : bd) : bd := BD (Z.sgn (mant x)) 0.
Definition dis_zero (x : bd) : bool := mant x =? 0.
Definition dis_negative (x : bd) : bool := mant x <? 0.

(** bigdecimal: [PartialEq] and [Ord] compare the numbers, not the pairs. *)
Definition dcompare (x y : bd) : comparison :=
  if scale x <? scale y
  then (mant x * 10 ^ (scale y - scale x)) ?= (mant y)
  else (mant x) ?= (mant y * 10 ^ (scale x - scale y)).
Definition deqb x y := match dcompare x y with Eq => true | _ => false end.
Definition dltb x y := match dcompare x y with Lt => true | _ => false end.
Definition dleb x y := match dcompare x y with Gt => false | _ => true end.

(** bdmath.rs:85 [bigd], 97-111 [zero], [one], [half], [two].  [from_f32(0.5)]
    goes through the text "5.000000e-1". *)
Definition bigd (i : Z) : bd := BD i 0.
Definition dzero : bd := bigd 0.
Definition done : bd := bigd 1.
Definition dtwo : bd := bigd 2.
Definition dhalf : bd := BD 5000000 7.

(** bigdecimal: [count_decimal_digits] of a positive integer.  (The crate
    starts from a floating-point guess that never exceeds the answer and
    counts up; the answer is the number of decimal digits.) *)
Fixpoint ndigits_aux (fuel : nat) (n : Z) : Z :=
  match fuel with
  | O => 1
  | S f => if n <? 10 then 1 else 1 + ndigits_aux f (n / 10)
  end.
Definition ndigits (n : Z) : Z := ndigits_aux (Z.to_nat (Z.log2 n)) n.

(** bigdecimal: first loop of [impl_division]:
    [while num < den { scale += 1; num *= 10; }].
    Fuel: the bit length of [den] always suffices (proved). *)
Fixpoint div_shift (fuel : nat) (num den sc : Z) : Z * Z :=
  match fuel with
  | O => (num, sc)
  | S f => if num <? den then div_shift f (num * 10) den (sc + 1) else (num, sc)
  end.

(** bigdecimal: second loop of [impl_division]; [fuel] is exactly
    [max_precision - precision]. *)
Fixpoint div_digits (fuel : nat) (quo rem den sc : Z) : Z * Z * Z :=
  match fuel with
  | O => (quo, rem, sc)
  | S f => if rem =? 0 then (quo, rem, sc)
           else div_digits f (quo * 10 + rem / den) (rem mod den * 10) den (sc + 1)
  end.

(** bigdecimal: [get_rounding_term] applied to one decimal digit. *)
Definition rounding_term (d : Z) : Z := if d <? 5 then 0 else 1.

(** bigdecimal: [impl_division] for positive operands. *)
Definition div_pos (num den sc maxp : Z) : bd :=
  let '(num, sc) := div_shift (S (Z.to_nat (Z.log2 den))) num den sc in
  let quo := num / den in
  let rem := num mod den in
  if rem =? 0 then BD quo sc
  else
    let '(quo, rem, sc) :=
      div_digits (Z.to_nat (maxp - ndigits quo)) quo (rem * 10) den sc in
    if rem =? 0 then BD quo sc
    else BD (quo + rounding_term (rem / den)) sc.

(** bigdecimal: [impl_division] (sign handling). *)
Definition impl_division (num den sc maxp : Z) : bd :=
  if num =? 0 then BD 0 0
  else if num <? 0 then
    if den <? 0 then div_pos (- num) (- den) sc maxp
    else dneg (div_pos (- num) den sc maxp)
  else
    if den <? 0 then dneg (div_pos num (- den) sc maxp)
    else div_pos num den sc maxp.

(** bigdecimal: [impl Div] (100 digits; panics on a zero divisor). *)
Definition ddiv (x y : bd) : res bd :=
  if mant y =? 0 then Panic
  else if (mant x =? 0) || deqb y done then Ok x
  else if mant x =? mant y then Ok (BD 1 (scale x - scale y))
  else Ok (impl_division (mant x) (mant y) (scale x - scale y) 100).

(** bigdecimal: [normalized] strips trailing zeros of the mantissa. *)
Fixpoint strip_zeros (fuel : nat) (m s : Z) : bd :=
  match fuel with
  | O => BD m s
  | S f => if Z.rem m 10 =? 0 then strip_zeros f (Z.quot m 10) (s - 1) else BD m s
  end.
Definition normalized (x : bd) : bd :=
  if mant x =? 0 then BD 0 0
  else strip_zeros (S (Z.to_nat (Z.log2 (Z.abs (mant x))))) (mant x) (scale x).

(** doctor-syn/src/bdmath.rs:16-31 [round]. *)
Definition round (x : bd) (rd : Z) : bd :=
  let five := if 0 <? mant x then 5 else -5 in
  if (rd <? 0) || (scale x <=? rd) then x
  else with_scale (dadd x (BD five (rd + 1))) rd.

(** The number a BigDecimal denotes. *)
Definition p10 (z : Z) : Q := Qpower (10 # 1) z.
Definition dval (x : bd) : Q := (inject_Z (mant x) * p10 (- scale x))%Q.
