(** doctor-syn/src/bdmath.rs: functions of BigDecimal arguments.

    Loops without an evident bound take [fuel] and yield [Err OutOfFuel] when it
    runs out; [fuel] is not in the Rust code.

    The crate functions [BigDecimal::sqrt], [BigDecimal::inverse] and the
    conversions through f32 and f64 are parameters (record [oracles]). *)
From Coq Require Import ZArith List Bool.
From Verif Require Import Res Dec.
Import ListNotations.
Open Scope Z_scope.

Record oracles : Type := Oracles {
  o_sqrt : bd -> option bd;      (* BigDecimal::sqrt *)
  o_inverse : bd -> bd;          (* BigDecimal::inverse *)
  o_f32 : bd -> option bd;       (* to_f32 then from_f32, None if either is None *)
  o_f64 : bd -> option bd        (* to_f64 then from_f64 *)
}.

(** [Option::unwrap] *)
Definition expect {A} (o : option A) : res A := match o with Some a => Ok a | None => Panic end.

(** bdmath.rs:124-160 [maclaurin].  [f] is the closure, with its captured
    mutable state [s].  Loop iterations: at most about 30004. *)
Fixpoint mac_loop {S : Type} (fuel : nat) (x : bd) (nd : Z)
  (f : Z -> bd -> bd -> bd -> S -> res (option bd * S))
  (i : Z) (tot power factorial : bd) (s : S) : res bd :=
  match fuel with
  | O => Err OutOfFuel
  | Datatypes.S k =>
      let? r := f i tot power factorial s in
      let next t := mac_loop k x nd f (i + 1) t (round (dmul power x) (2 * nd))
                             (dmul factorial (bigd (i + 1))) (snd r) in
      match fst r with
      | Some t =>
          let new_tot := round t (2 * nd) in
          if deqb new_tot tot then Ok tot
          else if 30000 <? i then Panic
          else next new_tot
      | None => next tot
      end
  end.
Definition mac_fuel : nat := Z.to_nat 30010.
Definition maclaurin {S : Type} (x : bd) (nd : Z)
  (f : Z -> bd -> bd -> bd -> S -> res (option bd * S)) (s : S) : res bd :=
  let? t := mac_loop mac_fuel x nd f 0 dzero done done s in
  Ok (normalized (round t (nd + 1))).

(** A closure without state. *)
Definition pure_term (f : Z -> bd -> bd -> bd -> res (option bd)) (i : Z) (tot power factorial : bd)
  (s : unit) : res (option bd * unit) := let? r := f i tot power factorial in Ok (r, tt).

(** bdmath.rs:162-168 *)
Definition sin_term (i : Z) (tot power factorial : bd) : res (option bd) :=
  match Z.land i 3 with
  | 1 => let? q := ddiv power factorial in Ok (Some (dadd tot q))
  | 3 => let? q := ddiv power factorial in Ok (Some (dsub tot q))
  | _ => Ok None
  end.
Definition bsin (x : bd) (nd : Z) : res bd := maclaurin x nd (pure_term sin_term) tt.

(** bdmath.rs:170-176 *)
Definition cos_term (i : Z) (tot power factorial : bd) : res (option bd) :=
  match Z.land i 3 with
  | 0 => let? q := ddiv power factorial in Ok (Some (dadd tot q))
  | 2 => let? q := ddiv power factorial in Ok (Some (dsub tot q))
  | _ => Ok None
  end.
Definition bcos (x : bd) (nd : Z) : res bd := maclaurin x nd (pure_term cos_term) tt.

(** bdmath.rs:178-182 *)
Definition exp_term (i : Z) (tot power factorial : bd) : res (option bd) :=
  let? q := ddiv power factorial in Ok (Some (dadd tot q)).
Definition bexp (x : bd) (nd : Z) : res bd := maclaurin x nd (pure_term exp_term) tt.

(** bdmath.rs:184-186 *)
Definition btan (x : bd) (nd : Z) : res bd :=
  let? s := bsin x nd in let? c := bcos x nd in ddiv s c.

(** bdmath.rs:215-234: the series of [atan] and its argument reduction *)
Definition atan_term (i : Z) (tot power factorial : bd) : res (option bd) :=
  if Z.land i 1 =? 0 then Ok None
  else let z := bigd (if Z.land i 2 =? 0 then i else - i) in
       let? q := ddiv power z in Ok (Some (dadd tot q)).
Fixpoint batan_rec (o : oracles) (fuel : nat) (x : bd) (nd : Z) : res bd :=
  match fuel with
  | O => Err OutOfFuel
  | S k =>
      if dltb dhalf (dabs x) then
        let? r := expect (o_sqrt o (dadd done (dmul x x))) in
        let? y := ddiv x (dadd done r) in
        let? a := batan_rec o k y nd in
        Ok (dmul a dtwo)
      else maclaurin x nd (pure_term atan_term) tt
  end.
(** (recursion depth: at most 4 with an accurate square root) *)
Definition batan (o : oracles) (x : bd) (nd : Z) : res bd := batan_rec o 16 x nd.

(** bdmath.rs:54-63 *)
Definition pi_const : bd := BD 3141592653589793238462643383279502884197169399375105820974944592307816406286208998628034825342117067982148086513282306647093844609550582231725359408128481 153.
Definition bpi (o : oracles) (nd : Z) : res bd :=
  if nd <? 100 then Ok (round pi_const nd)
  else
    let? a := ddiv done (bigd 5) in
    let? b := batan o a nd in
    let? c := ddiv done (bigd 239) in
    let? d := batan o c nd in
    Ok (dmul (dsub (dmul b (bigd 4)) d) (bigd 4)).

(** bdmath.rs:80-83, 65-71 *)
Definition bsqrt (o : oracles) (x : bd) : option bd := o_sqrt o x.
Definition one_over_root_two_pi (o : oracles) (nd : Z) : res bd :=
  let? p := bpi o nd in
  let? q := ddiv done (dmul dtwo p) in
  expect (bsqrt o q).

(** [bigdf(0.5)], [bigdf(0.0)]: through the texts "5.000000000000000e-1" and
    "0.000000000000000e0". *)
Definition dhalf64 : bd := BD 5000000000000000 16.
Definition dzero64 : bd := BD 0 15.

(** bdmath.rs:188-209 *)
Definition asin_term (i : Z) (tot power factorial : bd) (s : bd * bd) : res (option bd * (bd * bd)) :=
  let '(numer, denom) := s in
  if Z.land i 1 =? 0 then Ok (None, s)
  else
    let z := bigd i in
    let? q := ddiv (dmul power numer) denom in
    let? q := ddiv q z in
    Ok (Some (dadd tot q), (dmul numer z, dmul denom (bigd (i + 1)))).
Definition basin (o : oracles) (x : bd) (nd : Z) : res bd :=
  if dltb dhalf (dabs x) then
    let? p := bpi o nd in
    let? r := expect (o_sqrt o (dsub done (dmul x x))) in
    let? y := ddiv r (dabs x) in
    let? a := batan o y nd in
    Ok (dmul (dsub (dmul p dhalf64) a) (dsignum x))
  else maclaurin x nd asin_term (done, done).

(** bdmath.rs:211-213 *)
Definition bacos (o : oracles) (x : bd) (nd : Z) : res bd :=
  let? p := bpi o nd in
  let? h := ddiv p dtwo in
  let? a := basin o x nd in
  Ok (dsub h a).

(** bdmath.rs:236-284 [ln].  [None] is the function's own None. *)
Definition ln_up_term (i : Z) (tot power factorial : bd) : res (option bd) :=
  if i =? 0 then Ok None
  else let z := bigd (if Z.land i 1 =? 0 then - i else i) in
       let? q := ddiv power z in Ok (Some (dadd tot q)).
Definition ln_down_term (i : Z) (tot power factorial : bd) : res (option bd) :=
  if i =? 0 then Ok None
  else let? q := ddiv power (bigd (- i)) in Ok (Some (dadd tot q)).
(** [while x >= lim { extra += &h; x *= &scale; }] *)
Fixpoint ln_up (fuel : nat) (lim scl x extra : bd) : res (bd * bd) :=
  match fuel with
  | O => Err OutOfFuel
  | S k => if dleb lim x then ln_up k lim scl (dmul x scl) (dadd extra dhalf) else Ok (x, extra)
  end.
(** [while x <= lim { extra -= &h; x *= &scale; }] *)
Fixpoint ln_down (fuel : nat) (lim scl x extra : bd) : res (bd * bd) :=
  match fuel with
  | O => Err OutOfFuel
  | S k => if dleb x lim then ln_down k lim scl (dmul x scl) (dsub extra dhalf) else Ok (x, extra)
  end.
Definition bln (fuel : nat) (x : bd) (nd : Z) : res (option bd) :=
  if dis_zero x || dis_negative x then Ok None
  else if dleb done x then
    let? lim := bexp dhalf nd in
    let? scl := bexp (dneg dhalf) nd in
    let? r := ln_up fuel lim scl x dzero in
    let? m := maclaurin (dsub (fst r) done) nd (pure_term ln_up_term) tt in
    Ok (Some (dadd m (snd r)))
  else
    let? lim := bexp (dneg dhalf) nd in
    let? scl := bexp dhalf nd in
    let? r := ln_down fuel lim scl x dzero in
    let? m := maclaurin (dsub done (fst r)) nd (pure_term ln_down_term) tt in
    Ok (Some (dadd m (snd r))).

(** bdmath.rs:286-292 *)
Definition blog (fuel : nat) (x base : bd) (nd : Z) : res (option bd) :=
  let? a := bln fuel x nd in
  let? b := bln fuel base nd in
  match a, b with
  | Some lx, Some lb => let? q := ddiv lx lb in Ok (Some q)
  | _, _ => Ok None
  end.

(** bdmath.rs:294-300 *)
Definition bpow (fuel : nat) (x y : bd) (nd : Z) : res (option bd) :=
  let? a := bln fuel x nd in
  match a with
  | Some lx => let? e := bexp (dmul y lx) nd in Ok (Some e)
  | None => Ok None
  end.

(** bdmath.rs:306-316 *)
Definition erf_term (i : Z) (tot power factorial : bd) : res (option bd) :=
  let? q := ddiv power (dmul (bigd (2 * i + 1)) factorial) in
  Ok (Some (if Z.land i 1 =? 0 then dadd tot q else dsub tot q)).
Definition berf (o : oracles) (x : bd) (nd : Z) : res bd :=
  let? p := bpi o nd in
  let? r := expect (bsqrt o p) in
  let? k := ddiv dtwo r in
  let? m := maclaurin (dmul x x) nd (pure_term erf_term) tt in
  Ok (dmul (dmul k x) m).
(** bdmath.rs:322-324 *)
Definition berfc (o : oracles) (x : bd) (nd : Z) : res bd :=
  let? e := berf o x nd in Ok (dsub done e).

(** bdmath.rs:329-333 *)
Definition bdnorm (o : oracles) (x mean sd : bd) (nd : Z) : res bd :=
  let? y := ddiv (dsub x mean) sd in
  let? k1 := one_over_root_two_pi o nd in
  let? e := bexp (dmul (dmul (dneg y) y) dhalf) nd in
  ddiv (dmul k1 e) sd.

(** bdmath.rs:336-346; [to_i32] truncates towards zero. *)
Definition to_i32 (x : bd) : option Z :=
  let v := mant (with_scale x 0) in
  if (- 2147483648 <=? v) && (v <=? 2147483647) then Some v else None.
Definition bround_ieee (o : oracles) (x bits : bd) : res bd :=
  match to_i32 bits with
  | Some 32 => ok_or Overflow (o_f32 o x)
  | Some 64 => ok_or Overflow (o_f64 o x)
  | _ => Err Expected32or64bits
  end.

(** bdmath.rs:356-359 *)
Definition bpnorm (o : oracles) (x mean sd : bd) (nd : Z) : res bd :=
  let? y := ddiv (dsub x mean) sd in
  let? r := expect (o_sqrt o dtwo) in
  let? z := ddiv y r in
  let? e := berf o z nd in
  Ok (dmul (dadd e done) dhalf).

(** bdmath.rs:367-399 *)
Fixpoint qnorm_loop (o : oracles) (fuel : nat) (x mean sd : bd) (nd : Z) (guess : bd) : res bd :=
  match fuel with
  | O => Err OutOfFuel
  | S k =>
      let? p := bpnorm o guess mean sd nd in
      let err := dsub p x in
      if dis_zero (round (dabs err) nd) then Ok guess
      else
        let? d := bdnorm o guess mean sd nd in
        let? q := ddiv err d in
        qnorm_loop o k x mean sd nd (dsub guess q)
  end.
Definition bqnorm (o : oracles) (fuel : nat) (x mean sd : bd) (nd : Z) : res (option bd) :=
  let? q := ddiv x (dsub done x) in
  let? l := bln fuel q nd in
  match l with
  | Some _ => let? g := qnorm_loop o fuel x mean sd nd dzero64 in Ok (Some (round g nd))
  | None => Ok None
  end.
