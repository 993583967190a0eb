(** Properties C01, C02: numbers and rounding.  Theorems only. *)
From Coq Require Import ZArith QArith Qabs String List.
From Verif Require Import Res Dec DecFacts DecStr DecStrFacts Syntax Trans TransParse.
Import ListNotations.
Open Scope Z_scope.

(** C01: number -> Expression -> number succeeds and gives an equal number. *)
Theorem C01_number_roundtrip :
  forall x : bd, exists e y,
    expr_of_bd x = Ok e /\ bd_of_expr e = Ok y /\ (dval y == dval x)%Q.
Proof. exact expr_of_bd_ok. Qed.
Print Assumptions C01_number_roundtrip.

Example C01_case :
  (let? e := expr_of_bd (BD (-1205) 7) in bd_of_expr e) = Ok (BD (-1205) 7) /\
  (let? e := expr_of_bd (BD 12 (-3)) in bd_of_expr e) = Ok (BD 12000 0).
Proof. split; reflexivity. Qed.

(** C02: the result is a multiple of 10^-n within half a unit of x, and a tie is
    resolved away from zero. *)
Theorem C02_round_half_away :
  forall (x : bd) (n : Z), 0 <= n ->
  exists k : Z,
    (dval (round x n) == inject_Z k * p10 (- n))%Q /\
    (Qabs (dval (round x n) - dval x) <= (1 # 2) * p10 (- n))%Q /\
    (Qabs (dval (round x n) - dval x) == (1 # 2) * p10 (- n) ->
       Qabs (dval x) <= Qabs (dval (round x n)))%Q.
Proof. exact round_spec. Qed.
Print Assumptions C02_round_half_away.

(** C02: these three conditions leave only one possible result. *)
Theorem C02_round_determined :
  forall (q : Q) (n : Z) (r r' : Q),
  is_round_half_away q n r -> is_round_half_away q n r' -> (r == r')%Q.
Proof. intros q n r r' H H'. exact (is_round_unique q q n r r' H H' (Qeq_refl q)). Qed.
Print Assumptions C02_round_determined.

Theorem C02_round_idempotent :
  forall (x : bd) (n : Z), (dval (round (round x n) n) == dval (round x n))%Q.
Proof. exact round_idem. Qed.
Print Assumptions C02_round_idempotent.

Theorem C02_round_negation : forall (x : bd) (n : Z), round (dneg x) n = dneg (round x n).
Proof. exact round_neg. Qed.
Print Assumptions C02_round_negation.

Theorem C02_round_monotone :
  forall (x y : bd) (n : Z), 0 <= n ->
  (dval x <= dval y)%Q -> (dval (round x n) <= dval (round y n))%Q.
Proof. exact round_mono. Qed.
Print Assumptions C02_round_monotone.

Theorem C02_round_negative_digits : forall (x : bd) (n : Z), n < 0 -> round x n = x.
Proof. intros x n H. exact (round_id x n (or_introl H)). Qed.
Print Assumptions C02_round_negative_digits.

Example C02_case : round (BD 12345 3) 2 = BD 1235 2 /\ round (BD (-12345) 3) 2 = BD (-1235) 2
                   /\ round (BD 12344 3) 2 = BD 1234 2 /\ round (BD 4 1) 0 = BD 0 0.
Proof. repeat split; reflexivity. Qed.
