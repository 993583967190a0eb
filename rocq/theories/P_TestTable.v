(** Properties C54 and C55: the tables of the generated tests.  Theorems only. *)
From Coq Require Import ZArith List Bool String QArith Qabs Reals Lia Lra.
From Flocq Require Import IEEE754.BinarySingleNaN IEEE754.Binary.
From Verif Require Import Res Dec DecFacts Syntax Trans BdMath Eval EvalFacts GenSem FloatBits GenFloat DecimalLit UseNumberType NumberTypeFacts ExactFloats NumberTypeCases Harness TestTable TestTableFacts TestTableFloats.
From Flocq Require Import Core.
Import ListNotations.
Open Scope string_scope.
Open Scope list_scope.

(** ** C54 *)
(** A table has [n] rows, in order.  The reference expression at the very [x]
    printed in the row evaluates to [v]; the row's [y] is [round_ieee] of [v]
    and the row's error makes up the difference exactly. *)
Theorem C54_rows : forall o fuel nd bits refe tmin tmax n rows, (0 <= bits)%Z ->
  table_rows o fuel nd bits refe tmin tmax n = Ok rows ->
  length rows = n /\
  forall i, (i < n)%nat -> exists xe ye ee, nth_error rows i = Some (xe, ye, ee) /\
    exists s ve v y' y e, subst [(["x"], xe)] refe = Ok s /\ eval o fuel nd s = Ok ve /\ bd_of_expr ve = Ok v /\
      bround_ieee o v (BD bits 0) = Ok y' /\ bd_of_expr ye = Ok y /\ (dval y == dval y')%Q /\
      bd_of_expr ee = Ok e /\ (dval y + dval e == dval v)%Q.
Proof.
  intros o fuel nd bits refe tmin tmax n rows B H. destruct (rows_nth _ _ _ _ _ _ _ _ _ H) as [L G]. split; [exact L|].
  intros i Hi. destruct (G i Hi) as ([[xe ye] ee] & N & R). exists xe, ye, ee. split; [exact N|].
  exact (proj2 (row_inv _ _ _ _ _ _ _ _ _ _ _ _ B R)).
Qed.
(** The [x] of row [i] is [round_ieee] of a number close to
    [min + i (max - min) / n]. *)
Theorem C54_grid : forall o fuel nd bits refe tmin tmax n rows lo hi, (0 <= bits)%Z -> (0 <= nd)%Z ->
  table_rows o fuel nd bits refe tmin tmax n = Ok rows -> evals o fuel nd tmin lo -> evals o fuel nd tmax hi ->
  forall i xe ye ee, nth_error rows i = Some (xe, ye, ee) ->
  exists g x' x, bround_ieee o g (BD bits 0) = Ok x' /\ bd_of_expr xe = Ok x /\ (dval x == dval x')%Q /\
    (Qabs (dval g - (dval lo + inject_Z (Z.of_nat i) * (dval hi - dval lo) / inject_Z (Z.of_nat n))) <=
     2 * p10 (- nd) + p10 (-99) * Qabs (dval hi - dval lo))%Q.
Proof.
  intros o fuel nd bits refe tmin tmax n rows lo hi B N H Lo Hi i xe ye ee E. destruct (rows_nth _ _ _ _ _ _ _ _ _ H) as [L G].
  assert (I : (i < n)%nat) by (rewrite <- L; apply nth_error_Some; congruence).
  destruct (G i I) as (r & E' & R). assert (r = (xe, ye, ee)) by congruence. subst r.
  destruct (row_inv _ _ _ _ _ _ _ _ _ _ _ _ B R) as ((g & x' & x & Gr & Rn & X & V) & _).
  exists g, x', x. repeat (split; [assumption|]). apply (grid_close o fuel nd N tmin tmax); auto; lia.
Qed.
(** No table for any other number of bits. *)
Theorem C54_other_bits : forall o fuel nd bits refe tmin tmax n rows, (0 <= bits)%Z -> bits <> 32%Z -> bits <> 64%Z -> (0 < n)%nat ->
  table_rows o fuel nd bits refe tmin tmax n <> Ok rows.
Proof. intros. apply other_width; assumption. Qed.

(** Hypotheses met: the squares of five numbers from -1/2. *)
Example C54_example : exists r1 r2 r3 r4 r5,
  max_abs_rows table_oracles 0 64 (EBinary BMul (EPath ["x"]) (EPath ["x"])) (EUnary UNeg (flit "0.5")) (flit "0.5") 5 = Ok [r1; r2; r3; r4; r5] /\
  r2 = (flit "-0.3000000000000000", flit "0.09000000000000001", flit "-0.00000000000000001000000000000000") /\
  evals table_oracles 0 40 (EUnary UNeg (flit "0.5")) (BD (-5) 1) /\ evals table_oracles 0 40 (flit "0.5") (BD 5 1).
Proof.
  eexists _, _, _, _, _. split; [vm_compute; reflexivity|]. split; [vm_compute; reflexivity|].
  split; eexists; (split; [vm_compute; reflexivity|reflexivity]).
Qed.

(** ** C55 *)
(** [round_ieee] stays close, for numbers in the normal range. *)
Theorem C55_close_partial : forall F k o bits v, (bits = 32 \/ bits = 64)%Z -> powi_within F k -> (0 <= k <= 1 / 1024)%R -> ordinary bits v ->
  exists y, bround_ieee (ieee_oracles F o) v (BD bits 0) = Ok y /\
    (Rabs (dreal y - dreal v) <=
     (k + (if (bits =? 32)%Z then bpow radix2 (-23) else 3 * bpow radix2 (-53)) + bpow radix10 (if (bits =? 32)%Z then -6 else -15)) * Rabs (dreal v))%R.
Proof.
  intros F k o bits v B P K O. destruct (round_ieee_close F k o bits v B P K O) as (y & E & C). exists y. split; [exact E|].
  destruct B as [-> | ->]; exact C.
Qed.
(** Its result need not be a float: rounding 0.1 gives 0.1 again. *)
Theorem C55_float_refuted : forall F o, powi10 F (-1) = of_decimal 64 (BD 1 1) ->
  exists v y z, bround_ieee (ieee_oracles F o) v (BD 64 0) = Ok y /\ (forall x : flt 64, fR x <> dreal y) /\
    bround_ieee (ieee_oracles F o) v (BD 32 0) = Ok z /\ (forall x : flt 32, fR x <> dreal z).
Proof.
  intros F o P. destruct (tenth_rounded F o P) as [E1 E2]. exists (BD 1 1), (BD 1000000000000000 16), (BD 1000000 7).
  split; [exact E1|]. split; [rewrite tenth64; apply tenth_no_float|]. split; [exact E2|]. rewrite tenth32. apply tenth_no_float.
Qed.
(** Rounding twice is not rounding once. *)
Theorem C55_idempotent_refuted : forall F o, powi10 F (-1) = of_decimal 64 (BD 1 1) -> powi10 F (-16) = of_decimal 64 (BD 1 16) ->
  exists v y z, bround_ieee (ieee_oracles F o) v (BD 64 0) = Ok y /\ bround_ieee (ieee_oracles F o) y (BD 64 0) = Ok z /\ ~ (dval y == dval z)%Q.
Proof.
  intros F o P1 P2. destruct (tenth_rounded F o P1) as [E1 _]. exists (BD 1 1), (BD 1000000000000000 16), (BD 9999999999999999 17).
  split; [exact E1|]. split; [exact (rounded_again F o P2)|]. vm_compute. discriminate.
Qed.
(** A test that passes: at every row the tested function, applied to the float
    nearest to the printed [x], is within the limit of the reference at the
    printed [x], up to half a unit of the reference and the rounding of the
    measurement. *)
Theorem C55_test_partial : forall bits o fuel nd refe tmin tmax n rows frows nan_of (f : flt bits -> flt bits) limit, (0 <= bits)%Z ->
  table_rows o fuel nd bits refe tmin tmax n = Ok rows -> Forall2 (fun r fr => float_row bits r = Some fr) rows frows ->
  test_passes bits nan_of f frows limit = true -> finite limit = true ->
  forall i xe ye ee, nth_error rows i = Some (xe, ye, ee) ->
  exists X s ve v y e, entry bits xe = Some X /\ subst [(["x"], xe)] refe = Ok s /\ eval o fuel nd s = Ok ve /\
    bd_of_expr ve = Ok v /\ bd_of_expr ye = Ok y /\ bd_of_expr ee = Ok e /\
    (finite (f X) = true -> (Rabs (dreal y) < bpow radix2 (emax bits - 1))%R -> (Rabs (dreal e) < bpow radix2 (emax bits - 1))%R ->
     (Rabs (fR (f X) - dreal v) <=
      (1 + bpow radix2 (- prec bits)) ^ 2 * fR limit + bpow radix2 (- prec bits) * (Rabs (dreal y) + 3 * Rabs (dreal e))
      + 3 * bpow radix2 (2 - emax bits - prec bits))%R).
Proof.
  intros bits o fuel nd refe tmin tmax n rows frows nan_of f limit B H C T F i xe ye ee N.
  exact (passing_test bits o fuel nd refe tmin tmax B n rows frows nan_of f limit H C T F i xe ye ee N).
Qed.
(** Every table can be read as floats. *)
Theorem C55_compiles : forall bits o fuel nd refe tmin tmax n rows, (0 <= bits)%Z ->
  table_rows o fuel nd bits refe tmin tmax n = Ok rows -> exists frows, Forall2 (fun r fr => float_row bits r = Some fr) rows frows.
Proof. intros bits o fuel nd refe tmin tmax n rows B H. exact (rows_compile bits o fuel nd refe tmin tmax B n rows H). Qed.
(** The half unit is real: the row's error does not restore the digits its [y]
    lost.  In a table of the identity the two floats add up to the reference
    0.1 no better than a single float does. *)
Theorem C55_compensated_refuted : exists refe tmin tmax n rows xe ye ee X Y E,
  max_abs_rows table_oracles 0 64 refe tmin tmax n = Ok rows /\ nth_error rows 1 = Some (xe, ye, ee) /\
  float_row 64 (xe, ye, ee) = Some (X, Y, E) /\
  exists s ve v, subst [(["x"], xe)] refe = Ok s /\ eval table_oracles 0 40 s = Ok ve /\ bd_of_expr ve = Ok v /\
  (bpow radix2 (-56) * Rabs (dreal v) <= Rabs (fR Y + fR E - dreal v))%R.
Proof.
  destruct tenth_row as (r0 & rest & T).
  exists (EPath ["x"]), (flit "0"), (flit "1"), 10%nat, (r0 :: (flit "0.1000000000000000", flit "0.09999999999999999", flit "0.00000000000000001") :: rest).
  exists (flit "0.1000000000000000"), (flit "0.09999999999999999"), (flit "0.00000000000000001").
  exists (of_decimal 64 (BD 1000000000000000 16)), (of_decimal 64 (BD 9999999999999999 17)), (of_decimal 64 (BD 1 17)).
  split; [exact T|]. split; [reflexivity|]. split; [reflexivity|].
  exists (flit "0.1000000000000000"), (flit "0.1000000000000000"), (BD 1000000000000000 16). split; [reflexivity|]. split; [reflexivity|]. split; [reflexivity|].
  rewrite tenth64. rewrite (Rabs_pos_eq (1 / 10)) by lra. exact uncompensated.
Qed.

(** The limits of the tests: the table's number times 2^-23 for f32 and 2^-53 for f64, exactly. *)
Theorem C55_limit : forall nan_of bits (b32 b64 : flt 64), (bits = 32 \/ bits = 64)%Z ->
  let b := if (bits =? 32)%Z then b32 else b64 in
  finite b = true -> (fR b = 0 \/ bpow radix2 (-900) <= Rabs (fR b))%R ->
  finite (test_limit nan_of bits b32 b64) = true /\
  fR (test_limit nan_of bits b32 b64) = (fR b * bpow radix2 (if (bits =? 32)%Z then -23 else -53))%R.
Proof. exact test_limit_value. Qed.
Example C55_limit_case : finite (of_int 64 237) = true /\ fR (of_int 64 237) = 237%R.
Proof. split; [reflexivity|]. cbn. unfold F2R. cbn. lra. Qed.
(** Hypotheses met: the conversions of [exact_floats]; the identity passes the
    test of its own table with limit one. *)
Example C55_example : powi10 (exact_floats some_nan) (-1) = of_decimal 64 (BD 1 1) /\ powi10 (exact_floats some_nan) (-16) = of_decimal 64 (BD 1 16) /\
  powi_within (exact_floats some_nan) (bpow radix2 (-53)) /\ ordinary 64 (BD 3 1).
Proof.
  split; [reflexivity|]. split; [reflexivity|]. split; [apply exact_example|]. split; [cbn; lia|]. split; [apply Z.leb_le; vm_compute; reflexivity|].
  right. change (64 =? 32)%Z with false. cbv zeta iota. rewrite dreal_int by lia. change (10 ^ 1)%Z with 10%Z. rewrite Rabs_pos_eq by lra. split.
  - apply Rle_trans with (bpow radix2 (-2)); [apply bpow_le; lia|]. cbn. lra.
  - apply Rle_trans with (bpow radix2 0); [cbn; lra|apply bpow_le; lia].
Qed.
Example C55_test_example : exists rows frows, max_abs_rows table_oracles 0 64 (EPath ["x"]) (flit "0") (flit "1") 2 = Ok rows /\
  Forall2 (fun r fr => float_row 64 r = Some fr) rows frows /\ test_passes 64 (some_nan 64) (fun x => x) frows (of_int 64 1) = true.
Proof.
  exists [(flit "0.000000000000000", flit "0.000000000000000", flit "0.000000000000000"); (flit "0.5000000000000000", flit "0.5000000000000000", flit "0.0000000000000000")].
  exists [(of_decimal 64 (BD 0 15), of_decimal 64 (BD 0 15), of_decimal 64 (BD 0 15)); (of_decimal 64 (BD 5000000000000000 16), of_decimal 64 (BD 5000000000000000 16), of_decimal 64 (BD 0 16))].
  split; [vm_compute; reflexivity|]. split; [repeat constructor|]. vm_compute. reflexivity.
Qed.

Print Assumptions C54_rows.
Print Assumptions C54_grid.
Print Assumptions C54_other_bits.
Print Assumptions C55_close_partial.
Print Assumptions C55_float_refuted.
Print Assumptions C55_idempotent_refuted.
Print Assumptions C55_test_partial.
Print Assumptions C55_compiles.
Print Assumptions C55_compensated_refuted.
Print Assumptions C55_limit.
