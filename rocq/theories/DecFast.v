(** Cheaper equivalents of division and of the series, for computing witnesses. *)
From Coq Require Import ZArith Lia List Bool.
From Verif Require Import Res Dec DecFacts BdMath.
Import ListNotations.
Open Scope Z_scope.

(** ** Number of digits *)
Lemma ndigits_unique n d : 0 < n -> 1 <= d -> 10 ^ (d - 1) <= n < 10 ^ d -> ndigits n = d.
Proof.
  intros Hn Hd H. destruct (ndigits_spec n Hn) as (A & B).
  destruct (Z.lt_trichotomy (ndigits n) d) as [L|[E|L]]; [|exact E|].
  - assert (10 ^ ndigits n <= 10 ^ (d - 1)) by (apply Z.pow_le_mono_r; lia). lia.
  - assert (10 ^ d <= 10 ^ (ndigits n - 1)) by (apply Z.pow_le_mono_r; lia). lia.
Qed.
Definition ndigits_fast (n : Z) : Z :=
  let g := Z.log2 n * 30103 / 100000 in
  let t := 10 ^ g in
  if (1 <=? g) && (n <? t) && (t <=? 10 * n) then g
  else if (0 <=? g) && (t <=? n) && (n <? 10 * t) then g + 1
  else ndigits n.
Lemma ndigits_fast_ok n : 0 < n -> ndigits_fast n = ndigits n.
Proof.
  intros H. unfold ndigits_fast. set (g := Z.log2 n * 30103 / 100000).
  destruct ((1 <=? g) && (n <? 10 ^ g) && (10 ^ g <=? 10 * n)) eqn:A.
  - rewrite !andb_true_iff, !Z.leb_le, Z.ltb_lt in A. symmetry. apply ndigits_unique; [exact H|lia|].
    split; [|lia]. replace g with (1 + (g - 1)) in A at 3 by lia. rewrite Z.pow_add_r in A by lia. lia.
  - clear A. destruct ((0 <=? g) && (10 ^ g <=? n) && (n <? 10 * 10 ^ g)) eqn:A; [|reflexivity].
    rewrite !andb_true_iff, !Z.leb_le, Z.ltb_lt in A. symmetry. apply ndigits_unique; [exact H|lia|].
    replace (g + 1 - 1) with g by lia. rewrite Z.pow_add_r by lia. lia.
Qed.

(** ** Division *)
Lemma div_digits_fast f : forall quo r den sc, 0 < den -> 0 <= r < den ->
  (r * 10 ^ Z.of_nat f) mod den <> 0 ->
  div_digits f quo (10 * r) den sc =
  (quo * 10 ^ Z.of_nat f + r * 10 ^ Z.of_nat f / den, 10 * ((r * 10 ^ Z.of_nat f) mod den), sc + Z.of_nat f).
Proof.
  induction f as [|f IH]; intros quo r den sc Hd Hr N.
  - cbn [div_digits]. change (Z.of_nat 0) with 0. rewrite Z.pow_0_r, !Z.mul_1_r.
    rewrite Z.mod_small, Z.div_small by lia. f_equal; [f_equal|]; lia.
  - assert (R0 : r <> 0). { intros ->. apply N. rewrite Z.mul_0_l. apply Z.mod_0_l. lia. }
    cbn [div_digits]. replace (10 * r =? 0) with false by (symmetry; apply Z.eqb_neq; lia).
    replace (Z.of_nat (S f)) with (1 + Z.of_nat f) in * by lia.
    rewrite Z.pow_add_r, Z.pow_1_r in * by lia. set (t := 10 ^ Z.of_nat f) in *.
    pose proof (Z.div_mod (10 * r) den ltac:(lia)) as E. pose proof (Z.mod_pos_bound (10 * r) den Hd) as M.
    set (d := 10 * r / den) in *. set (r1 := (10 * r) mod den) in *.
    assert (X : r * (10 * t) = d * t * den + r1 * t) by nia.
    assert (Xd : r * (10 * t) / den = d * t + r1 * t / den) by (rewrite X, Z.div_add_l by lia; reflexivity).
    assert (Xm : (r * (10 * t)) mod den = (r1 * t) mod den) by (rewrite X, Z.add_comm, Z.mod_add by lia; reflexivity).
    rewrite Xm in N. rewrite Z.mul_comm with (n := r1). rewrite IH by (try exact N; lia). fold t.
    rewrite Xd, Xm. f_equal; [f_equal|]; ring.
Qed.

Definition div_pos_fast (num den sc maxp : Z) : bd :=
  let '(num, sc) := div_shift (S (Z.to_nat (Z.log2 den))) num den sc in
  let '(quo, rem) := Z.div_eucl num den in
  if rem =? 0 then BD quo sc
  else
    let f := Z.to_nat (maxp - ndigits_fast quo) in
    let t := 10 ^ Z.of_nat f in
    let '(q, r) := Z.div_eucl (rem * t) den in
    if r =? 0 then
      let '(quo, rem, sc) := div_digits f quo (rem * 10) den sc in
      if rem =? 0 then BD quo sc else BD (quo + rounding_term (rem / den)) sc
    else BD (quo * t + q + rounding_term (10 * r / den)) (sc + Z.of_nat f).

Lemma div_eucl_eq a b : Z.div_eucl a b = (a / b, a mod b).
Proof. unfold Z.div, Z.modulo. destruct (Z.div_eucl a b). reflexivity. Qed.
Lemma div_pos_fast_ok num den sc maxp : 0 < num -> 0 < den -> div_pos_fast num den sc maxp = div_pos num den sc maxp.
Proof.
  intros Hn Hd. unfold div_pos_fast, div_pos.
  destruct (div_shift _ num den sc) as [num' sc'] eqn:S.
  apply div_shift_spec in S; [|lia|lia|].
  2:{ pose proof (Z.log2_nonneg den) as HL. rewrite Nat2Z.inj_succ, Z2Nat.id by lia.
      pose proof (Z.log2_spec den Hd) as [_ H].
      assert (2 ^ Z.succ (Z.log2 den) <= 10 ^ Z.succ (Z.log2 den)) by (apply Z.pow_le_mono_l; lia).
      pose proof (Zpow10_pos (Z.succ (Z.log2 den)) ltac:(lia)). nia. }
  destruct S as (k & Hk & En & Es & Hge).
  assert (Q : 0 < num' / den) by (apply Z.div_str_pos; lia).
  pose proof (Z.mod_pos_bound num' den Hd) as M.
  rewrite (div_eucl_eq num' den).
  destruct (num' mod den =? 0); [reflexivity|]. rewrite (ndigits_fast_ok _ Q).
  set (f := Z.to_nat (maxp - ndigits (num' / den))). set (t := 10 ^ Z.of_nat f).
  rewrite (div_eucl_eq (num' mod den * t) den).
  destruct (Z.eqb_spec ((num' mod den * t) mod den) 0) as [E|E]; [reflexivity|].
  rewrite (Z.mul_comm (num' mod den) 10). rewrite (div_digits_fast f (num' / den) (num' mod den) den sc' Hd M E).
  fold t. pose proof (Z.mod_pos_bound (num' mod den * t) den Hd) as M2.
  replace (10 * ((num' mod den * t) mod den) =? 0) with false by (symmetry; apply Z.eqb_neq; lia). reflexivity.
Qed.

Definition impl_division_fast (num den sc maxp : Z) : bd :=
  if num =? 0 then BD 0 0
  else if num <? 0 then
    if den <? 0 then div_pos_fast (- num) (- den) sc maxp
    else dneg (div_pos_fast (- num) den sc maxp)
  else
    if den <? 0 then dneg (div_pos_fast num (- den) sc maxp)
    else div_pos_fast num den sc maxp.
Definition ddiv_fast (x y : bd) : res bd :=
  if mant y =? 0 then Panic
  else if (mant x =? 0) || deqb y done then Ok x
  else if mant x =? mant y then Ok (BD 1 (scale x - scale y))
  else Ok (impl_division_fast (mant x) (mant y) (scale x - scale y) 100).
Lemma ddiv_fast_ok x y : ddiv x y = ddiv_fast x y.
Proof.
  unfold ddiv, ddiv_fast. destruct (Z.eqb_spec (mant y) 0) as [|Y]; [reflexivity|].
  destruct (_ || _); [reflexivity|]. destruct (mant x =? mant y); [reflexivity|]. f_equal.
  unfold impl_division, impl_division_fast. destruct (Z.eqb_spec (mant x) 0) as [|X]; [reflexivity|].
  destruct (Z.ltb_spec (mant x) 0); destruct (Z.ltb_spec (mant y) 0); rewrite div_pos_fast_ok by lia; reflexivity.
Qed.

(** ** Series *)
Lemma mac_loop_ext {S} (f g : Z -> bd -> bd -> bd -> S -> res (option bd * S)) x nd :
  (forall i t p q s, f i t p q s = g i t p q s) ->
  forall k i t p q s, mac_loop k x nd f i t p q s = mac_loop k x nd g i t p q s.
Proof.
  intros E. induction k as [|k IH]; intros i t p q s; [reflexivity|]. cbn [mac_loop]. rewrite E.
  destruct (g i t p q s) as [[[v|] s']| |]; cbn [rbind fst snd]; try reflexivity; [|apply IH].
  destruct (deqb _ _); [reflexivity|]. destruct (30000 <? i); [reflexivity|]. apply IH.
Qed.
Lemma maclaurin_ext {S} (f g : Z -> bd -> bd -> bd -> S -> res (option bd * S)) x nd s :
  (forall i t p q s, f i t p q s = g i t p q s) -> maclaurin x nd f s = maclaurin x nd g s.
Proof. intros E. unfold maclaurin. rewrite (mac_loop_ext f g x nd E). reflexivity. Qed.

Definition exp_term_fast (i : Z) (tot power factorial : bd) : res (option bd) :=
  let? q := ddiv_fast power factorial in Ok (Some (dadd tot q)).
Definition bexp_fast (x : bd) (nd : Z) : res bd := maclaurin x nd (pure_term exp_term_fast) tt.
Lemma bexp_fast_ok x nd : bexp x nd = bexp_fast x nd.
Proof. apply maclaurin_ext. intros. unfold pure_term, exp_term, exp_term_fast. rewrite ddiv_fast_ok. reflexivity. Qed.

Definition atan_term_fast (i : Z) (tot power factorial : bd) : res (option bd) :=
  if Z.land i 1 =? 0 then Ok None
  else let z := bigd (if Z.land i 2 =? 0 then i else - i) in
       let? q := ddiv_fast power z in Ok (Some (dadd tot q)).
Definition atan_small_fast (x : bd) (nd : Z) : res bd := maclaurin x nd (pure_term atan_term_fast) tt.
Lemma atan_small_ok o x nd : dltb dhalf (dabs x) = false -> batan o x nd = atan_small_fast x nd.
Proof.
  intros H. unfold batan. cbn [batan_rec]. rewrite H. apply maclaurin_ext. intros.
  unfold pure_term, atan_term, atan_term_fast. destruct (Z.land i 1 =? 0); [reflexivity|]. rewrite ddiv_fast_ok. reflexivity.
Qed.

Definition ln_up_term_fast (i : Z) (tot power factorial : bd) : res (option bd) :=
  if i =? 0 then Ok None
  else let z := bigd (if Z.land i 1 =? 0 then - i else i) in
       let? q := ddiv_fast power z in Ok (Some (dadd tot q)).
Definition ln_down_term_fast (i : Z) (tot power factorial : bd) : res (option bd) :=
  if i =? 0 then Ok None
  else let? q := ddiv_fast power (bigd (- i)) in Ok (Some (dadd tot q)).
Definition bln_fast (fuel : nat) (x : bd) (nd : Z) : res (option bd) :=
  if dis_zero x || dis_negative x then Ok None
  else if dleb done x then
    let? lim := bexp_fast dhalf nd in
    let? scl := bexp_fast (dneg dhalf) nd in
    let? r := ln_up fuel lim scl x dzero in
    let? m := maclaurin (dsub (fst r) done) nd (pure_term ln_up_term_fast) tt in
    Ok (Some (dadd m (snd r)))
  else
    let? lim := bexp_fast (dneg dhalf) nd in
    let? scl := bexp_fast dhalf nd in
    let? r := ln_down fuel lim scl x dzero in
    let? m := maclaurin (dsub done (fst r)) nd (pure_term ln_down_term_fast) tt in
    Ok (Some (dadd m (snd r))).
Lemma rbind_ext {A B} (r : res A) (f g : A -> res B) : (forall a, f a = g a) -> rbind r f = rbind r g.
Proof. intros E. destruct r; cbn [rbind]; auto. Qed.
Lemma bln_fast_ok fuel x nd : bln fuel x nd = bln_fast fuel x nd.
Proof.
  unfold bln, bln_fast. destruct (_ || _); [reflexivity|]. rewrite (bexp_fast_ok dhalf nd), (bexp_fast_ok (dneg dhalf) nd). destruct (dleb _ _).
  - do 2 (apply rbind_ext; intros ?). apply rbind_ext. intros r.
    rewrite (maclaurin_ext (pure_term ln_up_term) (pure_term ln_up_term_fast)); [reflexivity|].
    intros. unfold pure_term, ln_up_term, ln_up_term_fast. destruct (i =? 0); [reflexivity|]. rewrite ddiv_fast_ok. reflexivity.
  - do 2 (apply rbind_ext; intros ?). apply rbind_ext. intros r.
    rewrite (maclaurin_ext (pure_term ln_down_term) (pure_term ln_down_term_fast)); [reflexivity|].
    intros. unfold pure_term, ln_down_term, ln_down_term_fast. destruct (i =? 0); [reflexivity|]. rewrite ddiv_fast_ok. reflexivity.
Qed.
