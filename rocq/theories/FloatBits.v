(** The value of a bit pattern. *)
From Coq Require Import ZArith Reals Lia Lra Bool.
From Flocq Require Import Core IEEE754.BinarySingleNaN IEEE754.Binary IEEE754.Bits.
From Verif Require Import GenSem.
Open Scope Z_scope.

Notation fR := (Binary.B2R _ _).
Notation finite := (Binary.is_finite _ _).
Notation sign := (Binary.Bsign _ _).

Definition emin (bits : Z) : Z := 3 - emax bits - prec bits.
(** mantissa times 2^(exponent - emin) *)
Definition scaled (bits n : Z) : Z :=
  let e := n / 2 ^ mw bits in
  let m := n mod 2 ^ mw bits in
  if e =? 0 then m else (2 ^ mw bits + m) * 2 ^ (e - 1).
(** patterns of the non-negative finite floats *)
Definition fin_bits (bits n : Z) : Prop := 0 <= n < (2 ^ ew bits - 1) * 2 ^ mw bits.

Section Bits.
  Variable bits : Z.
  Notation P := (2 ^ mw bits).
  Notation Q := (2 ^ ew bits).
  Lemma P_pos : 1 < 2 ^ mw bits.
  Proof. unfold mw. destruct (bits =? 32); reflexivity. Qed.
  Lemma Q_pos : 3 < 2 ^ ew bits.
  Proof. unfold ew. destruct (bits =? 32); reflexivity. Qed.
  Lemma fin_split n : fin_bits bits n -> 0 <= n / P < Q - 1 /\ 0 <= n mod P < P /\ n = P * (n / P) + n mod P.
  Proof.
    intros [H1 H2]. pose proof P_pos.
    split; [|split; [apply Z.mod_pos_bound; lia|apply Z.div_mod; lia]].
    split; [apply Z.div_pos; lia|apply Z.div_lt_upper_bound; [lia|rewrite Z.mul_comm; exact H2]].
  Qed.

  Lemma of_bits_fin n : fin_bits bits n ->
    finite (of_bits bits n) = true /\ sign (of_bits bits n) = false /\
    fR (of_bits bits n) = (IZR (scaled bits n) * bpow radix2 (emin bits))%R.
  Proof.
    intros F. destruct (fin_split n F) as (E & M & D). pose proof P_pos as HP. pose proof Q_pos as HQ.
    unfold of_bits, binary_float_of_bits, prec, emax. rewrite is_finite_FF2B, Bsign_FF2B, B2R_FF2B.
    unfold binary_float_of_bits_aux, split_bits.
    rewrite (Z.mod_small (n / P) Q) by lia.
    assert (S : (P * Q <=? n) = false).
    { apply Z.leb_gt. destruct F as [F1 F2]. nia. }
    rewrite S. unfold scaled, emin, prec, emax.
    destruct (Z.eqb_spec (n / P) 0) as [E0|E0].
    - rewrite (proj1 (Zeq_is_eq_bool _ _) E0).
      destruct (n mod P) as [|p|p] eqn:Em; [| |lia]; cbn [is_finite_FF sign_FF FF2R].
      + split; [reflexivity|]. split; [reflexivity|]. rewrite Rmult_0_l. reflexivity.
      + split; [reflexivity|]. split; [reflexivity|]. unfold F2R. cbn [Fnum Fexp cond_Zopp]. reflexivity.
    - destruct (Zeq_bool (n / P) 0) eqn:Z1; [apply Zeq_bool_eq in Z1; lia|].
      destruct (Zeq_bool (n / P) (Q - 1)) eqn:Z2; [apply Zeq_bool_eq in Z2; lia|].
      destruct (n mod P + P) as [|p|p] eqn:Em; [lia| |lia]. cbn [is_finite_FF sign_FF FF2R].
      split; [reflexivity|]. split; [reflexivity|]. unfold F2R. cbn [Fnum Fexp cond_Zopp].
      rewrite <- Em, Z.add_comm, mult_IZR, (IZR_Zpower radix2) by lia.
      rewrite Rmult_assoc, <- bpow_plus. unfold SpecFloat.emin. do 2 f_equal. lia.
  Qed.

  Lemma to_bits_range (x : flt bits) : 0 <= to_bits x < 2 ^ (mw bits + ew bits + 1).
  Proof. apply bits_of_binary_float_range; [apply mw_pos|apply ew_pos]. Qed.
  Lemma of_to_bits (x : flt bits) : of_bits bits (to_bits x) = x.
  Proof. apply binary_float_of_bits_of_binary_float. Qed.
  Lemma to_of_bits n : 0 <= n < 2 ^ (mw bits + ew bits + 1) -> to_bits (of_bits bits n) = n.
  Proof. apply bits_of_binary_float_of_bits. Qed.
  Lemma pow_split : 2 ^ (mw bits + ew bits + 1) = 2 * (P * Q).
  Proof. pose proof (mw_pos bits). pose proof (ew_pos bits). rewrite !Z.pow_add_r by lia. lia. Qed.

  (** non-negative and finite: the pattern is in range *)
  Lemma to_bits_fin (x : flt bits) : finite x = true -> sign x = false -> fin_bits bits (to_bits x).
  Proof.
    intros F S. pose proof (to_bits_range x) as [R1 R2]. rewrite pow_split in R2.
    pose proof P_pos as HP. pose proof Q_pos as HQ. rewrite <- (of_to_bits x) in F, S. revert F S R1 R2. generalize (to_bits x). intros n F S R1 R2.
    unfold of_bits, binary_float_of_bits, prec, emax in F, S. rewrite is_finite_FF2B in F. rewrite Bsign_FF2B in S.
    unfold binary_float_of_bits_aux, split_bits in F, S.
    pose proof (Z.mod_pos_bound n P ltac:(lia)) as M. pose proof (Z.div_mod n P ltac:(lia)) as D.
    set (ex := (n / P) mod Q) in *. set (s := P * Q <=? n) in *.
    assert (A : s = false /\ ex <> Q - 1).
    { destruct (Zeq_bool ex 0) eqn:Z1.
      - apply Zeq_bool_eq in Z1. split; [|lia]. destruct (n mod P); cbn in S; [exact S|exact S|lia].
      - destruct (Zeq_bool ex (Q - 1)) eqn:Z2; [destruct (n mod P); discriminate|]. apply Zeq_bool_neq in Z2. split; [|exact Z2].
        destruct (n mod P + P) eqn:Em; cbn in S; [lia|exact S|lia]. }
    destruct A as [A1 A2]. unfold s in A1. apply Z.leb_gt in A1.
    assert (B : 0 <= n / P < Q) by (split; [apply Z.div_pos; lia|apply Z.div_lt_upper_bound; lia]).
    unfold ex in A2. rewrite Z.mod_small in A2 by exact B. unfold fin_bits. nia.
  Qed.
  Lemma to_bits_val (x : flt bits) : finite x = true -> sign x = false ->
    fR x = (IZR (scaled bits (to_bits x)) * bpow radix2 (emin bits))%R.
  Proof. intros F S. rewrite <- (proj2 (proj2 (of_bits_fin _ (to_bits_fin x F S)))), of_to_bits. reflexivity. Qed.

  (** strictly increasing *)
  Lemma scaled_lt n m : fin_bits bits n -> fin_bits bits m -> n < m -> scaled bits n < scaled bits m.
  Proof.
    intros Fn Fm L. destruct (fin_split n Fn) as (E & M & D). destruct (fin_split m Fm) as (E' & M' & D').
    pose proof P_pos as HP. unfold scaled.
    assert (Le : n / P <= m / P) by nia.
    destruct (Z.eqb_spec (n / P) 0) as [E0|E0]; destruct (Z.eqb_spec (m / P) 0) as [E1|E1].
    - rewrite E0 in D. rewrite E1 in D'. lia.
    - assert (1 <= 2 ^ (m / P - 1)) by (apply (Z.pow_le_mono_r 2 0); lia). nia.
    - lia.
    - destruct (Z.eq_dec (n / P) (m / P)) as [Eq|Ne].
      + rewrite <- Eq in *. assert (0 < 2 ^ (n / P - 1)) by (apply Z.pow_pos_nonneg; lia). nia.
      + assert (2 ^ (n / P - 1) * 2 <= 2 ^ (m / P - 1)).
        { replace (2 ^ (n / P - 1) * 2) with (2 ^ (n / P)).
          - apply Z.pow_le_mono_r; lia.
          - replace (n / P) with (n / P - 1 + 1) at 1 by lia. rewrite Z.pow_add_r by lia. lia. }
        assert (0 < 2 ^ (n / P - 1)) by (apply Z.pow_pos_nonneg; lia). nia.
  Qed.
  Lemma scaled_nonneg n : fin_bits bits n -> 0 <= scaled bits n.
  Proof.
    intros F. destruct (fin_split n F) as (E & M & D). pose proof P_pos. unfold scaled.
    destruct (n / P =? 0) eqn:E0; [lia|]. apply Z.eqb_neq in E0. assert (0 < 2 ^ (n / P - 1)) by (apply Z.pow_pos_nonneg; lia). nia.
  Qed.
End Bits.
