(** Printing and re-reading decimal numbers. *)
From Coq Require Import ZArith QArith Lia Lqa Ascii String List Bool.
From Verif Require Import Res Dec DecFacts DecStr.
Import ListNotations.
Open Scope Z_scope.

Lemma char_digit_char d : 0 <= d < 10 -> char_digit (digit_char d) = Some d.
Proof.
  intros H. assert (d = 0 \/ d = 1 \/ d = 2 \/ d = 3 \/ d = 4 \/ d = 5 \/ d = 6 \/ d = 7 \/ d = 8 \/ d = 9) as C by lia.
  repeat destruct C as [->|C]; try reflexivity. subst; reflexivity.
Qed.

(** A digit is none of the other characters the readers look for. *)
Lemma digit_not c (H : is_digit c = true) :
  Ascii.eqb c "_" = false /\ Ascii.eqb c "." = false /\ Ascii.eqb c "-" = false /\
  Ascii.eqb c "+" = false /\ Ascii.eqb c "e" = false /\ Ascii.eqb c "E" = false.
Proof.
  destruct c as [[] [] [] [] [] [] [] []]; try (vm_compute in H; discriminate);
    repeat split; reflexivity.
Qed.

Definition all_digits (l : chars) : Prop := Forall (fun c => is_digit c = true) l.

Lemma is_digit_char d : 0 <= d < 10 -> is_digit (digit_char d) = true.
Proof. intros H. unfold is_digit. rewrite char_digit_char by exact H. reflexivity. Qed.

(** Value of a digit string, most significant first. *)
Definition dig_val (c : ascii) : Z := match char_digit c with Some d => d | None => 0 end.
Definition digits_val (l : chars) : Z := fold_left (fun a c => a * 10 + dig_val c) l 0.

Lemma fold_digits_app l : forall a,
  fold_left (fun a c => a * 10 + dig_val c) l a = a * 10 ^ Z.of_nat (length l) + digits_val l.
Proof.
  unfold digits_val. induction l as [|c l IH]; intros a.
  - cbn. lia.
  - cbn [fold_left length]. rewrite IH, (IH (0 * 10 + dig_val c)).
    rewrite Nat2Z.inj_succ, Z.pow_succ_r by lia. ring.
Qed.

Lemma digits_val_app l1 l2 :
  digits_val (l1 ++ l2) = digits_val l1 * 10 ^ Z.of_nat (length l2) + digits_val l2.
Proof. unfold digits_val at 1. rewrite fold_left_app. apply fold_digits_app. Qed.

Lemma parse_digits_all l : all_digits l -> forall a,
  parse_digits l a = Some (fold_left (fun a c => a * 10 + dig_val c) l a).
Proof.
  induction 1 as [|c l Hc Hl IH]; intros a; [reflexivity|].
  cbn [parse_digits fold_left]. destruct (digit_not c Hc) as (-> & _).
  unfold is_digit in Hc. unfold dig_val at 2. destruct (char_digit c); [apply IH|discriminate].
Qed.

Lemma parse_biguint_all l : l <> [] -> all_digits l -> parse_biguint l = Some (digits_val l).
Proof.
  intros Hn Hl. destruct l as [|c l]; [congruence|].
  inversion Hl as [|c' l' Hc Hl']; subst. destruct (digit_not c Hc) as (E1 & _ & _ & E2 & _).
  unfold parse_biguint. rewrite E2, E1. apply parse_digits_all. exact Hl.
Qed.

Lemma parse_bigint_all l : l <> [] -> all_digits l -> parse_bigint l = Some (digits_val l).
Proof.
  intros Hn Hl. pose proof (parse_biguint_all l Hn Hl) as P.
  destruct l as [|c l]; [congruence|].
  inversion Hl as [|c' l' Hc Hl']; subst. destruct (digit_not c Hc) as (_ & _ & E & _).
  unfold parse_bigint. rewrite E. exact P.
Qed.

Lemma parse_bigint_neg l :
  l <> [] -> all_digits l -> parse_bigint ("-"%char :: l) = Some (- digits_val l).
Proof.
  intros Hn Hl. pose proof (parse_biguint_all l Hn Hl) as P.
  destruct l as [|c l]; [congruence|].
  inversion Hl as [|c' l' Hc Hl']; subst. destruct (digit_not c Hc) as (_ & _ & _ & E & _).
  unfold parse_bigint. cbn [Ascii.eqb]. change (Ascii.eqb "-" "-") with true. cbv iota.
  rewrite E, P. reflexivity.
Qed.

(** ** zdigits *)

Lemma zdigits_aux_spec fuel : forall n acc,
  0 <= n < 10 ^ (Z.of_nat fuel + 1) -> all_digits acc ->
  all_digits (zdigits_aux fuel n acc) /\
  (1 <= length (zdigits_aux fuel n acc))%nat /\
  digits_val (zdigits_aux fuel n acc) = n * 10 ^ Z.of_nat (length acc) + digits_val acc.
Proof.
  induction fuel as [|f IH]; intros n acc Hn Ha; cbn [zdigits_aux].
  - change (10 ^ (Z.of_nat 0 + 1)) with 10 in Hn. repeat split.
    + constructor; [apply is_digit_char; lia|exact Ha].
    + cbn; lia.
    + change (digit_char n :: acc) with ([digit_char n] ++ acc). rewrite digits_val_app.
      unfold digits_val at 1, dig_val. cbn [fold_left].
      rewrite char_digit_char by lia. f_equal.
  - destruct (Z.ltb_spec n 10) as [H|H].
    + repeat split.
      * constructor; [apply is_digit_char; lia|exact Ha].
      * cbn; lia.
      * change (digit_char n :: acc) with ([digit_char n] ++ acc). rewrite digits_val_app.
        unfold digits_val at 1, dig_val. cbn [fold_left].
        rewrite char_digit_char by lia. f_equal.
    + pose proof (Z.mod_pos_bound n 10 ltac:(lia)) as M.
      pose proof (Z.div_mod n 10 ltac:(lia)) as D.
      destruct (IH (n / 10) (digit_char (n mod 10) :: acc)) as (A & B & C).
      * split; [apply Z.div_pos; lia|]. apply Z.div_lt_upper_bound; [lia|].
        rewrite <- Z.pow_succ_r by lia.
        replace (Z.succ (Z.of_nat f + 1)) with (Z.of_nat (S f) + 1) by lia. lia.
      * constructor; [apply is_digit_char; lia|exact Ha].
      * repeat split; [exact A|exact B|]. rewrite C.
        change (digit_char (n mod 10) :: acc) with ([digit_char (n mod 10)] ++ acc).
        rewrite digits_val_app. unfold digits_val at 1, dig_val. cbn [fold_left].
        rewrite char_digit_char by lia. rewrite app_length. cbn [length].
        rewrite Nat2Z.inj_add. change (Z.of_nat 1) with 1.
        rewrite Z.pow_add_r by lia. change (10 ^ 1) with 10.
        set (p := 10 ^ Z.of_nat (length acc)). nia.
Qed.

Lemma zdigits_spec n :
  0 <= n -> all_digits (zdigits n) /\ zdigits n <> [] /\ digits_val (zdigits n) = n.
Proof.
  intros Hn. unfold zdigits. pose proof (Z.log2_nonneg n) as HL.
  destruct (zdigits_aux_spec (Z.to_nat (Z.log2 n)) n []) as (A & B & C).
  - split; [exact Hn|]. rewrite Z2Nat.id by lia.
    destruct (Z.eq_dec n 0) as [->|N]; [cbn; lia|].
    pose proof (Z.log2_spec n ltac:(lia)) as [_ H].
    apply Z.lt_le_trans with (1 := H). unfold Z.succ. apply Z.pow_le_mono_l. lia.
  - constructor.
  - split; [exact A|]. split.
    + intros E. rewrite E in B. cbn in B. lia.
    + rewrite C. cbn. lia.
Qed.

(** ** Splitting at a character that does not occur / occurs *)

Lemma split_at_none p l : Forall (fun c => p c = false) l -> split_at p l = None.
Proof. induction 1 as [|c l Hc Hl IH]; [reflexivity|]. cbn. rewrite Hc, IH. reflexivity. Qed.

Lemma split_at_here p a c b :
  Forall (fun c => p c = false) a -> p c = true -> split_at p (a ++ c :: b) = Some (a, b).
Proof.
  induction 1 as [|d a Hd Ha IH]; intros Hc; cbn.
  - rewrite Hc. reflexivity.
  - rewrite Hd, (IH Hc). reflexivity.
Qed.

(** Text made of an optional minus, digits, and optionally a dot and digits. *)
Definition plain_text (neg : bool) (before after : chars) : chars :=
  (if neg then ["-"%char] else []) ++ before ++
  (match after with [] => [] | _ => "."%char :: after end).

Lemma parse_plain neg before after :
  before <> [] -> all_digits before -> all_digits after ->
  parse_dec (plain_text neg before after) =
  Some (BD ((if neg then -1 else 1) * digits_val (before ++ after)) (Z.of_nat (length after))).
Proof.
  intros Hn Hb Ha.
  assert (forall (p : ascii -> bool) (l : chars), (forall c, is_digit c = true -> p c = false) ->
          all_digits l -> Forall (fun c => p c = false) l) as FD.
  { intros p l Hp. apply Forall_impl. exact Hp. }
  set (sg := (if neg then ["-"%char] else [] : chars)).
  assert (Forall (fun c => (Ascii.eqb c "e" || Ascii.eqb c "E") = false) (plain_text neg before after)) as NE.
  { unfold plain_text. apply Forall_app; split; [|apply Forall_app; split].
    - destruct neg; repeat constructor.
    - apply FD; [|exact Hb]. intros c Hc. destruct (digit_not c Hc) as (_ & _ & _ & _ & -> & ->). reflexivity.
    - destruct after as [|c after']; [constructor|].
      constructor; [reflexivity|].
      apply FD; [|exact Ha]. intros c' Hc. destruct (digit_not c' Hc) as (_ & _ & _ & _ & -> & ->). reflexivity. }
  assert (Forall (fun c => Ascii.eqb c "." = false) (sg ++ before)) as ND.
  { apply Forall_app; split.
    - unfold sg. destruct neg; repeat constructor.
    - apply FD; [|exact Hb]. intros c Hc. destruct (digit_not c Hc) as (_ & -> & _). reflexivity. }
  assert (forall l, all_digits l -> l <> [] ->
            parse_bigint (sg ++ l) = Some ((if neg then -1 else 1) * digits_val l)) as PB.
  { intros l Hl Hnl. unfold sg. destruct neg; cbn [app].
    - rewrite parse_bigint_neg by assumption. f_equal; lia.
    - rewrite parse_bigint_all by assumption. f_equal; lia. }
  unfold parse_dec, split_exponent. rewrite split_at_none by exact NE.
  destruct (plain_text neg before after) as [|c0 r0] eqn:EP.
  { exfalso. unfold plain_text in EP. destruct neg; [discriminate|].
    destruct before; [congruence|discriminate]. }
  rewrite <- EP. clear c0 r0 EP NE.
  unfold plain_text. fold sg. destruct after as [|c after'].
    rewrite !app_nil_r.
    rewrite split_at_none by exact ND. rewrite PB by assumption. reflexivity.
  - set (after := c :: after') in *.
    rewrite app_assoc. rewrite split_at_here by (assumption || reflexivity).
    rewrite <- app_assoc. rewrite PB.
    + cbn [option_map]. rewrite Z.sub_0_r. reflexivity.
    + apply Forall_app; split; assumption.
    + destruct before; [congruence|discriminate].
Qed.

Lemma all_digits_zeros n : all_digits (repeat "0"%char n).
Proof. apply Forall_forall. intros c H. apply repeat_spec in H. subst. reflexivity. Qed.

Lemma digits_val_zeros n : digits_val (repeat "0"%char n) = 0.
Proof.
  induction n as [|n IH]; [reflexivity|]. cbn [repeat].
  change ("0"%char :: repeat "0"%char n) with (["0"%char] ++ repeat "0"%char n).
  rewrite digits_val_app, IH. reflexivity.
Qed.

(** The layout chosen by Display, and what its digits mean. *)
Lemma dec_repr_plain x :
  exists before after,
    dec_repr x = plain_text (mant x <? 0) before after /\
    before <> [] /\ all_digits before /\ all_digits after /\
    (dval (BD (digits_val (before ++ after)) (Z.of_nat (length after)))
     == dval (dabs x))%Q.
Proof.
  unfold dec_repr. set (a := zdigits (Z.abs (mant x))).
  destruct (zdigits_spec (Z.abs (mant x)) ltac:(lia)) as (A & N & V). fold a in A, N, V.
  assert (1 <= Z.of_nat (length a)) as L1 by (destruct a; [congruence|cbn [length]; lia]).
  destruct (Z.leb_spec (Z.of_nat (length a)) (scale x)) as [H|H].
  - exists ["0"%char], (repeat "0"%char (Z.to_nat (scale x - Z.of_nat (length a))) ++ a).
    split; [reflexivity|]. split; [discriminate|]. split; [repeat constructor|].
    split; [apply Forall_app; split; [apply all_digits_zeros|exact A]|].
    rewrite !digits_val_app, digits_val_zeros, V.
    rewrite app_length, repeat_length.
    replace (Z.of_nat (Z.to_nat (scale x - Z.of_nat (length a)) + length a)) with (scale x) by lia.
    change (digits_val ["0"%char]) with 0. rewrite !Z.mul_0_l, !Z.add_0_l. reflexivity.
  - destruct (Z.ltb_spec (Z.of_nat (length a)) (Z.of_nat (length a) - scale x)) as [H2|H2].
    + exists (a ++ repeat "0"%char (Z.to_nat (Z.of_nat (length a) - scale x - Z.of_nat (length a)))), [].
      split; [reflexivity|]. split; [destruct a; [congruence|discriminate]|].
      split; [apply Forall_app; split; [exact A|apply all_digits_zeros]|].
      split; [constructor|].
      rewrite app_nil_r, digits_val_app, digits_val_zeros, V, repeat_length. cbn [length].
      unfold dval, dabs; cbn [mant scale]. rewrite Z2Nat.id by lia.
      rewrite (p10_rescale (Z.abs (mant x)) (scale x) 0) by lia.
      replace (Z.of_nat (length a) - scale x - Z.of_nat (length a)) with (0 - scale x) by lia.
      rewrite Z.add_0_r. reflexivity.
    + set (k := Z.to_nat (Z.of_nat (length a) - scale x)).
      exists (firstn k a), (skipn k a).
      split; [reflexivity|].
      assert (1 <= k)%nat as Hk by lia.
      split; [intros C; apply (f_equal (@length _)) in C; rewrite firstn_length in C; cbn in C; lia|].
      rewrite <- (firstn_skipn k a) in A. apply Forall_app in A. destruct A as [A1 A2].
      split; [exact A1|]. split; [exact A2|].
      rewrite firstn_skipn, V, skipn_length.
      replace (Z.of_nat (length a - k)) with (scale x) by lia. reflexivity.
Qed.

(** Reading back what was printed gives a number of the same value. *)
Lemma parse_dec_repr x : exists y, parse_dec (dec_repr x) = Some y /\ (dval y == dval x)%Q.
Proof.
  destruct (dec_repr_plain x) as (b & a & E & Hn & Hb & Ha & V).
  rewrite E, parse_plain by assumption. eexists; split; [reflexivity|].
  destruct (Z.ltb_spec (mant x) 0) as [S|S].
  - setoid_replace (dval x) with (- dval (dabs x))%Q.
    + rewrite <- V. unfold dval; cbn [mant scale]. rewrite inject_Z_mult.
      change (inject_Z (-1)) with (-(1))%Q. ring.
    + unfold dabs, dval; cbn [mant scale]. rewrite Z.abs_neq, inject_Z_opp by lia. ring.
  - setoid_replace (dval x) with (dval (dabs x)).
    + rewrite <- V, Z.mul_1_l. reflexivity.
    + unfold dabs, dval; cbn [mant scale]. rewrite Z.abs_eq by lia. reflexivity.
Qed.

(** LitFloat::new accepts the printed text and keeps it unchanged. *)
Lemma scan_float_digits l : all_digits l -> forall st r,
  has_e st = false -> has_exponent st = false ->
  scan_float st (l ++ r) =
  option_map (fun '(s, d, x) => (s, l ++ d, x)) (scan_float st r).
Proof.
  induction 1 as [|c l Hc Hl IH]; intros st r He Hx.
  - cbn [app]. destruct (scan_float st r) as [[[? ?] ?]|]; reflexivity.
  - cbn [app scan_float]. destruct (digit_not c Hc) as (-> & _). rewrite Hc, He, Hx. cbn [orb].
    replace (FS (has_dot st) false (has_sign st) false) with st
      by (destruct st; cbn in *; subst; reflexivity).
    rewrite IH by assumption.
    destruct (scan_float st r) as [[[? ?] ?]|]; reflexivity.
Qed.

Lemma parse_lit_float_plain neg before after :
  before <> [] -> all_digits before -> all_digits after ->
  parse_lit_float (plain_text neg before after) = Some (plain_text neg before after, []).
Proof.
  intros Hn Hb Ha. unfold parse_lit_float, plain_text.
  set (tl := match after with [] => [] | _ :: _ => "."%char :: after end).
  assert (scan_float (FS false false false false) (before ++ tl) =
          Some (FS (match after with [] => false | _ => true end) false false false, before ++ tl, [])) as S.
  { rewrite scan_float_digits by (assumption || reflexivity).
    unfold tl. destruct after as [|c after']; [reflexivity|].
    set (after := c :: after') in *.
    cbn [scan_float]. change (Ascii.eqb "." "_") with false. change (is_digit ".") with false.
    change (Ascii.eqb "." ".") with true. cbn [has_e has_dot has_sign has_exponent orb].
    rewrite <- (app_nil_r after). rewrite scan_float_digits by (assumption || reflexivity).
    cbn [scan_float option_map]. rewrite !app_nil_r. reflexivity. }
  destruct before as [|c b]; [congruence|].
  inversion Hb as [|c' b' Hc Hb']; subst.
  destruct (digit_not c Hc) as (_ & _ & E & _).
  destruct neg; cbn [app] in *.
  - change (Ascii.eqb "-" "-") with true. cbv iota. rewrite Hc, S. reflexivity.
  - rewrite E. rewrite Hc, S. reflexivity.
Qed.

Lemma parse_lit_float_repr x : parse_lit_float (dec_repr x) = Some (dec_repr x, []).
Proof.
  destruct (dec_repr_plain x) as (b & a & E & Hn & Hb & Ha & _).
  rewrite E. apply parse_lit_float_plain; assumption.
Qed.
