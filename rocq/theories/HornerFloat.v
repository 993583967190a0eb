(** The retyped polynomials of [mul_add_polynomial] in floating point: Horner's
    rule with [mul_add], and its rounding errors. *)
From Coq Require Import List String Bool ZArith QArith Qreals Reals Ascii Lia Lra.
From Flocq Require Import Core Relative IEEE754.BinarySingleNaN IEEE754.Binary IEEE754.Bits.
From Verif Require Import Res Dec DecFacts DecStr DecStrFacts Syntax Visitor Trans TransFacts Item GenSem FloatBits GenFloat GenFloat2
  DecimalLit UseNumberType RFacts NumberTypeFacts ExactFloats Parse ParseFacts Poly MulAddFacts ApproxFacts.
From Flocq Require Import Core Relative.
Import ListNotations.
Open Scope string_scope.
Open Scope list_scope.
Open Scope Z_scope.

(** ** The numbers *)
Lemma dec_repr_layout x : 0 <= scale x -> exists before after,
  dec_repr x = plain_text (mant x <? 0) before after /\ before <> [] /\ all_digits before /\ all_digits after /\
  digits_val (before ++ after) = Z.abs (mant x) /\ Z.of_nat (List.length after) = scale x.
Proof.
  intros S0. unfold dec_repr. set (a := zdigits (Z.abs (mant x))).
  destruct (zdigits_spec (Z.abs (mant x)) ltac:(lia)) as (A & N & V). fold a in A, N, V.
  assert (1 <= Z.of_nat (List.length a)) as L1 by (destruct a; [congruence|cbn [List.length]; lia]).
  destruct (Z.leb_spec (Z.of_nat (List.length a)) (scale x)) as [H|H].
  - exists ["0"%char], (repeat "0"%char (Z.to_nat (scale x - Z.of_nat (List.length a))) ++ a).
    split; [reflexivity|]. split; [discriminate|]. split; [repeat constructor|].
    split; [apply Forall_app; split; [apply all_digits_zeros|exact A]|].
    rewrite !digits_val_app, digits_val_zeros, V. rewrite app_length, repeat_length.
    change (digits_val ["0"%char]) with 0. split; lia.
  - destruct (Z.ltb_spec (Z.of_nat (List.length a)) (Z.of_nat (List.length a) - scale x)) as [H2|H2]; [lia|].
    set (k := Z.to_nat (Z.of_nat (List.length a) - scale x)).
    exists (firstn k a), (skipn k a).
    split; [reflexivity|].
    assert (1 <= k)%nat as Hk by lia.
    split; [intros C; apply (f_equal (@List.length _)) in C; rewrite firstn_length in C; cbn in C; lia|].
    rewrite <- (firstn_skipn k a) in A. apply Forall_app in A. destruct A as [A1 A2].
    split; [exact A1|]. split; [exact A2|].
    rewrite firstn_skipn, V, skipn_length. split; lia.
Qed.

(** the float that replaces the number *)
Definition num_flt F bits (c : bd) : flt bits :=
  if mant c <? 0 then fneg bits (converted F bits (dabs c)) else converted F bits (dabs c).

Lemma num_expr_retyped F kind bits c : working kind bits -> reads_back F -> 0 <= scale c -> finite (converted F bits (dabs c)) = true ->
  exists e', use_number_type F kind bits (num_expr c) = Ok e' /\ denotes bits e' (num_flt F bits c).
Proof.
  intros W RB S0 FC. destruct (dec_repr_layout c S0) as (b & a & E & Hn & Hb & Ha & V & L).
  pose proof (parse_plain false b a Hn Hb Ha) as P. rewrite V, L, Z.mul_1_l in P. change (BD (Z.abs (mant c)) (scale c)) with (dabs c) in P.
  destruct (plain_head (mant c <? 0) b a Hn Hb) as (ch & r & E2 & D).
  assert (G : forall t, parse_dec t = Some (dabs c) -> exists e', retype_lit F kind bits (lex_number (string_of_list_ascii t) "") = Ok e' /\ denotes bits e' (converted F bits (dabs c))).
  { intros t Pt. apply (retype_denotes F kind bits _ (dabs c) W RB); try exact FC; unfold lex_number; destruct (float_text _ _); cbn [is_number number_of];
      try reflexivity; rewrite list_ascii_of_string_of_list_ascii; exact Pt. }
  unfold num_expr, num_flt. destruct (Z.ltb_spec (mant c) 0) as [S|S].
  - rewrite E, E2. cbn [app]. change (Ascii.eqb "-" "-") with true. cbv iota.
    assert (Er : ch :: r = plain_text false b a).
    { unfold plain_text in *. cbn [app] in *. inversion E2. reflexivity. }
    rewrite Er. destruct (G _ P) as (e' & R & De). exists (EUnary UNeg e'). split.
    + unfold use_number_type. cbn [visit number_visitor v_expr v_unary v_lit]. unfold def_expr, def_unary. rewrite R. reflexivity.
    + intros no st chk lib call const env. cbn [eval_g]. rewrite De. reflexivity.
  - rewrite E, E2. cbn [app]. assert (M : Ascii.eqb ch "-" = false).
    { destruct (Ascii.eqb_spec ch "-") as [->|]; [discriminate D|reflexivity]. }
    rewrite M. cbn [app] in E2. rewrite <- E2. destruct (G _ P) as (e' & R & De). exists e'. split; [exact R|exact De].
Qed.

Lemma dreal_dabs c : dreal (dabs c) = Rabs (rval c).
Proof.
  rewrite <- dreal_rval. unfold dreal, dabs. cbn [mant scale]. rewrite Rabs_mult, abs_IZR, (Rabs_pos_eq (bpow radix10 (- scale c))) by apply bpow_ge_0. reflexivity.
Qed.
Lemma num_sign c : rval c = (if mant c <? 0 then - Rabs (rval c) else Rabs (rval c))%R.
Proof.
  rewrite <- dreal_rval. unfold dreal. pose proof (bpow_gt_0 radix10 (- scale c)) as B. destruct (Z.ltb_spec (mant c) 0) as [S|S].
  - apply IZR_lt in S. rewrite Rabs_left by nra. ring.
  - apply IZR_le in S. rewrite Rabs_pos_eq by nra. reflexivity.
Qed.
Lemma ordinary_abs bits c : ordinary bits c -> ordinary bits (dabs c).
Proof.
  unfold ordinary. intros (A & B & C). split; [exact A|]. split; [cbn [dabs mant]; rewrite Z.abs_eq by lia; exact B|].
  destruct C as [C|C]; [left; cbn [dabs mant]; rewrite C; reflexivity|right]. cbv zeta in *. rewrite dreal_dabs, Rabs_Rabsolu, <- dreal_rval. exact C.
Qed.

(** *** Conversion to f32, more precisely than [to_f32_close] *)
Lemma to_f32_value F k n : powi_within F k -> (0 <= k <= 1 / 1024)%R -> ordinary 32 n ->
  finite (to_f32 F n) = true /\ exists w, (Rabs (w - 1) <= k + 3 * bpow radix2 (-53))%R /\ fR (to_f32 F n) = RN 32 (dreal n * w) /\
    exists c, (Rabs c <= bpow radix2 (-24))%R /\ fR (to_f32 F n) = (dreal n * (w * (1 + c)))%R.
Proof.
  intros PW HK (HS & HM & HD). change (if 32 =? 32 then 125 else 1000) with 125 in HD. cbv zeta in HD.
  destruct (to_f64_close F k n PW HK HS HM) as (F1 & w & W & E1).
  { destruct HD as [HD|[HL HU]]; [left; exact HD|right]. split.
    - eapply Rle_trans; [|exact HL]. apply bpow_le. lia.
    - eapply Rle_trans; [exact HU|]. apply bpow_le. lia. }
  assert (E32 : emax 32 = 128) by reflexivity. assert (P32 : prec 32 = 24) by reflexivity.
  destruct (small_pow2 (-53) ltac:(lia)) as [U0 U1].
  assert (W2 : (1 / 2 <= w <= 2)%R) by (apply Rabs_le_inv in W; lra).
  unfold to_f32. destruct (Z.eq_dec (mant n) 0) as [M0|M0].
  - assert (D0 : dreal n = 0%R) by (unfold dreal; rewrite M0; apply Rmult_0_l).
    assert (E0 : fR (to_f64 F n) = 0%R) by (rewrite E1, D0; ring).
    destruct (narrow_value F (to_f64 F n) F1) as [V Fi].
    { rewrite E0, round_0, Rabs_R0 by typeclasses eauto. apply bpow_gt_0. }
    split; [exact Fi|]. exists w. split; [exact W|]. split; [rewrite V, E1; reflexivity|]. exists 0%R. rewrite Rabs_R0. split; [apply bpow_ge_0|].
    rewrite V, E0, D0, round_0 by typeclasses eauto. ring.
  - destruct HD as [HD|[HL HU]]; [contradiction|].
    change (- (125)) with (-125) in HL.
    assert (YL : (bpow radix2 (-126) <= Rabs (dreal n * w) <= bpow radix2 126)%R).
    { rewrite Rabs_mult, (Rabs_pos_eq w) by lra.
      change (-126) with (-125 + -1). change 126 with (125 + 1). rewrite !bpow_plus. change (bpow radix2 (-1)) with (/ 2)%R. change (bpow radix2 1) with 2%R.
      split; apply Rmult_le_compat; try lra; try apply Rabs_pos; apply bpow_ge_0. }
    destruct (RN_rel 32 (dreal n * w)) as (c & C & EC); [rewrite E32; exact (proj1 YL)|]. rewrite P32 in C. change (- (24)) with (-24) in C.
    destruct (narrow_value F (to_f64 F n) F1) as [V Fi].
    { rewrite E1. apply Rle_lt_trans with (bpow radix2 127); [apply RN_lt; [rewrite E32, P32; lia|]|apply bpow_lt; rewrite E32; lia].
      eapply Rle_lt_trans; [apply YL|]. apply bpow_lt. lia. }
    split; [exact Fi|]. exists w. split; [exact W|]. split; [rewrite V, E1; reflexivity|]. exists c. split; [exact C|]. rewrite V, E1, EC. ring.
Qed.

(** relative error of a converted number *)
Definition conv_unit (bits : Z) : R := if bits =? 32 then (bpow radix2 (-24) * (1 + / 64))%R else (3 * bpow radix2 (-53))%R.
Lemma converted_sharp F k bits n : bits = 32 \/ bits = 64 -> powi_within F k -> (0 <= k <= 1 / 1024)%R -> ordinary bits n ->
  finite (converted F bits n) = true /\ (Rabs (fR (converted F bits n) - dreal n) <= (k + conv_unit bits) * Rabs (dreal n))%R.
Proof.
  intros [-> | ->] PW HK O.
  - change (converted F 32 n) with (to_f32 F n). destruct (to_f32_value F k n PW HK O) as (Fi & w & W & _ & c & C & E). split; [exact Fi|].
    rewrite E. replace (dreal n * (w * (1 + c)) - dreal n)%R with (dreal n * (w * (1 + c) - 1))%R by ring. rewrite Rabs_mult, Rmult_comm.
    apply Rmult_le_compat_r; [apply Rabs_pos|]. change (conv_unit 32) with (bpow radix2 (-24) * (1 + / 64))%R.
    destruct (small_pow2 (-53) ltac:(lia)) as [U0 U1]. destruct (small_pow2 (-24) ltac:(lia)) as [V0 V1].
    assert (UV : (3 * bpow radix2 (-53) <= bpow radix2 (-24) / 1024)%R).
    { apply Rle_trans with (bpow radix2 (-51)).
      - change (-51) with (2 + -53). rewrite bpow_plus. change (bpow radix2 2) with 4%R. lra.
      - apply Rle_trans with (bpow radix2 (-34)); [apply bpow_le; lia|]. change (-34) with (-24 + -10). rewrite bpow_plus.
        change (bpow radix2 (-10)) with (/ 1024)%R. lra. }
    eapply Rle_trans; [apply (quad_small w c (bpow radix2 (-24)) (k + 3 * bpow radix2 (-53))); auto; lra|]. lra.
  - change (conv_unit 64) with (unit_of 64). apply converted_close; auto.
Qed.

Lemma num_flt_close F k bits c : bits = 32 \/ bits = 64 -> powi_within F k -> (0 <= k <= 1 / 1024)%R -> ordinary bits c ->
  finite (num_flt F bits c) = true /\ (Rabs (fR (num_flt F bits c) - rval c) <= (k + conv_unit bits) * Rabs (rval c))%R.
Proof.
  intros HB PW HK O. destruct (converted_sharp F k bits (dabs c) HB PW HK (ordinary_abs bits c O)) as [Fi A].
  rewrite dreal_dabs, Rabs_Rabsolu in A. pose proof (num_sign c) as S. unfold num_flt. destruct (mant c <? 0).
  - destruct (fneg_value bits (converted F bits (dabs c))) as [V Fn]. rewrite Fn, V. split; [exact Fi|].
    replace (- fR (converted F bits (dabs c)) - rval c)%R with (- (fR (converted F bits (dabs c)) - Rabs (rval c)))%R by (rewrite S at 2; ring).
    rewrite Rabs_Ropp. exact A.
  - split; [exact Fi|]. rewrite S at 1. exact A.
Qed.

(** ** The chain *)
Definition horner {A} (f : A -> A -> A) (h : A) (l : list A) : A := fold_right (fun c a => f a c) h l.
Section Chain.
  Context (F : floats) (kind : string) (bits : Z) (W : working kind bits) (RB : reads_back F).
  Lemma chain_retyped (arg arg' : expr) h l : use_number_type F kind bits arg = Ok arg' ->
    Forall (fun c => 0 <= scale c /\ finite (converted F bits (dabs c)) = true) (h :: l) ->
    exists e', use_number_type F kind bits (chain arg h (rev l)) = Ok e' /\
    forall nan_of std checked lib call const env t, eval_g bits nan_of std checked lib call const env arg' = Ok (VFlt t) ->
      eval_g bits nan_of std checked lib call const env e' =
      Ok (VFlt (horner (fun a c => ffma bits nan_of a t c) (num_flt F bits h) (map (num_flt F bits) l))).
  Proof.
    intros Ha H. inversion H as [|? ? [Sh Fh] Hl]; subst. unfold chain. clear H. induction Hl as [|c l [Sc Fc] Hl IH].
    - cbn [fold_left rev]. destruct (num_expr_retyped F kind bits h W RB Sh Fh) as (e & E & D). exists (EParen e). split.
      + unfold use_number_type in *. cbn [visit number_visitor v_expr v_paren]. unfold def_expr, def_paren. fold (number_visitor F kind bits). rewrite E. reflexivity.
      + intros. cbn [eval_g]. apply D.
    - destruct IH as (e & E & D). destruct (num_expr_retyped F kind bits c W RB Sc Fc) as (ec & Ec & Dc). cbn [rev]. rewrite fold_left_app. cbn [fold_left].
      exists (EMethodCall e "mul_add" None [arg'; ec]). split.
      + unfold use_number_type in *. cbn [visit number_visitor v_expr v_method map]. unfold def_expr, def_method. fold (number_visitor F kind bits).
        rewrite E, Ha, Ec. reflexivity.
      + intros nan_of std checked lib call const env t Et. cbn [eval_g]. rewrite (D _ _ _ _ _ _ _ _ Et). cbn [rbind]. rewrite Et. cbn [rbind]. rewrite Dc. cbn [rbind].
        reflexivity.
  Qed.
End Chain.

(** ** Rounding errors *)
Open Scope R_scope.
Definition eps bits : R := bpow radix2 (- prec bits).
(** half the distance of the smallest floats, and more *)
Definition eta bits : R := bpow radix2 (3 - emax bits).
Lemma eta_pos bits : 0 < eta bits. Proof. apply bpow_gt_0. Qed.
Lemma eps_pos bits : 0 < eps bits. Proof. apply bpow_gt_0. Qed.

Lemma RN_err bits x : (bits = 32 \/ bits = 64)%Z -> Rabs (RN bits x - x) <= eps bits * Rabs x + eta bits.
Proof.
  intros HB. pose proof (eps_pos bits). pose proof (eta_pos bits). pose proof (Rabs_pos x).
  destruct (Rle_lt_dec (bpow radix2 (2 - emax bits)) (Rabs x)) as [L|L].
  - destruct (RN_rel bits x L) as (a & A & ->). replace (x * (1 + a) - x) with (a * x) by ring. rewrite Rabs_mult.
    assert (Rabs a * Rabs x <= eps bits * Rabs x) by (apply Rmult_le_compat_r; [apply Rabs_pos|exact A]). lra.
  - assert (B : Rabs (RN bits x) <= bpow radix2 (2 - emax bits)).
    { apply abs_round_le_generic; [apply fx_valid|apply valid_rnd_N| |lra].
      apply generic_format_bpow. unfold SpecFloat.fexp, SpecFloat.emin. destruct HB as [-> | ->]; [change (prec 32) with 24%Z; change (emax 32) with 128%Z|change (prec 64) with 53%Z; change (emax 64) with 1024%Z]; lia. }
    assert (E : eta bits = 2 * bpow radix2 (2 - emax bits)).
    { unfold eta. replace (3 - emax bits)%Z with (1 + (2 - emax bits))%Z by lia. rewrite bpow_plus. reflexivity. }
    apply Rle_trans with (Rabs (RN bits x) + Rabs x); [unfold Rminus; apply Rle_trans with (1 := Rabs_triang _ _); rewrite Rabs_Ropp; lra|].
    assert (0 <= eps bits * Rabs x) by (apply Rmult_le_pos; lra). lra.
Qed.

Definition hornerR (t : R) := horner (fun a c => a * t + c).
Section Errors.
  Context (bits : Z) (HB : (bits = 32 \/ bits = 64)%Z) (nan_of : list (flt bits) -> { x : flt bits | Binary.is_nan _ _ x = true }).
  Definition hornerF (t : flt bits) := horner (fun a c => ffma bits nan_of a t c).

  Lemma fma_step (a t c : flt bits) a0 c0 da dc : finite a = true -> finite t = true -> finite c = true ->
    Rabs (fR a - a0) <= da -> Rabs (fR c - c0) <= dc -> Rabs (a0 * fR t + c0) + da * Rabs (fR t) + dc <= bpow radix2 101 ->
    let r := ffma bits nan_of a t c in
    finite r = true /\ Rabs (fR r - (a0 * fR t + c0)) <= (da * Rabs (fR t) + dc) * (1 + eps bits) + eps bits * Rabs (a0 * fR t + c0) + eta bits.
  Proof.
    intros Fa Ft Fc A C B r. set (e := fR a * fR t + fR c). set (e0 := a0 * fR t + c0) in *.
    assert (D : Rabs (e - e0) <= da * Rabs (fR t) + dc).
    { unfold e, e0. replace (fR a * fR t + fR c - (a0 * fR t + c0)) with ((fR a - a0) * fR t + (fR c - c0)) by ring.
      apply Rle_trans with (1 := Rabs_triang _ _). apply Rplus_le_compat; [|exact C]. rewrite Rabs_mult. apply Rmult_le_compat_r; [apply Rabs_pos|exact A]. }
    assert (E : Rabs e <= Rabs e0 + (da * Rabs (fR t) + dc)).
    { replace e with (e0 + (e - e0)) by ring. apply Rle_trans with (1 := Rabs_triang _ _). lra. }
    destruct (ffma_value bits nan_of a t c Fa Ft Fc) as [V Fr].
    { fold e. apply Rle_lt_trans with (bpow radix2 102).
      - apply RN_lt; [destruct HB as [-> | ->]; [change (prec 32) with 24%Z; change (emax 32) with 128%Z|change (prec 64) with 53%Z; change (emax 64) with 1024%Z]; lia|].
        apply Rle_lt_trans with (bpow radix2 101); [lra|]. apply bpow_lt. lia.
      - apply bpow_lt. destruct HB as [-> | ->]; [change (emax 32) with 128%Z|change (emax 64) with 1024%Z]; lia. }
    split; [exact Fr|]. fold r in V. rewrite V. fold e. pose proof (RN_err bits e HB) as R.
    replace (RN bits e - e0) with ((RN bits e - e) + (e - e0)) by ring. apply Rle_trans with (1 := Rabs_triang _ _).
    pose proof (eps_pos bits) as P. assert (eps bits * Rabs e <= eps bits * (Rabs e0 + (da * Rabs (fR t) + dc))) by (apply Rmult_le_compat_l; lra). lra.
  Qed.

  (** *** The general bound *)
  Definition close kap (x : flt bits) (c : R) : Prop := finite x = true /\ Rabs (fR x - c) <= kap * Rabs c.
  Definition growth kap n := (1 + kap) * (1 + eps bits) ^ n - 1.
  Lemma growth_S kap n : growth kap (S n) = growth kap n * (1 + eps bits) + eps bits.
  Proof. unfold growth. cbn [pow]. ring. Qed.
  Lemma growth_ge kap n : 0 <= kap -> kap <= growth kap n.
  Proof. intros K. unfold growth. pose proof (pow_R1_Rle (1 + eps bits) n) as P. pose proof (eps_pos bits). specialize (P ltac:(lra)). nra. Qed.
  Lemma horner_error kap (t : flt bits) : 0 <= kap -> finite t = true -> Rabs (fR t) <= 1 ->
    forall h hc xs cs, close kap h hc -> Forall2 (close kap) xs cs ->
    horner (fun a c => a + c) (Rabs hc) (map Rabs cs) <= bpow radix2 99 -> growth kap (List.length xs) <= 1 -> INR (List.length xs) * 2 * eta bits <= 1 ->
    finite (hornerF t h xs) = true /\
    Rabs (fR (hornerF t h xs) - hornerR (fR t) hc cs) <=
      growth kap (List.length xs) * hornerR (Rabs (fR t)) (Rabs hc) (map Rabs cs) + INR (List.length xs) * (1 + eps bits) ^ List.length xs * eta bits /\
    Rabs (hornerR (fR t) hc cs) <= hornerR (Rabs (fR t)) (Rabs hc) (map Rabs cs) <= horner (fun a c => a + c) (Rabs hc) (map Rabs cs).
  Proof.
    intros K Ft Ht h hc xs cs [Fh Hh] H. pose proof (eps_pos bits) as EP. pose proof (eta_pos bits) as TP. pose proof (Rabs_pos (fR t)) as T0.
    induction H as [|x c xs cs [Fx Hx] H IH]; intros HS HG HE.
    - cbn [map hornerF hornerR horner fold_right List.length INR pow] in *. unfold growth. cbn [pow]. split; [exact Fh|]. split; [lra|]. split; lra.
    - cbn [map hornerF hornerR horner fold_right List.length] in *.
      fold (horner (fun a c => a + c) (Rabs hc) (map Rabs cs)) in *. fold (hornerF t h xs) in *.
      change (fold_right (fun c0 a => ffma bits nan_of a t c0) h xs) with (hornerF t h xs) in *.
      change (fold_right (fun c0 a => a * fR t + c0) hc cs) with (hornerR (fR t) hc cs) in *.
      change (fold_right (fun c0 a => a * Rabs (fR t) + c0) (Rabs hc) (map Rabs cs)) with (hornerR (Rabs (fR t)) (Rabs hc) (map Rabs cs)) in *.
      change (fold_right (fun c0 a => a + c0) (Rabs hc) (map Rabs cs)) with (horner (fun a c => a + c) (Rabs hc) (map Rabs cs)) in *.
      set (n := List.length xs) in *. rewrite growth_S in *. rewrite S_INR in *. pose proof (growth_ge kap n K) as G0. pose proof (Rabs_pos c) as C0. pose proof (pos_INR n) as N0.
      set (g := growth kap n) in *. set (Sm := horner (fun a c => a + c) (Rabs hc) (map Rabs cs)) in *.
      assert (Eg : 0 <= g * eps bits) by (apply Rmult_le_pos; lra).
      destruct IH as (Fi & Er & P1 & P2); [lra|lra|nra|].
      set (p := hornerR (fR t) hc cs) in *. set (y := hornerF t h xs) in *. set (s := hornerR (Rabs (fR t)) (Rabs hc) (map Rabs cs)) in *.
      set (q := (1 + eps bits) ^ n) in *.
      assert (Q1 : 1 <= q <= 2).
      { split; [apply pow_R1_Rle; lra|]. assert (g = (1 + kap) * q - 1) by reflexivity. assert (0 <= kap * q) by (apply Rmult_le_pos; [lra|apply pow_le; lra]). lra. }
      assert (S0 : 0 <= s) by (pose proof (Rabs_pos p); lra).
      set (d := g * s + INR n * q * eta bits) in *.
      assert (N1 : 0 <= INR n * q * eta bits <= 1).
      { split; [apply Rmult_le_pos; [apply Rmult_le_pos|]; lra|]. apply Rle_trans with (INR n * 2 * eta bits); [|nra]. apply Rmult_le_compat_r; [lra|]. apply Rmult_le_compat_l; lra. }
      assert (D0 : 0 <= d) by (unfold d; assert (0 <= g * s) by (apply Rmult_le_pos; lra); lra).
      assert (Ds : d <= s + 1) by (unfold d; assert (g * s <= 1 * s) by (apply Rmult_le_compat_r; lra); lra).
      assert (st : s * Rabs (fR t) <= s) by (rewrite <- (Rmult_1_r s) at 2; apply Rmult_le_compat_l; lra).
      assert (pt : Rabs (p * fR t) <= s * Rabs (fR t)) by (rewrite Rabs_mult; apply Rmult_le_compat_r; lra).
      assert (PA : Rabs (p * fR t + c) <= s * Rabs (fR t) + Rabs c) by (apply Rle_trans with (1 := Rabs_triang _ _); lra).
      assert (dt : d * Rabs (fR t) <= d) by (rewrite <- (Rmult_1_r d) at 2; apply Rmult_le_compat_l; lra).
      assert (kc : kap * Rabs c <= 1 * Rabs c) by (apply Rmult_le_compat_r; lra).
      assert (B99 : 1 <= bpow radix2 99) by (change 1 with (bpow radix2 0); apply bpow_le; lia).
      assert (B101 : bpow radix2 101 = 4 * bpow radix2 99) by (change 101%Z with (2 + 99)%Z; rewrite bpow_plus; reflexivity).
      destruct (fma_step y t x p c d (kap * Rabs c) Fi Ft Fx Er Hx) as [Fr R]; [rewrite B101; lra|]. cbv zeta in R.
      split; [exact Fr|]. split; [|split; [exact PA|lra]].
      apply Rle_trans with (1 := R).
      apply Rle_trans with ((d * Rabs (fR t) + kap * Rabs c) * (1 + eps bits) + eps bits * (s * Rabs (fR t) + Rabs c) + eta bits).
      { apply Rplus_le_compat_r, Rplus_le_compat_l, Rmult_le_compat_l; lra. }
      assert (dt2 : d * Rabs (fR t) <= g * (s * Rabs (fR t)) + INR n * q * eta bits).
      { unfold d. rewrite Rmult_plus_distr_r. apply Rplus_le_compat; [rewrite Rmult_assoc; lra|].
        rewrite <- (Rmult_1_r (INR n * q * eta bits)) at 2. apply Rmult_le_compat_l; lra. }
      assert (kg : kap * Rabs c <= g * Rabs c) by (apply Rmult_le_compat_r; lra).
      change ((1 + eps bits) ^ S n) with ((1 + eps bits) * q).
      apply Rle_trans with ((g * (s * Rabs (fR t)) + INR n * q * eta bits + g * Rabs c) * (1 + eps bits) + eps bits * (s * Rabs (fR t) + Rabs c) + eta bits).
      { apply Rplus_le_compat_r, Rplus_le_compat_r, Rmult_le_compat_r; lra. }
      assert (1 * eta bits <= (1 + eps bits) * q * eta bits).
      { apply Rmult_le_compat_r; [lra|]. rewrite <- (Rmult_1_r 1) at 1. apply Rmult_le_compat; lra. }
      replace ((g * (s * Rabs (fR t)) + INR n * q * eta bits + g * Rabs c) * (1 + eps bits) + eps bits * (s * Rabs (fR t) + Rabs c) + eta bits)
        with ((g * (1 + eps bits) + eps bits) * (s * Rabs (fR t) + Rabs c) + INR n * ((1 + eps bits) * q) * eta bits + eta bits) by ring.
      replace ((INR n + 1) * ((1 + eps bits) * q) * eta bits) with (INR n * ((1 + eps bits) * q) * eta bits + (1 + eps bits) * q * eta bits) by ring. lra.
  Qed.
End Errors.

(** ** The retyped polynomial *)
Lemma rpoly_horner l h t : rpoly (l ++ [h]) t = hornerR t (rval h) (map rval l).
Proof.
  unfold hornerR. induction l as [|c l IH]; cbn [app rpoly map horner fold_right]; [ring|]. rewrite IH. unfold horner. ring.
Qed.
Lemma rval_dabs c : rval (dabs c) = Rabs (rval c).
Proof. rewrite <- dreal_rval. apply dreal_dabs. Qed.
Lemma map_rval_dabs l : map rval (map dabs l) = map Rabs (map rval l).
Proof. rewrite !map_map. apply map_ext. exact rval_dabs. Qed.
Lemma horner_one h l : hornerR 1 h l = horner (fun a c => a + c) h l.
Proof. unfold hornerR. induction l as [|c l IH]; [reflexivity|]. unfold horner in *. cbn [fold_right]. rewrite IH. ring. Qed.

Lemma pow_small e n : 0 <= e -> INR n * e <= 1 / 2 -> (1 + e) ^ n <= 1 + 2 * (INR n * e).
Proof.
  intros E H. induction n as [|n IH]; [cbn; lra|]. rewrite S_INR in *. cbn [pow]. pose proof (pos_INR n).
  assert (0 <= INR n * e) by (apply Rmult_le_pos; lra). specialize (IH ltac:(lra)).
  apply Rle_trans with ((1 + e) * (1 + 2 * (INR n * e))); [apply Rmult_le_compat_l; lra|].
  assert (e * (2 * (INR n * e)) <= e * 1) by (apply Rmult_le_compat_l; lra). lra.
Qed.
Lemma eps_small bits : (bits = 32 \/ bits = 64)%Z -> eps bits <= / 16777216.
Proof.
  intros [-> | ->]; unfold eps; [change (prec 32) with 24%Z; cbn; change (Z.pow_pos 2 24) with 16777216%Z; lra|change (prec 64) with 53%Z].
  apply Rle_trans with (bpow radix2 (-24)); [apply bpow_le; lia|cbn; change (Z.pow_pos 2 24) with 16777216%Z; lra].
Qed.
Lemma eta_eps bits : (bits = 32 \/ bits = 64)%Z -> eta bits <= eps bits / 1048576.
Proof.
  intros HB. apply Rle_trans with (bpow radix2 (- prec bits + -20)).
  - apply bpow_le. destruct HB as [-> | ->]; [change (prec 32) with 24%Z; change (emax 32) with 128%Z|change (prec 64) with 53%Z; change (emax 64) with 1024%Z]; lia.
  - rewrite bpow_plus. change (bpow radix2 (-20)) with (/ 1048576). unfold eps. lra.
Qed.
Lemma conv_small bits : (bits = 32 \/ bits = 64)%Z -> 0 <= conv_unit bits <= 2 * eps 32.
Proof.
  unfold eps. change (prec 32) with 24%Z. change (- (24))%Z with (-24)%Z. pose proof (bpow_gt_0 radix2 (-24)). pose proof (bpow_gt_0 radix2 (-53)).
  intros [-> | ->]; unfold conv_unit; [change (32 =? 32)%Z with true|change (64 =? 32)%Z with false]; cbv iota; [lra|].
  assert (bpow radix2 (-53) <= bpow radix2 (-25)) by (apply bpow_le; lia).
  replace (bpow radix2 (-25)) with (bpow radix2 (-24) / 2) in *; [lra|]. change (-25)%Z with (-24 + -1)%Z. rewrite bpow_plus. change (bpow radix2 (-1)) with (/ 2). lra.
Qed.

Section Retyped.
  Context (F : floats) (kind : string) (bits : Z) (k : R) (W : working kind bits) (RB : reads_back F) (PW : powi_within F k) (HK : 0 <= k <= 1 / 1024).
  Let HB := working_bits kind bits W.

  (** the float expression and its value by Horner's rule *)
  Lemma poly_retyped n ts e : Forall (fun c => (0 <= scale c)%Z /\ ordinary bits c) ts -> mul_add_polynomial ts [n] PNeither = Ok e ->
    exists l h e', ts = l ++ [h] /\ use_number_type F kind bits e = Ok e' /\
    forall nan_of std checked lib call const env t, lookup bits n env = Some (VFlt t) ->
      eval_g bits nan_of std checked lib call const env e' = Ok (VFlt (hornerF bits nan_of t (num_flt F bits h) (map (num_flt F bits) l))).
  Proof.
    intros HT ME. destruct (List.length ts) as [|k'] eqn:L.
    { exfalso. destruct ts; [|discriminate]. revert ME. unfold mul_add_polynomial. cbn [List.length]. discriminate. }
    destruct (last_split ts k' L) as (h & E & Hn). rewrite (mul_add_ok ts [n] PNeither k' h L Hn eq_refl) in ME. injection ME as <-.
    unfold emitted. rewrite L. cbn [pred]. set (l := firstn k' ts) in *.
    assert (FC : Forall (fun c => (0 <= scale c)%Z /\ finite (converted F bits (dabs c)) = true) (h :: l)).
    { assert (G : Forall (fun c => (0 <= scale c)%Z /\ finite (converted F bits (dabs c)) = true) ts).
      { eapply Forall_impl; [|exact HT]. intros c [S O]. split; [exact S|]. apply (converted_sharp F k bits (dabs c) HB PW HK). apply ordinary_abs. exact O. }
      rewrite E in G. apply Forall_app in G. destruct G as [G1 G2]. constructor; [exact (Forall_inv G2)|exact G1]. }
    destruct (chain_retyped F kind bits W RB (EPath [n]) (EPath [n]) h l eq_refl FC) as (e' & Ue & Ev).
    exists l, h, e'. split; [exact E|]. split; [exact Ue|]. intros nan_of std checked lib call const env t Lk. apply Ev. cbn [eval_g]. rewrite Lk. reflexivity.
  Qed.

  Theorem poly_float n ts e : Forall (fun c => (0 <= scale c)%Z /\ ordinary bits c) ts -> (List.length ts <= 1001)%nat ->
    rpoly (map dabs ts) 1 <= bpow radix2 99 -> mul_add_polynomial ts [n] PNeither = Ok e ->
    exists e', use_number_type F kind bits e = Ok e' /\
    forall nan_of std checked lib call const env t, lookup bits n env = Some (VFlt t) -> finite t = true -> Rabs (fR t) <= 1 ->
      exists y, eval_g bits nan_of std checked lib call const env e' = Ok (VFlt y) /\ finite y = true /\
        Rabs (fR y - rpoly ts (fR t)) <=
          ((1 + (k + conv_unit bits)) * (1 + eps bits) ^ (List.length ts - 1) - 1) * rpoly (map dabs ts) (Rabs (fR t)) + INR (List.length ts) * (2 * eta bits).
  Proof.
    intros HT HL HS ME. destruct (poly_retyped n ts e HT ME) as (l & h & e' & -> & Ue & Ev). exists e'. split; [exact Ue|].
    intros nan_of std checked lib call const env t Lk Ft Ht. eexists. split; [apply Ev; exact Lk|].
    rewrite app_length in *. cbn [List.length] in *. replace (List.length l + 1 - 1)%nat with (List.length l) by lia.
    rewrite map_app in *. cbn [map] in *. rewrite !rpoly_horner in *. rewrite !map_rval_dabs, !rval_dabs, ?horner_one in *.
    apply Forall_app in HT. destruct HT as [HT Hh]. inversion Hh as [|? ? [Sh Oh] _]; subst.
    pose proof (conv_small bits HB) as CU. pose proof (eps_small 32 ltac:(tauto)) as E32. pose proof (eps_small bits HB) as EB. pose proof (eps_pos bits) as EP.
    pose proof (eta_eps bits HB) as TE. pose proof (eta_pos bits) as TP.
    assert (N : INR (List.length l) <= 1000) by (change 1000 with (IZR (Z.of_nat 1000)); rewrite <- INR_IZR_INZ; apply le_INR; lia). pose proof (pos_INR (List.length l)) as N0.
    assert (NE : 0 <= INR (List.length l) * eps bits <= 1000 * / 16777216) by (split; [apply Rmult_le_pos; lra|apply Rmult_le_compat; lra]).
    assert (PS : (1 + eps bits) ^ List.length l <= 1 + 1 / 1024) by (eapply Rle_trans; [apply pow_small; lra|lra]).
    assert (P1 : 1 <= (1 + eps bits) ^ List.length l) by (apply pow_R1_Rle; lra).
    destruct (horner_error bits HB nan_of (k + conv_unit bits) t ltac:(lra) Ft Ht (num_flt F bits h) (rval h) (map (num_flt F bits) l) (map rval l)) as (Fi & Er & _).
    - apply (num_flt_close F k bits h HB PW HK Oh).
    - clear - HT PW HK HB. induction HT as [|c l [Sc Oc] _ IH]; cbn [map]; constructor; [apply (num_flt_close F k bits c HB PW HK Oc)|exact IH].
    - exact HS.
    - rewrite map_length. unfold growth.
      apply Rle_trans with ((1 + (1 / 1024 + / 1024)) * (1 + 1 / 1024) - 1); [|lra]. apply Rplus_le_compat_r. apply Rmult_le_compat; lra.
    - rewrite map_length. apply Rle_trans with (1000 * 2 * (/ 16777216 / 1048576)); [|lra]. apply Rmult_le_compat; lra.
    - rewrite map_length in Er. split; [exact Fi|]. apply Rle_trans with (1 := Er). apply Rplus_le_compat_l. rewrite plus_INR. change (INR 1) with 1.
      rewrite Rmult_assoc. apply Rmult_le_compat; [lra|apply Rmult_le_pos; lra|lra|]. apply Rmult_le_compat_r; lra.
  Qed.
End Retyped.
