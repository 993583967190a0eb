(** What [use_number_type] does to an expression and to its numbers. *)
From Coq Require Import List String Bool ZArith Reals Ascii Lia Lra.
From Flocq Require Import Core Relative IEEE754.BinarySingleNaN IEEE754.Binary IEEE754.Bits.
From Verif Require Import Res Dec DecStr DecStrFacts Syntax Visitor Trans TransFacts Item GenSem FloatBits GenFloat DecimalLit UseNumberType.
Import ListNotations.
Open Scope string_scope.
Open Scope list_scope.
Open Scope Z_scope.

(** ** Specification *)
(** [e'] is [e] with every literal [l] replaced by some expression [P] allows *)
Inductive relit (P : lit -> expr -> Prop) : expr -> expr -> Prop :=
| RLit l r : P l r -> relit P (ELit l) r
| RPath p : relit P (EPath p) (EPath p)
| RUnary op a a' : relit P a a' -> relit P (EUnary op a) (EUnary op a')
| RBinary op a a' b b' : relit P a a' -> relit P b b' -> relit P (EBinary op a b) (EBinary op a' b')
| RMethod r r' m t l l' : relit P r r' -> Forall2 (relit P) l l' -> relit P (EMethodCall r m t l) (EMethodCall r' m t l')
| RParen a a' : relit P a a' -> relit P (EParen a) (EParen a')
| RField a a' m : relit P a a' -> relit P (EField a m) (EField a' m).

Definition is_number (l : lit) : bool := match l with LInt _ _ | LFloat _ _ => true | _ => false end.
(** the number a literal stands for, suffix aside *)
Definition number_of (l : lit) : option bd :=
  match l with LInt d _ | LFloat d _ => parse_dec (list_ascii_of_string d) | _ => None end.
(** [e] is an expression of float type [bits] whose value is [x], wherever it stands *)
Definition denotes (bits : Z) (e : expr) (x : flt bits) : Prop :=
  forall nan_of std checked lib call const env, eval_g bits nan_of std checked lib call const env e = Ok (VFlt x).
Definition nearest_to {bits} (v : R) (x : flt bits) : Prop :=
  finite x = true /\ forall z : flt bits, finite z = true -> (Rabs (fR x - v) <= Rabs (fR z - v))%R.
Definition float_suffix (bits : Z) : string := if bits =? 32 then "f32" else "f64".
(** Rust prints floats so that they read back as the same float *)
Definition reads_back (F : floats) : Prop :=
  forall bits (x : flt bits), bits = 32 \/ bits = 64 -> finite x = true -> sign x = false ->
  literal bits (text_lit (show F bits x) (float_suffix bits)) = Ok (VFlt x).
(** [10f64.powi(n)] is within the relative error [k] of 10^n *)
Definition powi_within (F : floats) (k : R) : Prop :=
  forall n, Z.abs n <= 300 -> finite (powi10 F n) = true /\
  (Rabs (fR (powi10 F n) - bpow radix10 n) <= k * bpow radix10 n)%R.
(** numbers away from the limits of the range of the float type *)
Definition ordinary (bits : Z) (n : bd) : Prop :=
  Z.abs (scale n) <= 300 /\ Z.abs (mant n) <= 2 ^ 1000 /\
  (mant n = 0 \/ let r := if bits =? 32 then 125 else 1000 in (bpow radix2 (- r) <= Rabs (dreal n) <= bpow radix2 r)%R).

(** the literals of an expression *)
Fixpoint lits (e : expr) : list lit :=
  match e with
  | ELit l => [l]
  | EUnary _ a | EParen a | EField a _ => lits a
  | EBinary _ a b => lits a ++ lits b
  | EMethodCall r _ _ args => lits r ++ flat_map lits args
  | _ => []
  end.

(** ** Structure *)
Section Visit.
  Variable f : lit -> res expr.
  Definition lit_visitor : visitor := Visitor def_method f def_path def_field def_paren def_binary def_unary def_expr.
  Lemma visit_relit (P : lit -> expr -> Prop) e : (forall l r, In l (lits e) -> f l = Ok r -> P l r) ->
    forall e', visit lit_visitor e = Ok e' -> relit P e e'.
  Proof.
    induction e using expr_ind_sup; intros HP e' E; cbn in E; unfold def_expr in E; try discriminate; cbn [lits] in HP.
    - constructor. apply HP; [left; reflexivity|exact E].
    - injection E as <-. constructor.
    - unfold def_unary in E. destruct (visit lit_visitor e) eqn:X; cbn in E; try discriminate. injection E as <-. constructor; auto.
    - unfold def_binary in E. destruct (visit lit_visitor e1) eqn:X; cbn in E; try discriminate.
      destruct (visit lit_visitor e2) eqn:Y; cbn in E; try discriminate. injection E as <-.
      constructor; [apply IHe1|apply IHe2]; auto; intros; apply HP; auto; apply in_or_app; auto.
    - unfold def_method in E. destruct (visit lit_visitor e) eqn:X; cbn in E; try discriminate.
      destruct (rseq (map (visit lit_visitor) args)) eqn:Y; cbn in E; try discriminate. injection E as <-.
      constructor; [apply IHe; auto; intros; apply HP; auto; apply in_or_app; auto|].
      assert (HQ : forall l r, In l (flat_map lits args) -> f l = Ok r -> P l r) by (intros; apply HP; auto; apply in_or_app; auto).
      clear - H HQ Y. revert a0 Y. induction H as [|x l Hx _ IH]; intros a0 Y; cbn in Y.
      + injection Y as <-. constructor.
      + destruct (visit lit_visitor x) eqn:Z; cbn in Y; try discriminate.
        destruct (rseq (map (visit lit_visitor) l)) eqn:W; cbn in Y; try discriminate.
        injection Y as <-. cbn [flat_map] in HQ.
        constructor; [apply Hx; auto; intros; apply HQ; auto|apply IH; auto; intros; apply HQ; auto]; apply in_or_app; auto.
    - unfold def_paren in E. destruct (visit lit_visitor e) eqn:X; cbn in E; try discriminate. injection E as <-. constructor; auto.
    - unfold def_field in E. destruct (visit lit_visitor e) eqn:X; cbn in E; try discriminate. injection E as <-. constructor; auto.
  Qed.
  Lemma visit_succeeds e : supported e = true -> (forall l, In l (lits e) -> exists r, f l = Ok r) ->
    exists e', visit lit_visitor e = Ok e'.
  Proof.
    induction e using expr_ind_sup; intros HS HP; cbn [supported] in HS; try discriminate; cbn [lits] in HP; cbn; unfold def_expr.
    - apply HP. left; reflexivity.
    - eexists; reflexivity.
    - destruct (IHe HS HP) as [a ->]. eexists; reflexivity.
    - apply andb_prop in HS. destruct HS as [S1 S2]. destruct (IHe1 S1) as [a ->]; [intros; apply HP, in_or_app; auto|].
      destruct (IHe2 S2) as [b ->]; [intros; apply HP, in_or_app; auto|]. eexists; reflexivity.
    - apply andb_prop in HS. destruct HS as [S1 S2]. destruct (IHe S1) as [a ->]; [intros; apply HP, in_or_app; auto|].
      unfold def_method. cbn.
      assert (HQ : forall l, In l (flat_map lits args) -> exists r, f l = Ok r) by (intros; apply HP; auto; apply in_or_app; auto).
      assert (exists l, rseq (map (visit lit_visitor) args) = Ok l) as [l ->]; [|eexists; reflexivity].
      clear - H HQ S2. induction H as [|x l Hx _ IH]; cbn; [eexists; reflexivity|]. cbn in S2. apply andb_prop in S2. destruct S2 as [S2 S3].
      cbn [flat_map] in HQ. destruct (Hx S2) as [a ->]; [intros; apply HQ, in_or_app; auto|].
      destruct (IH S3) as [b ->]; [intros; apply HQ, in_or_app; auto|]. eexists; reflexivity.
    - destruct (IHe HS HP) as [a ->]. eexists; reflexivity.
    - destruct (IHe HS HP) as [a ->]. eexists; reflexivity.
  Qed.
End Visit.

Lemma relit_same e e' : relit (fun l r => r = ELit l) e e' -> e' = e.
Proof.
  revert e'. induction e using expr_ind_sup; intros e' R; inversion R; subst; try reflexivity; f_equal; auto.
  match goal with G : Forall2 _ args _ |- _ => rename G into G0 end. clear - H G0. revert l' G0.
  induction H as [|x l Hx _ IH]; intros l' G0; inversion G0; subst; [reflexivity|]. f_equal; auto.
Qed.

(** ** Denotation of the replacements *)
Lemma fneg_fabs bits (x : flt bits) : sign x = true -> fneg bits (fabs bits x) = x.
Proof. destruct x; cbn; intros ->; reflexivity. Qed.
Lemma fabs_pos bits (x : flt bits) : sign x = false -> fabs bits x = x.
Proof. destruct x; cbn; intros ->; reflexivity. Qed.
Lemma fabs_fin bits (x : flt bits) : finite (fabs bits x) = finite x /\ sign (fabs bits x) = false.
Proof. destruct x; split; reflexivity. Qed.

Lemma quote_float_denotes F bits (x : flt bits) : bits = 32 \/ bits = 64 -> reads_back F -> finite x = true ->
  exists r, quote_float F bits (float_suffix bits) x = Ok r /\ denotes bits r x.
Proof.
  intros B RB FX. unfold quote_float. rewrite FX. eexists; split; [reflexivity|].
  destruct (fabs_fin bits x) as [F1 F2]. rewrite FX in F1. pose proof (RB bits (fabs bits x) B F1 F2) as L.
  intros no st ch lib call const env. destruct (sign x) eqn:SX; cbn [eval_g]; rewrite L; cbn [rbind].
  - cbn. rewrite fneg_fabs by exact SX. reflexivity.
  - rewrite fabs_pos by exact SX. reflexivity.
Qed.

Lemma parse_zdigits n : 0 <= n -> parse_dec (zdigits n) = Some (BD n 0).
Proof.
  intros N. destruct (zdigits_spec n N) as (A & NE & V).
  pose proof (parse_plain false (zdigits n) [] NE A (Forall_nil _)) as P. unfold plain_text in P. cbn in P.
  rewrite !app_nil_r in P. rewrite P. rewrite V. destruct n; reflexivity.
Qed.
Lemma quote_bits_denotes (x : flt 32) : denotes 32 (quote_bits "u32" (to_bits x)) x.
Proof.
  intros no st ch lib call const env. unfold quote_bits. cbn [eval_g literal].
  rewrite list_ascii_of_string_of_list_ascii. pose proof (to_bits_range 32 x) as R.
  rewrite parse_zdigits by lia. cbn [scale mant Z.eqb negb String.eqb prim Ascii.eqb Bool.eqb].
  assert (I : in_range U32 (to_bits x) = true).
  { unfold in_range, imin, imax, mw, ew in *. cbn in R |- *. apply andb_true_intro. split; apply Z.leb_le; lia. }
  change (prim "u32") with (Some (TInt U32)). cbv iota. rewrite I. cbn [rbind].
  change (resolve lib "f32") with (Some (TFlt 32)). cbv iota. cbn [String.eqb Ascii.eqb Bool.eqb andb Z.eqb Pos.eqb ity_eqb].
  cbn. rewrite of_to_bits. reflexivity.
Qed.

(** ** The values *)
Lemma narrow_value F (x : flt 64) : finite x = true -> (Rabs (RN 32 (fR x)) < bpow radix2 (emax 32))%R ->
  fR (narrow F x) = RN 32 (fR x) /\ finite (narrow F x) = true.
Proof.
  destruct x as [s|s|s pl H|s m e H]; intros FX L; try discriminate.
  - cbn. split; [symmetry; apply round_0; typeclasses eauto|reflexivity].
  - cbn [narrow]. apply (normalize_value 32 (cond_Zopp s (Z.pos m)) e s). exact L.
Qed.
Lemma nearest_round bits v (x : flt bits) : finite x = true -> fR x = RN bits v -> nearest_to v x.
Proof.
  intros FX E. split; [exact FX|]. intros z Z. rewrite E.
  destruct (round_N_pt radix2 (fx bits) (fun t => negb (Z.even t)) v) as [_ N]. apply N. apply fmt_flt.
Qed.

Lemma RN_rel bits x : (bpow radix2 (2 - emax bits) <= Rabs x)%R ->
  exists a, (Rabs a <= bpow radix2 (- prec bits))%R /\ RN bits x = (x * (1 + a))%R.
Proof.
  intros L. destruct (relative_error_N_FLT_ex radix2 (3 - emax bits - prec bits) (prec bits) (prec_gt bits) (fun t => negb (Z.even t)) x) as (a & A & E).
  - replace (3 - emax bits - prec bits + prec bits - 1) with (2 - emax bits) by lia. exact L.
  - exists a. split; [|exact E]. eapply Rle_trans; [exact A|]. rewrite bpow_plus. cbn [bpow]. change (Z.pow_pos radix2 1) with 2. lra.
Qed.
Lemma prod_small x y X Y : (Rabs x <= X)%R -> (Rabs y <= Y)%R -> (Rabs (x * y) <= X * Y)%R.
Proof. intros. rewrite Rabs_mult. apply Rmult_le_compat; auto using Rabs_pos. Qed.
Lemma triple_small a c b U k : (0 <= U <= 1 / 1024)%R -> (0 <= k <= 1 / 1024)%R -> (Rabs a <= U)%R -> (Rabs c <= k)%R -> (Rabs b <= U)%R ->
  (Rabs ((1 + a) * (1 + c) * (1 + b) - 1) <= k + 3 * U)%R.
Proof.
  intros HU HK A C B.
  replace ((1 + a) * (1 + c) * (1 + b) - 1)%R with (c + (a + (b + (a * c + (a * b + (c * b + a * (c * b)))))))%R by ring.
  pose proof (prod_small _ _ _ _ A C) as AC. pose proof (prod_small _ _ _ _ A B) as AB. pose proof (prod_small _ _ _ _ C B) as CB.
  pose proof (prod_small _ _ _ _ A CB) as ACB.
  assert (U * k <= U * (1 / 1024))%R by (apply Rmult_le_compat_l; lra).
  assert (U * U <= U * (1 / 1024))%R by (apply Rmult_le_compat_l; lra).
  assert (k * U <= U * (1 / 1024))%R by (rewrite Rmult_comm; apply Rmult_le_compat_l; lra).
  assert (U * (k * U) <= U * (1 / 1024))%R by (apply Rmult_le_compat_l; lra).
  apply Rabs_le_inv in A, B, C, AC, AB, CB, ACB. apply Rabs_le. lra.
Qed.
Lemma quad_small w c W K : (0 <= W <= 1 / 1024)%R -> (0 <= K <= 1 / 256)%R -> (Rabs (w - 1) <= K)%R -> (Rabs c <= W)%R ->
  (Rabs (w * (1 + c) - 1) <= K + W + W / 256)%R.
Proof.
  intros HW HK A C. replace (w * (1 + c) - 1)%R with ((w - 1) + c + (w - 1) * c)%R by ring.
  pose proof (prod_small _ _ _ _ A C) as AC.
  assert (K * W <= W * (1 / 256))%R by (rewrite Rmult_comm; apply Rmult_le_compat_l; lra).
  apply Rabs_le_inv in A, C, AC. apply Rabs_le. lra.
Qed.

Lemma RN_lt bits x e : prec bits < e <= emax bits -> (Rabs x < bpow radix2 e)%R -> (Rabs (RN bits x) <= bpow radix2 e)%R.
Proof.
  intros E L. apply abs_round_le_generic; [apply fx_valid|apply valid_rnd_N| |lra].
  apply generic_format_bpow. unfold SpecFloat.fexp, SpecFloat.emin. pose proof (prec_pos bits). unfold emax in *. lia.
Qed.
Lemma small_pow2 p : p <= - 10 -> (0 < bpow radix2 p <= 1 / 1024)%R.
Proof.
  intros H. split; [apply bpow_gt_0|]. apply Rle_trans with (bpow radix2 (-10)); [apply bpow_le; exact H|].
  cbn. change (Z.pow_pos 2 10) with 1024. lra.
Qed.

Lemma to_f64_close F k n : powi_within F k -> (0 <= k <= 1 / 1024)%R -> Z.abs (scale n) <= 300 -> Z.abs (mant n) <= 2 ^ 1000 ->
  mant n = 0 \/ (bpow radix2 (-1000) <= Rabs (dreal n) <= bpow radix2 1000)%R ->
  finite (to_f64 F n) = true /\
  exists w, (Rabs (w - 1) <= k + 3 * bpow radix2 (-53))%R /\ fR (to_f64 F n) = (dreal n * w)%R.
Proof.
  intros PW HK HS HM HD. unfold to_f64.
  assert (WR : wrap I32 (- scale n) = - scale n).
  { unfold wrap. change (2 ^ isize I32) with 4294967296. change (2 ^ (isize I32 - 1)) with 2147483648. cbn [signed andb].
    destruct (Z.leb_spec 0 (- scale n)) as [G|G].
    - rewrite Z.mod_small by lia. destruct (Z.leb_spec 2147483648 (- scale n)); try lia; reflexivity.
    - assert (E : - scale n mod 4294967296 = - scale n + 4294967296).
      { symmetry. apply (Z.mod_unique _ _ (-1)); [left; lia|lia]. }
      rewrite E. destruct (Z.leb_spec 2147483648 (- scale n + 4294967296)); lia. }
  rewrite WR. destruct (PW (- scale n) ltac:(lia)) as [PF PC].
  assert (E64 : emax 64 = 1024) by reflexivity. assert (P64 : prec 64 = 53) by reflexivity.
  destruct (small_pow2 (-53) ltac:(lia)) as [U0 U1]. set (U := bpow radix2 (-53)) in *.
  assert (I1 : (Rabs (IZR (mant n)) <= bpow radix2 1000)%R).
  { rewrite <- abs_IZR, <- (IZR_Zpower radix2) by lia. apply IZR_le. exact HM. }
  destruct (of_int_value 64 (mant n)) as [IV IF].
  { apply Rle_lt_trans with (bpow radix2 1001); [apply RN_lt; [rewrite E64, P64; lia|]|apply bpow_lt; rewrite E64; lia].
    eapply Rle_lt_trans; [exact I1|]. apply bpow_lt. lia. }
  set (B := bpow radix10 (- scale n)) in *. assert (B0 : (0 < B)%R) by apply bpow_gt_0.
  destruct (Z.eq_dec (mant n) 0) as [M0|M0].
  - assert (D0 : dreal n = 0%R) by (unfold dreal; rewrite M0; apply Rmult_0_l).
    rewrite M0 in IV. assert (IV0 : fR (of_int 64 (mant n)) = 0%R) by (rewrite M0, IV; apply round_0; typeclasses eauto).
    destruct (fmul_value 64 (nan_for F 64) (of_int 64 (mant n)) (powi10 F (- scale n)) IF PF) as [V Fi].
    { rewrite IV0, Rmult_0_l, round_0, Rabs_R0 by typeclasses eauto. apply bpow_gt_0. }
    split; [exact Fi|]. exists 1%R. split; [rewrite Rminus_diag_eq, Rabs_R0 by reflexivity; lra|].
    rewrite V, IV0, D0, !Rmult_0_l. apply round_0. typeclasses eauto.
  - destruct HD as [HD|[HL HU]]; [contradiction|].
    destruct (RN_rel 64 (IZR (mant n))) as (a & A & EA).
    { rewrite E64, <- abs_IZR. apply Rle_trans with 1%R; [change 1%R with (bpow radix2 0); apply bpow_le; lia|apply IZR_le; lia]. }
    rewrite P64 in A. change (- (53)) with (-53) in A. fold U in A.
    set (c := ((fR (powi10 F (- scale n)) - B) / B)%R).
    assert (C : (Rabs c <= k)%R).
    { unfold c, Rdiv. rewrite Rabs_mult, Rabs_inv, (Rabs_pos_eq B) by lra. apply (Rmult_le_reg_r B); [exact B0|].
      rewrite Rmult_assoc, Rinv_l, Rmult_1_r by lra. exact PC. }
    assert (PE : fR (powi10 F (- scale n)) = (B * (1 + c))%R) by (unfold c; field; lra).
    assert (Y : (fR (of_int 64 (mant n)) * fR (powi10 F (- scale n)) = dreal n * ((1 + a) * (1 + c)))%R).
    { rewrite IV, EA, PE. unfold dreal. fold B. ring. }
    assert (AC : (1 / 2 <= (1 + a) * (1 + c) <= 2)%R).
    { pose proof (prod_small _ _ _ _ A C) as AC. assert (U * k <= 1 / 1024)%R.
      { apply Rle_trans with (1 * (1/1024))%R; [apply Rmult_le_compat; lra|lra]. }
      apply Rabs_le_inv in A, C, AC. split; lra. }
    assert (YL : (bpow radix2 (-1001) <= Rabs (dreal n * ((1 + a) * (1 + c))) <= bpow radix2 1001)%R).
    { rewrite Rabs_mult, (Rabs_pos_eq ((1 + a) * (1 + c))) by lra.
      change (-1001) with (-1000 + -1). change 1001 with (1000 + 1). rewrite !bpow_plus. change (bpow radix2 (-1)) with (/ 2)%R. change (bpow radix2 1) with 2%R.
      split; apply Rmult_le_compat; try lra; try apply Rabs_pos; apply bpow_ge_0. }
    destruct (RN_rel 64 (dreal n * ((1 + a) * (1 + c)))) as (b & Bb & EB).
    { rewrite E64. eapply Rle_trans; [|apply YL]. apply bpow_le. lia. }
    rewrite P64 in Bb. change (- (53)) with (-53) in Bb. fold U in Bb.
    destruct (fmul_value 64 (nan_for F 64) (of_int 64 (mant n)) (powi10 F (- scale n)) IF PF) as [V Fi].
    { rewrite Y. apply Rle_lt_trans with (bpow radix2 1002); [apply RN_lt; [rewrite E64, P64; lia|]|apply bpow_lt; rewrite E64; lia].
      eapply Rle_lt_trans; [apply YL|]. apply bpow_lt. lia. }
    split; [exact Fi|]. exists ((1 + a) * (1 + c) * (1 + b))%R. split.
    + apply triple_small; auto; lra.
    + rewrite V, Y, EB. ring.
Qed.

Lemma to_f32_close F k n : powi_within F k -> (0 <= k <= 1 / 1024)%R -> ordinary 32 n ->
  finite (to_f32 F n) = true /\ (Rabs (fR (to_f32 F n) - dreal n) <= (k + bpow radix2 (-23)) * Rabs (dreal n))%R.
Proof.
  intros PW HK (HS & HM & HD). change (if 32 =? 32 then 125 else 1000) with 125 in HD. cbv zeta in HD.
  destruct (to_f64_close F k n PW HK HS HM) as (F1 & w & W & E1).
  { destruct HD as [HD|[HL HU]]; [left; exact HD|right]. split.
    - eapply Rle_trans; [|exact HL]. apply bpow_le. lia.
    - eapply Rle_trans; [exact HU|]. apply bpow_le. lia. }
  assert (E32 : emax 32 = 128) by reflexivity. assert (P32 : prec 32 = 24) by reflexivity.
  destruct (small_pow2 (-53) ltac:(lia)) as [U0 U1]. destruct (small_pow2 (-24) ltac:(lia)) as [V0 V1].
  assert (UV : (3 * bpow radix2 (-53) <= bpow radix2 (-24) / 4)%R).
  { apply Rle_trans with (4 * bpow radix2 (-53))%R; [lra|]. apply Rle_trans with (bpow radix2 (-51)).
    - change (-51) with (2 + -53). rewrite bpow_plus. change (bpow radix2 2) with 4%R. lra.
    - apply Rle_trans with (bpow radix2 (-26)); [apply bpow_le; lia|]. change (-26) with (-24 + -2). rewrite bpow_plus.
      change (bpow radix2 (-2)) with (/ 4)%R. lra. }
  assert (W2 : (1 / 2 <= w <= 2)%R) by (apply Rabs_le_inv in W; lra).
  unfold to_f32. destruct (Z.eq_dec (mant n) 0) as [M0|M0].
  - assert (D0 : dreal n = 0%R) by (unfold dreal; rewrite M0; apply Rmult_0_l).
    assert (E0 : fR (to_f64 F n) = 0%R) by (rewrite E1, D0; ring).
    destruct (narrow_value F (to_f64 F n) F1) as [V Fi].
    { rewrite E0, round_0, Rabs_R0 by typeclasses eauto. apply bpow_gt_0. }
    split; [exact Fi|]. rewrite V, E0, D0, round_0, Rminus_0_r, Rabs_R0 by typeclasses eauto. lra.
  - destruct HD as [HD|[HL HU]]; [contradiction|].
    change (- (125)) with (-125) in HL.
    assert (YL : (bpow radix2 (-126) <= Rabs (dreal n * w) <= bpow radix2 126)%R).
    { rewrite Rabs_mult, (Rabs_pos_eq w) by lra.
      change (-126) with (-125 + -1). change 126 with (125 + 1). rewrite !bpow_plus. change (bpow radix2 (-1)) with (/ 2)%R. change (bpow radix2 1) with 2%R.
      split; apply Rmult_le_compat; try lra; try apply Rabs_pos; apply bpow_ge_0. }
    destruct (RN_rel 32 (dreal n * w)) as (c & C & EC); [rewrite E32; exact (proj1 YL)|]. rewrite P32 in C. change (- (24)) with (-24) in C.
    destruct (narrow_value F (to_f64 F n) F1) as [V Fi].
    { rewrite E1. apply Rle_lt_trans with (bpow radix2 127); [apply RN_lt; [rewrite E32, P32; lia|]|apply bpow_lt; rewrite E32; lia].
      eapply Rle_lt_trans; [apply YL|]. apply bpow_lt. lia. }
    split; [exact Fi|]. rewrite V, E1, EC.
    replace (dreal n * w * (1 + c) - dreal n)%R with (dreal n * (w * (1 + c) - 1))%R by ring. rewrite Rabs_mult, Rmult_comm.
    apply Rmult_le_compat_r; [apply Rabs_pos|].
    eapply Rle_trans; [apply (quad_small w c (bpow radix2 (-24)) (k + 3 * bpow radix2 (-53))); auto; lra|].
    change (-23) with (-24 + 1). rewrite bpow_plus. change (bpow radix2 1) with 2%R. lra.
Qed.

(** ** Numbers in an expression *)
(** the float type is told by the mode, and the mode is one that works *)
Definition working (kind : string) (bits : Z) : Prop :=
  (kind = "decimal" /\ (bits = 32 \/ bits = 64)) \/ (kind = "hex" /\ bits = 32).
Definition unit_of (bits : Z) : R := if bits =? 32 then bpow radix2 (-23) else (3 * bpow radix2 (-53))%R.

Lemma working_bits kind bits : working kind bits -> bits = 32 \/ bits = 64.
Proof. unfold working. tauto. Qed.
Definition converted F (bits : Z) (n : bd) : flt bits :=
  match Z.eq_dec bits 32 with
  | left E => eq_rect 32 flt (to_f32 F n) bits (eq_sym E)
  | right _ => match Z.eq_dec bits 64 with left E => eq_rect 64 flt (to_f64 F n) bits (eq_sym E) | right _ => B754_zero _ _ false end
  end.

Lemma retype_denotes F kind bits l n : working kind bits -> reads_back F -> is_number l = true -> number_of l = Some n ->
  finite (converted F bits n) = true ->
  exists r, retype_lit F kind bits l = Ok r /\ denotes bits r (converted F bits n).
Proof.
  intros W RB L N. unfold retype_lit, retype, number_of in *. destruct l as [d s|d s|b|t]; try discriminate; rewrite N.
  all: destruct W as [[-> [-> | ->]]|[-> ->]]; cbn [String.eqb Ascii.eqb Bool.eqb andb Z.eqb Pos.eqb].
  all: try (change (converted F 32 n) with (to_f32 F n)); try (change (converted F 64 n) with (to_f64 F n)); intros FX.
  all: try (change "f32" with (float_suffix 32); apply quote_float_denotes; auto; fail).
  all: try (change "f64" with (float_suffix 64); apply quote_float_denotes; auto; fail).
  all: eexists; split; [reflexivity|]; apply quote_bits_denotes.
Qed.

Lemma converted_close F k bits n : bits = 32 \/ bits = 64 -> powi_within F k -> (0 <= k <= 1 / 1024)%R -> ordinary bits n ->
  finite (converted F bits n) = true /\ (Rabs (fR (converted F bits n) - dreal n) <= (k + unit_of bits) * Rabs (dreal n))%R.
Proof.
  intros [-> | ->] PW HK O.
  - change (converted F 32 n) with (to_f32 F n). exact (to_f32_close F k n PW HK O).
  - change (converted F 64 n) with (to_f64 F n). destruct O as (HS & HM & HD). change (if 64 =? 32 then 125 else 1000) with 1000 in HD. cbv zeta in HD.
    destruct (to_f64_close F k n PW HK HS HM HD) as (F1 & w & W & E). split; [exact F1|]. rewrite E.
    replace (dreal n * w - dreal n)%R with (dreal n * (w - 1))%R by ring. rewrite Rabs_mult, Rmult_comm.
    apply Rmult_le_compat_r; [apply Rabs_pos|]. exact W.
Qed.

(** integers *)
Lemma converted_int F bits m : bits = 32 \/ bits = 64 -> finite (powi10 F 0) = true -> fR (powi10 F 0) = 1%R ->
  (if bits =? 32 then Z.abs m <= 2 ^ 53 else Z.abs m <= 2 ^ 1023) ->
  nearest_to (IZR m) (converted F bits (BD m 0)).
Proof.
  intros B PF P1 M.
  assert (T : Z.abs m <= 2 ^ 1023 -> finite (to_f64 F (BD m 0)) = true /\ fR (to_f64 F (BD m 0)) = RN 64 (IZR m)).
  { intros ME. assert (L : (Rabs (RN 64 (IZR m)) < bpow radix2 (emax 64))%R).
    { change (emax 64) with 1024. apply Rle_lt_trans with (bpow radix2 1023); [|apply bpow_lt; lia].
      apply abs_round_le_generic; [apply fx_valid|apply valid_rnd_N| |].
      - apply generic_format_bpow. unfold SpecFloat.fexp, SpecFloat.emin. change (prec 64) with 53. change (emax 64) with 1024. lia.
      - rewrite <- abs_IZR, <- (IZR_Zpower radix2) by lia. apply IZR_le. exact ME. }
    destruct (of_int_value 64 m L) as [IV IF].
    assert (E : RN 64 (fR (of_int 64 m) * fR (powi10 F 0)) = RN 64 (IZR m)).
    { rewrite P1, Rmult_1_r, IV. apply round_generic; [apply valid_rnd_N|]. apply generic_format_round; [apply fx_valid|apply valid_rnd_N]. }
    unfold to_f64. cbn [mant scale]. change (wrap I32 (- 0)) with 0.
    destruct (fmul_value 64 (nan_for F 64) (of_int 64 m) (powi10 F 0) IF PF) as [V Fi]; [rewrite E; exact L|].
    rewrite V, E. auto. }
  destruct B as [-> | ->].
  - change (32 =? 32) with true in M. cbv iota in M. change (converted F 32 (BD m 0)) with (to_f32 F (BD m 0)).
    destruct T as [F1 E1]; [eapply Z.le_trans; [exact M|apply Z.pow_le_mono_r; lia]|].
    rewrite (RN_int 64 m M) in E1. unfold to_f32.
    destruct (narrow_value F (to_f64 F (BD m 0)) F1) as [V Fi].
    { rewrite E1. apply Rle_lt_trans with (bpow radix2 54); [apply RN_lt|apply bpow_lt].
      - change (prec 32) with 24. change (emax 32) with 128. lia.
      - rewrite <- abs_IZR, <- (IZR_Zpower radix2) by lia. apply IZR_lt. eapply Z.le_lt_trans; [exact M|]. reflexivity.
      - change (emax 32) with 128. lia. }
    apply nearest_round; [exact Fi|]. rewrite V, E1. reflexivity.
  - change (64 =? 32) with false in M. cbv iota in M. change (converted F 64 (BD m 0)) with (to_f64 F (BD m 0)).
    destruct (T M) as [F1 E1]. apply nearest_round; assumption.
Qed.
