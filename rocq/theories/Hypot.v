(** The generated hypot (recip_sqrt.rs:78-89, [code_hypot] in GenCode.v): what
    running it computes ([hypot_of]), and how far that is from the length. *)
From Coq Require Import List String Bool ZArith Reals Ascii Lia Lra.
From Flocq Require Import Core Relative IEEE754.BinarySingleNaN IEEE754.Binary.
From Verif Require Import Res Dec DecStr Syntax Item FloatBits NumberTypeFacts GenCode GenCodeFacts GenSem GenRun GenFloat GenFloat2 GenFloat4 ExpFloat SignFacts GenSym GenSym2.
From Coq Require Import Lra.
Import ListNotations.
Open Scope string_scope.
Open Scope list_scope.
Open Scope R_scope.

#[local] Arguments bin_op bits nan_of checked !op !a !b /.
#[local] Arguments declare bits !t !a /.
#[local] Arguments cast bits !t !a /.
#[local] Arguments method bits nan_of std m !recv args /.
Section Reals.
  Lemma sqrt_near a b e : 1 <= a -> 1 <= b -> Rabs (a - b) <= e -> Rabs (sqrt a - sqrt b) <= e / 2.
  Proof.
    intros A B D. assert (SA : 1 <= sqrt a) by (rewrite <- sqrt_1; apply sqrt_le_1; lra). assert (SB : 1 <= sqrt b) by (rewrite <- sqrt_1; apply sqrt_le_1; lra).
    assert (E : a - b = (sqrt a - sqrt b) * (sqrt a + sqrt b)).
    { pose proof (sqrt_sqrt a ltac:(lra)). pose proof (sqrt_sqrt b ltac:(lra)). nra. }
    rewrite E, Rabs_mult, (Rabs_pos_eq (sqrt a + sqrt b)) in D by lra. pose proof (Rabs_pos (sqrt a - sqrt b)). nra.
  Qed.
  Lemma sqrt_scale x y : x <> 0 -> sqrt (x * x + y * y) = Rabs x * sqrt (1 + (y / x) * (y / x)).
  Proof.
    intros N. replace (x * x + y * y) with (Rabs x * Rabs x * (1 + (y / x) * (y / x))).
    - rewrite sqrt_mult_alt by (apply Rle_0_sqr). rewrite sqrt_square by apply Rabs_pos. reflexivity.
    - rewrite <- Rabs_mult, Rabs_pos_eq by apply Rle_0_sqr. field. exact N.
  Qed.
End Reals.
Section Hypot.
  Variables (bits : Z) (sub : string -> expr) (lib : list item).
  Hypothesis HB : (bits = 32 \/ bits = 64)%Z.
  Notation H := (has bits sub lib).
  Variable nan_of : list (flt bits) -> { x : flt bits | Binary.is_nan (prec bits) (emax bits) x = true }.
  Variable std : string -> list (flt bits) -> option (flt bits).
  Variable checked : bool.
  Notation R := (run bits nan_of std checked lib).
  Notation C := (const_of bits nan_of std checked lib).
  Notation u := (bpow radix2 (- prec bits)).
  Notation top := (bpow radix2 (emax bits)).
  Notation tiny := (bpow radix2 (2 - emax bits)).
  Ltac go := cbn [eval_g lookup String.eqb Ascii.eqb Bool.eqb rbind method flts_of flt_of bin_op un_op flt_op is_rel
    hd_error code bind_params].
  Definition fle (x y : flt bits) : bool := match fcmp bits x y with Some (Lt | Eq) => true | _ => false end.
  Lemma relate_le x y : relate BLe (fcmp bits x y) = Ok (fle x y).
  Proof. unfold fle. destruct (fcmp bits x y) as [[]|]; reflexivity. Qed.
  Notation unit := (of_decimal bits (BD 10 1)).
  Definition long (x y : flt bits) : flt bits :=
    fmul bits nan_of (fabs bits x) (fsqrt bits nan_of (fadd bits nan_of unit (fmul bits nan_of (fdiv bits nan_of y x) (fdiv bits nan_of y x)))).
  Definition hypot_of (x y : flt bits) : flt bits :=
    if fgt bits (fabs bits x) (fabs bits y) then if fle (fabs bits x) (min_positive bits) then x else long x y
    else if fle (fabs bits y) (min_positive bits) then y else long y x.
  Lemma run_hypot d x y : H "fty" -> H "MIN_POSITIVE" -> H "hypot" -> R (S d) "hypot" [VFlt x; VFlt y] = Ok (VFlt (hypot_of x y)).
  Proof.
    intros hf hm hs. unfold hypot_of, long. rewrite run_S, hs. go. unfold code_hypot. go. rewrite (res_fty bits sub lib HB hf), !decl_flt. go. rewrite relate_gt. go. change (resolve lib "bool") with (Some TBool). cbn [declare]. go.
    destruct (fgt bits (fabs bits x) (fabs bits y)); go; rewrite ?decl_flt; go; rewrite ?decl_flt; go; rewrite (c_tiny bits sub lib HB nan_of std checked hm); go; rewrite relate_le; go;
      change (literal bits (LFloat "1.0" "")) with (@Ok (val bits) (VLitF unit)); (destruct (fle _ _); go; rewrite ?decl_flt; reflexivity).
  Qed.
  Lemma u_small : 0 < u <= / 1024.
  Proof. split; [apply bpow_gt_0|]. apply Rle_trans with (bpow radix2 (-10)); [apply bpow_le; destruct HB as [-> | ->]; vm_compute; discriminate|]. cbn. lra. Qed.
  Lemma RN_near v : Rabs (RN bits v - v) <= u * Rabs v + u * u.
  Proof.
    destruct (error_N_FLT radix2 (3 - emax bits - prec bits) (prec bits) (prec_gt bits) (fun t => negb (Z.even t)) v) as (a & b & A & B & _ & E).
    assert (E' : RN bits v = v * (1 + a) + b) by exact E. rewrite E'. replace (v * (1 + a) + b - v) with (a * v + b) by ring.
    apply Rle_trans with (1 := Rabs_triang _ _). rewrite Rabs_mult.
    assert (U : / 2 * bpow radix2 (- prec bits + 1) = u) by (rewrite bpow_plus; cbn [bpow]; change (Z.pow_pos radix2 1) with 2%Z; lra). rewrite U in A.
    assert (Q : / 2 * bpow radix2 (3 - emax bits - prec bits) <= u * u).
    { rewrite <- bpow_plus. apply Rle_trans with (bpow radix2 (3 - emax bits - prec bits)); [pose proof (bpow_gt_0 radix2 (3 - emax bits - prec bits)); lra|]. apply bpow_le. destruct HB as [-> | ->]; vm_compute; discriminate. }
    pose proof (Rabs_pos v). nra.
  Qed.
  Lemma fsqrt_value (x : flt bits) : finite x = true -> 0 < fR x -> fR (fsqrt bits nan_of x) = RN bits (sqrt (fR x)) /\ finite (fsqrt bits nan_of x) = true.
  Proof.
    intros Fx P. destruct (Binary.Bsqrt_correct _ _ (prec_gt bits) (prec_lt bits) (fun a => nan_of [a]) mode_NE x) as (A & B & _). split; [exact A|].
    unfold fsqrt. rewrite B. destruct x as [s|s|s pl h|s m e h]; try discriminate; [reflexivity|]. destruct s; [|reflexivity]. exfalso. pose proof (F2R_lt_0 radix2 (Float radix2 (Z.neg m) e) ltac:(reflexivity)) as K. cbn in P. lra.
  Qed.
  Lemma fabs_value (x : flt bits) : fR (fabs bits x) = Rabs (fR x) /\ finite (fabs bits x) = finite x.
  Proof. destruct x as [s|s|s pl h|s m e h]; try (cbn; rewrite ?Rabs_R0; auto). unfold fR. cbn [fabs set_sign Binary.B2R]. rewrite <- F2R_Zabs. destruct s; auto. Qed.
  Lemma tiny_value : fR (min_positive bits) = tiny /\ finite (min_positive bits) = true.
  Proof.
    unfold min_positive. destruct HB as [-> | ->]; (split; [|vm_compute; reflexivity]).
    - rewrite <- Binary.FF2R_B2FF. replace (Binary.B2FF _ _ (of_bits 32 (2 ^ mw 32))) with (Binary.F754_finite false 8388608 (-149)) by (vm_compute; reflexivity).
      cbn [Binary.FF2R cond_Zopp]. unfold F2R. cbn [Fnum Fexp]. change (IZR 8388608) with (bpow radix2 23). rewrite <- bpow_plus. reflexivity.
    - rewrite <- Binary.FF2R_B2FF. replace (Binary.B2FF _ _ (of_bits 64 (2 ^ mw 64))) with (Binary.F754_finite false 4503599627370496 (-1074)) by (vm_compute; reflexivity).
      cbn [Binary.FF2R cond_Zopp]. unfold F2R. cbn [Fnum Fexp]. change (IZR 4503599627370496) with (bpow radix2 52). rewrite <- bpow_plus. reflexivity.
  Qed.
  Lemma unit_value : fR unit = 1 /\ finite unit = true.
  Proof.
    unfold of_decimal. destruct HB as [-> | ->]; (split; [rewrite <- Binary.FF2R_B2FF|vm_compute; reflexivity]).
    - replace (Binary.B2FF _ _ _) with (Binary.F754_finite false 8388608 (-23)) by (vm_compute; reflexivity). cbn [Binary.FF2R cond_Zopp]. unfold F2R. cbn [Fnum Fexp]. change (IZR 8388608) with (bpow radix2 23). rewrite <- bpow_plus. reflexivity.
    - replace (Binary.B2FF _ _ _) with (Binary.F754_finite false 4503599627370496 (-52)) by (vm_compute; reflexivity). cbn [Binary.FF2R cond_Zopp]. unfold F2R. cbn [Fnum Fexp]. change (IZR 4503599627370496) with (bpow radix2 52). rewrite <- bpow_plus. reflexivity.
  Qed.
  Lemma below_top z : (0 <= z <= 4)%Z -> IZR z < top.
  Proof. intros Z. apply prec_lt_pow. destruct HB as [-> | ->]; change (2 ^ prec 32)%Z with 16777216%Z || change (2 ^ prec 64)%Z with 9007199254740992%Z; lia. Qed.
  Lemma RN_keep v z : (0 <= z <= 4)%Z -> Rabs v <= IZR z -> Rabs (RN bits v) <= IZR z.
  Proof. intros Z L. apply RN_bound; [exact L|]. destruct HB as [-> | ->]; change (2 ^ prec 32)%Z with 16777216%Z || change (2 ^ prec 64)%Z with 9007199254740992%Z; lia. Qed.
  Lemma RN_1 : RN bits 1 = 1.
  Proof. apply (RN_int bits 1). destruct HB as [-> | ->]; vm_compute; discriminate. Qed.
  Lemma RN_0 : RN bits 0 = 0.
  Proof. apply round_0. typeclasses eauto. Qed.
  Lemma quot_value (x y : flt bits) : finite x = true -> fR y <> 0 -> Rabs (RN bits (fR x / fR y)) < top ->
    fR (fdiv bits nan_of x y) = RN bits (fR x / fR y) /\ finite (fdiv bits nan_of x y) = true.
  Proof. intros Fx Ny L. pose proof (fdiv_rounded bits nan_of x y Fx Ny) as K. unfold rounded in K. rewrite Rlt_bool_true in K by exact L. tauto. Qed.
  (** the larger argument times the root *)
  Theorem long_accuracy (x y : flt bits) : finite x = true -> finite y = true -> Rabs (fR y) <= Rabs (fR x) -> tiny <= Rabs (fR x) ->
    sqrt (fR x * fR x + fR y * fR y) <= (1 - 8 * u) * top ->
    finite (long x y) = true /\ Rabs (fR (long x y) - sqrt (fR x * fR x + fR y * fR y)) <= 5 * u * sqrt (fR x * fR x + fR y * fR y).
  Proof.
    intros Fx Fy L T O. pose proof u_small as U. assert (UU : u * u <= / 1024 * u) by (apply Rmult_le_compat_r; lra). assert (TP : 0 < tiny) by apply bpow_gt_0. assert (N : fR x <> 0) by (intros Z; rewrite Z, Rabs_R0 in T; lra).
    rewrite (sqrt_scale _ _ N) in *. set (X := Rabs (fR x)) in *. assert (XP : 0 < X) by lra. set (p := fR y / fR x) in *.
    assert (P1 : Rabs p <= 1). { unfold p, Rdiv. rewrite Rabs_mult, Rabs_inv. fold X. apply (Rmult_le_reg_r X); [exact XP|]. rewrite Rmult_assoc, Rinv_l by lra. lra. }
    (* the quotient *)
    assert (Q1 : Rabs (RN bits p) <= 1) by (apply (RN_keep p 1); [lia|exact P1]).
    destruct (quot_value y x Fy N) as [Qv Qf]; [fold p; apply Rle_lt_trans with (1 := Q1), (below_top 1); lia|]. fold p in Qv.
    pose proof (RN_near p) as Qe. unfold long. set (q := fdiv bits nan_of y x) in *. clearbody q. rewrite <- Qv in Q1, Qe.
    (* its square *)
    assert (S1 : Rabs (fR q * fR q) <= 1) by (rewrite Rabs_mult; pose proof (Rabs_pos (fR q)); nra).
    assert (S2 : Rabs (RN bits (fR q * fR q)) <= 1) by (apply (RN_keep _ 1); [lia|exact S1]).
    destruct (fmul_value bits nan_of q q Qf Qf) as [Sv Sf]; [apply Rle_lt_trans with (1 := S2), (below_top 1); lia|].
    pose proof (RN_near (fR q * fR q)) as Se. assert (S0 : 0 <= RN bits (fR q * fR q)) by (rewrite <- RN_0; apply RN_le, Rle_0_sqr).
    set (s := fmul bits nan_of q q) in *. clearbody s. rewrite <- Sv in S2, Se, S0. rewrite Rabs_pos_eq in S2 by exact S0.
    (* one more *)
    destruct unit_value as [V1 F1]. set (un := unit) in *. clearbody un.
    assert (T1 : Rabs (RN bits (fR un + fR s)) <= 2) by (apply (RN_keep _ 2); [lia|rewrite V1, Rabs_pos_eq; lra]).
    destruct (fadd_value bits nan_of un s F1 Sf) as [Tv Tf]; [apply Rle_lt_trans with (1 := T1), (below_top 2); lia|]. rewrite V1 in Tv, T1.
    pose proof (RN_near (1 + fR s)) as Te. rewrite (Rabs_pos_eq (1 + fR s)) in Te by lra.
    assert (T0 : 1 <= RN bits (1 + fR s)) by (rewrite <- RN_1 at 1; apply RN_le; lra).
    set (t := fadd bits nan_of un s) in *. clearbody t. rewrite <- Tv in T1, Te, T0. rewrite Rabs_pos_eq in T1 by lra.
    (* the root *)
    destruct (fsqrt_value t Tf ltac:(lra)) as [Rv Rf]. set (r := fsqrt bits nan_of t) in *. clearbody r.
    assert (D : Rabs (fR t - (1 + p * p)) <= (5 + / 100) * u).
    { assert (A1 : Rabs (fR q - p) <= u + u * u) by (apply Rle_trans with (1 := Qe); assert (u * Rabs p <= u * 1) by (apply Rmult_le_compat_l; lra); lra).
      assert (A2 : Rabs (fR q * fR q - p * p) <= 2 * (u + u * u)).
      { replace (fR q * fR q - p * p) with ((fR q - p) * (fR q + p)) by ring. rewrite Rabs_mult. pose proof (Rabs_triang (fR q) p). pose proof (Rabs_pos (fR q - p)). apply Rle_trans with ((u + u * u) * 2); [|lra]. apply Rmult_le_compat; try lra. apply Rabs_pos. }
      assert (A3 : Rabs (fR s - fR q * fR q) <= u + u * u) by (apply Rle_trans with (1 := Se); assert (u * Rabs (fR q * fR q) <= u * 1) by (apply Rmult_le_compat_l; lra); lra).
      assert (A4 : Rabs (fR t - (1 + fR s)) <= 2 * u + u * u) by (apply Rle_trans with (1 := Te); assert (u * (1 + fR s) <= u * 2) by (apply Rmult_le_compat_l; lra); lra).
      apply Rabs_le_inv in A2, A3, A4. apply Rabs_le. lra. }
    assert (PP : 0 <= p * p) by apply Rle_0_sqr. set (S := sqrt (1 + p * p)) in *. assert (SP : 1 <= S) by (unfold S; rewrite <- sqrt_1 at 1; apply sqrt_le_1; lra).
    assert (P2 : 1 <= 1 + p * p) by lra. pose proof (sqrt_near _ _ _ T0 P2 D) as D2. fold S in D2.
    pose proof (RN_near (sqrt (fR t))) as Re. rewrite <- Rv in Re.
    assert (ST : 1 <= sqrt (fR t) <= 1.415).
    { split; [rewrite <- sqrt_1 at 1; apply sqrt_le_1; lra|]. apply Rle_trans with (sqrt (1.415 * 1.415)); [apply sqrt_le_1; lra|rewrite sqrt_square; lra]. }
    rewrite (Rabs_pos_eq (sqrt (fR t))) in Re by lra. assert (D3 : Rabs (fR r - S) <= 3.93 * u * S). { assert (A5 : u * sqrt (fR t) <= 1.415 * u) by nra. assert (A6 : u <= u * S) by nra. apply Rabs_le_inv in D2, Re. apply Rabs_le. lra. }
    assert (R1 : 1 <= fR r) by (rewrite Rv, <- RN_1 at 1; apply RN_le; lra).
    (* the product *)
    destruct (fabs_value x) as [Av Af]. rewrite Fx in Af. set (a := fabs bits x) in *. clearbody a. fold X in Av.
    destruct (RN_rel bits (X * fR r)) as (e & Ee & Ev); [assert (X * 1 <= X * fR r) by (apply Rmult_le_compat_l; lra); rewrite Rabs_pos_eq by lra; lra|].
    assert (XS : 0 < X * S) by (apply Rmult_lt_0_compat; lra). assert (B : Rabs (RN bits (X * fR r) - X * S) <= 5 * u * (X * S)).
    { rewrite Ev. replace (X * fR r * (1 + e) - X * S) with (X * ((fR r - S) + e * S + e * (fR r - S))) by ring. rewrite Rabs_mult, (Rabs_pos_eq X) by lra.
      replace (5 * u * (X * S)) with (X * (5 * u * S)) by ring. apply Rmult_le_compat_l; [lra|]. apply Rle_trans with (1 := Rabs_triang _ _). apply Rle_trans with (Rabs (fR r - S) + Rabs (e * S) + Rabs (e * (fR r - S))); [apply Rplus_le_compat_r, Rabs_triang|].
      rewrite !Rabs_mult, (Rabs_pos_eq S) by lra. pose proof (Rabs_pos e). pose proof (Rabs_pos (fR r - S)). set (dd := Rabs (fR r - S)) in *. set (ee := Rabs e) in *. clearbody dd ee. assert (ee * dd <= u * dd) by (apply Rmult_le_compat_r; lra). assert (ee * S <= u * S) by (apply Rmult_le_compat_r; lra). assert (u * dd <= / 1024 * dd) by (apply Rmult_le_compat_r; lra). assert (0 < u * S) by (apply Rmult_lt_0_compat; lra). lra. }
    assert (W : Rabs (RN bits (X * fR r)) < top).
    { apply Rle_lt_trans with ((1 + 5 * u) * (X * S)); [apply Rabs_le_inv in B; rewrite Rabs_pos_eq; [lra|]; rewrite <- RN_0; apply RN_le, Rmult_le_pos; lra|].
      assert (TT : 0 < top) by apply bpow_gt_0. apply Rle_lt_trans with ((1 + 5 * u) * ((1 - 8 * u) * top)); [apply Rmult_le_compat_l; lra|]. assert (K : (1 + 5 * u) * (1 - 8 * u) < 1) by nra. rewrite <- Rmult_assoc. rewrite <- (Rmult_1_l top) at 2. apply Rmult_lt_compat_r; assumption. }
    rewrite <- Av in W, B. destruct (fmul_value bits nan_of a r Af Rf W) as [Hv Hf]. split; [exact Hf|]. rewrite Hv. rewrite Av in B at 2. rewrite Av in B at 2. exact B.
  Qed.
  Lemma fle_value (x y : flt bits) : finite x = true -> finite y = true -> fle x y = negb (Rlt_bool (fR y) (fR x)).
  Proof.
    intros Fx Fy. unfold fle, fcmp. rewrite (Binary.Bcompare_correct _ _ x y Fx Fy). unfold Rlt_bool. change (Binary.B2R _ _ x) with (fR x). change (Binary.B2R _ _ y) with (fR y). rewrite (Rcompare_sym (fR y) (fR x)). destruct (Rcompare (fR x) (fR y)); reflexivity.
  Qed.
  (** five units in the last place, when the larger magnitude exceeds MIN_POSITIVE *)
  Theorem hypot_accuracy (x y : flt bits) : finite x = true -> finite y = true -> tiny < Rmax (Rabs (fR x)) (Rabs (fR y)) ->
    sqrt (fR x * fR x + fR y * fR y) <= (1 - 8 * u) * top ->
    finite (hypot_of x y) = true /\ Rabs (fR (hypot_of x y) - sqrt (fR x * fR x + fR y * fR y)) <= 5 * u * sqrt (fR x * fR x + fR y * fR y).
  Proof.
    intros Fx Fy M O. destruct (fabs_value x) as [Vx Gx]. destruct (fabs_value y) as [Vy Gy]. destruct tiny_value as [Vt Ft]. rewrite Fx in Gx. rewrite Fy in Gy.
    unfold hypot_of. rewrite (fgt_value bits _ _ Gx Gy), (fle_value _ _ Gx Ft), (fle_value _ _ Gy Ft), Vx, Vy, Vt. destruct (Rlt_bool_spec (Rabs (fR y)) (Rabs (fR x))) as [L|L].
    - rewrite Rmax_left in M by lra. rewrite Rlt_bool_true by exact M. cbn [negb]. apply long_accuracy; try assumption; lra.
    - rewrite Rmax_right in M by lra. rewrite Rlt_bool_true by exact M. cbn [negb]. rewrite Rplus_comm in *. apply long_accuracy; try assumption; lra.
  Qed.
  (** otherwise one of the arguments *)
  Theorem hypot_tiny (x y : flt bits) : finite x = true -> finite y = true -> Rabs (fR x) <= tiny -> Rabs (fR y) <= tiny ->
    (Rabs (fR y) < Rabs (fR x) -> hypot_of x y = x) /\ (Rabs (fR x) <= Rabs (fR y) -> hypot_of x y = y).
  Proof.
    intros Fx Fy Lx Ly. destruct (fabs_value x) as [Vx Gx]. destruct (fabs_value y) as [Vy Gy]. destruct tiny_value as [Vt Ft]. rewrite Fx in Gx. rewrite Fy in Gy.
    unfold hypot_of. rewrite (fgt_value bits _ _ Gx Gy), (fle_value _ _ Gx Ft), (fle_value _ _ Gy Ft), Vx, Vy, Vt. rewrite (Rlt_bool_false tiny (Rabs (fR x))), (Rlt_bool_false tiny (Rabs (fR y))) by assumption. cbn [negb].
    split; intros L; [rewrite Rlt_bool_true by exact L|rewrite Rlt_bool_false by exact L]; reflexivity.
  Qed.
  (** ** signs and order *)
  Lemma fsqrt_same t t' : same t t' -> same (fsqrt bits nan_of t) (fsqrt bits nan_of t').
  Proof. intros [->|[A B]]; [left; reflexivity|right]. destruct t; try discriminate A. destruct t'; try discriminate B. split; reflexivity. Qed.
  Lemma long_signs x y x' y' : x' = x \/ x' = fneg bits x -> y' = y \/ y' = fneg bits y -> same (long x y) (long x' y').
  Proof.
    intros X Y. unfold long. assert (A : fabs bits x' = fabs bits x) by (destruct X as [->| ->]; [|apply fabs_fneg]; reflexivity). rewrite A.
    apply fmul_same; [left; reflexivity|]. apply fsqrt_same, fadd_same; [left; reflexivity|].
    assert (Q : same (fdiv bits nan_of y x) (fdiv bits nan_of y' x') \/ negative (fdiv bits nan_of y x) (fdiv bits nan_of y' x')).
    { destruct X as [->| ->], Y as [->| ->].
      - left. left. reflexivity.
      - right. apply fdiv_neg.
      - right. apply fdiv_neg.
      - left. apply fdiv_both; left; reflexivity. }
    destruct Q as [Q|Q]; [apply fmul_same; exact Q|apply fmul_both; exact Q].
  Qed.
  Lemma same_size (x y : flt bits) : Rabs (fR x) = Rabs (fR y) -> 0 < Rabs (fR x) -> y = x \/ y = fneg bits x.
  Proof.
    intros E P. assert (Nx : fR x <> 0) by (intros Z; rewrite Z, Rabs_R0 in P; lra). assert (Ny : fR y <> 0) by (intros Z; rewrite Z, Rabs_R0 in E; lra).
    assert (St : forall z : flt bits, fR z <> 0 -> Binary.is_finite_strict _ _ z = true) by (intros [] N; cbn in N; try reflexivity; destruct N; reflexivity).
    assert (V : fR (fneg bits x) = - fR x) by (destruct (fneg_value bits x) as [V _]; exact V). assert (Nn : fR (fneg bits x) <> 0) by (rewrite V; intros Z; apply Nx; lra).
    assert (D : fR y = fR x \/ fR y = - fR x).
    { destruct (Rcase_abs (fR x)) as [A|A], (Rcase_abs (fR y)) as [B|B]; rewrite ?(Rabs_left _ A), ?(Rabs_right _ A), ?(Rabs_left _ B), ?(Rabs_right _ B) in E; lra. }
    destruct D as [D|D]; [left|right]; (apply Binary.B2R_inj; [apply St; assumption|apply St; assumption|]); [exact D|rewrite <- V in D; exact D].
  Qed.
  Theorem hypot_symmetric (x y x' y' : flt bits) : finite x = true -> finite y = true -> tiny < Rmax (Rabs (fR x)) (Rabs (fR y)) ->
    x' = x \/ x' = fneg bits x -> y' = y \/ y' = fneg bits y -> same (hypot_of x y) (hypot_of x' y') /\ same (hypot_of x y) (hypot_of y' x').
  Proof.
    intros Fx Fy M X Y. destruct (fabs_value x) as [Vx Gx]. destruct (fabs_value y) as [Vy Gy]. destruct tiny_value as [Vt Ft]. rewrite Fx in Gx. rewrite Fy in Gy.
    assert (TP : 0 < tiny) by apply bpow_gt_0.
    assert (A : fabs bits x' = fabs bits x) by (destruct X as [->| ->]; [|apply fabs_fneg]; reflexivity). assert (B : fabs bits y' = fabs bits y) by (destruct Y as [->| ->]; [|apply fabs_fneg]; reflexivity).
    unfold hypot_of. rewrite A, B, (fgt_value bits _ _ Gx Gy), (fgt_value bits _ _ Gy Gx), (fle_value _ _ Gx Ft), (fle_value _ _ Gy Ft), Vx, Vy, Vt.
    destruct (Rtotal_order (Rabs (fR x)) (Rabs (fR y))) as [L|[L|L]].
    - rewrite Rmax_right in M by lra. rewrite (Rlt_bool_true tiny (Rabs (fR y))), (Rlt_bool_false (Rabs (fR y))), (Rlt_bool_true (Rabs (fR x))) by lra. cbn [negb]. split; apply long_signs; assumption.
    - rewrite Rmax_right in M by lra. rewrite L, (Rlt_bool_true tiny (Rabs (fR y))), !(Rlt_bool_false (Rabs (fR y))) by lra. cbn [negb]. split; [apply long_signs; assumption|].
      assert (D : y = x \/ y = fneg bits x) by (apply same_size; lra). apply long_signs.
      + destruct X as [->| ->], D as [->| ->]; rewrite ?fneg_fneg; tauto.
      + destruct Y as [->| ->], D as [->| ->]; rewrite ?fneg_fneg; tauto.
    - rewrite Rmax_left in M by lra. rewrite (Rlt_bool_true tiny (Rabs (fR x))), (Rlt_bool_true (Rabs (fR y))), (Rlt_bool_false (Rabs (fR x))) by lra. cbn [negb]. split; apply long_signs; assumption.
  Qed.
  (** ** infinities *)
  Notation infinity s := (Binary.B754_infinity (prec bits) (emax bits) s).
  Theorem hypot_infinite s (y : flt bits) : finite y = true -> hypot_of (infinity s) y = infinity false /\ hypot_of y (infinity s) = infinity false.
  Proof.
    intros F. assert (L : long (infinity s) y = infinity false).
    { assert (Q : exists t, fdiv bits nan_of y (infinity s) = Binary.B754_zero _ _ t) by (destruct y; try discriminate F; eexists; reflexivity).
      destruct Q as (t & Q). unfold long. rewrite Q. clear - HB. destruct HB as [-> | ->]; destruct t; apply Binary.B2FF_inj; vm_compute; reflexivity. }
    unfold hypot_of. assert (A : fgt bits (fabs bits (infinity s)) (fabs bits y) = true) by (destruct y; try discriminate F; reflexivity).
    assert (B : fgt bits (fabs bits y) (fabs bits (infinity s)) = false) by (destruct y; try discriminate F; reflexivity).
    assert (D : fle (fabs bits (infinity s)) (min_positive bits) = false) by (unfold fle; clear - HB; destruct HB as [-> | ->]; vm_compute; reflexivity).
    rewrite A, B, D. split; exact L.
  Qed.
  Theorem hypot_infinities s t : isnan (hypot_of (infinity s) (infinity t)) = true.
  Proof.
    unfold hypot_of. change (fgt bits (fabs bits (infinity s)) (fabs bits (infinity t))) with false. cbv iota.
    assert (D : fle (fabs bits (infinity t)) (min_positive bits) = false) by (unfold fle; clear - HB; destruct HB as [-> | ->]; vm_compute; reflexivity). rewrite D.
    unfold long. apply fmul_nan. right. assert (N : isnan (fdiv bits nan_of (infinity s) (infinity t)) = true) by reflexivity.
    assert (K : isnan (fadd bits nan_of unit (fmul bits nan_of (fdiv bits nan_of (infinity s) (infinity t)) (fdiv bits nan_of (infinity s) (infinity t)))) = true) by (apply fadd_nan; right; apply fmul_nan; left; exact N).
    set (z := fadd _ _ _ _) in *. clearbody z. destruct z; try discriminate K. reflexivity.
  Qed.
  (** ** NaN *)
  Lemma fsqrt_nan t : isnan t = true -> isnan (fsqrt bits nan_of t) = true.
  Proof. destruct t; try discriminate. reflexivity. Qed.
  Lemma long_nan x y : isnan x = true \/ isnan y = true -> isnan (long x y) = true.
  Proof.
    intros N. unfold long. apply fmul_nan. right. apply fsqrt_nan, fadd_nan. right. apply fmul_nan. left. apply fdiv_nan. tauto.
  Qed.
  Lemma fgt_nan (x y : flt bits) : isnan x = true \/ isnan y = true -> fgt bits (fabs bits x) (fabs bits y) = false.
  Proof. intros [N|N]; [destruct x|destruct y]; try discriminate N; [reflexivity|destruct x; reflexivity]. Qed.
  Theorem hypot_nan_second (x y : flt bits) : isnan y = true -> isnan (hypot_of x y) = true.
  Proof.
    intros N. unfold hypot_of. rewrite fgt_nan by tauto. assert (L : fle (fabs bits y) (min_positive bits) = false) by (unfold fle; destruct y; try discriminate N; reflexivity).
    rewrite L. apply long_nan. tauto.
  Qed.
  Theorem hypot_nan_first (x y : flt bits) : isnan x = true ->
    (finite y = true /\ Rabs (fR y) <= tiny -> hypot_of x y = y) /\ (finite y = false \/ tiny < Rabs (fR y) -> isnan (hypot_of x y) = true).
  Proof.
    intros N. destruct (fabs_value y) as [Vy Gy]. destruct tiny_value as [Vt Ft]. unfold hypot_of. rewrite fgt_nan by tauto. split.
    - intros [F L]. rewrite F in Gy. rewrite (fle_value _ _ Gy Ft), Vy, Vt, Rlt_bool_false by exact L. reflexivity.
    - intros L. destruct (fle (fabs bits y) (min_positive bits)) eqn:E; [|apply long_nan; tauto]. exfalso. destruct (finite y) eqn:F.
      + rewrite (fle_value _ _ Gy Ft), Vy, Vt in E. destruct L as [L|L]; [discriminate|]. rewrite Rlt_bool_true in E by exact L. discriminate.
      + destruct y as [|s| |]; try discriminate F.
        * assert (D : fle (fabs bits (infinity s)) (min_positive bits) = false) by (unfold fle; clear - HB; destruct HB as [-> | ->]; vm_compute; reflexivity).
          rewrite D in E. discriminate E.
        * unfold fle in E. discriminate E.
  Qed.
End Hypot.

(** ** for every generated library *)
Section Lib.
  Context (bits : Z) (sub : string -> expr) (lib : list item)
    (nan_of : list (flt bits) -> { x : flt bits | Binary.is_nan (prec bits) (emax bits) x = true })
    (std : string -> list (flt bits) -> option (flt bits)) (checked : bool).
  Notation R := (run bits nan_of std checked lib).
  Lemma lib_run d x y : generated bits sub lib ["fty"; "MIN_POSITIVE"; "hypot"] -> R (S d) "hypot" [VFlt x; VFlt y] = Ok (VFlt (hypot_of bits nan_of x y)).
  Proof.
    intros G. pose proof (generated_has _ _ _ _ G) as h. destruct G as (HB & _).
    exact (run_hypot bits sub lib HB nan_of std checked d x y (h "fty" ltac:(cbn; tauto)) (h "MIN_POSITIVE" ltac:(cbn; tauto)) (h "hypot" ltac:(cbn; tauto))).
  Qed.
End Lib.
(** a library to try the theorems on *)
Definition hypot_lib (sub : string -> expr) : list item := match library 32 sub ["MIN_POSITIVE"; "hypot"] [] with Some l => l | None => [] end.
Lemma hypot_lib_generated sub : generated 32 sub (hypot_lib sub) ["fty"; "MIN_POSITIVE"; "hypot"].
Proof.
  split; [left; reflexivity|]. split.
  - exists ["MIN_POSITIVE"; "hypot"], []. unfold hypot_lib. destruct (library_exists 32 sub ["MIN_POSITIVE"; "hypot"] []) as (l & E). rewrite E. reflexivity.
  - intros n I. assert (A : forallb (fun n => existsb (fun i => match item_name i with Some m => String.eqb m n | None => false end) (hypot_lib sub)) ["fty"; "MIN_POSITIVE"; "hypot"] = true) by (vm_compute; reflexivity).
    rewrite forallb_forall in A. specialize (A n I). apply existsb_exists in A. destruct A as (it & I2 & N). exists it. split; [exact I2|].
    destruct (item_name it); [|discriminate]. apply String.eqb_eq in N. congruence.
Qed.
