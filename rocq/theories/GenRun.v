(** Symbolic execution of generated functions: closed forms in terms of the
    float and integer operations. *)
From Coq Require Import List String Bool ZArith Ascii Lia.
From Flocq Require Import Core.Zaux IEEE754.BinarySingleNaN IEEE754.Binary IEEE754.Bits.
From Verif Require Import Res Dec DecStr Syntax Item Functions FunctionsFacts GenCode GenCodeFacts GenSem FloatBits.
Import ListNotations.
Open Scope string_scope.
Open Scope list_scope.
Open Scope Z_scope.

Definition uty (bits : Z) : ity := if bits =? 32 then U32 else U64.
Definition sty (bits : Z) : ity := if bits =? 32 then I32 else I64.

(** [lib] has the generated item of that name *)
Definition has (bits : Z) (sub : string -> expr) (lib : list item) (n : string) : Prop :=
  find_item lib n = hd_error (code bits sub n).

Definition half (bits : Z) : flt bits := of_decimal bits (BD 5 1).
Definition exp2_one (bits : Z) : flt bits := of_decimal bits (BD (if bits =? 32 then 10653532160 else 46071824188000174080) 1).
Definition exp2_scale (bits : Z) : flt bits := of_decimal bits (BD (if bits =? 32 then 83886080 else 45035996273704960) 1).
Definition exp2_max (bits : Z) : flt bits := of_decimal bits (BD (if bits =? 32 then 1270 else 10230) 1).
Definition exp2_min (bits : Z) : flt bits := fneg bits (exp2_max bits).

Lemma const_S bits nan_of std checked lib d n i : find_item lib n = Some i ->
  const_at bits nan_of std checked lib (S d) n =
  match i with
  | IConst _ _ e => rbind (eval_g bits nan_of std checked lib (fun _ _ => stuck) (const_at bits nan_of std checked lib d) [] e)
      (fun v => match v with VLitF x => Ok (VFlt x) | _ => Ok v end)
  | _ => stuck
  end.
Proof. intros h. cbn [const_at]. rewrite h. reflexivity. Qed.

#[local] Arguments bin_op bits nan_of checked !op !a !b /.
#[local] Arguments declare bits !t !a /.
#[local] Arguments cast bits !t !a /.
#[local] Arguments method bits nan_of std m !recv args /.
Section Run.
  Variables (bits : Z) (sub : string -> expr) (lib : list item).
  Hypothesis HB : bits = 32 \/ bits = 64.
  Notation H := (has bits sub lib).
  Lemma res_fty : H "fty" -> resolve lib "fty" = Some (TFlt bits).
  Proof. intros h. unfold resolve. rewrite h. destruct HB as [-> | ->]; reflexivity. Qed.
  Lemma res_uty : H "uty" -> resolve lib "uty" = Some (TInt (uty bits)).
  Proof. intros h. unfold resolve. rewrite h. destruct HB as [-> | ->]; reflexivity. Qed.
  Lemma res_ity : H "ity" -> resolve lib "ity" = Some (TInt (sty bits)).
  Proof. intros h. unfold resolve. rewrite h. destruct HB as [-> | ->]; reflexivity. Qed.
  Lemma decl_flt (x : flt bits) : declare bits (Some (TFlt bits)) (VFlt x) = Ok (VFlt x).
  Proof. cbn. rewrite Z.eqb_refl. reflexivity. Qed.
  Lemma decl_litf (x : flt bits) : declare bits (Some (TFlt bits)) (VLitF x) = Ok (VFlt x).
  Proof. cbn. rewrite Z.eqb_refl. reflexivity. Qed.
  Lemma ity_eqb_refl t : ity_eqb t t = true.
  Proof. destruct t; reflexivity. Qed.
  Lemma decl_int t z : declare bits (Some (TInt t)) (VInt t z) = Ok (VInt t z).
  Proof. cbn. rewrite ity_eqb_refl. reflexivity. Qed.
  Lemma cast_flt (x : flt bits) : cast bits (Some (TFlt bits)) (VFlt x) = Ok (VFlt x).
  Proof. cbn. rewrite Z.eqb_refl. reflexivity. Qed.
  Lemma cast_litf (x : flt bits) : cast bits (Some (TFlt bits)) (VLitF x) = Ok (VFlt x).
  Proof. cbn. rewrite Z.eqb_refl. reflexivity. Qed.
  Lemma cast_of_int t z : cast bits (Some (TFlt bits)) (VInt t z) = Ok (VFlt (of_int bits z)).
  Proof. cbn. rewrite Z.eqb_refl. reflexivity. Qed.
  Lemma uty_eq : (if bits =? 32 then U32 else U64) = uty bits.
  Proof. reflexivity. Qed.
  Variable nan_of : list (flt bits) -> { x : flt bits | Binary.is_nan (prec bits) (emax bits) x = true }.
  Variable std : string -> list (flt bits) -> option (flt bits).
  Variable checked : bool.
  Notation R := (run bits nan_of std checked lib).
  Notation E := (eval_g bits nan_of std checked lib).

  Lemma lit_half : literal bits (LFloat "0.5" "") = Ok (VLitF (of_decimal bits (BD 5 1))).
  Proof. reflexivity. Qed.
  Lemma run_S d f args : R (S d) f args =
    match find_item lib f with
    | Some (IFn _ ps ret body) =>
        let? env := bind_params bits lib ps args in
        let? v := E (R d) (const_of bits nan_of std checked lib) env (EBlock body) in
        match v with VPair _ _ => Ok v | _ => declare bits (resolve lib ret) v end
    | _ => stuck
    end.
  Proof. reflexivity. Qed.

  Lemma decl_uty z : declare bits (Some (TInt (uty bits))) (VInt (uty bits) z) = Ok (VInt (uty bits) z).
  Proof. apply decl_int. Qed.
  Lemma to_bits_in (x : flt bits) : 0 <= to_bits x <= imax (uty bits).
  Proof.
    pose proof (to_bits_range bits x) as R. unfold imax, uty, mw, ew, signed, isize in *.
    destruct HB as [-> | ->]; cbn in R |- *; lia.
  Qed.
  Ltac lits := repeat match goal with |- context [literal bits (LInt ?d ?s)] => 
      let v := eval vm_compute in (literal bits (LInt d s)) in change (literal bits (LInt d s)) with v end.
  Ltac go := cbn [eval_g lookup String.eqb Ascii.eqb Bool.eqb rbind method flts_of flt_of bin_op un_op flt_op is_rel
    hd_error code bind_params].

  Theorem run_nextafter d x : H "fty" -> H "nextafter" -> to_bits x < imax (uty bits) ->
    R (S d) "nextafter" [VFlt x] = Ok (VFlt (of_bits bits (to_bits x + 1))).
  Proof.
    intros hf hn hx. rewrite run_S, hn. unfold code_nextafter. go. unfold code_nextafter. go.
    rewrite (res_fty hf), decl_flt. go.
    change (literal bits (LInt "1" "")) with (@Ok (val bits) (VLitI 1)). go. rewrite uty_eq.
    assert (I1 : in_range (uty bits) 1 = true) by (destruct HB as [-> | ->]; reflexivity). rewrite I1.
    cbn [int_op]. unfold arith.
    assert (I2 : in_range (uty bits) (to_bits x + 1) = true).
    { unfold in_range. pose proof (to_bits_in x). apply andb_true_intro. rewrite !Z.leb_le. split; [|lia].
      destruct HB as [-> | ->]; cbn; lia. }
    rewrite I2. go. rewrite Z.eqb_refl, ity_eqb_refl. cbn [andb rbind]. rewrite decl_flt. reflexivity.
  Qed.

  Theorem run_negate d x y : H "fty" -> H "uty" -> H "ity" -> H "negate_on_odd" ->
    R (S d) "negate_on_odd" [VFlt x; VFlt y] =
    Ok (VFlt (of_bits bits (Z.lxor (if Z.odd (to_int bits (sty bits) x) then 2 ^ (bits - 1) else 0) (to_bits y)))).
  Proof.
    intros hf hu hi hn. rewrite run_S, hn. go. unfold code_negate_on_odd. go.
    rewrite (res_fty hf), !decl_flt. go. rewrite (res_ity hi). cbn [cast]. go.
    change (literal bits (LInt "1" "")) with (@Ok (val bits) (VLitI 1)). go.
    assert (I1 : in_range (sty bits) 1 = true) by (destruct HB as [-> | ->]; reflexivity). rewrite I1. cbn [int_op]. go.
    assert (L : literal bits (LInt (width "" (bits - 1)) "i32") = Ok (VInt I32 (bits - 1))) by (destruct HB as [-> | ->]; reflexivity).
    rewrite L. go. unfold shift_op.
    assert (K : (0 <=? bits - 1) && (bits - 1 <? isize (sty bits)) = true) by (destruct HB as [-> | ->]; reflexivity).
    rewrite K. go. rewrite (res_uty hu). cbn [cast]. go. rewrite decl_uty. go. rewrite uty_eq, ity_eqb_refl. cbn [int_op]. go.
    rewrite Z.eqb_refl, ity_eqb_refl. cbn [andb rbind]. rewrite decl_flt. do 4 f_equal.
    rewrite (Z.land_ones _ 1 ltac:(lia) : Z.land _ 1 = _), Zmod_odd.
    destruct (Z.odd _); destruct HB as [-> | ->]; reflexivity.
  Qed.

  Definition round_of (x : flt bits) : flt bits := of_int bits (to_int bits (sty bits) (fadd bits nan_of x (fcopysign bits (half bits) x))).
  Theorem run_round d x : H "fty" -> H "ity" -> H "round" -> R (S d) "round" [VFlt x] = Ok (VFlt (round_of x)).
  Proof.
    intros hf hi hr. rewrite run_S, hr. go. unfold code_round. go. rewrite (res_fty hf), decl_flt. go.
    change (literal bits (LFloat "0.5" "")) with (@Ok (val bits) (VLitF (half bits))). go. rewrite cast_litf. go.
    rewrite (res_ity hi). cbn [cast]. rewrite ?Z.eqb_refl. go. cbn [cast]. rewrite ?Z.eqb_refl. go. rewrite decl_flt. reflexivity.
  Qed.

  (** constants *)
  Notation C := (const_of bits nan_of std checked lib).
  Ltac c_go h := unfold const_of, const_depth; unfold has in h; destruct HB as [-> | ->];
    (intros; erewrite const_S; [|rewrite h; reflexivity]; reflexivity).
  Lemma c_one : H "EXP2_ONE" -> C "EXP2_ONE" = Ok (VFlt (exp2_one bits)).
  Proof. intros h. revert nan_of std. c_go h. Qed.
  Lemma c_scale : H "EXP2_SCALE" -> C "EXP2_SCALE" = Ok (VFlt (exp2_scale bits)).
  Proof. intros h. revert nan_of std. c_go h. Qed.
  Lemma c_max : H "EXP2_MAX" -> C "EXP2_MAX" = Ok (VFlt (exp2_max bits)).
  Proof. intros h. revert nan_of std. c_go h. Qed.
  Lemma c_min : H "EXP2_MIN" -> C "EXP2_MIN" = Ok (VFlt (exp2_min bits)).
  Proof. intros h. revert nan_of std. c_go h. Qed.
  Lemma c_inf : H "INFINITY" -> C "INFINITY" = Ok (VFlt (inf bits)).
  Proof. intros h. revert nan_of std. c_go h. Qed.
  Lemma c_nan : H "NAN" -> C "NAN" = Ok (VFlt (nan bits)).
  Proof. intros h. revert nan_of std. c_go h. Qed.
  Lemma c_tiny : H "MIN_POSITIVE" -> C "MIN_POSITIVE" = Ok (VFlt (min_positive bits)).
  Proof. intros h. revert nan_of std. c_go h. Qed.
  Lemma c_shift : H "LOG2_SHIFT" -> C "LOG2_SHIFT" = Ok (VInt (sty bits) (mw bits)).
  Proof. intros h. revert nan_of std. c_go h. Qed.
  Lemma c_offset : H "LOG2_OFFSET" -> C "LOG2_OFFSET" = Ok (VInt (sty bits) (emax bits - 1)).
  Proof. intros h. revert nan_of std. c_go h. Qed.
  Lemma c_mask : H "ONE_MASK" -> C "ONE_MASK" = Ok (VInt (uty bits) (2 ^ mw bits - 1)).
  Proof. intros h. revert nan_of std. c_go h. Qed.
  Lemma c_one_bits : H "ONE_BITS" -> C "ONE_BITS" = Ok (VInt (uty bits) ((emax bits - 1) * 2 ^ mw bits)).
  Proof. intros h. revert nan_of std. c_go h. Qed.

  (** the environment in which the interpolated polynomial of exp2 is evaluated *)
  Definition exp2_mul (r : flt bits) : flt bits :=
    of_bits bits (to_int bits (uty bits) (ffma bits nan_of r (exp2_scale bits) (exp2_one bits))).
  Definition exp2_env (x : flt bits) : list (string * val bits) :=
    let r := round_of x in
    [("x", VFlt (fsub bits nan_of x r)); ("mul", VFlt (exp2_mul r)); ("r", VFlt r); ("arg", VFlt x)].
  Definition exp2_needs : list string :=
    ["fty"; "uty"; "ity"; "round"; "EXP2_ONE"; "EXP2_SCALE"; "EXP2_MIN"; "EXP2_MAX"; "INFINITY"; "exp2"].
  Definition fgt (x y : flt bits) : bool := match fcmp bits x y with Some Gt => true | _ => false end.
  Definition flt_lt (x y : flt bits) : bool := match fcmp bits x y with Some Lt => true | _ => false end.
  Lemma relate_gt x y : relate BGt (fcmp bits x y) = Ok (fgt x y).
  Proof. unfold fgt. destruct (fcmp bits x y) as [[]|]; reflexivity. Qed.
  Lemma relate_lt x y : relate BLt (fcmp bits x y) = Ok (flt_lt x y).
  Proof. unfold flt_lt. destruct (fcmp bits x y) as [[]|]; reflexivity. Qed.
  Theorem run_exp2 d x p : (forall n, In n exp2_needs -> H n) ->
    E (R (S d)) C (exp2_env x) (sub "exp2") = Ok (VFlt p) ->
    R (S (S d)) "exp2" [VFlt x] =
    Ok (VFlt (if flt_lt (round_of x) (exp2_min bits) then of_decimal bits (BD 0 1)
              else if fgt x (exp2_max bits) then inf bits else fmul bits nan_of p (exp2_mul (round_of x)))).
  Proof.
    intros hh hp.
    assert (hf : H "fty") by (apply hh; cbn; tauto). assert (hu : H "uty") by (apply hh; cbn; tauto).
    assert (hi : H "ity") by (apply hh; cbn; tauto). assert (hr : H "round") by (apply hh; cbn; tauto).
    assert (h1 : H "EXP2_ONE") by (apply hh; cbn; tauto). assert (h2 : H "EXP2_SCALE") by (apply hh; cbn; tauto).
    assert (h3 : H "EXP2_MIN") by (apply hh; cbn; tauto). assert (h4 : H "EXP2_MAX") by (apply hh; cbn; tauto).
    assert (h5 : H "INFINITY") by (apply hh; cbn; tauto). assert (he : H "exp2") by (apply hh; cbn; tauto). clear hh.
    rewrite run_S, he. go. unfold code_exp2. go. rewrite (res_fty hf), decl_flt. go.
    rewrite (run_round d x hf hi hr). go. rewrite decl_flt. go.
    rewrite (c_scale h2), (c_one h1). go. rewrite (res_uty hu). cbn [cast]. go. rewrite Z.eqb_refl, uty_eq, ity_eqb_refl. cbn [andb rbind].
    rewrite decl_flt. go. rewrite decl_flt. go. unfold exp2_env in hp. cbv zeta in hp. unfold exp2_mul at 1 in hp. rewrite hp.
    go. rewrite decl_flt. go. rewrite (c_max h4). go.
    rewrite relate_gt. go. destruct (fgt x (exp2_max bits)); [rewrite (c_inf h5)|]; go; rewrite (c_min h3); go; rewrite relate_lt; go;
      destruct (flt_lt (round_of x) (exp2_min bits)); try (change (literal bits (LFloat "0.0" "")) with (@Ok (val bits) (VLitF (of_decimal bits (BD 0 1)))));
      go; rewrite ?decl_flt, ?decl_litf; reflexivity.
  Qed.

  (** log2: exponent and mantissa *)
  Definition log2_exponent (x : flt bits) : Z := Z.shiftr (wrap (sty bits) (to_bits x)) (mw bits) - (emax bits - 1).
  Definition log2_mant (x : flt bits) : flt bits :=
    of_bits bits (Z.lor (Z.land (to_bits x) (2 ^ mw bits - 1)) ((emax bits - 1) * 2 ^ mw bits)).
  Definition log2_x (x : flt bits) : flt bits := fsub bits nan_of (log2_mant x) (of_decimal bits (BD 15 1)).
  Definition log2_env (x : flt bits) : list (string * val bits) :=
    [("x", VFlt (log2_x x)); ("exponent", VInt (sty bits) (log2_exponent x)); ("arg_bits", VInt (uty bits) (to_bits x)); ("arg", VFlt x)].
  Definition log2_needs : list string :=
    ["fty"; "uty"; "ity"; "LOG2_SHIFT"; "LOG2_OFFSET"; "ONE_MASK"; "ONE_BITS"; "NAN"; "MIN_POSITIVE"; "INFINITY"; "log2"].
  Lemma exponent_range z : imin (sty bits) <= z <= imax (sty bits) ->
    in_range (sty bits) (Z.shiftr z (mw bits) - (emax bits - 1)) = true.
  Proof.
    intros [L U]. unfold in_range. rewrite Z.shiftr_div_pow2 by (pose proof (mw_pos bits); lia).
    apply andb_true_intro. rewrite !Z.leb_le.
    destruct HB as [-> | ->]; cbv [sty mw emax ew imin imax signed isize Z.eqb Pos.eqb] in *.
    - pose proof (Z.div_le_lower_bound z (2 ^ 23) (- 2 ^ 8) ltac:(lia) ltac:(lia)).
      pose proof (Z.div_le_upper_bound z (2 ^ 23) (2 ^ 8) ltac:(lia) ltac:(lia)). lia.
    - pose proof (Z.div_le_lower_bound z (2 ^ 52) (- 2 ^ 11) ltac:(lia) ltac:(lia)).
      pose proof (Z.div_le_upper_bound z (2 ^ 52) (2 ^ 11) ltac:(lia) ltac:(lia)). lia.
  Qed.
  Lemma wrap_range t z : imin t <= wrap t z <= imax t.
  Proof.
    unfold wrap, imin, imax. assert (P : 2 ^ isize t = 2 * 2 ^ (isize t - 1)) by (destruct t; reflexivity).
    assert (P0 : 0 < 2 ^ (isize t - 1)) by (destruct t; reflexivity).
    pose proof (Z.mod_pos_bound z (2 ^ isize t) ltac:(lia)) as M. destruct (signed t); cbn [andb].
    - destruct (Z.leb_spec (2 ^ (isize t - 1)) (z mod 2 ^ isize t)); lia.
    - lia.
  Qed.
  Theorem run_log2 d x p : (forall n, In n log2_needs -> H n) ->
    E (R d) C (log2_env x) (sub "log2") = Ok (VFlt p) ->
    R (S d) "log2" [VFlt x] =
    Ok (VFlt (if flt_lt x (of_decimal bits (BD 0 1)) then fneg bits (nan bits)
              else if flt_lt x (min_positive bits) then fneg bits (inf bits)
              else fadd bits nan_of p (of_int bits (log2_exponent x)))).
  Proof.
    intros hh hp.
    assert (hf : H "fty") by (apply hh; cbn; tauto). assert (hu : H "uty") by (apply hh; cbn; tauto).
    assert (hi : H "ity") by (apply hh; cbn; tauto). assert (h1 : H "LOG2_SHIFT") by (apply hh; cbn; tauto).
    assert (h2 : H "LOG2_OFFSET") by (apply hh; cbn; tauto). assert (h3 : H "ONE_MASK") by (apply hh; cbn; tauto).
    assert (h4 : H "ONE_BITS") by (apply hh; cbn; tauto). assert (h5 : H "NAN") by (apply hh; cbn; tauto).
    assert (h6 : H "MIN_POSITIVE") by (apply hh; cbn; tauto). assert (h7 : H "INFINITY") by (apply hh; cbn; tauto).
    assert (hl : H "log2") by (apply hh; cbn; tauto). clear hh.
    rewrite run_S, hl. go. unfold code_log2. go. rewrite (res_fty hf), decl_flt. go.
    rewrite uty_eq, (res_uty hu), decl_uty. go. rewrite (res_ity hi). cbn [cast]. go. rewrite (c_shift h1). go. unfold shift_op.
    assert (K : (0 <=? mw bits) && (mw bits <? isize (sty bits)) = true) by (clear -HB; destruct HB as [-> | ->]; reflexivity). rewrite K. go.
    rewrite (c_offset h2). go. rewrite ity_eqb_refl. cbn [int_op]. unfold arith. rewrite (exponent_range _ (wrap_range _ _)). go.
    rewrite decl_int. go. rewrite (c_mask h3). go. rewrite ity_eqb_refl. cbn [int_op]. go. rewrite (c_one_bits h4). go. rewrite ity_eqb_refl.
    cbn [int_op]. go. rewrite Z.eqb_refl, ity_eqb_refl. cbn [andb rbind].
    change (literal bits (LFloat "1.5" "")) with (@Ok (val bits) (VLitF (of_decimal bits (BD 15 1)))). go.
    rewrite decl_flt. go. unfold log2_env, log2_x, log2_mant, log2_exponent in hp. rewrite hp. go. rewrite decl_flt. go.
    change (literal bits (LFloat "0.0" "")) with (@Ok (val bits) (VLitF (of_decimal bits (BD 0 1)))). go. rewrite relate_lt. go.
    destruct (flt_lt x (of_decimal bits (BD 0 1))).
    - rewrite (c_nan h5). go. rewrite decl_flt. reflexivity.
    - rewrite (c_tiny h6). go. rewrite relate_lt. go. destruct (flt_lt x (min_positive bits)).
      + rewrite (c_inf h7). go. rewrite decl_flt. reflexivity.
      + cbn [cast]. rewrite ?Z.eqb_refl. go. rewrite decl_flt. reflexivity.
  Qed.
End Run.

Lemma arith_ok bits checked t z : in_range t z = true -> arith bits checked t z = Ok (VInt t z).
Proof. intros h. unfold arith. rewrite h. reflexivity. Qed.

(** runif, in 64-bit mode *)
Definition mix1 (z : Z) : Z := Z.lxor z (Z.shiftr z 30) * 13787848793156543929 mod 2 ^ 64.
Definition mix2 (z : Z) : Z := Z.lxor z (Z.shiftr z 27) * 10723151780598845931 mod 2 ^ 64.
Definition mix3 (z : Z) : Z := Z.lxor z (Z.shiftr z 31).
Definition splitmix (i : Z) : Z := mix3 (mix2 (mix1 ((i + 1) * 11400714819323198485 mod 2 ^ 64))).

Lemma lxor_range k x y : 0 <= k -> 0 <= x < 2 ^ k -> 0 <= y < 2 ^ k -> 0 <= Z.lxor x y < 2 ^ k.
Proof.
  intros K X Y. assert (N : 0 <= Z.lxor x y) by (apply Z.lxor_nonneg; lia). split; [exact N|].
  destruct (Z.eq_dec (Z.lxor x y) 0) as [->|Z0]; [lia|]. apply Z.log2_lt_pow2; [lia|].
  eapply Z.le_lt_trans; [apply Z.log2_lxor; lia|]. apply Z.max_lub_lt.
  - destruct (Z.eq_dec x 0) as [->|]; [|apply Z.log2_lt_pow2; lia]. cbn. destruct (Z.eq_dec k 0) as [->|]; [|lia].
    assert (y = 0) by lia. subst. cbn in Z0. lia.
  - destruct (Z.eq_dec y 0) as [->|]; [|apply Z.log2_lt_pow2; lia]. cbn. destruct (Z.eq_dec k 0) as [->|]; [|lia].
    assert (x = 0) by lia. subst. cbn in Z0. lia.
Qed.
Lemma shiftr_range k x j : 0 <= j -> 0 <= x < k -> 0 <= Z.shiftr x j < k.
Proof.
  intros J X. rewrite Z.shiftr_div_pow2 by exact J. assert (0 < 2 ^ j) by (apply Z.pow_pos_nonneg; lia).
  split; [apply Z.div_pos; lia|]. apply Z.div_lt_upper_bound; [lia|]. nia.
Qed.
Lemma splitmix_range i : 0 <= splitmix i < 2 ^ 64.
Proof.
  unfold splitmix, mix3. set (z := mix2 _). assert (Z : 0 <= z < 2 ^ 64) by (apply Z.mod_pos_bound; reflexivity).
  clearbody z. apply lxor_range; [lia|exact Z|]. apply shiftr_range; [lia|exact Z].
Qed.

Section Runif.
  Variables (sub : string -> expr) (lib : list item).
  Notation H := (has 64 sub lib).
  Variable nan_of : list (flt 64) -> { x : flt 64 | Binary.is_nan (prec 64) (emax 64) x = true }.
  Variable std : string -> list (flt 64) -> option (flt 64).
  Variable checked : bool.
  Notation R := (run 64 nan_of std checked lib).
  Notation C := (const_of 64 nan_of std checked lib).
  Let HB : 64 = 32 \/ 64 = 64 := or_intror eq_refl.
  Definition runif_unit (i : Z) : flt 64 :=
    fsub 64 nan_of (of_bits 64 (Z.lor (Z.shiftr (splitmix i) 2) ((emax 64 - 1) * 2 ^ mw 64))) (of_decimal 64 (BD 10 1)).
  Ltac go := cbn [eval_g lookup String.eqb Ascii.eqb Bool.eqb rbind method flts_of flt_of bin_op un_op flt_op is_rel
    hd_error code bind_params].
  Definition runif_needs : list string := ["fty"; "uty"; "ONE_BITS"; "runif"].
  Theorem run_runif d i a b : (forall n, In n runif_needs -> H n) -> 0 <= i < 2 ^ 64 - 1 ->
    R (S d) "runif" [VInt USize i; VFlt a; VFlt b] =
    Ok (VFlt (fadd 64 nan_of (fmul 64 nan_of (runif_unit i) (fsub 64 nan_of b a)) a)).
  Proof.
    intros hh hi.
    assert (hf : H "fty") by (apply hh; cbn; tauto). assert (hu : H "uty") by (apply hh; cbn; tauto).
    assert (h1 : H "ONE_BITS") by (apply hh; cbn; tauto). assert (hr : H "runif") by (apply hh; cbn; tauto). clear hh.
    rewrite run_S, hr. go. unfold code_runif. go.
    assert (Ru : resolve lib "usize" = Some (TInt USize)) by reflexivity. rewrite Ru.
    cbn [declare ity_eqb]. go. rewrite (res_fty 64 sub lib HB hf), !decl_flt. go.
    assert (R64 : resolve lib "u64" = Some (TInt U64)) by reflexivity. rewrite R64. cbn [cast]. go.
    assert (W : wrap U64 i = i) by (unfold wrap; cbn [signed andb isize]; apply Z.mod_small; lia). rewrite W.
    change (literal 64 (LInt "1" "")) with (@Ok (val 64) (VLitI 1)). go.
    change (in_range U64 1) with true. cbn [int_op].
    assert (I : in_range U64 (i + 1) = true) by (unfold in_range; cbn [imin imax signed isize]; apply andb_true_intro; rewrite !Z.leb_le; lia).
    rewrite (arith_ok _ _ _ _ I). go.
    repeat match goal with |- context [literal 64 (LInt ?d "")] =>
      let v := eval vm_compute in (literal 64 (LInt d "")) in change (literal 64 (LInt d "")) with v end.
    assert (Wr : forall z, wrap U64 z = z mod 2 ^ 64) by reflexivity.
    assert (SH : forall k x, 0 <= k < 64 -> shift_op 64 checked BShr U64 x k = Ok (VInt U64 (Z.shiftr x k))).
    { clear. intros k x K. unfold shift_op. assert (Q : (0 <=? k) && (k <? isize U64) = true).
      { apply andb_true_intro. rewrite Z.leb_le, Z.ltb_lt. cbn. lia. } rewrite Q. reflexivity. }
    change (in_range U64 11400714819323198485) with true.
    rewrite (res_uty 64 sub lib HB hu). change (uty 64) with U64. go. rewrite Wr.
    change (in_range U64 11400714819323198485) with true. go. rewrite decl_int.
    go. rewrite (SH 30) by lia. go. cbn [ity_eqb int_op]. go. rewrite Wr.
    change (in_range U64 13787848793156543929) with true. go. rewrite decl_int. fold (mix1 ((i + 1) * 11400714819323198485 mod 2 ^ 64)).
    go. rewrite (SH 27) by lia. go. cbn [ity_eqb int_op]. go. rewrite Wr.
    change (in_range U64 10723151780598845931) with true. go. rewrite decl_int. fold (mix2 (mix1 ((i + 1) * 11400714819323198485 mod 2 ^ 64))).
    go. rewrite (SH 31) by lia. go. cbn [ity_eqb int_op]. go. rewrite decl_int. fold (mix3 (mix2 (mix1 ((i + 1) * 11400714819323198485 mod 2 ^ 64)))). fold (splitmix i).
    go. cbn [cast]. go. rewrite Wr, (Z.mod_small (splitmix i)) by apply splitmix_range. rewrite (SH 2) by lia. go.
    rewrite (c_one_bits 64 sub lib HB nan_of std checked h1). go. change (ity_eqb U64 (uty 64)) with true. cbn [int_op]. go. cbn [ity_eqb andb rbind Z.eqb Pos.eqb].
    change (literal 64 (LFloat "1.0" "")) with (@Ok (val 64) (VLitF (of_decimal 64 (BD 10 1)))). go. rewrite decl_flt. go.
    rewrite decl_flt. unfold runif_unit. reflexivity.
  Qed.
End Runif.
