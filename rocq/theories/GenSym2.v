(** The inverse trigonometric functions and the normal density at arguments of opposite sign. *)
From Coq Require Import List String Bool ZArith Reals Ascii Lia.
From Flocq Require Import Core IEEE754.BinarySingleNaN IEEE754.Binary.
From Verif Require Import Res Dec DecStr Syntax Parse Poly MulAddFacts Visitor FloatBits UseNumberType NumberTypeFacts HornerFloat HornerParity
  Functions FunctionsFacts Item GenCode GenCodeFacts GenSem GenRun GenFloat GenFloat2 ExpFloat SignFacts GenSym.
Import ListNotations.
Open Scope string_scope.
Open Scope list_scope.
Open Scope Z_scope.

#[local] Arguments bin_op bits nan_of checked !op !a !b /.
#[local] Arguments declare bits !t !a /.
#[local] Arguments cast bits !t !a /.
#[local] Arguments method bits nan_of std m !recv args /.
Notation nought bits := (of_decimal bits (BD 0 1)).
Section Run.
  Variables (bits : Z) (sub : string -> expr) (lib : list item).
  Hypothesis HB : (bits = 32 \/ bits = 64)%Z.
  Notation H := (has bits sub lib).
  Variable nan_of : list (flt bits) -> { x : flt bits | Binary.is_nan (prec bits) (emax bits) x = true }.
  Variable std : string -> list (flt bits) -> option (flt bits).
  Variable checked : bool.
  Notation R := (run bits nan_of std checked lib).
  Notation C := (const_of bits nan_of std checked lib).
  Notation E := (eval_g bits nan_of std checked lib).
  Notation zero s := (Binary.B754_zero (prec bits) (emax bits) s).
  Ltac go := cbn [eval_g lookup String.eqb Ascii.eqb Bool.eqb rbind method flts_of flt_of bin_op un_op flt_op is_rel
    hd_error code bind_params].
  Context (F : floats) (kind : string) (W : working kind bits) (RB : reads_back F).

  (** *** atan2 *)
  Lemma fabs_zero s t : fabs bits (zero s) = fabs bits (zero t).
  Proof. reflexivity. Qed.
  Theorem atan2_odd d (y x : flt bits) : H "fty" -> H "atan2" -> (forall n, In n ["TAN_PI_BY_8"; "PI_BY_8"; "PI_BY_2"; "PI"] -> exists c, C n = Ok (VFlt c)) ->
    poly_of F kind bits "z" PNeither (sub "atan2") ->
    (isnan y = false -> (forall s, y <> zero s) -> exists r, R (S d) "atan2" [VFlt y; VFlt x] = Ok (VFlt r) /\ R (S d) "atan2" [VFlt (fneg bits y); VFlt x] = Ok (VFlt (fneg bits r))) /\
    exists r, forall s, R (S d) "atan2" [VFlt (zero s); VFlt x] = Ok (VFlt r).
  Proof.
    intros hf hs hc hp. destruct (any_value F kind bits W RB _ _ hp) as (h & l & D).
    destruct (hc "TAN_PI_BY_8") as (t & Ht); [cbn; tauto|]. destruct (hc "PI_BY_8") as (p8 & H8); [cbn; tauto|]. destruct (hc "PI_BY_2") as (p2 & H2); [cbn; tauto|]. destruct (hc "PI") as (pi & Hpi); [cbn; tauto|].
    pose proof (fun y => run_atan2 bits sub lib HB nan_of std checked (fun t => HornerFloat.horner (fun a c => ffma bits nan_of a t c) h l) d y x t p8 p2 pi hf hs Ht H8 H2 Hpi
      (fun call env t => D nan_of std checked lib call C env t)) as G. cbv zeta in G. split.
    - intros N Z. rewrite !G. rewrite fabs_fneg. eexists. split; [reflexivity|].
      assert (Z' : forall s, fneg bits y <> zero s) by (intros s Q; apply (f_equal (fneg bits)) in Q; rewrite fneg_fneg in Q; destruct s; [apply (Z false)|apply (Z true)]; exact Q).
      rewrite (ge_zero bits y N Z), (ge_zero bits (fneg bits y)), fneg_sign; [|rewrite fneg_nan; exact N|exact Z'].
      destruct (Binary.Bsign _ _ y); cbn [negb]; rewrite ?fneg_fneg; reflexivity.
    - eexists. intros s. rewrite G. rewrite (fabs_zero s false). rewrite nought_zero. destruct s; reflexivity.
  Qed.

  (** *** atan *)
  Definition sided (c : flt bits) (x : flt bits) : flt bits := if flt_lt bits x (nought bits) then fneg bits c else c.
  Lemma sided_neg c (x : flt bits) : isnan x = false -> (forall s, x <> zero s) -> sided c (fneg bits x) = fneg bits (sided c x).
  Proof.
    intros N Z. assert (Z' : forall s, fneg bits x <> zero s) by (intros s Q; apply (f_equal (fneg bits)) in Q; rewrite fneg_fneg in Q; destruct s; [apply (Z false)|apply (Z true)]; exact Q).
    unfold sided. rewrite (lt_zero bits x N Z), (lt_zero bits (fneg bits x)), fneg_sign; [|rewrite fneg_nan; exact N|exact Z'].
    destruct (Binary.Bsign _ _ x); cbn [negb]; rewrite ?fneg_fneg; reflexivity.
  Qed.
  Notation unit := (of_decimal bits (BD 10 1)).
  Lemma run_atan (P : flt bits -> flt bits) d x c : H "fty" -> H "atan" -> C "PI_BY_2" = Ok (VFlt c) ->
    (forall call env t, lookup bits "x" env = Some (VFlt t) -> E call C env (sub "atan") = Ok (VFlt (P t))) ->
    R (S d) "atan" [VFlt x] = Ok (VFlt (if flt_lt bits (fabs bits x) unit then P x else fsub bits nan_of (sided c x) (P (fdiv bits nan_of (fone bits) x)))).
  Proof.
    intros hf hs hc hp. unfold sided. rewrite run_S, hs. go. unfold code_atan. go. rewrite (res_fty bits sub lib HB hf), !decl_flt. go.
    change (literal bits (LFloat "1.0" "")) with (@Ok (val bits) (VLitF unit)). go. change (literal bits (LFloat "0.0" "")) with (@Ok (val bits) (VLitF (nought bits))). cbn [declare]. go.
    rewrite ?Z.eqb_refl. go. rewrite ?relate_lt. go. rewrite hc. go. destruct (flt_lt bits x (nought bits)); go; rewrite ?decl_flt, ?Z.eqb_refl; go; rewrite ?relate_lt; go; (destruct (flt_lt bits (fabs bits x) unit) eqn:G; go;
      rewrite ?decl_flt; go; erewrite hp by reflexivity; go; rewrite ?decl_flt; go; rewrite ?relate_lt; go; rewrite ?G; go; rewrite ?decl_flt; reflexivity).
  Qed.
  Lemma kinds (x : flt bits) : isnan x = true \/ (exists s, x = zero s) \/ isnan x = false /\ (forall s, x <> zero s).
  Proof. destruct x as [s|s|s pl h|s m e h]; [right; left; eauto| |left; reflexivity|]; right; right; (split; [reflexivity|]); intros t Q; discriminate Q. Qed.
  Lemma zero_small s : flt_lt bits (fabs bits (zero s)) unit = true.
  Proof. destruct HB as [-> | ->]; destruct s; vm_compute; reflexivity. Qed.
  Lemma nan_lt (x y : flt bits) : isnan x = true -> flt_lt bits x y = false.
  Proof. destruct x; try discriminate. intros _. destruct y; reflexivity. Qed.
  Theorem atan_odd d x : H "fty" -> H "atan" -> (exists c, C "PI_BY_2" = Ok (VFlt c)) -> poly_of F kind bits "x" POdd (sub "atan") ->
    exists y y', R (S d) "atan" [VFlt x] = Ok (VFlt y) /\ R (S d) "atan" [VFlt (fneg bits x)] = Ok (VFlt y') /\ opposite y y'.
  Proof.
    intros hf hs (c & hc) hp. destruct (odd_value F kind bits W RB _ _ hp) as (h & l & D). set (P := fun t => fmul bits nan_of (squares bits nan_of h l t) t).
    pose proof (fun x => run_atan P d x c hf hs hc (fun call env t => D nan_of std checked lib call C env t)) as G.
    assert (O : forall t t', opposite t t' -> opposite (P t) (P t')) by (intros; apply odd_opposite; assumption).
    assert (On : forall x : flt bits, opposite x (fneg bits x)) by (intros u; apply negative_opposite, negative_fneg).
    rewrite !G, fabs_fneg. do 2 eexists. split; [reflexivity|]. split; [reflexivity|].
    destruct (kinds x) as [N|[[s ->]|[N Z]]].
    - rewrite nan_lt by (destruct x; try discriminate; reflexivity). left. right. split; apply fsub_nan; right; apply fmul_nan; right; apply fdiv_nan; right; rewrite ?fneg_nan; exact N.
    - rewrite zero_small. apply O, On.
    - destruct (flt_lt bits (fabs bits x) unit); [apply O, On|]. rewrite sided_neg by assumption. apply fsub_opposite; [apply On|]. apply O, negative_opposite, fdiv_neg.
  Qed.

  (** *** asin *)
  Notation lim := (of_decimal bits (BD 70710678118654752440 20)).
  Definition near (x : flt bits) : bool := flt_lt bits (fmul bits nan_of x x) (fmul bits nan_of lim lim).
  Definition leg (x : flt bits) : flt bits := fsqrt bits nan_of (fsub bits nan_of unit (fmul bits nan_of x x)).
  Lemma run_asin (P : flt bits -> flt bits) d x c : H "fty" -> H "asin" -> C "PI_BY_2" = Ok (VFlt c) ->
    (forall call env t, lookup bits "x" env = Some (VFlt t) -> E call C env (sub "asin") = Ok (VFlt (P t))) ->
    R (S d) "asin" [VFlt x] = Ok (VFlt (if near x then P x else fsub bits nan_of (sided c x) (fmul bits nan_of (P (leg x)) (sided unit x)))).
  Proof.
    intros hf hs hc hp. unfold sided, near, leg. rewrite run_S, hs. go. unfold code_asin. go. rewrite (res_fty bits sub lib HB hf), !decl_flt. go.
    change (literal bits (LFloat "1.0" "")) with (@Ok (val bits) (VLitF unit)). go. change (literal bits (LFloat "0.0" "")) with (@Ok (val bits) (VLitF (nought bits))).
    change (literal bits (LFloat "0.70710678118654752440" "")) with (@Ok (val bits) (VLitF lim)). cbn [declare]. go.
    rewrite ?Z.eqb_refl. go. rewrite ?relate_lt. go. rewrite hc. go. destruct (flt_lt bits x (nought bits)); go; rewrite ?decl_flt, ?Z.eqb_refl; go; rewrite ?relate_lt; go; cbn [declare]; rewrite ?Z.eqb_refl; go; rewrite ?relate_lt; go;
      (destruct (flt_lt bits (fmul bits nan_of x x) (fmul bits nan_of lim lim)) eqn:G; go;
      rewrite ?decl_flt; go; erewrite hp by reflexivity; go; rewrite ?decl_flt; go; rewrite ?relate_lt; go; rewrite ?G; go; rewrite ?decl_flt; reflexivity).
  Qed.
  Lemma zero_near s : near (zero s) = true.
  Proof. unfold near, fmul. destruct HB as [-> | ->]; destruct s; vm_compute; reflexivity. Qed.
  Lemma fsqrt_nan (x : flt bits) : isnan x = true -> isnan (fsqrt bits nan_of x) = true.
  Proof. destruct x; try discriminate. intros _. unfold fsqrt, Bsqrt. reflexivity. Qed.
  Lemma fsqrt_same (x y : flt bits) : same x y -> same (fsqrt bits nan_of x) (fsqrt bits nan_of y).
  Proof. intros [->|[N M]]; [left; reflexivity|right]. split; apply fsqrt_nan; assumption. Qed.
  Theorem asin_odd d x : H "fty" -> H "asin" -> (exists c, C "PI_BY_2" = Ok (VFlt c)) -> poly_of F kind bits "x" POdd (sub "asin") ->
    exists y y', R (S d) "asin" [VFlt x] = Ok (VFlt y) /\ R (S d) "asin" [VFlt (fneg bits x)] = Ok (VFlt y') /\ opposite y y'.
  Proof.
    intros hf hs (c & hc) hp. destruct (odd_value F kind bits W RB _ _ hp) as (h & l & D). set (P := fun t => fmul bits nan_of (squares bits nan_of h l t) t).
    pose proof (fun x => run_asin P d x c hf hs hc (fun call env t => D nan_of std checked lib call C env t)) as G.
    assert (O : forall t t', opposite t t' -> opposite (P t) (P t')) by (intros; apply odd_opposite; assumption).
    assert (Sm : forall t t', same t t' -> same (P t) (P t')) by (intros t t' S; apply fmul_same; [apply squares_same; auto|exact S]).
    assert (On : forall x : flt bits, opposite x (fneg bits x)) by (intros u; apply negative_opposite, negative_fneg).
    assert (Sq : same (fmul bits nan_of x x) (fmul bits nan_of (fneg bits x) (fneg bits x))) by (apply square_same, On).
    rewrite !G. do 2 eexists. split; [reflexivity|]. split; [reflexivity|].
    destruct (kinds x) as [N|[[s ->]|[N Z]]].
    - assert (Q : forall u : flt bits, isnan u = true -> near u = false) by (intros u Nu; apply nan_lt, fmul_nan; auto). rewrite !Q by (rewrite ?fneg_nan; exact N).
      assert (L : forall u : flt bits, isnan u = true -> isnan (leg u) = true).
      { intros u Nu. apply fsqrt_nan, fsub_nan. right. apply fmul_nan. auto. }
      left. right. split; apply fsub_nan; right; apply fmul_nan; left; apply fmul_nan; right; apply L; rewrite ?fneg_nan; exact N.
    - change (fneg bits (zero s)) with (zero (negb s)). rewrite !zero_near. apply O, (On (zero s)).
    - assert (K : near (fneg bits x) = near x) by (unfold near, flt_lt; rewrite (compare_same bits _ _ _ Sq); reflexivity). rewrite K.
      destruct (near x); [apply O, On|]. rewrite !sided_neg by assumption. apply fsub_opposite; [apply On|]. apply negative_opposite, fmul_negative_r; [|apply negative_fneg].
      apply Sm, fsqrt_same, fsub_same; [left; reflexivity|exact Sq].
  Qed.

  (** *** dnorm *)
  Notation minus_half := (fneg bits (of_decimal bits (BD 5 1))).
  Definition scaled (x m s : flt bits) : flt bits := fmul bits nan_of (fsub bits nan_of x m) (fdiv bits nan_of unit s).
  Definition density (l x m s : flt bits) : flt bits := fmul bits nan_of (fmul bits nan_of (fmul bits nan_of minus_half l) (scaled x m s)) (scaled x m s).
  Lemma run_dnorm d x m s l k y : H "fty" -> H "dnorm" -> C "LOG2_E" = Ok (VFlt l) -> C "SQRT_RECIP_2PI" = Ok (VFlt k) -> R d "exp2" [VFlt (density l x m s)] = Ok (VFlt y) ->
    R (S d) "dnorm" [VFlt x; VFlt m; VFlt s] = Ok (VFlt (fmul bits nan_of (fmul bits nan_of (fdiv bits nan_of unit s) k) y)).
  Proof.
    intros hf hs hl hk hy. unfold density, scaled in hy. rewrite run_S, hs. go. unfold code_dnorm. go. rewrite (res_fty bits sub lib HB hf), !decl_flt. go.
    change (literal bits (LFloat "1.0" "")) with (@Ok (val bits) (VLitF unit)). change (literal bits (LFloat "0.5" "")) with (@Ok (val bits) (VLitF (of_decimal bits (BD 5 1)))). go.
    cbn [cast]. rewrite ?Z.eqb_refl. go. rewrite ?decl_flt. go. rewrite ?decl_flt. go. rewrite hl. go. cbn [cast]. rewrite ?Z.eqb_refl. go. rewrite ?decl_flt. go. rewrite hk. go. rewrite hy. go. rewrite decl_flt. reflexivity.
  Qed.
  Lemma square_scaled (k y y' : flt bits) : opposite y y' -> same (fmul bits nan_of (fmul bits nan_of k y) y) (fmul bits nan_of (fmul bits nan_of k y') y').
  Proof.
    intros [N|(s & t & -> & ->)]; [apply fmul_both; [apply fmul_negative_r; [left; reflexivity|exact N]|exact N]|].
    assert (Q : finite k = true \/ isnan k = true \/ exists u, k = Binary.B754_infinity _ _ u) by (destruct k; cbn; eauto).
    destruct Q as [Q|[Q|[u ->]]]; [left; destruct k as [u|u|u pl h|u m e h]; try discriminate; destruct s, t, u; reflexivity|right; split; apply fmul_nan; left; apply fmul_nan; auto|].
    assert (N : forall v, isnan (fmul bits nan_of (Binary.B754_infinity _ _ u) (zero v)) = true) by (intros v; unfold fmul, Binary.Bmult; cbn; first [reflexivity | apply nan_is | unfold Binary.build_nan; match goal with |- context [nan_of ?l] => destruct (nan_of l) as [[?|?|? ? ?|? ? ? ?] ?]; try discriminate; reflexivity end]).
    right. split; apply fmul_nan; left; apply N.
  Qed.
  Theorem dnorm_swap d x m s : (forall n, In n exp2_needs -> H n) -> H "dnorm" -> (forall n, In n ["LOG2_E"; "SQRT_RECIP_2PI"] -> exists c, C n = Ok (VFlt c)) -> poly_of F kind bits "x" PNeither (sub "exp2") ->
    exists y y', R (S (S (S d))) "dnorm" [VFlt x; VFlt m; VFlt s] = Ok (VFlt y) /\ R (S (S (S d))) "dnorm" [VFlt m; VFlt x; VFlt s] = Ok (VFlt y') /\ same y y'.
  Proof.
    intros hh hs hc hp. assert (hf : H "fty") by (apply hh; cbn; tauto). destruct (hc "LOG2_E") as (l & hl); [cbn; tauto|]. destruct (hc "SQRT_RECIP_2PI") as (k & hk); [cbn; tauto|].
    assert (O : opposite (scaled x m s) (scaled m x s)) by (apply fmul_opposite; [apply fsub_swap|left; reflexivity]).
    assert (S : same (density l x m s) (density l m x s)).
    { apply square_scaled, O. }
    destruct (exp2_some bits sub lib HB nan_of std checked F kind W RB d (density l x m s) hh hp) as (y & Ry).
    destruct (exp2_same bits sub lib HB nan_of std checked F kind W RB d _ _ _ hh hp S Ry) as (y' & Ry' & Sy).
    do 2 eexists. split; [eapply run_dnorm; eassumption|]. split; [eapply run_dnorm; eassumption|]. apply fmul_same; [left; reflexivity|exact Sy].
  Qed.
End Run.
