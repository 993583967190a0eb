(** What a passing test says. *)
From Coq Require Import List Bool ZArith Reals Lia Lra.
From Flocq Require Import Core Plus_error Relative IEEE754.BinarySingleNaN IEEE754.Binary IEEE754.Bits.
From Verif Require Import GenSem FloatBits GenFloat DecimalLit NumberTypeFacts NumberTypeCases Harness.
Import ListNotations.
Open Scope Z_scope.

Definition is_nan_f {bits} (x : flt bits) : bool := Binary.is_nan _ _ x.
(** [a <= b] on the extended reals, for floats that are not NaN *)
Definition le_ext {bits} (a b : flt bits) : Prop :=
  is_nan_f a = false /\ is_nan_f b = false /\
  ((a = B754_infinity _ _ true) \/ (b = B754_infinity _ _ false) \/ (finite a = true /\ finite b = true /\ (fR a <= fR b)%R)).

Section Facts.
  Variable bits : Z.
  Variable nan_of : list (flt bits) -> { x : flt bits | Binary.is_nan (prec bits) (emax bits) x = true }.
  Notation above := (above bits).

  Lemma cmp_ext (a b : flt bits) : is_nan_f a = false -> is_nan_f b = false ->
    match fcmp bits a b with
    | Some Gt => le_ext b a
    | Some _ => le_ext a b
    | None => False
    end.
  Proof.
    intros Na Nb. unfold fcmp, le_ext.
    destruct a as [s|s|s pl H|s m e H], b as [s'|s'|s' pl' H'|s' m' e' H']; try discriminate; cbn -[Binary.Bcompare];
      try (rewrite Binary.Bcompare_correct by reflexivity; cbn [Binary.B2R]; match goal with |- context [Rcompare ?x ?y] => destruct (Rcompare_spec x y) end;
           repeat split; auto; right; right; repeat split; auto; lra).
    all: destruct s, s'; cbn; auto 10.
  Qed.
  Lemma le_ext_trans (a b c : flt bits) : le_ext a b -> le_ext b c -> le_ext a c.
  Proof.
    intros (Na & Nb & H) (_ & Nc & G). split; [exact Na|]. split; [exact Nc|].
    destruct H as [H|[H|(F1 & F2 & H)]]; [left; exact H| |]; destruct G as [G|[G|(F3 & F4 & G)]]; subst; try discriminate; auto.
    right. right. repeat split; auto. lra.
  Qed.
  Lemma le_ext_refl (a : flt bits) : is_nan_f a = false -> le_ext a a.
  Proof.
    intros N. split; [exact N|]. split; [exact N|]. destruct a as [s|s|s pl H|s m e H]; try discriminate;
      try (right; right; repeat split; auto; lra). destruct s; auto.
  Qed.

  Lemma step_max e m : is_nan_f m = false ->
    let m' := if above e m then e else m in is_nan_f m' = false /\ le_ext m m' /\ (is_nan_f e = false -> le_ext e m').
  Proof.
    intros N. unfold Harness.above. destruct (is_nan_f e) eqn:Ne.
    - assert (C : fcmp bits e m = None).
      { destruct e as [s|s|s pl H|s k j H], m as [s'|s'|s' pl' H'|s' k' j' H']; try discriminate; reflexivity. }
      rewrite C. cbv zeta. split; [exact N|]. split; [apply le_ext_refl; exact N|discriminate].
    - pose proof (cmp_ext e m Ne N) as C. destruct (fcmp bits e m) as [[]|]; try contradiction; cbv zeta; repeat split;
        auto using le_ext_refl; try apply C; try (apply le_ext_refl; assumption).
  Qed.
  Lemma max_error_bounds f rows : forall m, is_nan_f m = false ->
    let m' := max_error bits nan_of f rows m in is_nan_f m' = false /\ le_ext m m' /\
    (forall r, In r rows -> is_nan_f (sample_error bits nan_of f r) = false -> le_ext (sample_error bits nan_of f r) m').
  Proof.
    induction rows as [|r t IH]; intros m N; cbn [max_error].
    - cbv zeta. split; [exact N|]. split; [apply le_ext_refl; exact N|intros r []].
    - pose proof (step_max (sample_error bits nan_of f r) m N) as (N1 & L1 & E1). cbv zeta in *.
      destruct (IH _ N1) as (N2 & L2 & E2). split; [exact N2|]. split; [eapply le_ext_trans; eassumption|].
      intros q [<-|I] Nq; [|apply E2; assumption]. eapply le_ext_trans; [apply E1; exact Nq|exact L2].
  Qed.
  Lemma at_most_ext a b : at_most bits a b = true -> le_ext a b.
  Proof.
    unfold at_most. destruct (is_nan_f a) eqn:Na.
    { destruct a as [s|s|s pl H|s k j H]; try discriminate. }
    destruct (is_nan_f b) eqn:Nb.
    { destruct b as [s|s|s pl H|s k j H]; try discriminate. destruct a; cbn; discriminate. }
    pose proof (cmp_ext a b Na Nb) as C. destruct (fcmp bits a b) as [[]|]; try discriminate; auto.
  Qed.
  Lemma passes_bound f rows limit : test_passes bits nan_of f rows limit = true ->
    forall r, In r rows -> is_nan_f (sample_error bits nan_of f r) = false -> le_ext (sample_error bits nan_of f r) limit.
  Proof.
    unfold test_passes. intros T r I N. apply andb_prop in T. destruct T as [_ T]. apply at_most_ext in T.
    destruct (max_error_bounds f rows (zero bits) eq_refl) as (_ & _ & E). eapply le_ext_trans; [apply E; assumption|exact T].
  Qed.

  (** the error measured against the error *)
  Lemma plus_err x y : generic_format radix2 (fx bits) x -> generic_format radix2 (fx bits) y ->
    exists a, (Rabs a <= bpow radix2 (- prec bits))%R /\ (x + y = RN bits (x + y) * (1 + a))%R.
  Proof.
    intros X Y. destruct (FLT_plus_error_N_round_ex radix2 (3 - emax bits - prec bits) (prec bits) (fun t => negb (Z.even t)) x y X Y) as (a & A & E).
    exists a. split; [|exact E]. eapply Rle_trans; [exact A|]. unfold u_ro. rewrite bpow_plus. change (bpow radix2 1) with 2%R. lra.
  Qed.
  Lemma real_error (c y e limit : flt bits) : finite c = true -> finite y = true -> finite e = true ->
    finite limit = true -> le_ext (fabs bits (fsub bits nan_of (fsub bits nan_of c y) e)) limit ->
    (Rabs (fR c - (fR y + fR e)) <= (1 + bpow radix2 (- prec bits)) ^ 2 * fR limit + bpow radix2 (- prec bits) * Rabs (fR e))%R.
  Proof.
    intros Fc Fy Fe Fl (N1 & _ & L). set (u := bpow radix2 (- prec bits)). assert (U : (0 <= u)%R) by apply bpow_ge_0.
    assert (FE : finite (fsub bits nan_of (fsub bits nan_of c y) e) = true /\ (Rabs (fR (fsub bits nan_of (fsub bits nan_of c y) e)) <= fR limit)%R).
    { set (d := fsub bits nan_of (fsub bits nan_of c y) e) in *. destruct L as [L|[L|(F1 & _ & L)]].
      - destruct d as [s|s|s pl H|s k j H]; discriminate.
      - subst limit. discriminate.
      - destruct d as [s|s|s pl H|s k j H]; try discriminate; (split; [reflexivity|]); cbn [fabs set_sign Binary.B2R] in L |- *.
        + rewrite Rabs_R0. exact L.
        + rewrite <- F2R_Zabs. destruct s; exact L. }
    destruct FE as [FE LE].
    assert (FD : finite (fsub bits nan_of c y) = true).
    { destruct (fsub bits nan_of c y) as [s|s|s pl H|s k j H] eqn:ED; try reflexivity; exfalso; revert FE; unfold fsub at 1, Binary.Bminus.
      - destruct e as [s'|s'|s' pl' H'|s' k' j' H']; try discriminate; cbn; discriminate.
      - destruct e as [s'|s'|s' pl' H'|s' k' j' H']; try discriminate; cbn; discriminate. }
    assert (VD : forall a b : flt bits, finite a = true -> finite b = true -> finite (fsub bits nan_of a b) = true ->
      fR (fsub bits nan_of a b) = RN bits (fR a - fR b)).
    { intros a b Fa Fb Fab. unfold fsub in *.
      pose proof (Binary.Bminus_correct _ _ (prec_gt bits) (prec_lt bits) (fun a b => nan_of [a; b]) mode_NE a b Fa Fb) as C.
      destruct (Rlt_bool _ _) in C; [apply C|]. exfalso. destruct C as [C _].
      destruct (Binary.Bminus _ _ _ _ _ _ a b) as [s|s|s pl H|s k j H]; cbn in C; unfold binary_overflow in C; cbn in C; try discriminate. }
    pose proof (VD c y Fc Fy FD) as V1. pose proof (VD _ e FD Fe FE) as V2.
    set (d := fR (fsub bits nan_of c y)) in *. set (E := fR (fsub bits nan_of (fsub bits nan_of c y) e)) in *.
    destruct (plus_err (fR c) (- fR y)) as (a1 & A1 & E1); [apply fmt_flt|apply generic_format_opp, fmt_flt|].
    destruct (plus_err d (- fR e)) as (a2 & A2 & E2); [apply fmt_flt|apply generic_format_opp, fmt_flt|].
    fold (fR c - fR y)%R in E1. fold (d - fR e)%R in E2. rewrite <- V1 in E1. rewrite <- V2 in E2. fold u in A1, A2.
    replace (fR c - (fR y + fR e))%R with (E * (1 + a2) + d * a1)%R by lra.
    assert (D : (Rabs d <= fR limit * (1 + u) + Rabs (fR e))%R).
    { replace d with (E * (1 + a2) + fR e)%R by lra. eapply Rle_trans; [apply Rabs_triang|]. apply Rplus_le_compat_r.
      apply prod_small; [exact LE|]. eapply Rle_trans; [apply Rabs_triang|]. rewrite Rabs_R1. lra. }
    eapply Rle_trans; [apply Rabs_triang|].
    apply Rle_trans with (fR limit * (1 + u) + (fR limit * (1 + u) + Rabs (fR e)) * u)%R.
    - apply Rplus_le_compat; [apply prod_small; [exact LE|]|apply prod_small; assumption].
      eapply Rle_trans; [apply Rabs_triang|]. rewrite Rabs_R1. lra.
    - apply Req_le. ring.
  Qed.
End Facts.

(** the histogram test looks at the last bucket only *)
Lemma hist_last nan_of pdf tmin tmax : forall h c i m,
  hist_error nan_of pdf tmin tmax i (h ++ [c]) m = bucket_error nan_of pdf tmin tmax (i + Z.of_nat (length h)) c.
Proof.
  induction h as [|a h IH]; intros c i m; [cbn; rewrite Z.add_0_r; reflexivity|]. cbn [app hist_error]. rewrite IH.
  f_equal. cbn [length]. lia.
Qed.

Lemma nan_sub bits nan_of (a b : flt bits) : is_nan_f a = true -> is_nan_f (fsub bits nan_of a b) = true.
Proof.
  intros N. destruct a as [s|s|s pl H|s m e H]; try discriminate. unfold is_nan_f, fsub, Binary.Bminus.
  destruct b; cbn; reflexivity.
Qed.
Lemma nan_passes bits nan_of f (rows : list (flt bits * flt bits * flt bits)) limit :
  (forall x yref yerr, In (x, yref, yerr) rows -> is_nan_f (f x) = true) -> le_ext (B754_zero _ _ false) limit ->
  test_passes bits nan_of f rows limit = true.
Proof.
  intros N L. unfold test_passes.
  assert (M : max_error bits nan_of f rows (zero bits) = zero bits).
  { induction rows as [|[[x yref] yerr] t IH]; [reflexivity|]. cbn [max_error].
    assert (E : is_nan_f (sample_error bits nan_of f (x, yref, yerr)) = true).
    { unfold sample_error. pose proof (nan_sub bits nan_of _ yerr (nan_sub bits nan_of (f x) yref (N x yref yerr (or_introl eq_refl)))) as Q.
      destruct (fsub bits nan_of _ yerr); try discriminate. reflexivity. }
    assert (A : above bits (sample_error bits nan_of f (x, yref, yerr)) (zero bits) = false).
    { destruct (sample_error bits nan_of f (x, yref, yerr)); try discriminate. reflexivity. }
    rewrite A. apply IH. intros a b c I. apply (N a b c). right. exact I. }
  rewrite M. cbn [negb Binary.is_nan andb zero]. unfold at_most.
  destruct L as (_ & NL & L). destruct limit as [s|s|s pl H|s m e H]; try discriminate.
  - reflexivity.
  - destruct s; [|reflexivity]. destruct L as [L|[L|(_ & L & _)]]; discriminate.
  - destruct L as [L|[L|(_ & _ & L)]]; try discriminate. destruct s; [|reflexivity]. exfalso. cbn in L. revert L. apply Rlt_not_le.
    apply F2R_lt_0. reflexivity.
Qed.

Lemma sub_not_nan bits nan_of (a b : flt bits) : is_nan_f a = false -> finite b = true -> is_nan_f (fsub bits nan_of a b) = false.
Proof.
  intros N Fb. destruct (finite a) eqn:Fa.
  - pose proof (Binary.Bminus_correct _ _ (prec_gt bits) (prec_lt bits) (fun a b => nan_of [a; b]) mode_NE a b Fa Fb) as C. unfold fsub.
    destruct (Rlt_bool _ _) in C.
    + destruct C as (_ & C & _). destruct (Binary.Bminus _ _ _ _ _ _ a b); try discriminate; reflexivity.
    + destruct C as [C _]. destruct (Binary.Bminus _ _ _ _ _ _ a b); cbn in C; unfold binary_overflow in C; cbn in C; try discriminate; reflexivity.
  - destruct a as [s|s|s pl H|s m e H]; try discriminate. destruct b as [s'|s'|s' pl' H'|s' m' e' H']; try discriminate; reflexivity.
Qed.
Lemma finite_error bits nan_of (f : flt bits -> flt bits) (rows : list (flt bits * flt bits * flt bits)) (limit : flt bits) :
  test_passes bits nan_of f rows limit = true -> finite limit = true -> forall x yref yerr, In (x, yref, yerr) rows ->
  finite (f x) = true -> finite yref = true -> finite yerr = true ->
  (Rabs (fR (f x) - (fR yref + fR yerr)) <=
   (1 + bpow radix2 (- prec bits)) ^ 2 * fR limit + bpow radix2 (- prec bits) * Rabs (fR yerr))%R.
Proof.
  intros T FL x yref yerr I F1 F2 F3. apply (real_error bits nan_of); auto.
  apply (passes_bound bits nan_of f rows limit T (x, yref, yerr) I). unfold sample_error.
  pose proof (sub_not_nan bits nan_of (fsub bits nan_of (f x) yref) yerr) as N.
  destruct (fsub bits nan_of (fsub bits nan_of (f x) yref) yerr); cbn in N |- *; try reflexivity. apply N; [|exact F3].
  apply sub_not_nan; [|exact F2]. destruct (f x); try discriminate; reflexivity.
Qed.
Lemma last_bucket nan_of (h : list Z) : length h = 31%nat ->
  histogram_passes nan_of (fun _ => of_int 64 1) (of_int 64 0) (of_int 64 1) (h ++ [31250]) = true.
Proof. intros L. unfold histogram_passes. rewrite hist_last, L. vm_compute. reflexivity. Qed.
