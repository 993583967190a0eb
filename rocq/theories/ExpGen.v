(** The library whose exp2 and LOG2_E are the generated ones. *)
From Coq Require Import List String Bool ZArith QArith Reals Ascii Lia Lra.
From Flocq Require Import Core Relative IEEE754.BinarySingleNaN IEEE754.Binary IEEE754.Bits.
From Verif Require Import Res Dec DecFacts DecStr Syntax Trans BdMath Eval Item Functions FunctionsFacts GenCode GenCodeFacts GenSem FloatBits GenRun GenFloat GenFloat2 GenFloat4
  DecimalLit UseNumberType RFacts NumberTypeFacts ExactFloats Poly MulAddFacts ApproxFacts Exp2Approx Exp2Numbers HornerFloat HornerParity Exp2Edge Exp2Float TestTable ConstSource Constants ExpFloat.
From Flocq Require Import Core Relative.
From Coq Require Import Lra.
Import ListNotations.
Open Scope string_scope.
Open Scope list_scope.
Open Scope R_scope.

(** log_exp.rs:8-24 (exp2: 8 or 12 terms on [xmin, xmax] = [-0.5, 0.5]) and auxfuncs.rs:229-235 (LOG2_E): [sub] gives what the
    generator computes for the two with [fuel] steps. *)
Definition exp_parts (F : floats) (kind : string) (bits : Z) (o : oracles) (xmin xmax : bd) (fuel : nat) (sub : string -> expr) : Prop :=
  exists r, approx o fuel (two_pow ["x"]) (if (bits =? 32)%Z then 8 else 12) xmin xmax ["x"] PNeither (config_digits bits) = Ok r /\
    use_number_type F kind bits r = Ok (sub "exp2") /\ eval o fuel (config_digits bits) e_log2_e = Ok (sub "LOG2_E").
Definition exp_error (bits : Z) (k : R) : R := if (bits =? 32)%Z then 2.67 * bpow radix2 (-24) + 0.6 * k else 8.21 * bpow radix2 (-53) + 2.03 * k.
Definition exp_low (bits : Z) : R := if (bits =? 32)%Z then -125.5 else -1021.5.
Definition exp_high (bits : Z) : R := if (bits =? 32)%Z then 127 else 1023.
Definition powi_limit (bits : Z) : R := if (bits =? 32)%Z then bpow radix2 (-27) else / 1024.

Theorem exp_base F kind bits k o xmin xmax : rval xmin = - / 2 -> rval xmax = / 2 -> (bits = 32 \/ bits = 64)%Z -> working kind bits -> reads_back F -> powi_within F k -> 0 <= k <= powi_limit bits ->
  exists fuel0, forall fuel, (fuel0 <= fuel)%nat -> (exists sub, exp_parts F kind bits o xmin xmax fuel sub) /\
    forall sub, exp_parts F kind bits o xmin xmax fuel sub -> forall lib nan_of std checked d, (forall n, In n exp2_needs -> has bits sub lib n) -> has bits sub lib "LOG2_E" ->
      (forall y : flt bits, finite y = true -> exp_low bits < fR y <= exp_high bits -> exists out, run bits nan_of std checked lib (S (S d)) "exp2" [VFlt y] = Ok (VFlt out) /\ finite out = true /\
        Rabs (fR out - Rpower 2 (fR y)) <= exp_error bits k * Rpower 2 (fR y)) /\
      exists c, const_of bits nan_of std checked lib "LOG2_E" = Ok (VFlt c) /\ finite c = true /\
        Rabs (fR c - 1 / ln 2) <= (1 + / 100000) * bpow radix2 (- prec bits) * (1 / ln 2).
Proof.
  intros Ea Eb HB W RB PW HK.
  destruct (constant_float o bits "LOG2_E" (1 / ln 2)) as (e & f1 & S1 & H1); [discriminate|exact HB|cbn; tauto|]. injection S1 as <-.
  assert (EX : exists fuel0, forall fuel, (fuel0 <= fuel)%nat -> exists r e',
    approx o fuel (two_pow ["x"]) (if (bits =? 32)%Z then 8 else 12) xmin xmax ["x"] PNeither (config_digits bits) = Ok r /\ use_number_type F kind bits r = Ok e' /\
    forall sub lib nan_of std checked d (y : flt bits), (forall n, In n exp2_needs -> has bits sub lib n) -> sub "exp2" = e' ->
      finite y = true -> exp_low bits < fR y <= exp_high bits ->
      exists out, run bits nan_of std checked lib (S (S d)) "exp2" [VFlt y] = Ok (VFlt out) /\ finite out = true /\
        Rabs (fR out - Rpower 2 (fR y)) <= exp_error bits k * Rpower 2 (fR y)).
  { destruct HB as [-> | ->].
    - destruct (exp2_generated_32 F kind k o xmin xmax W RB PW HK Ea Eb) as (f0 & H0). exists f0. intros fuel Hf.
      destruct (H0 fuel Hf) as (r & e' & A & U & G). exists r, e'. split; [exact A|]. split; [exact U|]. intros sub lib nan_of std checked d y hh hs Fy L.
      destruct (G sub lib nan_of std checked y d hh hs Fy L) as (out & R & Fo & O & _). exists out. auto.
    - destruct (exp2_generated_64 F kind k o xmin xmax W RB PW HK Ea Eb) as (f0 & H0). exists f0. intros fuel Hf.
      destruct (H0 fuel Hf) as (r & e' & A & U & G). exists r, e'. split; [exact A|]. split; [exact U|]. intros sub lib nan_of std checked d y hh hs Fy L.
      destruct (G sub lib nan_of std checked y d hh hs Fy L) as (out & R & Fo & O). exists out. auto. }
  destruct EX as (f0 & H0). exists (Nat.max f0 f1). intros fuel Hf. destruct (H0 fuel ltac:(lia)) as (r & e' & A & U & G). destruct (H1 fuel ltac:(lia)) as (c & Ec & _ & Gc).
  split.
  - exists (fun n => if String.eqb n "exp2" then e' else c), r. auto.
  - intros sub (r' & A' & U' & E') lib nan_of std checked d hh hl. rewrite A in A'. injection A' as <-. rewrite U in U'. injection U' as Hs. rewrite Ec in E'. injection E' as Hc.
    split; [intros y Fy L; apply (G sub); auto|]. apply (Gc sub); auto.
Qed.
Lemma exp_error_small bits k : (bits = 32 \/ bits = 64)%Z -> 0 <= k <= powi_limit bits -> 0 <= exp_error bits k <= / 100.
Proof.
  unfold powi_limit, exp_error. intros [-> | ->] K; cbn [Z.eqb Pos.eqb] in *.
  - change (bpow radix2 (-24)) with (/ 16777216). change (bpow radix2 (-27)) with (/ 134217728) in K. lra.
  - assert (0 < bpow radix2 (-53) <= bpow radix2 (-24)) by (split; [apply bpow_gt_0|apply bpow_le; lia]). change (bpow radix2 (-24)) with (/ 16777216) in *. lra.
Qed.
Lemma low_ok bits : (bits = 32 \/ bits = 64)%Z -> - IZR (emax bits) <= exp_low bits.
Proof. intros [-> | ->]; [assert (E : IZR (emax 32) = 128) by reflexivity|assert (E : IZR (emax 64) = 1024) by reflexivity]; rewrite E; unfold exp_low; cbn [Z.eqb Pos.eqb]; lra. Qed.
Lemma high_ok bits : (bits = 32 \/ bits = 64)%Z -> exp_high bits = IZR (emax bits) - 1.
Proof. intros [-> | ->]; [assert (E : IZR (emax 32) = 128) by reflexivity|assert (E : IZR (emax 64) = 1024) by reflexivity]; rewrite E; unfold exp_high; cbn [Z.eqb Pos.eqb]; lra. Qed.

(** every coefficient is of ordinary size, so the retyped polynomial has a value for every float argument *)
Lemma exp_total F kind bits k o xmin xmax : rval xmin = - / 2 -> rval xmax = / 2 -> (bits = 32 \/ bits = 64)%Z -> working kind bits -> reads_back F -> powi_within F k -> 0 <= k <= powi_limit bits ->
  exists fuel0, forall fuel, (fuel0 <= fuel)%nat -> forall sub, exp_parts F kind bits o xmin xmax fuel sub ->
    forall nan_of std checked lib call const env t, lookup bits "x" env = Some (VFlt t) -> exists p, eval_g bits nan_of std checked lib call const env (sub "exp2") = Ok (VFlt p).
Proof.
  intros Ea Eb HB W RB PW HK. assert (HK' : 0 <= k <= 1 / 1024).
  { unfold powi_limit in HK. destruct HB as [-> | ->]; cbn [Z.eqb Pos.eqb] in HK; [change (bpow radix2 (-27)) with (/ 134217728) in HK|]; lra. }
  assert (EX : exists fuel0, forall fuel, (fuel0 <= fuel)%nat -> exists r ts, approx o fuel (two_pow ["x"]) (if (bits =? 32)%Z then 8 else 12) xmin xmax ["x"] PNeither (config_digits bits) = Ok r /\
    mul_add_polynomial ts ["x"] PNeither = Ok r /\ Forall (fun c => (0 <= scale c)%Z /\ ordinary bits c) ts).
  { destruct HB as [-> | ->].
    - destruct (exp2_poly_32 o ["x"] xmin xmax Ea Eb) as (f0 & H). exists f0. intros fuel Hf. destruct (H fuel Hf) as (r & ts & A & L & Mp & S & _ & C). exists r, ts.
      split; [exact A|]. split; [exact Mp|]. apply Forall_forall. intros c Hc. destruct (In_nth ts c dzero Hc) as (j & Hj & E). rewrite L in Hj. rewrite Forall_forall in S. specialize (S _ Hc). split; [lia|].
      apply (ordinary_grid 32 20); [exact S|lia|]. rewrite <- E. apply Rle_trans with (nth j tab8 0); [apply (coef_le _ j (c8 j)); [apply C; lia|apply tab8_ok; lia]|].
      assert (Hj' : (j <= 7)%nat) by lia. clear - Hj'. cases_to j Hj' 8%nat; unfold tab8, C8; cbn [nth app]; lra.
    - destruct (exp2_poly_64 o ["x"] xmin xmax Ea Eb) as (f0 & H). exists f0. intros fuel Hf. destruct (H fuel Hf) as (r & ts & A & L & Mp & S & _ & C). exists r, ts.
      split; [exact A|]. split; [exact Mp|]. apply Forall_forall. intros c Hc. destruct (In_nth ts c dzero Hc) as (j & Hj & E). rewrite L in Hj. rewrite Forall_forall in S. specialize (S _ Hc). split; [lia|].
      apply (ordinary_grid 64 40); [exact S|lia|]. rewrite <- E. apply Rle_trans with (nth j tab12 0); [apply (coef_le _ j (c12 j)); [apply C; lia|apply tab12_ok; lia]|].
      assert (Hj' : (j <= 11)%nat) by lia. clear - Hj'. cases_to j Hj' 12%nat; unfold tab12, C12; cbn [nth app]; lra. }
  destruct EX as (f0 & H). exists f0. intros fuel Hf sub (r' & A' & U' & _) nan_of std checked lib call const env t Lk. destruct (H fuel Hf) as (r & ts & A & Mp & OR).
  rewrite A in A'. injection A' as <-. destruct (poly_retyped F kind bits k W RB PW HK' "x" ts r OR Mp) as (l & h & e' & _ & Ue & Ev). rewrite Ue in U'. injection U' as <-.
  eexists. apply Ev. exact Lk.
Qed.

Lemma quot_low a b : a * 0.69314 <= b -> a <= 0 -> a <= b / ln 2.
Proof. pose proof ln2_tight as L2. intros A N. apply Rmult_le_reg_r with (ln 2); [lra|]. unfold Rdiv. rewrite Rmult_assoc, Rinv_l, Rmult_1_r by lra. nra. Qed.
Lemma quot_high a b : b <= a * 0.69314 -> 0 <= a -> b / ln 2 <= a.
Proof. pose proof ln2_tight as L2. intros A N. apply Rmult_le_reg_r with (ln 2); [lra|]. unfold Rdiv. rewrite Rmult_assoc, Rinv_l, Rmult_1_r by lra. nra. Qed.
Definition exp_names : list string := ["fty"; "uty"; "ity"; "round"; "EXP2_ONE"; "EXP2_SCALE"; "EXP2_MIN"; "EXP2_MAX"; "INFINITY"; "exp2"; "LOG2_E"].

Section Facts.
  Context (F : floats) (kind : string) (bits : Z) (k : R) (o : oracles) (xmin xmax : bd) (Ea : rval xmin = - / 2) (Eb : rval xmax = / 2)
    (HB : (bits = 32 \/ bits = 64)%Z) (W : working kind bits) (RB : reads_back F) (PW : powi_within F k) (HK : 0 <= k <= powi_limit bits).

  Lemma exp_facts : exists fuel0, forall fuel, (fuel0 <= fuel)%nat -> (exists sub, exp_parts F kind bits o xmin xmax fuel sub) /\
    forall sub, exp_parts F kind bits o xmin xmax fuel sub -> any_poly bits sub /\
      forall lib nan_of std checked d, (forall n, In n exp_names -> has bits sub lib n) -> exists c,
        (forall y : flt bits, finite y = true -> exp_low bits < fR y <= exp_high bits -> exists out, run bits nan_of std checked lib (S (S d)) "exp2" [VFlt y] = Ok (VFlt out) /\ finite out = true /\
          Rabs (fR out - Rpower 2 (fR y)) <= exp_error bits k * Rpower 2 (fR y)) /\
        const_of bits nan_of std checked lib "LOG2_E" = Ok (VFlt c) /\ finite c = true /\ Rabs (fR c - 1 / ln 2) <= (1 + / 100000) * bpow radix2 (- prec bits) * (1 / ln 2).
  Proof.
    destruct (exp_base F kind bits k o xmin xmax Ea Eb HB W RB PW HK) as (f0 & H0). destruct (exp_total F kind bits k o xmin xmax Ea Eb HB W RB PW HK) as (f1 & H1).
    exists (Nat.max f0 f1). intros fuel Hf. destruct (H0 fuel ltac:(lia)) as [Ex All]. split; [exact Ex|]. intros sub EP.
    split; [intros nan_of std checked lib call const env t Lk; exact (H1 fuel ltac:(lia) sub EP nan_of std checked lib call const env t Lk)|].
    intros lib nan_of std checked d hh. destruct (All sub EP lib nan_of std checked d) as [E2 (c & Cc & Fc & Vc)]; [intros n I; apply hh; cbn in I |- *; tauto|apply hh; cbn; tauto|].
    exists c. auto.
  Qed.
End Facts.
