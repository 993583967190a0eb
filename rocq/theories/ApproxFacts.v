(** [approx]: the sample points and the value of the result at them. *)
From Coq Require Import ZArith QArith Qabs Qreals Reals Lra Lia List Bool Arith String.
From Verif Require Import Res Dec DecFacts RFacts Syntax Trans BdMath Eval EvalFacts Accuracy PiFacts Poly PolyFacts PolyErr MulAddFacts.
Import ListNotations.
Open Scope R_scope.

(** The value of expression [e] at x = [xv], as the evaluator computes it. *)
Definition value_at (o : oracles) (fuel : nat) (nd : Z) (e : expr) (x : list string) (xv y : bd) : Prop :=
  exists xe s v, expr_of_bd xv = Ok xe /\ subst [(x, xe)] e = Ok s /\ eval o fuel nd s = Ok v /\ bd_of_expr v = Ok y.

Lemma samples_inv o fuel e x nd a b c is xs ys :
  samples o fuel e x nd a b c is = Ok (xs, ys) ->
  length xs = length is /\ length ys = length is /\
  forall j i, nth_error is j = Some i -> exists cs y,
    bcos (dmul (bigd (Z.of_nat i)) b) nd = Ok cs /\
    nth_error xs j = Some (dsub a (dmul c cs)) /\ nth_error ys j = Some y /\
    value_at o fuel nd e x (dsub a (dmul c cs)) y.
Proof.
  revert xs ys. induction is as [|i is IH]; intros xs ys H.
  - cbn in H. inversion H. subst. split; [reflexivity|]. split; [reflexivity|]. intros [|j] k E; discriminate E.
  - cbn [samples] in H. destruct (bcos (dmul (bigd (Z.of_nat i)) b) nd) as [cs| |] eqn:C; try discriminate H. cbn [rbind] in H.
    destruct (expr_of_bd (dsub a (dmul c cs))) as [xe| |] eqn:E1; try discriminate H. cbn [rbind] in H.
    destruct (subst [(x, xe)] e) as [s| |] eqn:E2; try discriminate H. cbn [rbind] in H.
    destruct (eval o fuel nd s) as [v| |] eqn:E3; try discriminate H. cbn [rbind] in H.
    destruct (bd_of_expr v) as [y| |] eqn:E4; try discriminate H. cbn [rbind] in H.
    destruct (samples o fuel e x nd a b c is) as [[xs' ys']| |] eqn:R; try discriminate H. cbn [rbind fst snd] in H.
    inversion H; subst. destruct (IH _ _ eq_refl) as (L1 & L2 & N). cbn [length]. split; [congruence|]. split; [congruence|].
    intros [|j] k K; cbn [nth_error] in *.
    + inversion K; subst k. exists cs, y. split; [exact C|]. split; [reflexivity|]. split; [reflexivity|].
      exists xe, s, v. auto.
    + apply N. exact K.
Qed.

(** The n-th of the almost-Chebyshev nodes of [lo, hi]. *)
Definition node (lo hi : R) (n i : nat) : R :=
  (hi + lo) / 2 - (hi - lo) / 2 * cos (INR i * PI / INR (n - 1)).

Lemma INR_Z n : INR n = IZR (Z.of_nat n).
Proof. apply INR_IZR_INZ. Qed.

Lemma small_unit nd : (2 <= nd)%Z -> 0 < r10 (- nd) <= / 100.
Proof.
  intros H. split; [apply r10_pos|]. eapply Rle_trans; [apply (r10_mono _ (- (2))); lia|].
  rewrite r10_opp, r10_IZR by lia. change (10 ^ 2)%Z with 100%Z. lra.
Qed.
Lemma delta_unit nd : (nd <= 97)%Z -> delta <= / 200 * r10 (- nd).
Proof.
  intros H. unfold delta. assert (r10 (-99) <= / 100 * r10 (- nd)); [|lra].
  replace (-99)%Z with (- (2) + (-97))%Z by lia. rewrite r10_plus, r10_opp, (r10_IZR 2) by lia.
  change (10 ^ 2)%Z with 100%Z. apply Rmult_le_compat_l; [lra|]. apply r10_mono. lia.
Qed.
Lemma cos_lipschitz a b : Rabs (cos a - cos b) <= Rabs (a - b).
Proof.
  destruct (MVT_abs cos (fun t => - sin t) b a) as (c & E & _); [intros; apply derivable_pt_lim_cos|].
  rewrite E, Rabs_Ropp. rewrite <- (Rmult_1_l (Rabs (a - b))) at 2. apply Rmult_le_compat_r; [apply Rabs_pos|].
  apply Rabs_le, SIN_bound.
Qed.
Lemma PI_bound : 3 < PI < 3.2.
Proof.
  pose proof pi_enclosure as [L U]. change (r10 (-105)) with (r10 (- (105))) in *. rewrite r10_opp, r10_IZR in * by lia.
  assert (P : 0 < IZR (10 ^ 105)) by (apply IZR_lt; vm_compute; reflexivity).
  assert (A : 3 * IZR (10 ^ 105) < IZR pi_lo) by (rewrite <- mult_IZR; apply IZR_lt; vm_compute; reflexivity).
  assert (B : IZR (pi_lo + 1) * 10 < 32 * IZR (10 ^ 105)) by (rewrite <- !mult_IZR; apply IZR_lt; vm_compute; reflexivity).
  set (t := IZR (10 ^ 105)) in *. set (p := IZR pi_lo) in *. set (p' := IZR (pi_lo + 1)) in *. clearbody t p p'.
  split.
  - eapply Rlt_le_trans; [|exact L]. apply Rmult_lt_reg_r with t; [exact P|]. rewrite Rmult_assoc, Rinv_l by lra. lra.
  - eapply Rle_lt_trans; [exact U|]. apply Rmult_lt_reg_r with t; [exact P|]. rewrite Rmult_assoc, Rinv_l by lra. lra.
Qed.

Lemma approx_inv o fuel e n xmin xmax x p nd r :
  approx o fuel e n xmin xmax x p nd = Ok r ->
  exists n' pi b xs ys ts, n = S n' /\ bpi o nd = Ok pi /\ ddiv pi (bigd (Z.of_nat n')) = Ok b /\
    samples o fuel e x nd (dmul (dadd xmax xmin) dhalf) b (dmul (dsub xmax xmin) dhalf) (range 0 n) = Ok (xs, ys) /\
    from_points (bd_arith nd) xs ys = Ok ts /\ mul_add_polynomial ts x p = Ok r.
Proof.
  intros H. destruct n as [|n']; [discriminate H|]. unfold approx in H.
  destruct (bpi o nd) as [pi| |] eqn:E1; try discriminate H. cbn [rbind] in H.
  destruct (ddiv pi (bigd (Z.of_nat n'))) as [b| |] eqn:E2; try discriminate H. cbn [rbind] in H.
  destruct (samples _ _ _ _ _ _ _ _ _) as [[xs ys]| |] eqn:E3; try discriminate H. cbn [rbind fst snd] in H.
  destruct (from_points (bd_arith nd) xs ys) as [ts| |] eqn:E4; try discriminate H. cbn [rbind] in H.
  exists n', pi, b, xs, ys, ts. auto 10.
Qed.

(** One term is not enough: the spacing is pi / (n - 1). *)
Lemma approx_few o fuel e n xmin xmax x p nd : (n <= 1)%nat -> (nd < 100)%Z ->
  approx o fuel e n xmin xmax x p nd = Panic.
Proof.
  intros N D. destruct n as [|[|n]]; [reflexivity| |lia]. unfold approx.
  destruct (bpi_ok o nd D) as (q & Q & _). rewrite Q. cbn [rbind]. unfold ddiv. reflexivity.
Qed.

Lemma node_ok o nd pi b n' i xmin xmax :
  (2 <= nd <= 97)%Z -> (i <= n')%nat -> (1 <= n')%nat -> bpi o nd = Ok pi -> ddiv pi (bigd (Z.of_nat n')) = Ok b ->
  exists cs, bcos (dmul (bigd (Z.of_nat i)) b) nd = Ok cs /\
  Rabs (rval (dsub (dmul (dadd xmax xmin) dhalf) (dmul (dmul (dsub xmax xmin) dhalf) cs)) - node (rval xmin) (rval xmax) (S n') i)
    <= Rabs (rval xmax - rval xmin) * r10 (- nd) /\ Rabs (rval cs) <= 2.
Proof.
  intros Hn Hi Hn' P B.
  destruct (bpi_ok o nd ltac:(lia)) as (pi' & P' & EP). rewrite P in P'. inversion P'. subst pi'. clear P'.
  assert (NZ : rval (bigd (Z.of_nat n')) <> 0) by (rewrite rval_bigd; apply not_0_IZR; lia).
  destruct (ddiv_R pi _ NZ) as (b' & B' & EB). rewrite B in B'. inversion B'. subst b'. clear B'.
  rewrite rval_bigd in EB.
  pose proof (small_unit nd ltac:(lia)) as U. pose proof (delta_unit nd ltac:(lia)) as DU. pose proof delta_pos as DP.
  set (u := r10 (- nd)) in *. pose proof PI_bound as PB.
  assert (N1 : 1 <= IZR (Z.of_nat n')) by (apply IZR_le; lia).
  assert (I0 : 0 <= IZR (Z.of_nat i) <= IZR (Z.of_nat n')) by (split; apply IZR_le; lia).
  assert (PiA : Rabs (rval pi) <= 4).
  { replace (rval pi) with (PI + (rval pi - PI)) by ring. eapply Rle_trans; [apply Rabs_triang|].
    rewrite (Rabs_right PI) by lra. lra. }
  set (t := dmul (bigd (Z.of_nat i)) b) in *.
  assert (Et : rval t = IZR (Z.of_nat i) * rval b) by (unfold t; rewrite rval_dmul, rval_bigd; reflexivity).
  set (th := INR i * PI / INR n').
  assert (Eth : th = IZR (Z.of_nat i) * (PI / IZR (Z.of_nat n'))) by (unfold th; rewrite !INR_Z; field; lra).
  set (N := IZR (Z.of_nat n')) in *. set (I := IZR (Z.of_nat i)) in *.
  assert (EBn : Rabs (rval b - PI / N) <= (52 / 100 * u) / N).
  { replace (rval b - PI / N) with ((rval b - rval pi / N) + (rval pi - PI) / N) by (field; lra).
    eapply Rle_trans; [apply Rabs_triang|].
    assert (A1 : Rabs (rval pi / N) <= 4 / N).
    { unfold Rdiv. rewrite Rabs_mult, (Rabs_right (/ N)) by (apply Rle_ge, Rlt_le, Rinv_0_lt_compat; lra).
      apply Rmult_le_compat_r; [apply Rlt_le, Rinv_0_lt_compat; lra|exact PiA]. }
    assert (A2 : Rabs ((rval pi - PI) / N) <= (/ 2 * u) / N).
    { unfold Rdiv. rewrite Rabs_mult, (Rabs_right (/ N)) by (apply Rle_ge, Rlt_le, Rinv_0_lt_compat; lra).
      apply Rmult_le_compat_r; [apply Rlt_le, Rinv_0_lt_compat; lra|exact EP]. }
    assert (A3 : delta * Rabs (rval pi / N) <= (/ 200 * u) * (4 / N)) by (apply Rmult_le_compat; try apply Rabs_pos; lra).
    replace (52 / 100 * u / N) with (/ 200 * u * (4 / N) + / 2 * u / N) by (field; lra). lra. }
  assert (ET : Rabs (rval t - th) <= 52 / 100 * u).
  { rewrite Et, Eth. rewrite <- Rmult_minus_distr_l, Rabs_mult, (Rabs_right I) by lra.
    apply Rle_trans with (N * (52 / 100 * u / N)); [|right; field; lra].
    apply Rmult_le_compat; try apply Rabs_pos; lra. }
  assert (Th : 0 <= th <= PI).
  { rewrite Eth. assert (0 < PI / N) by (apply Rdiv_lt_0_compat; lra). split; [apply Rmult_le_pos; lra|].
    apply Rle_trans with (N * (PI / N)); [apply Rmult_le_compat_r; lra|right; field; lra]. }
  assert (TB : Rabs (rval t) <= IZR (range_at nd)).
  { apply Rle_trans with 4.
    - replace (rval t) with (th + (rval t - th)) by ring. eapply Rle_trans; [apply Rabs_triang|].
      rewrite (Rabs_right th) by lra. lra.
    - apply IZR_le. unfold range_at. destruct (Z.eqb_spec nd 1); lia. }
  destruct (bcos_ok _ _ _ t (acc_range nd ltac:(lia)) TB) as (cs & C & W). exists cs. split; [exact C|].
  unfold within in W. fold u in W.
  assert (EC : Rabs (rval cs - cos th) <= 152 / 100 * u).
  { replace (rval cs - cos th) with ((rval cs - cos (rval t)) + (cos (rval t) - cos th)) by ring.
    eapply Rle_trans; [apply Rabs_triang|]. pose proof (cos_lipschitz (rval t) th). lra. }
  split.
  - rewrite rval_dsub, !rval_dmul, rval_dadd, rval_dsub, rval_half. unfold node.
    replace (S n' - 1)%nat with n' by lia. fold th.
    replace ((rval xmax + rval xmin) * / 2 - (rval xmax - rval xmin) * / 2 * rval cs -
       ((rval xmax + rval xmin) / 2 - (rval xmax - rval xmin) / 2 * cos th)) with ((rval xmax - rval xmin) * (- (rval cs - cos th) / 2)) by field.
    rewrite Rabs_mult. apply Rmult_le_compat_l; [apply Rabs_pos|].
    unfold Rdiv. rewrite Rabs_mult, Rabs_Ropp, (Rabs_right (/ 2)) by lra. lra.
  - replace (rval cs) with (cos th + (rval cs - cos th)) by ring. eapply Rle_trans; [apply Rabs_triang|].
    assert (Rabs (cos th) <= 1) by (apply Rabs_le, COS_bound). lra.
Qed.

Theorem approx_nodes o fuel e n xmin xmax x p nd r :
  (2 <= n)%nat -> (2 <= nd <= 97)%Z ->
  approx o fuel e n xmin xmax x p nd = Ok r ->
  exists xs ys ts,
    length xs = n /\ length ys = n /\
    (forall i, (i < n)%nat -> exists xv y, nth_error xs i = Some xv /\ nth_error ys i = Some y /\
       Rabs (rval xv - node (rval xmin) (rval xmax) n i) <= Rabs (rval xmax - rval xmin) * r10 (- nd) /\
       value_at o fuel nd e x xv y) /\
    from_points (bd_arith nd) xs ys = Ok ts /\ mul_add_polynomial ts x p = Ok r.
Proof.
  intros N D H. destruct (approx_inv _ _ _ _ _ _ _ _ _ _ H) as (n' & pi & b & xs & ys & ts & E & P & B & Sm & F & R).
  subst n. destruct (samples_inv _ _ _ _ _ _ _ _ _ _ _ Sm) as (L1 & L2 & V).
  exists xs, ys, ts. unfold range in *. rewrite seq_length in *. replace (S n' - 0)%nat with (S n') in * by lia.
  split; [exact L1|]. split; [exact L2|]. split; [|auto].
  intros i Hi. destruct (V i i) as (cs & y & C & Nx & Ny & Va).
  { rewrite (nth_error_nth' _ 0%nat) by (rewrite seq_length; exact Hi). rewrite seq_nth by exact Hi. reflexivity. }
  eexists _, y. split; [exact Nx|]. split; [exact Ny|]. split; [|exact Va].
  destruct (node_ok o nd pi b n' i xmin xmax) as (cs' & C' & B' & _); auto; try lia. rewrite C in C'. inversion C'. subst cs'. exact B'.
Qed.

(** ** Spacing of the nodes *)
Lemma sin_half x : 0 <= x <= PI / 2 -> x / 2 <= sin x.
Proof.
  intros [L U]. pose proof PI_bound as B.
  destruct (sin_bound x 0) as [S _]; try lra. eapply Rle_trans; [|exact S].
  unfold sin_approx, sin_term. cbn [sum_f_R0 Nat.mul Nat.add fact pow INR].
  assert (x * x <= 1.6 * 1.6) by nra.
  replace (-1 * 1) with (-1) by ring. 
  assert (E : 1 * (x * 1 / 1) + -1 * 1 * (x * (x * (x * 1)) / (1 + 1 + 1 + 1 + 1 + 1)) = x - x * (x * x) / 6) by field.
  match goal with |- _ <= ?g => replace g with (x - x * (x * x) / 6) by (field) end. nra.
Qed.

Lemma sin_from t x : 0 <= t -> t <= x -> x <= PI - t -> t <= PI / 2 -> t / 2 <= sin x.
Proof.
  intros T L U H. eapply Rle_trans; [apply sin_half; lra|].
  destruct (Rle_lt_dec x (PI / 2)) as [X|X].
  - apply sin_incr_1; lra.
  - rewrite <- (sin_PI_x x). apply sin_incr_1; lra.
Qed.

Lemma cos_gap n i j : (2 <= n)%nat -> (i < n)%nat -> (j < n)%nat -> i <> j ->
  1 <= INR (n - 1) * INR (n - 1) * Rabs (cos (INR i * PI / INR (n - 1)) - cos (INR j * PI / INR (n - 1))).
Proof.
  intros N. revert i j.
  assert (N1 : 1 <= INR (n - 1)) by (change 1 with (INR 1); apply le_INR; lia). pose proof PI_bound as PB.
  assert (Lt : forall i j, (i < j)%nat -> (j < n)%nat ->
    1 <= INR (n - 1) * INR (n - 1) * (cos (INR i * PI / INR (n - 1)) - cos (INR j * PI / INR (n - 1)))).
  { intros i j Hij Hj. rewrite form2.
    assert (A : INR i + 1 <= INR j) by (rewrite <- S_INR; apply le_INR; lia).
    assert (B : INR j <= INR (n - 1)) by (apply le_INR; lia). pose proof (pos_INR i) as C.
    set (m := INR (n - 1)) in *. set (a := INR i) in *. set (b := INR j) in *. clearbody m a b.
    assert (TP : 0 < PI / m) by (apply Rdiv_lt_0_compat; lra).
    assert (TM : m * (PI / m) = PI) by (field; lra).
    assert (T1 : PI / m <= PI) by nra. set (t := PI / m) in *.
    assert (S1 : t / 2 / 2 <= sin ((b * PI / m - a * PI / m) / 2)).
    { apply sin_from; try lra.
      - replace ((b * PI / m - a * PI / m) / 2) with ((b - a) * t / 2) by (unfold t; field; lra). nra.
      - replace ((b * PI / m - a * PI / m) / 2) with ((b - a) * t / 2) by (unfold t; field; lra). nra. }
    assert (S2 : t / 2 / 2 <= sin ((a * PI / m + b * PI / m) / 2)).
    { apply sin_from; try lra.
      - replace ((a * PI / m + b * PI / m) / 2) with ((b + a) * t / 2) by (unfold t; field; lra). nra.
      - replace ((a * PI / m + b * PI / m) / 2) with ((b + a) * t / 2) by (unfold t; field; lra).
        assert (b + a <= 2 * m - 1) by lra. nra. }
    replace ((a * PI / m - b * PI / m) / 2) with (- ((b * PI / m - a * PI / m) / 2)) by (field; lra). rewrite sin_neg.
    set (s1 := sin ((b * PI / m - a * PI / m) / 2)) in *. set (s2 := sin ((a * PI / m + b * PI / m) / 2)) in *.
    assert (P1 : t / 4 * (t / 4) <= s1 * s2) by (apply Rmult_le_compat; lra).
    assert (P2 : m * m * (t * t) = PI * PI) by (rewrite <- TM; ring).
    assert (P3 : m * m * (t / 4 * (t / 4)) <= m * m * (s1 * s2)) by (apply Rmult_le_compat_l; [nra|exact P1]).
    replace (m * m * (-2 * - s1 * s2)) with (2 * (m * m * (s1 * s2))) by ring. nra. }
  intros i j Hi Hj Ne. destruct (Nat.lt_ge_cases i j) as [L|L].
  - eapply Rle_trans; [apply (Lt i j L Hj)|]. apply Rmult_le_compat_l; [nra|apply Rle_abs].
  - rewrite Rabs_minus_sym. eapply Rle_trans; [apply (Lt j i ltac:(lia) Hi)|]. apply Rmult_le_compat_l; [nra|apply Rle_abs].
Qed.

(** ** The value of the result at the samples *)

(** Real arithmetic: literals have the value of their digits. *)
Definition real_interp (I : interp R) : Prop :=
  (forall a b, i_bin I BAdd a b = a + b) /\ (forall a b, i_bin I BSub a b = a - b) /\
  (forall a b, i_bin I BMul a b = a * b) /\ (forall a, i_un I UNeg a = - a) /\
  (forall t r a b, i_meth I "mul_add"%string t r [a; b] = r * a + b) /\
  (forall d s x, DecStr.parse_dec (list_ascii_of_string d) = Some x -> i_lit I (LFloat d s) = rval x /\ i_lit I (LInt d s) = rval x).

Lemma real_number I : real_interp I -> number_interp I 0 1 rval.
Proof.
  intros (A & S & M & N & F & L). split; [|split; [|split; [exact L|split]]].
  - constructor; intros; rewrite ?A, ?S, ?M, ?N; ring.
  - intros. rewrite F, A, M. reflexivity.
  - intros x y E. unfold rval. apply Qeq_eqR. exact E.
  - intros x. rewrite N. apply rval_dneg.
Qed.

Lemma vsum_pval I ts x s : real_interp I ->
  vsum I 0 1 rval (fun _ => true) ts x s =
  x ^ s * (fix ev l := match l with [] => 0 | c :: r => rval c + x * ev r end) ts.
Proof.
  intros (A & _ & M & _). revert s. induction ts as [|c r IH]; intros s; [cbn; ring|].
  cbn [vsum]. rewrite IH, A, M. assert (P : vpow I 1 x s = x ^ s).
  { clear -M. induction s as [|s IH]; [reflexivity|]. cbn [vpow pow]. rewrite M, IH. reflexivity. }
  rewrite P. cbn [pow]. ring.
Qed.
Lemma pval_real ts x : (fix ev l := match l with [] => 0 | c :: r => rval c + rval x * ev r end) ts = Q2R (pval (map dval ts) (dval x)).
Proof.
  induction ts as [|c r IH]; [cbn; unfold Q2R; cbn; lra|].
  rewrite IH. cbn [map]. rewrite (Qeq_eqR _ _ (pval_cons (dval c) (map dval r) (dval x))).
  rewrite Q2R_plus, Q2R_mult. reflexivity.
Qed.

Lemma node_bound lo hi n i M : Rabs lo <= M -> Rabs hi <= M -> Rabs (node lo hi n i) <= M.
Proof.
  intros L H. unfold node. set (c := cos _). assert (C : -1 <= c <= 1) by apply COS_bound. clearbody c.
  replace ((hi + lo) / 2 - (hi - lo) / 2 * c) with (hi * ((1 - c) / 2) + lo * ((1 + c) / 2)) by field.
  eapply Rle_trans; [apply Rabs_triang|]. rewrite !Rabs_mult, (Rabs_right ((1 - c) / 2)), (Rabs_right ((1 + c) / 2)) by lra.
  pose proof (Rabs_pos lo). nra.
Qed.

Lemma Rabs_rval x : Rabs (rval x) = Q2R (Qabs (dval x)).
Proof. unfold rval. symmetry. apply Q2R_abs. Qed.

Lemma samples_apart n W xmin xmax nd xs : (2 <= n)%nat -> (2 <= nd)%Z -> (8 * Z.of_nat (n - 1) ^ 2 <= 10 ^ nd)%Z -> 0 < W ->
  W <= Rabs (rval xmax - rval xmin) -> length xs = n ->
  (forall i, (i < n)%nat -> exists xv, nth_error xs i = Some xv /\
     Rabs (rval xv - node (rval xmin) (rval xmax) n i) <= Rabs (rval xmax - rval xmin) * r10 (- nd)) ->
  forall i j a b, nth_error xs i = Some a -> nth_error xs j = Some b -> i <> j ->
    W / (4 * (INR (n - 1) * INR (n - 1))) <= Rabs (rval a - rval b).
Proof.
  intros N D D2 w0 Ww L1 V. set (m := (n - 1)%nat) in *. set (w := Rabs (rval xmax - rval xmin)) in *.
  pose proof (small_unit nd D) as U.
  assert (m1 : (1 <= m)%nat) by (unfold m; lia).
  assert (mR : 1 <= INR m) by (change 1 with (INR 1); apply le_INR; exact m1).
  assert (Hu : 8 * (INR m * INR m) * r10 (- nd) <= 1).
  { apply IZR_le in D2. fold m in D2.
    rewrite <- r10_IZR in D2 by lia. replace (IZR (8 * Z.of_nat m ^ 2)) with (8 * (INR m * INR m)) in D2.
    - apply Rle_trans with (r10 nd * r10 (- nd)); [apply Rmult_le_compat_r; [lra|exact D2]|].
      rewrite <- r10_plus. replace (nd + - nd)%Z with 0%Z by lia. right. reflexivity.
    - rewrite mult_IZR, Z.pow_2_r, mult_IZR, INR_Z. reflexivity. }
  intros i j a b Ha Hb Ne.
    assert (Li : (i < n)%nat) by (rewrite <- L1; apply nth_error_Some; congruence).
    assert (Lj : (j < n)%nat) by (rewrite <- L1; apply nth_error_Some; congruence).
    destruct (V i Li) as (xv & E1 & Bi). rewrite E1 in Ha. inversion Ha. subst a.
    destruct (V j Lj) as (xv' & E2 & Bj). rewrite E2 in Hb. inversion Hb. subst b.
    pose proof (cos_gap n i j N Li Lj Ne) as G. fold m in G.
    assert (ND : Rabs (node (rval xmin) (rval xmax) n i - node (rval xmin) (rval xmax) n j) =
      w / 2 * Rabs (cos (INR i * PI / INR m) - cos (INR j * PI / INR m))).
    { unfold node, w. fold m.
      match goal with |- Rabs ?z = _ => replace z with (((rval xmax - rval xmin) / 2) * - (cos (INR i * PI / INR m) - cos (INR j * PI / INR m))) by field end.
      rewrite Rabs_mult, Rabs_Ropp. f_equal. unfold Rdiv. rewrite Rabs_mult, (Rabs_right (/ 2)) by lra. reflexivity. }
    set (g := Rabs (cos _ - cos _)) in *. set (ni := node _ _ n i) in *. set (nj := node _ _ n j) in *.
    assert (Tr : Rabs (ni - nj) <= Rabs (rval xv - rval xv') + 2 * (w * r10 (- nd))).
    { replace (ni - nj) with ((rval xv - rval xv') + (- (rval xv - ni) + (rval xv' - nj))) by ring.
      eapply Rle_trans; [apply Rabs_triang|]. apply Rplus_le_compat_l. eapply Rle_trans; [apply Rabs_triang|].
      rewrite Rabs_Ropp. lra. }
    rewrite ND in Tr. set (dd := Rabs (rval xv - rval xv')) in *. set (u := r10 (- nd)) in *.
    set (m2 := INR m * INR m) in *. assert (m2p : 1 <= m2) by (unfold m2; nra).
    clearbody g dd u m2 ni nj w.
    apply Rmult_le_reg_r with (4 * m2); [lra|]. replace (W / (4 * m2) * (4 * m2)) with W by (field; lra). apply Rle_trans with (1 := Ww).
    assert (T2 : w * (m2 * g) <= m2 * (2 * dd) + w * (4 * m2 * u)) by nra.
    assert (T3 : w * 1 <= w * (m2 * g)) by (apply Rmult_le_compat_l; lra).
    assert (T4 : w * (4 * m2 * u) <= w * / 2) by (apply Rmult_le_compat_l; lra). lra.
Qed.

(** The polynomial with coefficients [ts]. *)
Fixpoint rpoly (ts : list bd) (x : R) : R := match ts with [] => 0 | c :: r => rval c + x * rpoly r x end.
Lemma rpoly_fix ts x : rpoly ts x = (fix ev l := match l with [] => 0 | c :: r => rval c + x * ev r end) ts.
Proof. induction ts as [|c r IH]; [reflexivity|]. cbn [rpoly]. rewrite IH. reflexivity. Qed.

(** The part of a function with the given parity. *)
Definition parity_part (p : parity) (f : R -> R) (x : R) : R :=
  match p with PNeither => f x | PEven => (f x + f (- x)) / 2 | POdd => (f x - f (- x)) / 2 end.

Lemma vsum_parity I p ts x : real_interp I -> vsum I 0 1 rval (wanted p) ts x 0 = parity_part p (rpoly ts) x.
Proof.
  intros (A & _ & M & _).
  assert (P : forall s, vpow I 1 x s = x ^ s).
  { intros s. induction s as [|s IH]; [reflexivity|]. cbn [vpow pow]. rewrite M, IH. reflexivity. }
  assert (G : forall s, vsum I 0 1 rval (wanted p) ts x s = parity_part p (fun y => y ^ s * rpoly ts y) x).
  { induction ts as [|c r IH]; intros s.
    - cbn [vsum rpoly]. unfold parity_part. destruct p; field.
    - cbn [vsum]. rewrite IH, A, M, P.
      assert (Pm : (- x) ^ s = if Nat.even s then x ^ s else - x ^ s).
      { clear. induction s as [|s IH]; [reflexivity|]. cbn [pow]. rewrite IH, Nat.even_succ, <- Nat.negb_even. destruct (Nat.even s); cbn [negb]; ring. }
      unfold parity_part, wanted. cbn [rpoly pow]. destruct p; rewrite <- ?Nat.negb_even, ?Pm; destruct (Nat.even s); cbn [negb]; field. }
  rewrite G. unfold parity_part. cbn [pow]. destruct p; field.
Qed.

Theorem approx_full (n : nat) (W M Y0 : Q) : (2 <= n)%nat -> (0 < W)%Q ->
  exists C : R, forall o fuel e xmin xmax x p nd r, right_parity p n = true ->
    (2 <= nd <= 97)%Z -> (8 * Z.of_nat (n - 1) ^ 2 <= 10 ^ nd)%Z ->
    (W <= Qabs (dval xmax - dval xmin))%Q -> (Qabs (dval xmin) <= M)%Q -> (Qabs (dval xmax) <= M)%Q ->
    approx o fuel e n xmin xmax x p nd = Ok r ->
    exists xs ys, length xs = n /\ length ys = n /\
      (forall i, (i < n)%nat -> exists xv y, nth_error xs i = Some xv /\ nth_error ys i = Some y /\
         Rabs (rval xv - node (rval xmin) (rval xmax) n i) <= Rabs (rval xmax - rval xmin) * r10 (- nd) /\
         value_at o fuel nd e x xv y) /\
      (forall i j a b, nth_error xs i = Some a -> nth_error xs j = Some b -> i <> j ->
         Q2R W / (4 * (INR (n - 1) * INR (n - 1))) <= Rabs (rval a - rval b)) /\
      ((forall y, In y ys -> (Qabs (dval y) <= Y0)%Q) ->
       exists ts, length ts = n /\ (forall I, real_interp I -> den I r = parity_part p (rpoly ts) (i_path I x)) /\
       forall i xv y, nth_error xs i = Some xv -> nth_error ys i = Some y ->
         Rabs (rpoly ts (rval xv) - rval y) <= C * r10 (- nd)).
Proof.
  intros N HW. set (m := (n - 1)%nat).
  set (h := (W * (1 # Z.to_pos (4 * Z.of_nat m ^ 2)))%Q).
  assert (Hh : (0 < h)%Q) by (apply Qmult_lt_0_compat; [exact HW|reflexivity]).
  destruct (interpolation_error n h (2 * M)%Q Y0 ltac:(lia) Hh) as (C & HC).
  exists (Q2R C). intros o fuel e xmin xmax x p nd r RP D D2 HWw H1 H2 Ap.
  destruct (approx_nodes _ _ _ _ _ _ _ _ _ _ N D Ap) as (xs & ys & ts & L1 & L2 & V & F & R).
  exists xs, ys. split; [exact L1|]. split; [exact L2|]. split; [exact V|].
  pose proof (small_unit nd ltac:(lia)) as U.
  assert (w0 : 0 < Q2R W) by (apply Qlt_Rlt in HW; unfold Q2R at 1 in HW; cbn in HW; lra).
  set (w := Rabs (rval xmax - rval xmin)) in *.
  assert (Ww : Q2R W <= w).
  { unfold w. rewrite <- rval_dsub, Rabs_rval. apply Qle_Rle. rewrite dval_dsub. exact HWw. }
  assert (M1 : Rabs (rval xmin) <= Q2R M) by (rewrite Rabs_rval; apply Qle_Rle; exact H1).
  assert (M2 : Rabs (rval xmax) <= Q2R M) by (rewrite Rabs_rval; apply Qle_Rle; exact H2).
  assert (w2 : w <= 2 * Q2R M).
  { unfold w. unfold Rminus. eapply Rle_trans; [apply Rabs_triang|]. rewrite Rabs_Ropp. lra. }
  assert (m1 : (1 <= m)%nat) by (unfold m; lia).
  assert (mR : 1 <= INR m) by (change 1 with (INR 1); apply le_INR; exact m1).
  assert (hR : Q2R h * (4 * (INR m * INR m)) = Q2R W).
  { unfold h. rewrite Q2R_mult. unfold Q2R at 2. cbn [Qnum Qden]. rewrite Z2Pos.id by nia.
    rewrite mult_IZR, Z.pow_2_r, mult_IZR, <- INR_Z. field. lra. }
  assert (Sep : forall i j a b, nth_error xs i = Some a -> nth_error xs j = Some b -> i <> j ->
    Q2R W / (4 * (INR m * INR m)) <= Rabs (rval a - rval b)).
  { apply (samples_apart n (Q2R W) xmin xmax nd xs N ltac:(lia) D2 w0 Ww L1).
    intros i Hi. destruct (V i Hi) as (xv & y & E1 & _ & B & _). exists xv. split; [exact E1|exact B]. }
  split; [exact Sep|]. intros HY.
  destruct (HC nd xs ys ltac:(lia) L1 L2) as (ts' & F' & Lt & E).
  - intros a Ha. apply In_nth_error in Ha. destruct Ha as (i & Hi).
    assert (Li : (i < n)%nat) by (rewrite <- L1; apply nth_error_Some; congruence).
    destruct (V i Li) as (xv & y & E1 & _ & B & _). rewrite E1 in Hi. inversion Hi. subst a.
    apply Rle_Qle. rewrite <- Rabs_rval, Q2R_mult. replace (Q2R 2) with 2 by (unfold Q2R; cbn; lra).
    replace (rval xv) with (node (rval xmin) (rval xmax) n i + (rval xv - node (rval xmin) (rval xmax) n i)) by ring.
    eapply Rle_trans; [apply Rabs_triang|]. pose proof (node_bound _ _ n i _ M1 M2). nra.
  - exact HY.
  - intros i j a b Ha Hb Ne. apply Rle_Qle. rewrite <- (Qeq_eqR _ _ (Qabs_wd _ _ (dval_dsub a b))), <- Rabs_rval, rval_dsub.
    apply Rle_trans with (2 := Sep i j a b Ha Hb Ne). rewrite <- hR. right. field. lra.
  - rewrite F in F'. inversion F'. subst ts'. clear F'.
    destruct (mul_add_value ts x p) as (e' & R' & De).
    { intros ->. cbn in Lt. lia. }
    { change (num (bd_arith nd)) with bd in *. rewrite Lt. exact RP. }
    rewrite R in R'. inversion R'. subst e'. clear R'.
    exists ts. split; [exact Lt|]. split.
    { intros I HI. rewrite (De _ I 0 1 rval (real_number I HI)). apply vsum_parity. exact HI. }
    intros i xv y Hx Hy. rewrite rpoly_fix, pval_real.
    specialize (E i xv y Hx Hy). apply Qle_Rle in E. rewrite Q2R_mult in E.
    replace (r10 (- nd)) with (Q2R (p10 (- nd))) by apply Q2R_p10.
    eapply Rle_trans; [|exact E]. right. unfold rval. 
    rewrite <- Q2R_minus. symmetry. apply Q2R_abs.
Qed.

Theorem approx_close (n : nat) (W M Y0 : Q) : (2 <= n)%nat -> (0 < W)%Q ->
  exists C : R, forall o fuel e xmin xmax x nd r,
    (2 <= nd <= 97)%Z -> (8 * Z.of_nat (n - 1) ^ 2 <= 10 ^ nd)%Z ->
    (W <= Qabs (dval xmax - dval xmin))%Q -> (Qabs (dval xmin) <= M)%Q -> (Qabs (dval xmax) <= M)%Q ->
    approx o fuel e n xmin xmax x PNeither nd = Ok r ->
    exists xs ys, length xs = n /\ length ys = n /\
      (forall i, (i < n)%nat -> exists xv y, nth_error xs i = Some xv /\ nth_error ys i = Some y /\
         Rabs (rval xv - node (rval xmin) (rval xmax) n i) <= Rabs (rval xmax - rval xmin) * r10 (- nd) /\
         value_at o fuel nd e x xv y) /\
      ((forall y, In y ys -> (Qabs (dval y) <= Y0)%Q) ->
       forall I i xv y, real_interp I -> nth_error xs i = Some xv -> nth_error ys i = Some y -> i_path I x = rval xv ->
         Rabs (den I r - rval y) <= C * r10 (- nd)).
Proof.
  intros N HW. destruct (approx_full n W M Y0 N HW) as (C & H). exists C.
  intros o fuel e xmin xmax x nd r D D2 HWw H1 H2 Ap.
  destruct (H o fuel e xmin xmax x PNeither nd r eq_refl D D2 HWw H1 H2 Ap) as (xs & ys & L1 & L2 & V & _ & R).
  exists xs, ys. split; [exact L1|]. split; [exact L2|]. split; [exact V|]. intros HY I i xv y HI Hx Hy Hp.
  destruct (R HY) as (ts & _ & De & E). rewrite (De I HI), Hp. unfold parity_part. apply (E i); assumption.
Qed.
