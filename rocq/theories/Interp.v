(** Interpolation over the reals: the error of the polynomial through n points, its growth between them and the
    product of the distances to the Chebyshev points. *)
From Coq Require Import Reals Lra Lia List Arith Sorted Permutation.
Import ListNotations.
Open Scope R_scope.

(** [d] is a chain of derivatives of [f] on [a, b], up to the [k]-th. *)
Definition derivatives (f : R -> R) (d : nat -> R -> R) (k : nat) (a b : R) : Prop :=
  (forall x, a <= x <= b -> d O x = f x) /\
  forall j x, (j < k)%nat -> a <= x <= b -> derivable_pt_lim (d j) x (d (S j) x).

(** ** Zeros of the derivatives *)

Lemma rolle_list f f' a b : (forall x, a <= x <= b -> derivable_pt_lim f x (f' x)) ->
  forall l, StronglySorted Rlt l -> (forall x, In x l -> a <= x <= b /\ f x = 0) ->
  exists l', StronglySorted Rlt l' /\ length l' = pred (length l) /\
    (forall x, In x l' -> a <= x <= b /\ f' x = 0) /\ (forall x z, In x l' -> hd_error l = Some z -> z < x).
Proof.
  intros D l. induction l as [|z0 l IH]; intros S H.
  { exists []. split; [constructor|]. split; [reflexivity|]. split; intros x; [intros []|intros z []]. }
  destruct l as [|z1 l].
  { exists []. split; [constructor|]. split; [reflexivity|]. split; intros x; [intros []|intros z []]. }
  inversion S as [|? ? S' F]. subst. destruct (IH S') as (l' & S2 & L & Z & Hd).
  { intros x Hx. apply H. right. exact Hx. }
  assert (z01 : z0 < z1) by (inversion F; assumption).
  destruct (H z0 ltac:(left; reflexivity)) as (B0 & E0). destruct (H z1 ltac:(right; left; reflexivity)) as (B1 & E1).
  destruct (MVT_cor2 f f' z0 z1 z01) as (c & Ec & B). { intros c Hc. apply D. lra. }
  exists (c :: l'). split.
  { constructor; [exact S2|]. apply Forall_forall. intros x Hx. pose proof (Hd x z1 Hx eq_refl). lra. }
  split; [cbn in *; lia|]. split.
  - intros x [<-|Hx]; [|apply Z; exact Hx]. split; [lra|]. rewrite E0, E1 in Ec. nra.
  - intros x z [<-|Hx] E; cbn in E; inversion E; subst; [lra|]. pose proof (Hd x z1 Hx eq_refl). lra.
Qed.

Lemma rolle_chain k : forall d a b l,
  (forall j x, (j < k)%nat -> a <= x <= b -> derivable_pt_lim (d j) x (d (S j) x)) ->
  StronglySorted Rlt l -> length l = S k -> (forall x, In x l -> a <= x <= b /\ d O x = 0) ->
  exists x, a <= x <= b /\ d k x = 0.
Proof.
  induction k as [|k IH]; intros d a b l D S L H.
  - destruct l as [|x l]; [discriminate L|]. exists x. apply H. left. reflexivity.
  - destruct (rolle_list (d O) (d 1%nat) a b (fun x => D O x ltac:(lia)) l S H) as (l' & S' & L' & H' & _).
    apply (IH (fun j => d (Datatypes.S j)) a b l'); [|exact S'|lia|exact H'].
    intros j x Hj. apply D. lia.
Qed.

Lemma sorted_perm (l : list R) : NoDup l -> exists l', StronglySorted Rlt l' /\ Permutation l l'.
Proof.
  assert (Ins : forall a l, StronglySorted Rlt l -> ~ In a l -> exists l', StronglySorted Rlt l' /\ Permutation (a :: l) l').
  { intros a m. induction m as [|b m IH]; intros S N.
    - exists [a]. split; [constructor; constructor|reflexivity].
    - inversion S as [|? ? S' F]. subst. destruct (Rlt_dec a b) as [Q|Q].
      + exists (a :: b :: m). split; [|reflexivity]. constructor; [exact S|]. constructor; [exact Q|].
        eapply Forall_impl; [|exact F]. intros c Hc. cbn in Hc. lra.
      + destruct (IH S') as (m' & Sm & P). { intros Hi. apply N. right. exact Hi. }
        exists (b :: m'). split.
        * constructor; [exact Sm|]. apply Forall_forall. intros c Hc. apply (Permutation_in _ (Permutation_sym P)) in Hc.
          destruct Hc as [<-|Hc].
          -- destruct (Req_dec a b) as [->|]; [exfalso; apply N; left; reflexivity|lra].
          -- rewrite Forall_forall in F. apply F. exact Hc.
        * rewrite perm_swap. constructor. exact P. }
  induction l as [|a l IH]; intros N.
  - exists []. split; constructor.
  - inversion N as [|? ? Na Nl]. subst. destruct (IH Nl) as (l' & S & P).
    destruct (Ins a l' S) as (m & Sm & Pm). { intros H. apply Na. apply (Permutation_in _ (Permutation_sym P)). exact H. }
    exists m. split; [exact Sm|]. rewrite <- Pm. constructor. exact P.
Qed.

(** ** Polynomials, by their derivatives: the [k]-th is the constant [c] *)

Definition degree (k : nat) (c : R) (P : R -> R) : Prop :=
  exists d : nat -> R -> R, (forall x, d O x = P x) /\ (forall j x, derivable_pt_lim (d j) x (d (S j) x)) /\
    forall x, d k x = c.

Lemma dpl_ext f g x l l' : (forall x, f x = g x) -> l = l' -> derivable_pt_lim f x l -> derivable_pt_lim g x l'.
Proof. intros E <- D e He. destruct (D e He) as (dl & H). exists dl. intros h. rewrite <- !E. apply H. Qed.

Lemma degree_ext k c P Q : (forall x, P x = Q x) -> degree k c P -> degree k c Q.
Proof. intros E (d & D0 & D & K). exists d. split; [intros x; rewrite D0; apply E|]. split; assumption. Qed.

Lemma degree_const c : degree 0 c (fun _ => c).
Proof.
  exists (fun j _ => match j with O => c | _ => 0 end). split; [reflexivity|]. split; [|reflexivity].
  intros j x. destruct j; apply derivable_pt_lim_const.
Qed.

Lemma degree_S k c P : degree k c P -> degree (S k) 0 P.
Proof.
  intros (d & D0 & D & K). exists d. split; [exact D0|]. split; [exact D|]. intros x.
  apply (uniqueness_limite (d k) x); [apply D|]. eapply dpl_ext; [| |apply (derivable_pt_lim_const c)].
  - intros y. unfold fct_cte. symmetry. apply K.
  - reflexivity.
Qed.

Lemma degree_le k k' P c : (k < k')%nat -> degree k c P -> degree k' 0 P.
Proof.
  intros L H. induction L as [|k' L IH]; [apply degree_S with c; exact H|]. apply degree_S with 0. exact IH.
Qed.

Lemma degree_plus k c c' P Q : degree k c P -> degree k c' Q -> degree k (c + c') (fun x => P x + Q x).
Proof.
  intros (d & D0 & D & K) (e & E0 & E & L). exists (fun j x => d j x + e j x).
  split; [intros x; rewrite D0, E0; reflexivity|]. split; [|intros x; rewrite K, L; reflexivity].
  intros j x. apply (derivable_pt_lim_plus (d j) (e j)); [apply D|apply E].
Qed.

Lemma degree_scal k c P s : degree k c P -> degree k (s * c) (fun x => s * P x).
Proof.
  intros (d & D0 & D & K). exists (fun j x => s * d j x).
  split; [intros x; rewrite D0; reflexivity|]. split; [|intros x; rewrite K; reflexivity].
  intros j x. apply (derivable_pt_lim_scal (d j)). apply D.
Qed.

Lemma degree_lin k c P a : degree k c P -> degree (S k) (INR (S k) * c) (fun x => (x - a) * P x).
Proof.
  intros H. destruct (degree_S _ _ _ H) as (d & D0 & D & K1).
  assert (K : forall x, d k x = c).
  { destruct H as (e & E0 & E & Ke).
    assert (Eq : forall j x, d j x = e j x).
    { intros j. induction j as [|j IH]; intros x; [rewrite D0, E0; reflexivity|].
      apply (uniqueness_limite (d j) x); [apply D|]. eapply dpl_ext; [|reflexivity|apply E]. intros y. symmetry. apply IH. }
    intros x. rewrite Eq. apply Ke. }
  exists (fun j x => (x - a) * d j x + INR j * match j with O => 0 | S i => d i x end).
  split; [intros x; rewrite D0; cbn [INR]; ring|]. split.
  - intros j x.
    assert (A : derivable_pt_lim (fun x => (x - a) * d j x) x (1 * d j x + (x - a) * d (S j) x)).
    { apply (derivable_pt_lim_mult (fun x => x - a) (d j)); [|apply D].
      replace 1 with (1 - 0) by ring. apply (derivable_pt_lim_minus id (fct_cte a)); [apply derivable_pt_lim_id|apply derivable_pt_lim_const]. }
    destruct j as [|j].
    + eapply dpl_ext; [| |exact A]; [intros y; cbn [INR]; ring|cbn [INR]; ring].
    + assert (B : derivable_pt_lim (fun x => INR (S j) * d j x) x (INR (S j) * d (S j) x)).
      { apply (derivable_pt_lim_scal (d j)). apply D. }
      eapply dpl_ext; [| |apply (derivable_pt_lim_plus _ _ _ _ _ A B)]; [intros y; reflexivity|].
      rewrite (S_INR (S j)). ring.
  - intros x. rewrite K1, K. ring.
Qed.

(** The product of the differences to the points of [l]. *)
Definition diffs (l : list R) (x : R) : R := fold_right (fun a p => (x - a) * p) 1 l.

Lemma degree_diffs l : degree (length l) (INR (fact (length l))) (diffs l).
Proof.
  induction l as [|a l IH]; [apply degree_const|].
  cbn [length diffs fold_right]. replace (INR (fact (S (length l)))) with (INR (S (length l)) * INR (fact (length l))).
  - apply degree_lin. exact IH.
  - rewrite <- mult_INR. f_equal.
Qed.

Lemma diffs_in l x : In x l -> diffs l x = 0.
Proof. induction l as [|a l IH]; [intros []|]. intros [->|H]; cbn [diffs fold_right]; [ring|]. change (fold_right _ _ l) with (diffs l x). rewrite IH by exact H. ring. Qed.

Lemma diffs_notin l x : ~ In x l -> diffs l x <> 0.
Proof.
  induction l as [|a l IH]; intros N; [cbn; lra|]. cbn [diffs fold_right]. change (fold_right _ _ l) with (diffs l x).
  apply Rmult_integral_contrapositive. split; [intros E; apply N; left; lra|]. apply IH. intros H. apply N. right. exact H.
Qed.

(** ** The error of interpolation *)

Lemma interp_error f d P a b (l : list R) F :
  NoDup l -> (forall x, In x l -> a <= x <= b) -> derivatives f d (length l) a b ->
  (forall x, a <= x <= b -> Rabs (d (length l) x) <= F) -> degree (length l) 0 P ->
  (forall x, In x l -> P x = f x) ->
  forall t, a <= t <= b -> Rabs (P t - f t) <= F / INR (fact (length l)) * Rabs (diffs l t).
Proof.
  intros N B (D0 & D) HF HP E t Ht. pose proof (INR_fact_lt_0 (length l)) as Fp.
  destruct (in_dec Req_EM_T t l) as [I|I].
  { rewrite (E t I), Rminus_eq_0, Rabs_R0, (diffs_in _ _ I), Rabs_R0. lra. }
  set (K := (f t - P t) / diffs l t). pose proof (diffs_notin _ _ I) as W.
  destruct (degree_plus _ _ _ _ _ HP (degree_scal _ _ _ K (degree_diffs l))) as (q & Q0 & Q1 & Q2).
  destruct (sorted_perm (t :: l)) as (m & Sm & Pm). { constructor; assumption. }
  destruct (rolle_chain (length l) (fun j x => d j x - q j x) a b m) as (c & Bc & Ec).
  - intros j x Hj Hx. apply (derivable_pt_lim_minus (d j) (q j)); [apply D; assumption|apply Q1].
  - exact Sm.
  - apply Permutation_length in Pm. cbn in Pm. lia.
  - intros x Hx. apply (Permutation_in _ (Permutation_sym Pm)) in Hx. rewrite Q0. destruct Hx as [<-|Hx].
    + split; [exact Ht|]. rewrite D0 by exact Ht. unfold K. field. exact W.
    + split; [apply B; exact Hx|]. rewrite D0 by (apply B; exact Hx). rewrite (E x Hx), (diffs_in _ _ Hx). ring.
  - rewrite Q2, Rplus_0_l in Ec. specialize (HF c Bc). assert (EK : d (length l) c = K * INR (fact (length l))) by lra.
    rewrite EK, Rabs_mult, (Rabs_right (INR _)) in HF by lra.
    assert (Kb : Rabs K <= F / INR (fact (length l))).
    { apply Rmult_le_reg_r with (INR (fact (length l))); [exact Fp|]. unfold Rdiv. rewrite Rmult_assoc, Rinv_l, Rmult_1_r by lra. exact HF. }
    assert (ET : Rabs (P t - f t) = Rabs K * Rabs (diffs l t)).
    { rewrite <- Rabs_mult, <- Rabs_Ropp. f_equal. unfold K. field. exact W. }
    rewrite ET. apply Rmult_le_compat_r; [apply Rabs_pos|exact Kb].
Qed.

(** Two polynomials of the same degree and leading term that agree at enough points are equal. *)
Lemma degree_unique k c P Q l : NoDup l -> length l = k -> degree k c P -> degree k c Q ->
  (forall x, In x l -> P x = Q x) -> forall t, P t = Q t.
Proof.
  intros N L HP HQ E t.
  assert (HD : degree k 0 (fun x => P x + -1 * Q x)).
  { replace 0 with (c + -1 * c) by ring. apply degree_plus; [exact HP|]. apply degree_scal. exact HQ. }
  assert (G : exists a b, (forall x, In x (t :: l) -> a <= x <= b)).
  { clear. induction (t :: l) as [|y r (a & b & H)]; [exists 0, 0; intros x []|].
    exists (Rmin a y), (Rmax b y). intros x [<-|Hx].
    - split; [apply Rmin_r|apply Rmax_r].
    - specialize (H x Hx). pose proof (Rmin_l a y). pose proof (Rmax_l b y). lra. }
  destruct G as (a & b & G). subst k.
  assert (Z : Rabs ((fun x => P x + -1 * Q x) t - 0) <= 0 / INR (fact (length l)) * Rabs (diffs l t)).
  { apply (interp_error (fun _ => 0) (fun _ _ => 0) (fun x => P x + -1 * Q x) a b l 0 N).
    - intros x Hx. apply G. right. exact Hx.
    - split; [reflexivity|]. intros j x _ _. apply (derivable_pt_lim_const 0).
    - intros x _. rewrite Rabs_R0. lra.
    - exact HD.
    - intros x Hx. rewrite (E x Hx). ring.
    - apply G. left. reflexivity. }
  unfold Rdiv in Z. rewrite !Rmult_0_l in Z. pose proof (Rabs_pos (P t + -1 * Q t - 0)).
  assert (Z0 : Rabs (P t + -1 * Q t - 0) = 0) by (cbv beta in Z; lra).
  destruct (Req_dec (P t + -1 * Q t - 0) 0) as [|X]; [lra|]. apply Rabs_no_R0 in X. contradiction.
Qed.

(** ** Growth between the points *)

Lemma diffs_ratio m x t w h : 0 < h -> (forall y, In y m -> Rabs (t - y) <= w) -> (forall y, In y m -> h <= Rabs (x - y)) ->
  Rabs (diffs m t) <= (w / h) ^ length m * Rabs (diffs m x).
Proof.
  intros Hh. induction m as [|y m IH]; intros T X; [cbn; rewrite Rabs_R1; lra|].
  cbn [diffs fold_right length pow]. change (fold_right _ _ m) with (diffs m t) at 1. change (fold_right _ _ m) with (diffs m x).
  rewrite !Rabs_mult. assert (I : Rabs (diffs m t) <= (w / h) ^ length m * Rabs (diffs m x)).
  { apply IH; intros z Hz; [apply T|apply X]; right; exact Hz. }
  assert (T1 := T y ltac:(left; reflexivity)). assert (X1 := X y ltac:(left; reflexivity)).
  assert (Q : Rabs (t - y) <= w / h * Rabs (x - y)).
  { pose proof (Rabs_pos (t - y)). apply Rle_trans with (1 := T1). replace w with (w / h * h) at 1 by (field; lra).
    apply Rmult_le_compat_l; [|exact X1]. apply Rmult_le_pos; [lra|]. left. apply Rinv_0_lt_compat. exact Hh. }
  replace (w / h * (w / h) ^ length m * (Rabs (x - y) * Rabs (diffs m x)))
    with ((w / h * Rabs (x - y)) * ((w / h) ^ length m * Rabs (diffs m x))) by ring.
  apply Rmult_le_compat; try apply Rabs_pos; assumption.
Qed.

Lemma lagrange (l : list R) (w h dl : R) : NoDup l -> 0 < h -> h <= w -> 0 <= dl ->
  (forall x y, In x l -> In y l -> x <> y -> h <= Rabs (x - y)) ->
  forall g, (forall x, In x l -> Rabs (g x) <= dl) ->
  exists r, degree (length l) 0 r /\ (forall x, In x l -> r x = g x) /\
    forall t, (forall y, In y l -> Rabs (t - y) <= w) -> Rabs (r t) <= INR (length l) * (w / h) ^ length l * dl.
Proof.
  intros N Hh Hw Hd Sep g G.
  assert (q1 : 1 <= w / h).
  { apply Rmult_le_reg_r with h; [exact Hh|]. unfold Rdiv. rewrite Rmult_assoc, Rinv_l by lra. lra. }
  assert (A : forall s, NoDup s -> incl s l -> exists r, degree (length l) 0 r /\
    (forall x, In x l -> (In x s -> r x = g x) /\ (~ In x s -> r x = 0)) /\
    forall t, (forall y, In y l -> Rabs (t - y) <= w) -> Rabs (r t) <= INR (length s) * (w / h) ^ length l * dl).
  { intros s. induction s as [|x s IH]; intros Ns I.
    - exists (fun _ => 0). split.
      + destruct (length l) as [|k]; [apply degree_const|]. apply degree_le with (k := O) (c := 0); [lia|apply degree_const].
      + split; [intros x _; split; [intros []|reflexivity]|]. intros t _. rewrite Rabs_R0. cbn. lra.
    - inversion Ns as [|? ? Nx Ns']. subst. destruct (IH Ns') as (r & D & V & B). { intros y Hy. apply I. right. exact Hy. }
      assert (Hx : In x l) by (apply I; left; reflexivity).
      set (m := remove Req_EM_T x l). pose proof (remove_length_lt Req_EM_T l x Hx) as Lm. fold m in Lm.
      assert (Nm : ~ In x m) by apply remove_In. pose proof (diffs_notin _ _ Nm) as W.
      exists (fun t => r t + g x / diffs m x * diffs m t). split.
      + replace 0 with (0 + g x / diffs m x * 0) by ring. apply degree_plus; [exact D|]. apply degree_scal.
        apply degree_le with (1 := Lm) (2 := degree_diffs m).
      + split.
        * intros y Hy. destruct (Req_EM_T x y) as [<-|Ne].
          -- split; [intros _|intros C; exfalso; apply C; left; reflexivity]. rewrite (proj2 (V x Hx) Nx). field. exact W.
          -- assert (Z : diffs m y = 0). { apply diffs_in. apply in_in_remove; [congruence|exact Hy]. }
             rewrite Z, Rmult_0_r, Rplus_0_r. destruct (V y Hy) as (V1 & V2). split.
             ++ intros [C|C]; [contradiction|]. apply V1. exact C.
             ++ intros C. apply V2. intros Q. apply C. right. exact Q.
        * intros t T. eapply Rle_trans; [apply Rabs_triang|]. specialize (B t T). cbn [length]. rewrite S_INR.
          assert (R1 : Rabs (diffs m t) <= (w / h) ^ length m * Rabs (diffs m x)).
          { apply diffs_ratio; [exact Hh| |].
            - intros y Hy. apply T. apply in_remove in Hy. apply Hy.
            - intros y Hy. apply in_remove in Hy. apply Sep; [exact Hx|apply Hy|]. intros ->. apply (proj2 Hy). reflexivity. }
          assert (R2 : (w / h) ^ length m <= (w / h) ^ length l) by (apply Rle_pow; [exact q1|lia]).
          assert (P : 0 < Rabs (diffs m x)) by (apply Rabs_pos_lt; exact W).
          assert (R3 : Rabs (g x / diffs m x * diffs m t) <= (w / h) ^ length l * dl).
          { unfold Rdiv. rewrite !Rabs_mult, Rabs_inv. pose proof (Rabs_pos (g x)). pose proof (G x Hx) as Gx.
            apply Rle_trans with (Rabs (g x) * / Rabs (diffs m x) * ((w / h) ^ length l * Rabs (diffs m x))).
            - apply Rmult_le_compat_l; [apply Rmult_le_pos; [lra|left; apply Rinv_0_lt_compat; exact P]|].
              apply Rle_trans with (1 := R1). apply Rmult_le_compat_r; [lra|exact R2].
            - replace (Rabs (g x) * / Rabs (diffs m x) * ((w / h) ^ length l * Rabs (diffs m x))) with ((w / h) ^ length l * Rabs (g x)) by (field; lra).
              apply Rmult_le_compat_l; [|exact Gx]. apply pow_le. lra. }
          lra. }
  destruct (A l N (incl_refl l)) as (r & D & V & B). exists r. split; [exact D|]. split; [|exact B].
  intros x Hx. apply (V x Hx). exact Hx.
Qed.

(** A polynomial that nearly passes through points of [f]. *)
Lemma near_interp_error f d P a b (l : list R) F w h dl :
  NoDup l -> (forall x, In x l -> a <= x <= b) -> derivatives f d (length l) a b ->
  (forall x, a <= x <= b -> Rabs (d (length l) x) <= F) -> degree (length l) 0 P ->
  0 < h -> h <= w -> b - a <= w -> (forall x y, In x l -> In y l -> x <> y -> h <= Rabs (x - y)) ->
  (forall x, In x l -> Rabs (P x - f x) <= dl) -> 0 <= dl ->
  forall t, a <= t <= b ->
  Rabs (P t - f t) <= F / INR (fact (length l)) * Rabs (diffs l t) + INR (length l) * (w / h) ^ length l * dl.
Proof.
  intros N B D HF HP Hh Hw Hba Sep E Hd t Ht.
  destruct (lagrange l w h dl N Hh Hw Hd Sep (fun x => P x - f x) E) as (r & Dr & V & G).
  assert (I : Rabs ((fun x => P x + -1 * r x) t - f t) <= F / INR (fact (length l)) * Rabs (diffs l t)).
  { apply (interp_error f d (fun x => P x + -1 * r x) a b l F N B D HF); [|intros x Hx; rewrite (V x Hx); ring|exact Ht].
    replace 0 with (0 + -1 * 0) by ring. apply degree_plus; [exact HP|]. apply degree_scal. exact Dr. }
  cbv beta in I. assert (G' := G t). assert (Rabs (r t) <= INR (length l) * (w / h) ^ length l * dl).
  { apply G'. intros y Hy. specialize (B y Hy). apply Rabs_le. lra. }
  replace (P t - f t) with ((P t + -1 * r t - f t) + r t) by ring. eapply Rle_trans; [apply Rabs_triang|]. lra.
Qed.

(** ** The Chebyshev points *)

(** sin((j+1) t) / sin t as a polynomial in cos t, and the one before it. *)
Fixpoint cheb (j : nat) : (R -> R) * (R -> R) :=
  match j with
  | O => (fun _ => 1, fun _ => 0)
  | S j => (fun x => 2 * (x * fst (cheb j) x) - snd (cheb j) x, fst (cheb j))
  end.

Lemma cheb_sin j t : fst (cheb j) (cos t) * sin t = sin (INR (S j) * t) /\ snd (cheb j) (cos t) * sin t = sin (INR j * t).
Proof.
  induction j as [|j (I1 & I2)].
  - cbn [cheb fst snd]. cbn [INR]. rewrite !Rmult_1_l, !Rmult_0_l, sin_0. split; reflexivity.
  - split; [|exact I1]. cbn [cheb fst snd].
    replace ((2 * (cos t * fst (cheb j) (cos t)) - snd (cheb j) (cos t)) * sin t)
      with (2 * cos t * (fst (cheb j) (cos t) * sin t) - snd (cheb j) (cos t) * sin t) by ring.
    rewrite I1, I2. replace (INR (S (S j)) * t) with (INR (S j) * t + t) by (rewrite (S_INR (S j)); ring).
    replace (INR j * t) with (INR (S j) * t - t) by (rewrite (S_INR j); ring).
    rewrite sin_plus, sin_minus. ring.
Qed.

Lemma cheb_degree j : degree j (INR (fact j) * 2 ^ j) (fst (cheb j)) /\ exists c, degree j c (snd (cheb j)).
Proof.
  induction j as [|j (I1 & c & I2)].
  - split; [cbn; replace (1 * 1) with 1 by ring; apply degree_const|]. exists 0. exact (degree_const 0).
  - split.
    + replace (INR (fact (S j)) * 2 ^ S j) with (2 * (INR (S j) * (INR (fact j) * 2 ^ j)) + -1 * 0).
      * eapply degree_ext; [|apply degree_plus; [apply degree_scal; apply (degree_lin _ _ _ 0 I1)|apply degree_scal; apply (degree_S _ _ _ I2)]].
        intros x. cbn [cheb fst snd]. ring.
      * change (fact (S j)) with (S j * fact j)%nat. rewrite mult_INR. cbn [pow]. ring.
    + exists 0. cbn [cheb snd]. apply (degree_S _ _ _ I1).
Qed.

Lemma cheb_product m : (1 <= m)%nat ->
  let l := map (fun i => cos (INR i * PI / INR m)) (seq 0 (S m)) in
  NoDup l -> forall x, -1 <= x <= 1 -> Rabs (diffs l x) <= / 2 ^ (m - 1).
Proof.
  intros M l N x Hx. set (p := (m - 1)%nat). assert (Em : m = S p) by (unfold p; lia).
  assert (L : length l = S m) by (unfold l; rewrite map_length, seq_length; reflexivity).
  set (T := fun x => / 2 ^ p * ((x - 1) * ((x - -1) * fst (cheb p) x))).
  assert (P2 : 0 < 2 ^ p) by (apply pow_lt; lra).
  assert (DT : degree (S m) (INR (fact (S m))) T).
  { replace (INR (fact (S m))) with (/ 2 ^ p * (INR (S (S p)) * (INR (S p) * (INR (fact p) * 2 ^ p)))).
    - unfold T. rewrite Em. apply degree_scal. apply degree_lin. apply degree_lin. apply cheb_degree.
    - rewrite Em. change (fact (S (S p))) with (S (S p) * (S p * fact p))%nat. rewrite !mult_INR. field. lra. }
  assert (TC : forall t, T (cos t) = - (/ 2 ^ p * (sin t * sin (INR m * t)))).
  { intros t. unfold T. rewrite Em. rewrite <- (proj1 (cheb_sin p t)).
    replace (/ 2 ^ p * ((cos t - 1) * ((cos t - -1) * fst (cheb p) (cos t)))) with (/ 2 ^ p * ((Rsqr (cos t) - 1) * fst (cheb p) (cos t))) by (unfold Rsqr; ring).
    rewrite cos2. unfold Rsqr. ring. }
  assert (Mp : 0 < INR m) by (apply lt_0_INR; lia).
  assert (E : forall t, diffs l t = T t).
  { apply (degree_unique (S m) (INR (fact (S m))) (diffs l) T l N L).
    - rewrite <- L at 1 2. apply degree_diffs.
    - exact DT.
    - intros y Hy. rewrite (diffs_in _ _ Hy). unfold l in Hy. apply in_map_iff in Hy. destruct Hy as (i & <- & _).
      rewrite TC. replace (INR m * (INR i * PI / INR m)) with (IZR (Z.of_nat i) * PI) by (rewrite <- INR_IZR_INZ; field; lra).
      rewrite (sin_eq_0_1 (IZR (Z.of_nat i) * PI)); [ring|]. exists (Z.of_nat i). reflexivity. }
  rewrite E. rewrite <- (cos_acos x) by exact Hx. rewrite TC, Rabs_Ropp, !Rabs_mult, (Rabs_right (/ 2 ^ p)) by (left; apply Rinv_0_lt_compat; exact P2).
  rewrite <- (Rmult_1_r (/ 2 ^ p)) at 2. apply Rmult_le_compat_l; [left; apply Rinv_0_lt_compat; exact P2|].
  assert (S1 : Rabs (sin (acos x)) <= 1) by (apply Rabs_le; apply SIN_bound).
  assert (S2 : Rabs (sin (INR m * acos x)) <= 1) by (apply Rabs_le; apply SIN_bound).
  pose proof (Rabs_pos (sin (acos x))). pose proof (Rabs_pos (sin (INR m * acos x))). nra.
Qed.
