(** Horner's rule in floats for the even and odd polynomials of [mul_add_polynomial]. *)
From Coq Require Import List String Bool ZArith QArith Qreals Reals Ascii Arith Lia Lra.
From Flocq Require Import Core Relative IEEE754.BinarySingleNaN IEEE754.Binary IEEE754.Bits.
From Verif Require Import Res Dec DecFacts DecStr Syntax Visitor Trans Item GenSem FloatBits GenFloat GenFloat2
  DecimalLit UseNumberType RFacts NumberTypeFacts ExactFloats Poly MulAddFacts ApproxFacts HornerFloat.
From Flocq Require Import Core Relative.
Import ListNotations.
Open Scope string_scope.
Open Scope list_scope.
Open Scope R_scope.

(** ** Specification: the terms of one parity *)
Fixpoint alternate (keep : bool) (ts : list bd) : list bd :=
  match ts with [] => [] | c :: r => (if keep then c else dzero) :: alternate (negb keep) r end.
Definition part (p : parity) (ts : list bd) : list bd :=
  match p with PNeither => ts | PEven => alternate true ts | POdd => alternate false ts end.

Lemma rval_zero : rval dzero = 0.
Proof. unfold rval, Q2R. cbn. lra. Qed.
Lemma alternate_even n : forall ts t, (List.length ts <= n)%nat -> rpoly (alternate true ts) t = rpoly (every_second ts) (t * t).
Proof.
  induction n as [|n IH]; intros ts t L.
  - destruct ts; [reflexivity|cbn in L; lia].
  - destruct ts as [|a [|b r]]; [reflexivity| |].
    + cbn [alternate every_second rpoly negb]. ring.
    + cbn [alternate every_second rpoly negb]. cbn [List.length] in L. rewrite IH by lia. rewrite rval_zero. ring.
Qed.
Lemma alternate_odd c r t : rpoly (alternate false (c :: r)) t = t * rpoly (every_second r) (t * t).
Proof. cbn [alternate rpoly negb]. rewrite rval_zero, (alternate_even (List.length r)) by lia. ring. Qed.
Lemma alternate_abs b ts : map dabs (alternate b ts) = alternate b (map dabs ts).
Proof. revert b. induction ts as [|c r IH]; intros b; [reflexivity|]. cbn [alternate map]. rewrite IH. destruct b; reflexivity. Qed.

(** ** A rounded argument *)
Section Argument.
  Context (e h : R) (E0 : 0 <= e) (H0 : 0 <= h).
  Lemma arg_error u v : 0 <= u <= 1 -> 0 <= v <= 1 -> Rabs (v - u) <= e * u + h ->
    forall hc cs, (1 + e) ^ List.length cs <= 2 ->
    Rabs (hornerR v hc cs - hornerR u hc cs) <=
      ((1 + e) ^ List.length cs - 1) * hornerR u (Rabs hc) (map Rabs cs) + INR (List.length cs) * (2 * (horner (fun a c => a + c) (Rabs hc) (map Rabs cs) * h)) /\
    Rabs (hornerR u hc cs) <= hornerR u (Rabs hc) (map Rabs cs) <= horner (fun a c => a + c) (Rabs hc) (map Rabs cs).
  Proof.
    intros U V D hc cs. induction cs as [|c cs IH]; intros G.
    - cbn [hornerR horner fold_right List.length map pow INR]. unfold Rminus. rewrite Rplus_opp_r, Rabs_R0. split; lra.
    - cbn [List.length map pow] in *. rewrite S_INR. set (n := List.length cs) in *.
      assert (G1 : 1 <= (1 + e) ^ n) by (apply pow_R1_Rle; lra). set (g := (1 + e) ^ n) in *.
      assert (G2 : g <= 2) by nra. destruct (IH G2) as (A & P1 & P2).
      unfold hornerR, horner in *. cbn [fold_right] in *.
      set (pv := fold_right (fun c a => a * v + c) hc cs) in *. set (pu := fold_right (fun c a => a * u + c) hc cs) in *.
      set (su := fold_right (fun c a => a * u + c) (Rabs hc) (map Rabs cs)) in *. set (sm := fold_right (fun c a => a + c) (Rabs hc) (map Rabs cs)) in *.
      pose proof (Rabs_pos c) as C0. pose proof (pos_INR n) as N0. assert (S0 : 0 <= su) by (pose proof (Rabs_pos pu); lra).
      assert (SH : 0 <= sm * h) by (apply Rmult_le_pos; lra). assert (CH : 0 <= Rabs c * h) by (apply Rmult_le_pos; lra).
      set (w := INR n * (2 * (sm * h))) in *. assert (W0 : 0 <= w) by (unfold w; apply Rmult_le_pos; lra).
      assert (W1 : w <= INR n * (2 * ((sm + Rabs c) * h))) by (unfold w; apply Rmult_le_compat_l; lra).
      assert (SU : su * u <= su) by (rewrite <- (Rmult_1_r su) at 2; apply Rmult_le_compat_l; lra). assert (SU0 : 0 <= su * u) by (apply Rmult_le_pos; lra).
      split.
      2:{ split; [|lra]. apply Rle_trans with (1 := Rabs_triang _ _). rewrite Rabs_mult, (Rabs_pos_eq u) by lra. assert (Rabs pu * u <= su * u) by (apply Rmult_le_compat_r; lra). lra. }
      replace (pv * v + c - (pu * u + c)) with ((pv - pu) * v + pu * (v - u)) by ring. apply Rle_trans with (1 := Rabs_triang _ _). rewrite !Rabs_mult, (Rabs_pos_eq v) by lra.
      assert (X1 : Rabs pu * Rabs (v - u) <= su * (e * u + h)) by (apply Rmult_le_compat; auto using Rabs_pos).
      assert (VU : v <= u * (1 + e) + h) by (apply Rabs_le_inv in D; lra).
      assert (X2 : Rabs (pv - pu) * v <= (g - 1) * su * (u * (1 + e) + h) + w).
      { apply Rle_trans with (((g - 1) * su + w) * v); [apply Rmult_le_compat_r; lra|]. rewrite Rmult_plus_distr_r.
        apply Rplus_le_compat; [apply Rmult_le_compat_l; [apply Rmult_le_pos; lra|exact VU]|]. rewrite <- (Rmult_1_r w) at 2. apply Rmult_le_compat_l; lra. }
      assert (X3 : (g - 1) * (su * h) <= 1 * (su * h)) by (apply Rmult_le_compat_r; [apply Rmult_le_pos; lra|lra]).
      assert (X4 : su * h <= sm * h) by (apply Rmult_le_compat_r; lra).
      assert (X5 : 0 <= ((1 + e) * g - 1) * Rabs c) by (apply Rmult_le_pos; [nra|lra]).
      replace ((g - 1) * su * (u * (1 + e) + h)) with ((g - 1) * (1 + e) * (su * u) + (g - 1) * (su * h)) in X2 by ring.
      replace (su * (e * u + h)) with (e * (su * u) + su * h) in X1 by ring.
      replace (((1 + e) * g - 1) * (su * u + Rabs c)) with ((g - 1) * (1 + e) * (su * u) + e * (su * u) + ((1 + e) * g - 1) * Rabs c) by ring.
      replace ((INR n + 1) * (2 * ((sm + Rabs c) * h))) with (INR n * (2 * ((sm + Rabs c) * h)) + 2 * (sm * h) + 2 * (Rabs c * h)) by ring. lra.
  Qed.
End Argument.

Lemma square_value bits nan_of (t : flt bits) : (bits = 32 \/ bits = 64)%Z -> finite t = true -> Rabs (fR t) <= 1 ->
  finite (fmul bits nan_of t t) = true /\ 0 <= fR (fmul bits nan_of t t) <= 1 /\ 0 <= fR t * fR t <= 1 /\
  Rabs (fR (fmul bits nan_of t t) - fR t * fR t) <= eps bits * (fR t * fR t) + eta bits.
Proof.
  intros HB Ft Ht. apply Rabs_le_inv in Ht. assert (T : 0 <= fR t * fR t <= 1) by nra.
  assert (P : (0 < prec bits)%Z) by (pose proof (prec_gt bits); assumption).
  assert (Z1 : (0 <= 1 <= 2 ^ prec bits)%Z) by (split; [lia|change 1%Z with (2 ^ 0)%Z; apply Z.pow_le_mono_r; lia]).
  assert (B : Rabs (RN bits (fR t * fR t)) <= 1) by (apply (RN_bound bits _ 1); [rewrite Rabs_pos_eq; lra|exact Z1]).
  destruct (fmul_value bits nan_of t t Ft Ft) as [V Fi].
  { apply Rle_lt_trans with (1 := B). change 1 with (bpow radix2 0). apply bpow_lt. destruct HB as [-> | ->]; [change (emax 32) with 128%Z|change (emax 64) with 1024%Z]; lia. }
  split; [exact Fi|]. rewrite V. split; [|split; [exact T|]].
  - split; [|apply Rabs_le_inv in B; lra]. rewrite <- (round_0 radix2 (fx bits) (fun x => Znearest (fun t => negb (Z.even t)) x)). apply RN_le. lra.
  - rewrite <- (Rabs_pos_eq (fR t * fR t)) at 3 by lra. apply RN_err. exact HB.
Qed.

Section Parity.
  Context (F : floats) (kind : string) (bits : Z) (k : R) (W : working kind bits) (RB : reads_back F) (PW : powi_within F k) (HK : 0 <= k <= 1 / 1024).
  Let HB := working_bits kind bits W.
  Let kap := k + conv_unit bits.
  Let coef (c : bd) := (0 <= scale c)%Z /\ ordinary bits c.

  Lemma coefs_finite l : Forall coef l -> Forall (fun c => (0 <= scale c)%Z /\ finite (converted F bits (dabs c)) = true) l.
  Proof. apply Forall_impl. intros c [S O]. split; [exact S|]. apply (converted_sharp F k bits (dabs c) HB PW HK). apply ordinary_abs. exact O. Qed.

  Lemma square_horner nan_of (t : flt bits) h l : coef h -> Forall coef l -> (List.length l <= 500)%nat -> finite t = true -> Rabs (fR t) <= 1 ->
    let A := horner (fun a c => a + c) (Rabs (rval h)) (map Rabs (map rval l)) in A <= bpow radix2 99 ->
    let y := hornerF bits nan_of (fmul bits nan_of t t) (num_flt F bits h) (map (num_flt F bits) l) in
    let S := hornerR (fR t * fR t) (Rabs (rval h)) (map Rabs (map rval l)) in
    finite y = true /\ Rabs (hornerR (fR t * fR t) (rval h) (map rval l)) <= S <= A /\ 0 <= S /\
    Rabs (fR y - hornerR (fR t * fR t) (rval h) (map rval l)) <=
      ((1 + kap) * (1 + eps bits) ^ (2 * List.length l) - 1) * S + INR (List.length l) * (4 * A * eta bits + 2 * eta bits) /\
    (1 + kap) * (1 + eps bits) ^ (2 * List.length l) <= 1 + 1 / 64.
  Proof.
    intros Hh Hl HL Ft Ht A HA y S. destruct (square_value bits nan_of t HB Ft Ht) as (F2 & V2 & U & D). set (t2 := fmul bits nan_of t t) in *. set (u := fR t * fR t) in *.
    pose proof (conv_small bits HB) as CU. pose proof (eps_small 32 ltac:(tauto)) as E32. pose proof (eps_small bits HB) as EB. pose proof (eps_pos bits) as EP.
    pose proof (eta_eps bits HB) as TE. pose proof (eta_pos bits) as TP. set (m := List.length l) in *.
    assert (N : INR m <= 500) by (change 500 with (IZR (Z.of_nat 500)); rewrite <- INR_IZR_INZ; apply le_INR; lia). pose proof (pos_INR m) as N0.
    assert (NE : 0 <= INR m * eps bits <= 500 * / 16777216) by (split; [apply Rmult_le_pos; lra|apply Rmult_le_compat; lra]).
    assert (PS : (1 + eps bits) ^ m <= 1 + 1 / 1024) by (eapply Rle_trans; [apply pow_small; lra|lra]).
    assert (P1 : 1 <= (1 + eps bits) ^ m) by (apply pow_R1_Rle; lra). set (q := (1 + eps bits) ^ m) in *.
    assert (K0 : 0 <= kap <= 1 / 512) by (unfold kap; lra).
    assert (KQ : 1 <= (1 + kap) * q <= 1 + 1 / 256) by nra.
    destruct (horner_error bits HB nan_of kap t2 ltac:(lra) F2 ltac:(apply Rabs_le; lra) (num_flt F bits h) (rval h) (map (num_flt F bits) l) (map rval l)) as (Fi & Er & Bp & Bs).
    - apply (num_flt_close F k bits h HB PW HK (proj2 Hh)).
    - clear - Hl PW HK HB. unfold kap. induction Hl as [|c l [Sc Oc] _ IH]; cbn [map]; constructor; [apply (num_flt_close F k bits c HB PW HK Oc)|exact IH].
    - exact HA.
    - rewrite map_length. fold m. unfold growth. fold q. lra.
    - rewrite map_length. fold m. apply Rle_trans with (500 * 2 * (/ 16777216 / 1048576)); [|lra]. apply Rmult_le_compat; lra.
    - rewrite map_length in Er. fold m y in Er, Fi. unfold growth in Er. fold q in Er. rewrite (Rabs_pos_eq (fR t2)) in * by lra.
      assert (LM : List.length (map rval l) = m) by apply map_length. assert (LM2 : List.length (map Rabs (map rval l)) = m) by (rewrite !map_length; reflexivity).
      destruct (arg_error (eps bits) (eta bits) ltac:(lra) ltac:(lra) u (fR t2) U V2 D (rval h) (map rval l)) as (G1 & G2 & G3); [rewrite LM; fold q; lra|].
      destruct (arg_error (eps bits) (eta bits) ltac:(lra) ltac:(lra) u (fR t2) U V2 D (Rabs (rval h)) (map Rabs (map rval l))) as (G4 & _ & _); [rewrite LM2; fold q; lra|].
      rewrite LM in G1. rewrite LM2 in G4. fold q in G1, G4.
      assert (AA : map Rabs (map Rabs (map rval l)) = map Rabs (map rval l)) by (rewrite map_map; apply map_ext; intros; apply Rabs_Rabsolu).
      rewrite AA, Rabs_Rabsolu in G4. fold A in G1, G3, G4. fold S in G1, G2, G3, G4.
      set (pu := hornerR u (rval h) (map rval l)) in *. set (pv := hornerR (fR t2) (rval h) (map rval l)) in *. set (Sv := hornerR (fR t2) (Rabs (rval h)) (map Rabs (map rval l))) in *.
      assert (S0 : 0 <= S) by (pose proof (Rabs_pos pu); lra).
      replace (2 * m)%nat with (m + m)%nat by lia. rewrite pow_add. fold q.
      split; [exact Fi|]. split; [split; assumption|]. split; [exact S0|]. split; [|nra].
      set (x := INR m * (2 * (A * eta bits))) in *.
      assert (X0 : 0 <= x) by (unfold x; apply Rmult_le_pos; [lra|]; apply Rmult_le_pos; [lra|]; apply Rmult_le_pos; lra).
      assert (SvB : Sv <= q * S + x) by (apply Rabs_le_inv in G4; lra).
      replace (fR y - pu) with ((fR y - pv) + (pv - pu)) by ring. apply Rle_trans with (1 := Rabs_triang _ _).
      assert (Y : ((1 + kap) * q - 1) * Sv <= ((1 + kap) * q - 1) * (q * S + x)) by (apply Rmult_le_compat_l; lra).
      assert (Y2 : ((1 + kap) * q - 1) * x <= 1 * x) by (apply Rmult_le_compat_r; lra).
      assert (Y3 : INR m * q * eta bits <= INR m * 2 * eta bits) by (apply Rmult_le_compat_r; [lra|]; apply Rmult_le_compat_l; lra).
      replace (((1 + kap) * (q * q) - 1) * S) with (((1 + kap) * q - 1) * (q * S) + (q - 1) * S) by ring.
      replace (INR m * (4 * A * eta bits + 2 * eta bits)) with (x + x + INR m * 2 * eta bits) by (unfold x; ring). lra.
  Qed.

  Lemma square_retyped n h l : coef h -> Forall coef l ->
    exists e', use_number_type F kind bits (chain (var_square [n]) h (rev l)) = Ok e' /\
    forall nan_of std checked lib call const env t, lookup bits n env = Some (VFlt t) ->
      eval_g bits nan_of std checked lib call const env e' = Ok (VFlt (hornerF bits nan_of (fmul bits nan_of t t) (num_flt F bits h) (map (num_flt F bits) l))).
  Proof.
    intros Hh Hl. destruct (chain_retyped F kind bits W RB (var_square [n]) (var_square [n]) h l eq_refl (coefs_finite (h :: l) (Forall_cons _ Hh Hl))) as (e' & Ue & Ev).
    exists e'. split; [exact Ue|]. intros nan_of std checked lib call const env t Lk. apply Ev. unfold var_square. cbn [eval_g]. rewrite Lk. reflexivity.
  Qed.

  Lemma alternate_coefs n : forall ts, (List.length ts <= n)%nat -> Forall coef (alternate true ts) -> Forall coef (every_second ts).
  Proof.
    induction n as [|n IH]; intros ts L H.
    - destruct ts; [constructor|cbn in L; lia].
    - destruct ts as [|a [|b r]]; [constructor|exact H|]. cbn [alternate every_second negb List.length] in *. inversion H as [|? ? Ha H']; subst. inversion H' as [|? ? _ H'']; subst.
      constructor; [exact Ha|]. apply IH; [lia|exact H''].
  Qed.
  Lemma half_length {A} n : forall ts : list A, (List.length ts <= n)%nat -> Nat.even (List.length ts) = true -> List.length ts = (2 * List.length (every_second ts))%nat.
  Proof.
    induction n as [|n IH]; intros ts L H; destruct ts as [|a [|b r]]; try reflexivity; cbn [List.length every_second Nat.even] in *; try lia; try discriminate.
    specialize (IH r ltac:(lia) H). lia.
  Qed.

  Theorem parity_float p n ts e : Forall coef (part p ts) -> (List.length ts <= 1001)%nat ->
    rpoly (map dabs (part p ts)) 1 <= bpow radix2 99 -> mul_add_polynomial ts [n] p = Ok e ->
    exists e', use_number_type F kind bits e = Ok e' /\
    forall nan_of std checked lib call const env t, lookup bits n env = Some (VFlt t) -> finite t = true -> Rabs (fR t) <= 1 ->
      exists y, eval_g bits nan_of std checked lib call const env e' = Ok (VFlt y) /\ finite y = true /\
        Rabs (fR y - rpoly (part p ts) (fR t)) <=
          ((1 + kap) * (1 + eps bits) ^ (List.length ts - 1) - 1) * rpoly (map dabs (part p ts)) (Rabs (fR t)) +
          INR (List.length ts) * (4 * (1 + rpoly (map dabs (part p ts)) 1) * eta bits).
  Proof.
    intros HT HL HS ME. pose proof (eta_pos bits) as TP. pose proof (eta_eps bits HB) as TE. pose proof (eps_pos bits) as EP. pose proof (eps_small bits HB) as EB.
    destruct (right_parity p (List.length ts)) eqn:RP.
    2:{ destruct ts as [|c r]; [discriminate ME|]. rewrite (proj2 (mul_add_refused (c :: r) [n] p)) in ME by (split; [discriminate|exact RP]). discriminate. }
    destruct p; cbn [part right_parity] in *.
    - (* odd *)
      destruct (List.length ts) as [|k'] eqn:L; [destruct ts; [discriminate ME|discriminate]|].
      destruct (last_split ts k' L) as (h & E & Hn). rewrite (mul_add_ok ts [n] POdd k' h L Hn RP) in ME. injection ME as <-. unfold emitted. rewrite L. cbn [pred].
      destruct k' as [|k2]; [discriminate RP|]. destruct ts as [|t0 r]; [discriminate L|]. cbn [firstn skipn List.length app] in *. injection L as L. injection E as E.
      set (l := firstn k2 r) in *. assert (Ll : List.length l = k2) by (unfold l; rewrite firstn_length; lia).
      assert (El : Nat.even (List.length l) = true) by (rewrite Ll; exact RP).
      assert (ES : every_second r = every_second l ++ [h]) by (rewrite <- (every_second_last l h El), <- E; reflexivity).
      pose proof (half_length (List.length l) l (le_n _) El) as HM. rewrite Ll in HM.
      assert (HC : Forall coef (every_second l ++ [h])) by (rewrite <- ES; cbn [alternate negb] in HT; apply (alternate_coefs (List.length r)); [lia|exact (Forall_inv_tail HT)]).
      apply Forall_app in HC. destruct HC as [Cl Ch]. apply Forall_inv in Ch. set (l2 := every_second l) in *.
      assert (VP : forall t, rpoly (alternate false (t0 :: r)) t = t * hornerR (t * t) (rval h) (map rval l2)) by (intros t; rewrite alternate_odd, ES, rpoly_horner; reflexivity).
      assert (VS : forall t, rpoly (map dabs (alternate false (t0 :: r))) t = t * hornerR (t * t) (Rabs (rval h)) (map Rabs (map rval l2))).
      { intros t. rewrite alternate_abs. cbn [map]. rewrite alternate_odd, every_second_map, ES, map_app. cbn [map]. rewrite rpoly_horner, map_rval_dabs, rval_dabs. reflexivity. }
      rewrite VS, Rmult_1_l, Rmult_1_l, horner_one in HS.
      destruct (square_retyped n h l2 Ch Cl) as (e' & Ue & Ev). exists (EBinary BMul e' (EPath [n])). split.
      { unfold use_number_type in *. cbn [visit number_visitor v_expr v_binary]. unfold def_expr, def_binary. fold (number_visitor F kind bits). change (match firstn (Init.Nat.pred (S (S k2))) (t0 :: r) with [] => [] | _ :: l0 => l0 end) with l. fold l2. rewrite Ue. reflexivity. }
      intros nan_of std checked lib call const env t Lk Ft Ht.
      destruct (square_horner nan_of t h l2 Ch Cl ltac:(lia) Ft Ht HS) as (Fy & [P1 P2] & S0 & Er & G). specialize (Ev nan_of std checked lib call const env t Lk).
      set (y := hornerF bits nan_of (fmul bits nan_of t t) (num_flt F bits h) (map (num_flt F bits) l2)) in *.
      set (A := horner (fun a c => a + c) (Rabs (rval h)) (map Rabs (map rval l2))) in *. set (u := fR t * fR t) in *.
      set (S := hornerR u (Rabs (rval h)) (map Rabs (map rval l2))) in *. set (pu := hornerR u (rval h) (map rval l2)) in *.
      set (m := List.length l2) in *. rewrite <- HM in *.
      assert (N : INR m <= 500) by (change 500 with (IZR (Z.of_nat 500)); rewrite <- INR_IZR_INZ; apply le_INR; lia). pose proof (pos_INR m) as N0.
      set (w := INR m * (4 * A * eta bits + 2 * eta bits)) in *.
      assert (AT : 0 <= A * eta bits) by (apply Rmult_le_pos; lra).
      assert (W0 : 0 <= w) by (unfold w; apply Rmult_le_pos; lra).
      set (g := (1 + kap) * (1 + eps bits) ^ k2) in *.
      assert (G1 : 1 <= g). { unfold g. assert (1 <= (1 + eps bits) ^ k2) by (apply pow_R1_Rle; lra). assert (0 <= kap) by (unfold kap; pose proof (conv_small bits HB); lra). nra. }
      set (a := Rabs (fR t)) in *. assert (A0 : 0 <= a) by apply Rabs_pos.
      set (d := (g - 1) * S + w) in *. assert (D0 : 0 <= d) by (unfold d; assert (0 <= (g - 1) * S) by (apply Rmult_le_pos; lra); lra).
      assert (X : Rabs (fR y * fR t - fR t * pu) <= d * a).
      { replace (fR y * fR t - fR t * pu) with ((fR y - pu) * fR t) by ring. rewrite Rabs_mult. apply Rmult_le_compat_r; assumption. }
      assert (WB : w <= 1 + A).
      { unfold w. apply Rle_trans with (500 * ((1 + A) * (1 / 1024))); [|lra]. apply Rmult_le_compat; [lra|lra|exact N|]. assert (A * eta bits <= A * (1 / 65536)) by (apply Rmult_le_compat_l; lra). lra. }
      assert (Sa : S * a <= A) by (apply Rle_trans with (S * 1); [apply Rmult_le_compat_l; lra|lra]). assert (Sa0 : 0 <= S * a) by (apply Rmult_le_pos; lra).
      assert (DA : d * a <= (g - 1) * (S * a) + w).
      { unfold d. rewrite Rmult_plus_distr_r, Rmult_assoc. apply Rplus_le_compat_l. rewrite <- (Rmult_1_r w) at 2. apply Rmult_le_compat_l; lra. }
      assert (PA : Rabs (fR t * pu) <= S * a) by (rewrite Rabs_mult, Rmult_comm; apply Rmult_le_compat_r; assumption).
      assert (YB : Rabs (fR y * fR t) <= Rabs (fR t * pu) + d * a).
      { replace (fR y * fR t) with (fR t * pu + (fR y * fR t - fR t * pu)) by ring. apply Rle_trans with (1 := Rabs_triang _ _). lra. }
      assert (GA : (g - 1) * (S * a) <= 1 / 64 * (S * a)) by (apply Rmult_le_compat_r; lra).
      pose proof (RN_err bits (fR y * fR t) HB) as RE.
      assert (EY : eps bits * Rabs (fR y * fR t) <= eps bits * (S * a + d * a)) by (apply Rmult_le_compat_l; lra).
      assert (EY2 : eps bits * (S * a + d * a) <= / 16777216 * (S * a + d * a)) by (apply Rmult_le_compat_r; [|exact EB]; pose proof (Rmult_le_pos d a D0 A0); lra).
      destruct (fmul_value bits nan_of y t Fy Ft) as [V Fi].
      { apply Rle_lt_trans with (Rabs (fR y * fR t) + (eps bits * Rabs (fR y * fR t) + eta bits)).
        - replace (RN bits (fR y * fR t)) with (fR y * fR t + (RN bits (fR y * fR t) - fR y * fR t)) at 1 by ring. apply Rle_trans with (1 := Rabs_triang _ _). lra.
        - apply Rle_lt_trans with (8 + 4 * A); [lra|]. apply Rle_lt_trans with (bpow radix2 102 * 1).
          + change 102%Z with (99 + 3)%Z. rewrite bpow_plus. change (bpow radix2 3) with 8. assert (1 * 4 <= bpow radix2 99) by (rewrite Rmult_1_l; change 4 with (bpow radix2 2); apply bpow_le; lia). lra.
          + rewrite Rmult_1_r. apply bpow_lt. destruct HB as [B | B]; rewrite B; reflexivity. }
      exists (fmul bits nan_of y t). split; [cbn [eval_g]; rewrite Ev, Lk; reflexivity|]. split; [exact Fi|]. rewrite V, VP, !VS. fold u pu. rewrite !Rmult_1_l, horner_one. fold A.
      replace (a * a) with u by (unfold u, a; rewrite <- Rabs_mult, Rabs_pos_eq; [reflexivity|apply Rle_0_sqr]). fold S a.
      replace (RN bits (fR y * fR t) - fR t * pu) with ((RN bits (fR y * fR t) - fR y * fR t) + (fR y * fR t - fR t * pu)) by ring. apply Rle_trans with (1 := Rabs_triang _ _).

      change (Datatypes.S (Datatypes.S k2) - 1)%nat with (Datatypes.S k2). cbn [pow]. replace ((1 + kap) * ((1 + eps bits) * (1 + eps bits) ^ k2)) with (g * (1 + eps bits)) by (unfold g; ring).
      assert (EW : eps bits * w <= w) by (rewrite <- (Rmult_1_l w) at 2; apply Rmult_le_compat_r; lra).
      assert (ED : eps bits * (d * a) <= eps bits * ((g - 1) * (S * a)) + eps bits * w) by (rewrite <- Rmult_plus_distr_l; apply Rmult_le_compat_l; lra).
      replace (INR (Datatypes.S (Datatypes.S k2))) with (2 * INR m + 2) by (rewrite !S_INR, HM, mult_INR; cbn [INR]; ring).
      assert (Q1 : (2 * INR m + 2) * (4 * (1 + A) * eta bits) = 2 * w + INR m * (4 * eta bits) + 8 * (A * eta bits) + 8 * eta bits) by (unfold w; ring).
      assert (Q2 : 0 <= INR m * (4 * eta bits)) by (apply Rmult_le_pos; lra).
      replace ((g * (1 + eps bits) - 1) * (a * S)) with ((g - 1) * (S * a) + eps bits * (S * a) + eps bits * ((g - 1) * (S * a))) by ring. lra.
    - (* even *)
      destruct (List.length ts) as [|k'] eqn:L; [discriminate RP|].
      destruct (last_split ts k' L) as (h & E & Hn). rewrite (mul_add_ok ts [n] PEven k' h L Hn RP) in ME. injection ME as <-. unfold emitted. rewrite L. cbn [pred].
      set (l := firstn k' ts) in *. assert (Ll : List.length l = k') by (unfold l; rewrite firstn_length; lia).
      assert (El : Nat.even (List.length l) = true) by (rewrite Ll, <- Nat.odd_succ; exact RP).
      assert (ES : every_second ts = every_second l ++ [h]) by (rewrite <- (every_second_last l h El), <- E; reflexivity).
      pose proof (half_length (List.length l) l (le_n _) El) as HM. rewrite Ll in HM.
      assert (HC : Forall coef (every_second l ++ [h])) by (rewrite <- ES; apply (alternate_coefs (List.length ts)); [lia|assumption]).
      apply Forall_app in HC. destruct HC as [Cl Ch]. apply Forall_inv in Ch. set (l2 := every_second l) in *.
      assert (VP : forall t, rpoly (alternate true ts) t = hornerR (t * t) (rval h) (map rval l2)) by (intros t; rewrite (alternate_even (List.length ts)), ES, rpoly_horner by lia; reflexivity).
      assert (VS : forall t, rpoly (map dabs (alternate true ts)) t = hornerR (t * t) (Rabs (rval h)) (map Rabs (map rval l2))).
      { intros t. rewrite alternate_abs, (alternate_even (List.length (map dabs ts))), every_second_map, ES, map_app by lia. cbn [map]. rewrite rpoly_horner, map_rval_dabs, rval_dabs. reflexivity. }
      rewrite VS, Rmult_1_l, horner_one in HS.
      destruct (square_retyped n h l2 Ch Cl) as (e' & Ue & Ev). exists e'. split; [exact Ue|]. intros nan_of std checked lib call const env t Lk Ft Ht.
      destruct (square_horner nan_of t h l2 Ch Cl ltac:(lia) Ft Ht HS) as (Fy & [P1 P2] & S0 & Er & G). eexists. split; [apply Ev; exact Lk|]. split; [exact Fy|].
      rewrite VP, !VS, Rmult_1_l, horner_one. replace (Rabs (fR t) * Rabs (fR t)) with (fR t * fR t) by (rewrite <- Rabs_mult, Rabs_pos_eq; [reflexivity|apply Rle_0_sqr]).
      apply Rle_trans with (1 := Er). change (S k' - 1)%nat with (k' - 0)%nat. rewrite Nat.sub_0_r, <- HM. apply Rplus_le_compat_l.
      set (A := horner (fun a c => a + c) (Rabs (rval h)) (map Rabs (map rval l2))) in *. assert (AT : 0 <= A * eta bits) by (apply Rmult_le_pos; lra). pose proof (pos_INR (List.length l2)) as N0.
      apply Rmult_le_compat; [lra|lra|apply le_INR; lia|lra].
    - destruct (poly_float F kind bits k W RB PW HK n ts e HT HL HS ME) as (e' & Ue & Ev). exists e'. split; [exact Ue|]. intros nan_of std checked lib call const env t Lk Ft Ht.
      destruct (Ev nan_of std checked lib call const env t Lk Ft Ht) as (y & Y1 & Y2 & Y3). exists y. split; [exact Y1|]. split; [exact Y2|]. apply Rle_trans with (1 := Y3). apply Rplus_le_compat_l.
      apply Rmult_le_compat_l; [apply pos_INR|]. apply Rmult_le_compat_r; [lra|].
      assert (A0 : 0 <= rpoly (map dabs ts) 1); [|lra]. clear. induction ts as [|c r IH]; cbn [map rpoly]; [lra|]. rewrite rval_dabs. pose proof (Rabs_pos (rval c)). lra.
  Qed.
End Parity.
