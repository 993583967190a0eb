(** The cases of the claim about [use_number_type]. *)
From Coq Require Import List String Bool ZArith Reals Ascii Lia Lra.
From Flocq Require Import Core IEEE754.BinarySingleNaN IEEE754.Binary IEEE754.Bits.
From Verif Require Import Res Dec DecStr DecStrFacts Syntax Visitor GenSem FloatBits GenFloat DecimalLit UseNumberType NumberTypeFacts ExactFloats.
Import ListNotations.
Open Scope string_scope.
Open Scope list_scope.
Open Scope Z_scope.

Lemma other_modes_same (F : floats) (kind : string) (bits : Z) (e e' : expr) :
  ~ ((kind = "decimal" \/ kind = "hex") /\ (bits = 32 \/ bits = 64)) -> use_number_type F kind bits e = Ok e' -> e' = e.
Proof.
  intros M E. apply relit_same. revert E. apply visit_relit. intros l r _ R.
  assert (K : forall d, retype F kind bits d l = Ok r -> r = ELit l).
  { intros d. unfold retype. destruct (parse_dec _) as [n|]; [|discriminate].
    destruct (String.eqb_spec kind "decimal") as [KD|KD], (String.eqb_spec kind "hex") as [KH|KH], (Z.eqb_spec bits 32) as [B3|B3], (Z.eqb_spec bits 64) as [B6|B6];
      cbn [andb]; try (exfalso; tauto); congruence. }
  destruct l; cbn in R; try congruence; eapply K; exact R.
Qed.

Lemma all_close (F : floats) (k : R) (kind : string) (bits : Z) (e : expr) :
  reads_back F -> powi_within F k -> (0 <= k <= 1 / 1024)%R -> working kind bits -> supported e = true ->
  (forall l, In l (lits e) -> is_number l = true -> exists n, number_of l = Some n /\ ordinary bits n) ->
  exists e', use_number_type F kind bits e = Ok e' /\
    relit (fun l r => is_number l = true -> exists n x, number_of l = Some n /\ denotes bits r x /\ finite x = true /\
      (Rabs (fR x - dreal n) <= (k + (if (bits =? 32)%Z then bpow radix2 (-23) else 3 * bpow radix2 (-53))) * Rabs (dreal n))%R) e e'.
Proof.
  intros RB PW HK W HS HL.
  assert (G : forall l, In l (lits e) -> is_number l = true -> exists n r, number_of l = Some n /\ retype_lit F kind bits l = Ok r /\
    denotes bits r (converted F bits n) /\ ordinary bits n).
  { intros l I N. destruct (HL l I N) as (n & En & O).
    destruct (converted_close F k bits n (working_bits _ _ W) PW HK O) as [F1 _].
    destruct (retype_denotes F kind bits l n W RB N En F1) as (r & R & D). exists n, r. auto. }
  destruct (visit_succeeds (retype_lit F kind bits) e HS) as [e' E].
  { intros l I. destruct (is_number l) eqn:N; [destruct (G l I N) as (n & r & _ & R & _); eauto|].
    destruct l; try discriminate N; eexists; reflexivity. }
  exists e'. split; [exact E|]. revert E. apply visit_relit. intros l r I R N.
  destruct (G l I N) as (n & r' & En & R' & D & O). assert (r = r') by congruence. subst r'.
  exists n, (converted F bits n). destruct (converted_close F k bits n (working_bits _ _ W) PW HK O) as [F1 C]. auto.
Qed.

Lemma integer_nearest (F : floats) (kind : string) (bits : Z) (m : Z) (l : lit) :
  reads_back F -> finite (powi10 F 0) = true -> fR (powi10 F 0) = 1%R -> working kind bits ->
  is_number l = true -> number_of l = Some (BD m 0) -> Z.abs m <= (if bits =? 32 then 2 ^ 53 else 2 ^ 1023) ->
  exists r x, use_number_type F kind bits (ELit l) = Ok r /\ denotes bits r x /\ nearest_to (IZR m) x.
Proof.
  intros RB PF P1 W N En M. pose proof (working_bits _ _ W) as B.
  assert (NR : nearest_to (IZR m) (converted F bits (BD m 0))).
  { apply converted_int; auto. destruct (bits =? 32); exact M. }
  destruct (retype_denotes F kind bits l _ W RB N En (proj1 NR)) as (r & R & D). exists r, (converted F bits (BD m 0)). auto.
Qed.

(** the value of a concrete float *)
Lemma value_of bits (x : flt bits) s m e : B2FF _ _ x = F754_finite s m e -> fR x = (IZR (cond_Zopp s (Z.pos m)) * bpow radix2 e)%R /\ finite x = true.
Proof. intros E. rewrite <- FF2R_B2FF, E. split; [reflexivity|]. destruct x; cbn in E |- *; congruence. Qed.

Lemma tenths (F : floats) : reads_back F -> powi10 F (-1) = of_decimal 64 (BD 1 1) ->
  exists r x, use_number_type F "decimal" 64 (ELit (LFloat "0.3" "")) = Ok r /\ denotes 64 r x /\ ~ nearest_to (3 / 10) x.
Proof.
  intros RB P.
  assert (V : B2FF _ _ (to_f64 F (BD 3 1)) = F754_finite false 5404319552844596 (-54)).
  { unfold to_f64. cbn [mant scale]. change (wrap I32 (- (1))) with (-1). rewrite P. vm_compute. reflexivity. }
  destruct (value_of _ _ _ _ _ V) as [VR VF].
  destruct (retype_denotes F "decimal" 64 (LFloat "0.3" "") (BD 3 1)) as (r & R & D); auto.
  { left. auto. }
  exists r, (to_f64 F (BD 3 1)). split; [exact R|]. split; [exact D|]. intros [_ N].
  assert (V2 : B2FF _ _ (of_bits 64 4599075939470750515) = F754_finite false 5404319552844595 (-54)) by (vm_compute; reflexivity).
  destruct (value_of _ _ _ _ _ V2) as [WR WF]. specialize (N _ WF). rewrite VR, WR in N. revert N. apply Rlt_not_le.
  cbn [cond_Zopp]. replace (bpow radix2 (-54)) with (/ 18014398509481984)%R by reflexivity.
  rewrite (Rabs_pos_eq (IZR 5404319552844596 * _ - _)) by lra. rewrite Rabs_left by lra. lra.
Qed.

Lemma twice_rounded (F : floats) : powi10 F 0 = of_int 64 1 ->
  exists r x, use_number_type F "hex" 32 (ELit (LInt "18014399583223809" "")) = Ok r /\ denotes 32 r x /\
  ~ nearest_to 18014399583223809 x.
Proof.
  intros P.
  assert (V : B2FF _ _ (to_f32 F (BD 18014399583223809 0)) = F754_finite false 8388608 31).
  { unfold to_f32, to_f64. cbn [mant scale]. change (wrap I32 (- (0))) with 0. rewrite P. vm_compute. reflexivity. }
  destruct (value_of _ _ _ _ _ V) as [VR VF].
  exists (quote_bits "u32" (to_bits (to_f32 F (BD 18014399583223809 0)))), (to_f32 F (BD 18014399583223809 0)).
  split; [reflexivity|]. split; [apply quote_bits_denotes|]. intros [_ N].
  assert (V2 : B2FF _ _ (of_bits 32 1518338049) = F754_finite false 8388609 31) by (vm_compute; reflexivity).
  destruct (value_of _ _ _ _ _ V2) as [WR WF]. specialize (N _ WF). rewrite VR, WR in N. revert N. apply Rlt_not_le.
  cbn [cond_Zopp]. replace (bpow radix2 31) with 2147483648%R by reflexivity.
  rewrite Rabs_pos_eq by lra. rewrite Rabs_left by lra. lra.
Qed.

Definition some_nan (bits : Z) (_ : list (flt bits)) : { x : flt bits | Binary.is_nan (prec bits) (emax bits) x = true }.
Proof. exists (B754_nan (prec bits) (emax bits) false 1 ltac:(unfold prec, mw; destruct (bits =? 32); reflexivity)). reflexivity. Defined.

Lemma hex64_stuck (F : floats) (l : lit) (n : bd) : is_number l = true -> number_of l = Some n ->
  exists r, use_number_type F "hex" 64 (ELit l) = Ok r /\ (forall x, ~ denotes 64 r x) /\ (forall x, ~ denotes 32 r x).
Proof.
  intros N En. exists (quote_bits "u64" (to_bits (to_f64 F n))). split.
  - destruct l; try discriminate N; cbn in En |- *; unfold def_expr, retype; rewrite En; reflexivity.
  - assert (P : parse_dec (list_ascii_of_string (string_of_list_ascii (zdigits (to_bits (to_f64 F n))))) = Some (BD (to_bits (to_f64 F n)) 0)).
    { rewrite list_ascii_of_string_of_list_ascii. apply parse_zdigits. pose proof (to_bits_range 64 (to_f64 F n)). lia. }
    assert (K : forall bits (x : flt bits), bits = 32 \/ bits = 64 -> ~ denotes bits (quote_bits "u64" (to_bits (to_f64 F n))) x).
    { intros bits x B D. specialize (D (some_nan bits) (fun _ _ => None) true [] (fun _ _ => stuck) (fun _ => stuck) []).
      unfold quote_bits in D. cbn [eval_g literal] in D. rewrite P in D. cbn [scale mant Z.eqb negb] in D.
      change (prim "u64") with (Some (TInt U64)) in D. change (resolve [] "f32") with (Some (TFlt 32)) in D. cbn [String.eqb Ascii.eqb Bool.eqb] in D.
      destruct (in_range U64 _); cbn [rbind] in D; [|discriminate]. destruct B as [-> | ->]; cbn in D; discriminate. }
    split; intros x; apply K; auto.
Qed.

Lemma zero_nan (F : floats) : powi10 F 400 = inf 64 ->
  exists r x, use_number_type F "hex" 32 (ELit (LFloat "0e400" "")) = Ok r /\ denotes 32 r x /\ Binary.is_nan _ _ x = true.
Proof.
  intros P. exists (quote_bits "u32" (to_bits (to_f32 F (BD 0 (-400))))), (to_f32 F (BD 0 (-400))).
  split; [reflexivity|]. split; [apply quote_bits_denotes|]. unfold to_f32, to_f64. cbn [mant scale]. change (wrap I32 (- (-400))) with 400. rewrite P.
  assert (N : Binary.is_nan _ _ (fmul 64 (nan_for F 64) (of_int 64 0) (inf 64)) = true).
  { change (of_int 64 0) with (B754_zero (prec 64) (emax 64) false). unfold fmul, inf, Binary.Bmult. reflexivity. }
  destruct (fmul 64 (nan_for F 64) (of_int 64 0) (inf 64)); try discriminate. cbn. destruct (nan_for F 32 []) as [y Y]. exact Y.
Qed.

Lemma exact_example nans :
  reads_back (exact_floats nans) /\ powi_within (exact_floats nans) (bpow radix2 (-53)) /\
  powi10 (exact_floats nans) (-1) = of_decimal 64 (BD 1 1) /\ powi10 (exact_floats nans) 0 = of_int 64 1 /\
  powi10 (exact_floats nans) 400 = inf 64 /\ finite (powi10 (exact_floats nans) 0) = true /\ fR (powi10 (exact_floats nans) 0) = 1%R.
Proof.
  split; [apply exact_reads_back|]. split; [apply exact_powi|]. split; [reflexivity|]. split; [reflexivity|].
  split; [vm_compute; reflexivity|]. split; [vm_compute; reflexivity|]. change (fR (of_int 64 1) = 1%R).
  destruct (of_int_exact 64 1) as [E _]; [vm_compute; discriminate|]. exact E.
Qed.

Lemma sample_ordinary : Forall (fun l => is_number l = true -> exists n, number_of l = Some n /\ ordinary 32 n)
  [LFloat "1.5" ""; LInt "2" ""; LBool true].
Proof.
  repeat constructor; intros N; try discriminate N.
  - exists (BD 15 1). split; [reflexivity|]. split; [cbn; lia|]. split; [apply Z.leb_le; vm_compute; reflexivity|]. right. cbn [Z.eqb Pos.eqb]. cbv zeta.
    assert (D : dreal (BD 15 1) = (3 / 2)%R). { unfold dreal. cbn [mant scale]. replace (bpow radix10 (- (1))) with (/ 10)%R by reflexivity. lra. }
    rewrite D, Rabs_pos_eq by lra. split.
    + apply Rle_trans with (bpow radix2 0); [apply bpow_le; lia|]. cbn. lra.
    + apply Rle_trans with (bpow radix2 1); [|apply bpow_le; lia]. cbn. lra.
  - exists (BD 2 0). split; [reflexivity|]. split; [cbn; lia|]. split; [apply Z.leb_le; vm_compute; reflexivity|]. right. cbn [Z.eqb Pos.eqb]. cbv zeta.
    assert (D : dreal (BD 2 0) = 2%R). { unfold dreal. cbn [mant scale]. replace (bpow radix10 (- (0))) with 1%R by reflexivity. lra. }
    rewrite D, Rabs_pos_eq by lra. split.
    + apply Rle_trans with (bpow radix2 0); [apply bpow_le; lia|]. cbn. lra.
    + apply Rle_trans with (bpow radix2 1); [|apply bpow_le; lia]. cbn. lra.
Qed.
