(** Generated functions at arguments of opposite sign. *)
From Coq Require Import List String Bool ZArith Reals Ascii Lia Lra.
From Flocq Require Import Core IEEE754.BinarySingleNaN IEEE754.Binary.
From Verif Require Import Res Dec DecStr Syntax Parse Poly MulAddFacts Visitor FloatBits UseNumberType NumberTypeFacts HornerFloat HornerParity
  Functions FunctionsFacts Item GenCode GenCodeFacts GenSem GenRun GenFloat GenFloat2 ExpFloat SignFacts.
From Coq Require Import Lra.
Import ListNotations.
Open Scope string_scope.
Open Scope list_scope.
Open Scope Z_scope.

(** ** The value of an emitted polynomial *)
(** [e'] is a polynomial in [v] of that parity, retyped. *)
Definition poly_of (F : floats) (kind : string) (bits : Z) (v : string) (p : parity) (e' : expr) : Prop :=
  exists ts e, mul_add_polynomial ts [v] p = Ok e /\ use_number_type F kind bits e = Ok e'.
(** In every environment the value of [e] is [P] of the variable. *)
Definition computes (bits : Z) (v : string) (e : expr) (P : (list (flt bits) -> { x : flt bits | Binary.is_nan (prec bits) (emax bits) x = true }) -> flt bits -> flt bits) : Prop :=
  forall nan_of std checked lib call const env t, lookup bits v env = Some (VFlt t) ->
  eval_g bits nan_of std checked lib call const env e = Ok (VFlt (P nan_of t)).
Section Values.
  Context (F : floats) (kind : string) (bits : Z) (W : working kind bits) (RB : reads_back F).
  Lemma quote_value b (x : flt b) e : b = 32 \/ b = 64 -> quote_float F b (float_suffix b) x = Ok e -> denotes b e x.
  Proof.
    intros B E. destruct (Binary.is_finite _ _ x) eqn:FX.
    - destruct (quote_float_denotes F b x B RB FX) as (r & E' & D). rewrite E in E'. injection E' as <-. exact D.
    - unfold quote_float in E. rewrite FX in E. discriminate.
  Qed.
  Lemma lit_value l e : is_number l = true -> retype_lit F kind bits l = Ok e -> exists x, denotes bits e x.
  Proof.
    intros N E. assert (R : exists d, retype F kind bits d l = Ok e) by (destruct l; try discriminate; eauto). destruct R as [d R]. unfold retype in R.
    destruct (parse_dec (list_ascii_of_string d)) as [n|]; [|discriminate].
    destruct W as [[-> [-> | ->]]|[-> ->]]; cbn [String.eqb Ascii.eqb Bool.eqb andb Z.eqb Pos.eqb] in R.
    - exists (to_f32 F n). apply quote_value; auto.
    - exists (to_f64 F n). apply quote_value; auto.
    - injection R as <-. eexists. apply quote_bits_denotes.
  Qed.
  Lemma num_value c e : use_number_type F kind bits (num_expr c) = Ok e -> exists x, denotes bits e x.
  Proof.
    assert (G : forall t e, retype_lit F kind bits (lex_number t "") = Ok e -> exists x, denotes bits e x).
    { intros t e'. apply lit_value. unfold lex_number. destruct (float_text _ _); reflexivity. }
    unfold use_number_type, num_expr. destruct (dec_repr c) as [|ch r].
    - cbn [visit number_visitor v_expr v_lit]. unfold def_expr. apply G.
    - destruct (Ascii.eqb ch "-").
      + cbn [visit number_visitor v_expr v_unary v_lit]. unfold def_expr, def_unary.
        destruct (retype_lit F kind bits (lex_number (string_of_list_ascii r) "")) as [q| |] eqn:Q; try discriminate. cbn. intros E. injection E as <-.
        destruct (G _ _ Q) as (x & D). exists (fneg bits x). intros no st ck lib call const env. cbn [eval_g]. rewrite D. reflexivity.
      + cbn [visit number_visitor v_expr v_lit]. unfold def_expr. apply G.
  Qed.
  Lemma chain_value arg h l : use_number_type F kind bits arg = Ok arg -> forall e,
    use_number_type F kind bits (chain arg h (rev l)) = Ok e -> exists hf lf,
    forall nan_of std checked lib call const env t, eval_g bits nan_of std checked lib call const env arg = Ok (VFlt t) ->
      eval_g bits nan_of std checked lib call const env e = Ok (VFlt (HornerFloat.horner (fun a c => ffma bits nan_of a t c) hf lf)).
  Proof.
    intros Ua. unfold chain. induction l as [|c l IH]; intros e.
    - cbn [rev fold_left]. unfold use_number_type. cbn [visit number_visitor v_expr v_paren]. unfold def_expr, def_paren. fold (number_visitor F kind bits).
      destruct (visit (number_visitor F kind bits) (num_expr h)) as [q| |] eqn:Q; try discriminate. cbn. intros E. injection E as <-.
      destruct (num_value h q Q) as (x & D). exists x, []. intros. apply D.
    - cbn [rev]. rewrite fold_left_app. cbn [fold_left]. unfold use_number_type in *. cbn [visit number_visitor v_expr v_method map]. unfold def_expr, def_method.
      fold (number_visitor F kind bits). rewrite Ua.
      destruct (visit (number_visitor F kind bits) (fold_left _ (rev l) _)) as [q| |] eqn:Q; try discriminate.
      destruct (visit (number_visitor F kind bits) (num_expr c)) as [qc| |] eqn:Qc; try discriminate. cbn. intros E. injection E as <-.
      destruct (IH q eq_refl) as (hf & lf & D). destruct (num_value c qc Qc) as (x & Dx). exists hf, (x :: lf). intros nan_of std checked lib call const env t Et.
      cbn [eval_g]. rewrite (D _ _ _ _ _ _ _ _ Et). cbn [rbind]. rewrite Et. cbn [rbind]. rewrite Dx. reflexivity.
  Qed.
  Lemma poly_parts ts v p e e' : mul_add_polynomial ts [v] p = Ok e -> use_number_type F kind bits e = Ok e' -> exists h, e = emitted ts [v] p h.
  Proof.
    intros ME U. destruct (List.length ts) as [|k'] eqn:L.
    { exfalso. destruct ts; [|discriminate]. revert ME. unfold mul_add_polynomial. destruct p; discriminate. }
    destruct (last_split ts k' L) as (h & E & Hn). destruct (right_parity p (S k')) eqn:RP.
    2:{ destruct ts as [|c r]; [discriminate L|]. rewrite (proj2 (mul_add_refused (c :: r) [v] p)) in ME; [discriminate|]. split; [discriminate|]. rewrite L. exact RP. }
    rewrite (mul_add_ok ts [v] p k' h L Hn RP) in ME. injection ME as <-. eauto.
  Qed.
  Theorem even_value v e' : poly_of F kind bits v PEven e' ->
    exists h l, computes bits v e' (fun nan_of t => HornerFloat.horner (fun a c => ffma bits nan_of a (fmul bits nan_of t t) c) h l).
  Proof.
    intros (ts & e & ME & U). destruct (poly_parts _ _ _ _ _ ME U) as (h & ->). unfold emitted in U.
    destruct (chain_value (var_square [v]) h _ eq_refl e' U) as (hf & lf & D). exists hf, lf. intros nan_of std checked lib call const env t Lk. apply D.
    unfold var_square. cbn [eval_g]. rewrite Lk. reflexivity.
  Qed.
  Theorem any_value v e' : poly_of F kind bits v PNeither e' ->
    exists h l, computes bits v e' (fun nan_of t => HornerFloat.horner (fun a c => ffma bits nan_of a t c) h l).
  Proof.
    intros (ts & e & ME & U). destruct (poly_parts _ _ _ _ _ ME U) as (h & ->). unfold emitted in U.
    destruct (chain_value (EPath [v]) h _ eq_refl e' U) as (hf & lf & D). exists hf, lf. intros nan_of std checked lib call const env t Lk. apply D.
    cbn [eval_g]. rewrite Lk. reflexivity.
  Qed.
  Theorem odd_value v e' : poly_of F kind bits v POdd e' ->
    exists h l, computes bits v e' (fun nan_of t => fmul bits nan_of (HornerFloat.horner (fun a c => ffma bits nan_of a (fmul bits nan_of t t) c) h l) t).
  Proof.
    intros (ts & e & ME & U). destruct (poly_parts _ _ _ _ _ ME U) as (h & ->). unfold emitted in U.
    unfold use_number_type in U. cbn [visit number_visitor v_expr v_binary] in U. unfold def_expr, def_binary in U. fold (number_visitor F kind bits) in U.
    match type of U with context [chain ?a ?b (rev ?c)] => set (l := c) in *; pose proof (chain_value a b l eq_refl) as G end. unfold use_number_type in G.
    destruct (visit (number_visitor F kind bits) (chain (var_square [v]) h (rev l))) as [q| |]; try discriminate. cbn in U. injection U as <-.
    destruct (G q eq_refl) as (hf & lf & D). exists hf, lf. intros nan_of std checked lib call const env t Lk. cbn [eval_g].
    rewrite (D nan_of std checked lib call const env (fmul bits nan_of t t)) by (unfold var_square; cbn [eval_g]; rewrite Lk; reflexivity). cbn [rbind]. rewrite Lk. reflexivity.
  Qed.
End Values.
Section Parity.
  Variable bits : Z.
  Variable nan_of : list (flt bits) -> { x : flt bits | Binary.is_nan (prec bits) (emax bits) x = true }.
  Definition squares h l (t : flt bits) : flt bits := HornerFloat.horner (fun a c => ffma bits nan_of a (fmul bits nan_of t t) c) h l.
  Lemma squares_same h l t t' : opposite t t' \/ same t t' -> same (squares h l t) (squares h l t').
  Proof. intros S. apply horner_same. destruct S as [O|S]; [apply square_same, O|apply fmul_same; exact S]. Qed.
  Lemma odd_opposite h l t t' : opposite t t' -> opposite (fmul bits nan_of (squares h l t) t) (fmul bits nan_of (squares h l t') t').
  Proof.
    intros O. apply same_opposite with (1 := fmul_comm _ _ _ _). apply opposite_same with (2 := fmul_comm _ _ _ _).
    apply fmul_opposite; [exact O|]. apply squares_same. auto.
  Qed.
End Parity.

(** ** The functions *)
#[local] Arguments bin_op bits nan_of checked !op !a !b /.
#[local] Arguments declare bits !t !a /.
#[local] Arguments cast bits !t !a /.
#[local] Arguments method bits nan_of std m !recv args /.
Section Run.
  Variables (bits : Z) (sub : string -> expr) (lib : list item).
  Hypothesis HB : (bits = 32 \/ bits = 64)%Z.
  Notation H := (has bits sub lib).
  Variable nan_of : list (flt bits) -> { x : flt bits | Binary.is_nan (prec bits) (emax bits) x = true }.
  Variable std : string -> list (flt bits) -> option (flt bits).
  Variable checked : bool.
  Notation R := (run bits nan_of std checked lib).
  Notation C := (const_of bits nan_of std checked lib).
  Notation E := (eval_g bits nan_of std checked lib).
  Ltac go := cbn [eval_g lookup String.eqb Ascii.eqb Bool.eqb rbind method flts_of flt_of bin_op un_op flt_op is_rel
    hd_error code bind_params].
  Ltac go_in h := cbn [eval_g lookup String.eqb Ascii.eqb Bool.eqb rbind method flts_of flt_of bin_op un_op flt_op is_rel
    hd_error code bind_params] in h.
  Lemma const_plain n x : C n <> Ok (VLitF x).
  Proof.
    unfold const_of, const_depth. cbn [const_at]. destruct (find_item lib n) as [[]|]; try discriminate.
    destruct (eval_g _ _ _ _ _ _ _ _ _) as [[]| |]; discriminate.
  Qed.
  Definition reduced (x : flt bits) : flt bits := fsub bits nan_of x (round_of bits nan_of x).
  Definition quarter : flt bits := of_decimal bits (BD 25 2).

  Lemma sin_like f m (P : flt bits -> flt bits) d x c : (f = "sin" /\ m = "RECIP_2PI" \/ f = "cos" /\ m = "RECIP_2PI") -> H "fty" -> H "ity" -> H "round" -> H f ->
    C m = Ok (VFlt c) -> (forall call env t, lookup bits "x" env = Some (VFlt t) -> E call C env (sub f) = Ok (VFlt (P t))) ->
    R (S (S d)) f [VFlt x] = Ok (VFlt (P (reduced (fmul bits nan_of x c)))).
  Proof.
    intros [[-> ->]|[-> ->]] hf hi hr hs hc hp; rewrite run_S, hs; go; unfold code_sin, code_cos; go; rewrite (res_fty bits sub lib HB hf), decl_flt; go; rewrite hc; go; rewrite decl_flt; go;
      rewrite (run_round bits sub lib HB nan_of std checked d _ hf hi hr); go; rewrite decl_flt; go; erewrite hp by reflexivity; go; rewrite decl_flt; reflexivity.
  Qed.
  Lemma sin_const f d x v : (f = "sin" \/ f = "cos") -> H "fty" -> H f -> R (S d) f [VFlt x] = Ok v -> exists c, C "RECIP_2PI" = Ok (VFlt c).
  Proof.
    intros [-> | ->] hf hs; rewrite run_S, hs; go; unfold code_sin, code_cos; go; rewrite (res_fty bits sub lib HB hf), decl_flt; go;
      pose proof (const_plain "RECIP_2PI") as N; destruct (C "RECIP_2PI") as [[]| |]; intros Z; try discriminate Z; try (exfalso; eapply N; reflexivity); eauto.
  Qed.
  Definition one : flt bits := of_decimal bits (BD 10 1).
  Lemma run_tan (P : flt bits -> flt bits) d x c : H "fty" -> H "ity" -> H "round" -> H "tan" -> C "RECIP_PI" = Ok (VFlt c) ->
    (forall call env t, lookup bits "x" env = Some (VFlt t) -> E call C env (sub "tan") = Ok (VFlt (P t))) ->
    R (S (S d)) "tan" [VFlt x] = let t := reduced (fmul bits nan_of x c) in
      Ok (VFlt (fmul bits nan_of (P t) (fdiv bits nan_of one (fsub bits nan_of (fmul bits nan_of t t) quarter)))).
  Proof.
    intros hf hi hr hs hc hp; rewrite run_S, hs; go; unfold code_tan; go; rewrite (res_fty bits sub lib HB hf), decl_flt; go; rewrite hc; go; rewrite decl_flt; go;
      rewrite (run_round bits sub lib HB nan_of std checked d _ hf hi hr); go; rewrite decl_flt; go.
    change (literal bits (LFloat "1.0" "")) with (@Ok (val bits) (VLitF one)). change (literal bits (LFloat "0.25" "")) with (@Ok (val bits) (VLitF quarter)). go. rewrite decl_flt. go.
    erewrite hp by reflexivity. go. rewrite decl_flt. go. rewrite decl_flt. reflexivity.
  Qed.
  Lemma tan_const d x v : H "fty" -> H "tan" -> R (S d) "tan" [VFlt x] = Ok v -> exists c, C "RECIP_PI" = Ok (VFlt c).
  Proof.
    intros hf hs; rewrite run_S, hs; go; unfold code_tan; go; rewrite (res_fty bits sub lib HB hf), decl_flt; go;
      pose proof (const_plain "RECIP_PI") as N; destruct (C "RECIP_PI") as [[]| |]; intros Z; try discriminate Z; try (exfalso; eapply N; reflexivity); eauto.
  Qed.
  Lemma reduced_opposite x c : opposite (reduced (fmul bits nan_of x c)) (reduced (fmul bits nan_of (fneg bits x) c)).
  Proof. apply reduce_opposite; [exact HB|]. left. apply fmul_neg. Qed.

  Context (F : floats) (kind : string) (W : working kind bits) (RB : reads_back F).
  Theorem sin_odd d x y : H "fty" -> H "ity" -> H "round" -> H "sin" -> poly_of F kind bits "x" POdd (sub "sin") ->
    R (S (S d)) "sin" [VFlt x] = Ok (VFlt y) -> exists y', R (S (S d)) "sin" [VFlt (fneg bits x)] = Ok (VFlt y') /\ opposite y y'.
  Proof.
    intros hf hi hr hs hp r. destruct (sin_const "sin" _ _ _ (or_introl eq_refl) hf hs r) as (c & hc). destruct (odd_value F kind bits W RB _ _ hp) as (h & l & D).
    assert (G : forall u, R (S (S d)) "sin" [VFlt u] = Ok (VFlt _)) by (intros u; apply (sin_like "sin" "RECIP_2PI" (fun t => fmul bits nan_of (squares bits nan_of h l t) t) d u c); auto; intros; apply D; assumption).
    rewrite G in r. injection r as <-. rewrite G. eexists. split; [reflexivity|]. apply odd_opposite, reduced_opposite.
  Qed.
  Theorem cos_even d x y : H "fty" -> H "ity" -> H "round" -> H "cos" -> poly_of F kind bits "x" PEven (sub "cos") ->
    R (S (S d)) "cos" [VFlt x] = Ok (VFlt y) -> exists y', R (S (S d)) "cos" [VFlt (fneg bits x)] = Ok (VFlt y') /\ same y y'.
  Proof.
    intros hf hi hr hs hp r. destruct (sin_const "cos" _ _ _ (or_intror eq_refl) hf hs r) as (c & hc). destruct (even_value F kind bits W RB _ _ hp) as (h & l & D).
    assert (G : forall u, R (S (S d)) "cos" [VFlt u] = Ok (VFlt _)) by (intros u; apply (sin_like "cos" "RECIP_2PI" (squares bits nan_of h l) d u c); auto; intros; apply D; assumption).
    rewrite G in r. injection r as <-. rewrite G. eexists. split; [reflexivity|]. apply squares_same. left. apply reduced_opposite.
  Qed.
  Theorem tan_odd d x y : H "fty" -> H "ity" -> H "round" -> H "tan" -> poly_of F kind bits "x" POdd (sub "tan") ->
    R (S (S d)) "tan" [VFlt x] = Ok (VFlt y) -> exists y', R (S (S d)) "tan" [VFlt (fneg bits x)] = Ok (VFlt y') /\ opposite y y'.
  Proof.
    intros hf hi hr hs hp r. destruct (tan_const _ _ _ hf hs r) as (c & hc). destruct (odd_value F kind bits W RB _ _ hp) as (h & l & D).
    assert (G : forall u, R (S (S d)) "tan" [VFlt u] = _) by (intros u; apply (run_tan (fun t => fmul bits nan_of (squares bits nan_of h l t) t) d u c); auto; intros; apply D; assumption).
    rewrite G in r. cbv zeta in r. injection r as <-. rewrite G. eexists. split; [reflexivity|]. pose proof (reduced_opposite x c) as O.
    apply fmul_opposite; [apply odd_opposite, O|]. apply fdiv_same; [left; reflexivity|]. apply fsub_same; [|left; reflexivity]. apply square_same, O.
  Qed.

  (** *** exp2, cosh, sinh, dnorm *)
  Lemma compare_same (x x' y : flt bits) : same x x' -> fcmp bits x y = fcmp bits x' y.
  Proof. intros [<-|[A B]]; [reflexivity|]. destruct x, x'; try discriminate. reflexivity. Qed.
  Lemma round_same (x x' : flt bits) : same x x' -> round_of bits nan_of x = round_of bits nan_of x'.
  Proof.
    intros [<-|[A B]]; [reflexivity|].
    assert (G : forall u : flt bits, isnan u = true -> round_of bits nan_of u = of_int bits 0).
    { intros u N. unfold round_of. f_equal. pose proof (fadd_nan bits nan_of u (fcopysign bits (half bits) u) (or_introl N)) as N'. destruct (fadd _ _ _ _); try discriminate.
      unfold to_int. change (Binary.Btrunc _ _ (Binary.B754_nan _ _ _ _ _)) with 0. destruct (sty_range bits HB) as [R1 R2]. rewrite R1, R2.
      assert (P : 0 < 2 ^ (bits - 1)) by (apply Z.pow_pos_nonneg; [reflexivity|destruct HB; lia]). lia. }
    rewrite (G x A), (G x' B). reflexivity.
  Qed.
  Theorem exp2_same d x x' y : (forall n, In n exp2_needs -> H n) -> poly_of F kind bits "x" PNeither (sub "exp2") -> same x x' ->
    R (S (S d)) "exp2" [VFlt x] = Ok (VFlt y) -> exists y', R (S (S d)) "exp2" [VFlt x'] = Ok (VFlt y') /\ same y y'.
  Proof.
    intros hh hp S r. destruct (any_value F kind bits W RB _ _ hp) as (h & l & D).
    pose proof (fun u => run_exp2 bits sub lib HB nan_of std checked d u _ hh (D nan_of std checked lib (R (Datatypes.S d)) C (exp2_env bits nan_of u) _ eq_refl)) as G.
    rewrite G in r. injection r as <-. rewrite G. eexists. split; [reflexivity|]. rewrite <- (round_same x x' S). unfold fgt. rewrite <- (compare_same x x' _ S).
    destruct (flt_lt _ _ _); [left; reflexivity|]. destruct (fcmp bits x _) as [[]|]; try (left; reflexivity); (apply fmul_same; [|left; reflexivity]; apply horner_same, fsub_same; [exact S|left; reflexivity]).
  Qed.
  Theorem exp2_some d x : (forall n, In n exp2_needs -> H n) -> poly_of F kind bits "x" PNeither (sub "exp2") -> exists y, R (S (S d)) "exp2" [VFlt x] = Ok (VFlt y).
  Proof.
    intros hh hp. destruct (any_value F kind bits W RB _ _ hp) as (h & l & D). eexists. exact (run_exp2 bits sub lib HB nan_of std checked d x _ hh (D nan_of std checked lib (R (S d)) C (exp2_env bits nan_of x) _ eq_refl)).
  Qed.
  Lemma log2e_const f d x v : f = "cosh" \/ f = "sinh" -> H "fty" -> H f -> R (S d) f [VFlt x] = Ok v -> exists c, C "LOG2_E" = Ok (VFlt c).
  Proof.
    intros [-> | ->] hf hs; rewrite run_S, hs; go; unfold code_sinh, code_cosh; go; rewrite (res_fty bits sub lib HB hf), decl_flt; go;
      pose proof (const_plain "LOG2_E") as N; destruct (C "LOG2_E") as [[]| |]; intros Z; try discriminate Z; try (exfalso; eapply N; reflexivity); eauto.
  Qed.
  Lemma sinh_args c x : same (sinh_a bits nan_of c (fneg bits x)) (sinh_b bits nan_of c x) /\ same (sinh_b bits nan_of c (fneg bits x)) (sinh_a bits nan_of c x).
  Proof.
    unfold sinh_a, sinh_b. split; [apply fma_move|]. eapply same_trans; [apply fma_move|]. rewrite fneg_fneg. left. reflexivity.
  Qed.
  Theorem cosh_even d x y : (forall n, In n exp2_needs -> H n) -> H "cosh" -> poly_of F kind bits "x" PNeither (sub "exp2") ->
    R (S (S (S d))) "cosh" [VFlt x] = Ok (VFlt y) -> exists y', R (S (S (S d))) "cosh" [VFlt (fneg bits x)] = Ok (VFlt y') /\ same y y'.
  Proof.
    intros hh hc hp r. assert (hf : H "fty") by (apply hh; cbn; tauto). destruct (log2e_const "cosh" _ _ _ (or_introl eq_refl) hf hc r) as (c & Hc).
    destruct (sinh_args c x) as [S1 S2]. destruct (exp2_some d (sinh_a bits nan_of c x) hh hp) as (p & Rp). destruct (exp2_some d (sinh_b bits nan_of c x) hh hp) as (q & Rq).
    destruct (exp2_same d _ _ _ hh hp (same_sym _ _ _ S1) Rq) as (p' & Rp' & Sp). destruct (exp2_same d _ _ _ hh hp (same_sym _ _ _ S2) Rp) as (q' & Rq' & Sq).
    rewrite (run_cosh bits sub lib HB nan_of std checked _ x c p q hf hc Hc Rp Rq) in r. injection r as <-.
    rewrite (run_cosh bits sub lib HB nan_of std checked _ _ c p' q' hf hc Hc Rp' Rq'). eexists. split; [reflexivity|].
    eapply same_trans; [apply fadd_comm|]. apply fadd_same; assumption.
  Qed.
  Theorem sinh_odd d x y : (forall n, In n exp2_needs -> H n) -> H "sinh" -> poly_of F kind bits "x" PNeither (sub "exp2") ->
    R (S (S (S d))) "sinh" [VFlt x] = Ok (VFlt y) -> exists y', R (S (S (S d))) "sinh" [VFlt (fneg bits x)] = Ok (VFlt y') /\ opposite y y'.
  Proof.
    intros hh hc hp r. assert (hf : H "fty") by (apply hh; cbn; tauto). destruct (log2e_const "sinh" _ _ _ (or_intror eq_refl) hf hc r) as (c & Hc).
    destruct (sinh_args c x) as [S1 S2]. destruct (exp2_some d (sinh_a bits nan_of c x) hh hp) as (p & Rp). destruct (exp2_some d (sinh_b bits nan_of c x) hh hp) as (q & Rq).
    destruct (exp2_same d _ _ _ hh hp (same_sym _ _ _ S1) Rq) as (p' & Rp' & Sp). destruct (exp2_same d _ _ _ hh hp (same_sym _ _ _ S2) Rp) as (q' & Rq' & Sq).
    rewrite (run_sinh bits sub lib HB nan_of std checked _ x c p q hf hc Hc Rp Rq) in r. injection r as <-.
    rewrite (run_sinh bits sub lib HB nan_of std checked _ _ c p' q' hf hc Hc Rp' Rq'). eexists. split; [reflexivity|].
    eapply opposite_same; [apply fsub_swap|]. apply fsub_same; assumption.
  Qed.

  (** *** cbrt and recip *)
  Definition third : flt bits := of_decimal bits (if bits =? 32 then BD 33333333 8 else BD 333333333333333333 18).
  Definition two_thirds : flt bits := of_decimal bits (if bits =? 32 then BD 66666667 8 else BD 666666666666666667 18).
  Ltac c_go h := unfold const_of, const_depth; unfold has in h; unfold third, two_thirds; revert h; generalize nan_of std; clear - HB; intros; destruct HB as [-> | ->];
    (erewrite const_S; [|rewrite h; reflexivity]; reflexivity).
  Definition cbrt_start (a : flt bits) : flt bits :=
    of_bits bits (to_int bits (uty bits) (ffma bits nan_of (of_int bits (to_bits a)) third (fmul bits nan_of (exp2_one bits) two_thirds))).
  Definition cbrt_step (a r : flt bits) : flt bits :=
    fadd bits nan_of r (fdiv bits nan_of (fsub bits nan_of a (fmul bits nan_of (fmul bits nan_of r r) r)) (fmul bits nan_of (fmul bits nan_of (of_decimal bits (BD 30 1)) r) r)).
  Lemma run_cbrt d x : H "fty" -> H "uty" -> H "EXP2_ONE" -> C "ONE_THIRD" = Ok (VFlt third) -> C "TWO_THIRDS" = Ok (VFlt two_thirds) -> H "cbrt" ->
    R (S d) "cbrt" [VFlt x] = let a := fabs bits x in let step := cbrt_step a in Ok (VFlt (fcopysign bits (step (step (step (step (cbrt_start a))))) x)).
  Proof.
    intros hf hu h1 h3 h2 hs. rewrite run_S, hs. go. unfold code_cbrt. go. rewrite (res_fty bits sub lib HB hf), decl_flt. go. rewrite cast_of_int. go.
    rewrite h3. go. rewrite (c_one bits sub lib HB nan_of std checked h1). go. rewrite h2. go. rewrite (res_uty bits sub lib HB hu). cbn [cast]. go. rewrite Z.eqb_refl, uty_eq, ity_eqb_refl. cbn [andb rbind].
    match goal with |- context [declare bits _ (VFlt ?r)] => remember r as r0 eqn:E0 end. assert (A0 : r0 = cbrt_start (fabs bits x)) by (unfold cbrt_start; exact E0). clear E0.
    rewrite decl_flt. go. change (literal bits (LFloat "3.0" "")) with (@Ok (val bits) (VLitF (of_decimal bits (BD 30 1)))). go.
    match goal with |- context [declare bits _ (VFlt ?r)] => remember r as r1 eqn:E0 end. assert (A1 : r1 = cbrt_step (fabs bits x) r0) by (unfold cbrt_step; exact E0). clear E0. rewrite decl_flt. go.
    match goal with |- context [declare bits _ (VFlt ?r)] => remember r as r2 eqn:E0 end. assert (A2 : r2 = cbrt_step (fabs bits x) r1) by (unfold cbrt_step; exact E0). clear E0. rewrite decl_flt. go.
    match goal with |- context [declare bits _ (VFlt ?r)] => remember r as r3 eqn:E0 end. assert (A3 : r3 = cbrt_step (fabs bits x) r2) by (unfold cbrt_step; exact E0). clear E0. rewrite decl_flt. go.
    match goal with |- context [declare bits _ (VFlt ?r)] => remember r as r4 eqn:E0 end. assert (A4 : r4 = cbrt_step (fabs bits x) r3) by (unfold cbrt_step; exact E0). clear E0. rewrite decl_flt. go.
    rewrite decl_flt, A4, A3, A2, A1, A0. reflexivity.
  Qed.
  Lemma c_third : H "ONE_THIRD" -> C "ONE_THIRD" = Ok (VFlt third).
  Proof. intros h. c_go h. Qed.
  Lemma c_two_thirds : H "TWO_THIRDS" -> C "TWO_THIRDS" = Ok (VFlt two_thirds).
  Proof. intros h. c_go h. Qed.
  Lemma fabs_fneg (x : flt bits) : fabs bits (fneg bits x) = fabs bits x.
  Proof. destruct x; reflexivity. Qed.
  Lemma copysign_fneg (y x : flt bits) : fcopysign bits y (fneg bits x) = fneg bits (fcopysign bits y x).
  Proof. unfold fcopysign, fsign. rewrite fneg_sign. destruct y; reflexivity. Qed.
  Definition cbrt_needs : list string := ["fty"; "uty"; "EXP2_ONE"; "ONE_THIRD"; "TWO_THIRDS"; "cbrt"].
  Theorem cbrt_odd d x : (forall n, In n cbrt_needs -> H n) -> exists y, R (S d) "cbrt" [VFlt x] = Ok (VFlt y) /\ R (S d) "cbrt" [VFlt (fneg bits x)] = Ok (VFlt (fneg bits y)).
  Proof.
    intros hh. assert (h : forall u, R (S d) "cbrt" [VFlt u] = _) by (intros u; apply run_cbrt; try (apply c_third); try (apply c_two_thirds); apply hh; cbn; tauto).
    rewrite !h. cbv zeta. rewrite fabs_fneg, copysign_fneg. eauto.
  Qed.
  Definition recip_start (a : flt bits) : flt bits :=
    fsub bits nan_of (of_bits bits (to_int bits (uty bits) (ffma bits nan_of (of_int bits (to_bits a)) (fneg bits one) (fmul bits nan_of (exp2_one bits) (two_of bits))))) (of_decimal bits (BD 8 2)).
  Lemma run_recip_approx d x : H "fty" -> H "uty" -> H "EXP2_ONE" -> H "recip_approx" -> R (S d) "recip_approx" [VFlt x] = Ok (VFlt (fcopysign bits (recip_start (fabs bits x)) x)).
  Proof.
    intros hf hu h1 hs. rewrite run_S, hs. go. unfold code_recip_approx. go. rewrite (res_fty bits sub lib HB hf), decl_flt. go. rewrite cast_of_int. go.
    change (literal bits (LFloat "1.0" "")) with (@Ok (val bits) (VLitF one)). change (literal bits (LFloat "2.0" "")) with (@Ok (val bits) (VLitF (two_of bits))).
    change (literal bits (LFloat "0.08" "")) with (@Ok (val bits) (VLitF (of_decimal bits (BD 8 2)))). go.
    rewrite (c_one bits sub lib HB nan_of std checked h1). go. rewrite (res_uty bits sub lib HB hu). cbn [cast]. go. rewrite Z.eqb_refl, uty_eq, ity_eqb_refl. cbn [andb rbind].
    rewrite decl_flt. go. rewrite decl_flt. unfold recip_start. reflexivity.
  Qed.
  Definition recip_step (x r : flt bits) : flt bits := fmul bits nan_of r (fsub bits nan_of (two_of bits) (fmul bits nan_of x r)).
  Lemma run_recip d x r : H "fty" -> H "recip" -> R d "recip_approx" [VFlt x] = Ok (VFlt r) -> R (S d) "recip" [VFlt x] = Ok (VFlt (recip_step x (recip_step x (recip_step x r)))).
  Proof.
    intros hf hs hr. rewrite run_S, hs. go. unfold code_recip. go. rewrite (res_fty bits sub lib HB hf), decl_flt. go. rewrite hr. go. rewrite decl_flt. go.
    change (literal bits (LFloat "2.0" "")) with (@Ok (val bits) (VLitF (two_of bits))). go. rewrite decl_flt. go. rewrite decl_flt. go. rewrite decl_flt. go. rewrite decl_flt. reflexivity.
  Qed.
  Lemma recip_step_negative x x' r r' : negative x x' -> negative r r' -> negative (recip_step x r) (recip_step x' r').
  Proof. intros N M. apply fmul_negative; [exact M|]. apply fsub_same; [left; reflexivity|]. apply fmul_both; assumption. Qed.
  Definition recip_needs : list string := ["fty"; "uty"; "EXP2_ONE"; "recip_approx"; "recip"].
  Theorem recip_odd d x : (forall n, In n recip_needs -> H n) -> exists y y', R (S (S d)) "recip" [VFlt x] = Ok (VFlt y) /\ R (S (S d)) "recip" [VFlt (fneg bits x)] = Ok (VFlt y') /\ negative y y'.
  Proof.
    intros hh. assert (h : forall u, R (S (S d)) "recip" [VFlt u] = Ok (VFlt _)) by (intros u; apply (run_recip (S d) u); [apply hh; cbn; tauto..|]; apply run_recip_approx; apply hh; cbn; tauto).
    rewrite !h, fabs_fneg, copysign_fneg. do 2 eexists. split; [reflexivity|]. split; [reflexivity|]. do 3 (apply recip_step_negative; [left; reflexivity|]). left. reflexivity.
  Qed.

  (** *** atan2, atan, asin *)
  Definition fge (x y : flt bits) : bool := match fcmp bits x y with Some (Gt | Eq) => true | _ => false end.
  Lemma relate_ge x y : relate BGe (fcmp bits x y) = Ok (fge x y).
  Proof. unfold fge. destruct (fcmp bits x y) as [[]|]; reflexivity. Qed.
  Notation nought := (of_decimal bits (BD 0 1)).
  Lemma nought_zero : nought = Binary.B754_zero _ _ false.
  Proof. reflexivity. Qed.
  Lemma ge_zero (y : flt bits) : isnan y = false -> (forall s, y <> Binary.B754_zero _ _ s) -> fge y nought = negb (sign y).
  Proof. intros N Z. rewrite nought_zero. destruct y as [s|s|s pl h|s m e h]; try discriminate; [exfalso; exact (Z s eq_refl)| |]; destruct s; reflexivity. Qed.
  Lemma lt_zero (y : flt bits) : isnan y = false -> (forall s, y <> Binary.B754_zero _ _ s) -> flt_lt bits y nought = sign y.
  Proof. intros N Z. rewrite nought_zero. destruct y as [s|s|s pl h|s m e h]; try discriminate; [exfalso; exact (Z s eq_refl)| |]; destruct s; reflexivity. Qed.
  (** the angle before its sign is set *)
  Definition angle (P : flt bits -> flt bits) (t p8 p2 pi y1 x : flt bits) : flt bits :=
    let x1 := fabs bits x in let g := fgt bits x1 y1 in let x2 := if g then x1 else y1 in let y2 := if g then y1 else x1 in
    let z := fdiv bits nan_of (fadd bits nan_of (fmul bits nan_of (fneg bits t) x2) y2) (fadd bits nan_of (fmul bits nan_of t y2) x2) in
    let a := fadd bits nan_of (P z) p8 in let q1 := if g then a else fsub bits nan_of p2 a in
    if fge x nought then q1 else fsub bits nan_of pi q1.
  Lemma run_atan2 (P : flt bits -> flt bits) d y x t p8 p2 pi : H "fty" -> H "atan2" -> C "TAN_PI_BY_8" = Ok (VFlt t) -> C "PI_BY_8" = Ok (VFlt p8) -> C "PI_BY_2" = Ok (VFlt p2) -> C "PI" = Ok (VFlt pi) ->
    (forall call env t, lookup bits "z" env = Some (VFlt t) -> E call C env (sub "atan2") = Ok (VFlt (P t))) ->
    R (S d) "atan2" [VFlt y; VFlt x] = let q := angle P t p8 p2 pi (fabs bits y) x in Ok (VFlt (if fge y nought then q else fneg bits q)).
  Proof.
    intros hf hs ht h8 h2 hpi hp. cbv zeta. unfold angle. rewrite run_S, hs. go. unfold code_atan2. go. rewrite (res_fty bits sub lib HB hf), !decl_flt. go. rewrite ?decl_flt. go.
    rewrite relate_gt. go. destruct (fgt bits (fabs bits x) (fabs bits y)) eqn:G; go; rewrite ?relate_gt; go; rewrite ?G; go; rewrite ht; go; rewrite ?decl_flt; go; rewrite ?ht; go; rewrite ?decl_flt; go;
      erewrite hp by reflexivity; go; rewrite ?h8; go; rewrite ?decl_flt; go; rewrite ?relate_gt; go; rewrite ?G; go; rewrite ?h2; go; rewrite ?decl_flt; go;
      change (literal bits (LFloat "0.0" "")) with (@Ok (val bits) (VLitF nought)); go; rewrite relate_ge; go; destruct (fge x nought) eqn:G2; go; rewrite ?hpi; go; rewrite ?decl_flt; go;
      rewrite ?relate_ge; go; destruct (fge y nought); go; rewrite decl_flt; reflexivity.
  Qed.
End Run.
