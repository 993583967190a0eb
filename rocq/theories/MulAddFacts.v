(** The expression emitted by [mul_add_polynomial] and its value. *)
From Coq Require Import ZArith QArith String Ascii List Bool Arith Lia Ring_theory Ring.
From Verif Require Import Res Dec DecFacts DecStr DecStrFacts Syntax Trans TransFacts Parse ParseFacts TransParse
  ExpandSpec Poly PolyFacts SymbolicProofs.
Import ListNotations.
Open Scope list_scope.
Open Scope nat_scope.

(** ** Specification *)
Section Spec.
  Context {V : Type} (I : interp V) (zero one : V) (num : bd -> V).

  (** + and * are those of a commutative ring, [mul_add] is a * b + c, and a
      literal has the value [num] of its number. *)
  Definition number_interp : Prop :=
    ring_theory zero one (i_bin I BAdd) (i_bin I BMul) (i_bin I BSub) (i_un I UNeg) (@eq V) /\
    (forall t r a b, i_meth I "mul_add"%string t r [a; b] = i_bin I BAdd (i_bin I BMul r a) b) /\
    (forall d s x, parse_dec (list_ascii_of_string d) = Some x ->
       i_lit I (LFloat d s) = num x /\ i_lit I (LInt d s) = num x) /\
    (forall x y, (dval x == dval y)%Q -> num x = num y) /\
    (forall x, num (dneg x) = i_un I UNeg (num x)).

  Fixpoint vpow (x : V) (n : nat) : V := match n with O => one | S n' => i_bin I BMul x (vpow x n') end.
  (** sum of c_i x^(s+i) over the indices s+i that are wanted *)
  Fixpoint vsum (want : nat -> bool) (cs : list bd) (x : V) (s : nat) : V :=
    match cs with
    | [] => zero
    | c :: r =>
        let rest := vsum want r x (S s) in
        if want s then i_bin I BAdd (i_bin I BMul (num c) (vpow x s)) rest else rest
    end.
  Definition wanted (p : parity) (i : nat) : bool :=
    match p with POdd => Nat.odd i | PEven => Nat.even i | PNeither => true end.
End Spec.

(** ** Numbers as tokens *)
Definition num_expr (x : bd) : expr :=
  let d := dec_repr x in
  match d with
  | c :: r => if Ascii.eqb c "-" then EUnary UNeg (ELit (lex_number (string_of_list_ascii r) ""))
              else ELit (lex_number (string_of_list_ascii d) "")
  | [] => ELit (lex_number "" "")
  end.
Lemma expr_of_bd_eq x : expr_of_bd x = Ok (ELit (LFloat (string_of_list_ascii (dec_repr x)) "")).
Proof. unfold expr_of_bd. rewrite parse_lit_float_repr. reflexivity. Qed.

Lemma lex_canon c r : is_digit c = true ->
  canon_lit (lex_number (String c r) "") = true /\ num_toks (String c r) "" = [TLit (lex_number (String c r) "")] /\
  lit_toks (lex_number (String c r) "") = [TLit (lex_number (String c r) "")].
Proof.
  intros D. assert (M : Ascii.eqb c "-" = false).
  { destruct (Ascii.eqb_spec c "-") as [->|]; [discriminate D|reflexivity]. }
  unfold lex_number. destruct (float_text (String c r) "") eqn:F.
  - cbn [canon_lit lit_toks num_toks]. rewrite M. cbn [negb andb]. unfold lex_number. rewrite F. auto.
  - cbn [canon_lit lit_toks num_toks]. rewrite M. cbn [negb andb]. unfold lex_number. rewrite F. auto.
Qed.

Lemma plain_head neg before after : before <> [] -> all_digits before -> exists c r,
  plain_text neg before after = (if neg then ["-"%char] else []) ++ c :: r /\ is_digit c = true.
Proof.
  intros N D. destruct before as [|c b]; [congruence|]. inversion D; subst.
  exists c. unfold plain_text. eexists. split; [reflexivity|]. assumption.
Qed.

Lemma num_expr_ok x :
  toks (ELit (LFloat (string_of_list_ascii (dec_repr x)) "")) = toks (num_expr x) /\
  wp rust_prec (num_expr x) = true /\ 100 <= lvl rust_prec (num_expr x).
Proof.
  destruct (dec_repr_plain x) as (b & a & E & Hn & Hb & Ha & V).
  destruct (plain_head (mant x <? 0)%Z b a Hn Hb) as (c & r & E2 & D). rewrite E2 in E. clear E2.
  unfold num_expr. rewrite E. destruct (mant x <? 0)%Z.
  - cbn [app]. change (Ascii.eqb "-" "-") with true. cbv iota. cbn [string_of_list_ascii toks lit_toks num_toks].
    change (Ascii.eqb "-" "-") with true. cbv iota.
    destruct (lex_canon c (string_of_list_ascii r) D) as (C & T & L). rewrite L. cbn [unop_tok].
    split; [reflexivity|]. cbn [wp lvl]. rewrite C. split; [reflexivity|]. lia.
  - cbn [app]. assert (M : Ascii.eqb c "-" = false).
    { destruct (Ascii.eqb_spec c "-") as [->|]; [discriminate D|reflexivity]. }
    rewrite M. cbn [string_of_list_ascii toks lit_toks].
    destruct (lex_canon c (string_of_list_ascii r) D) as (C & T & L). rewrite L, T.
    split; [reflexivity|]. cbn [wp lvl]. rewrite C. split; [reflexivity|]. lia.
Qed.

Lemma num_expr_val {V} (I : interp V) zero one num x : number_interp I zero one num ->
  den I (num_expr x) = num x.
Proof.
  intros (_ & _ & HL & HE & HN).
  assert (L : forall t y, parse_dec t = Some y -> i_lit I (lex_number (string_of_list_ascii t) "") = num y).
  { intros t y P. unfold lex_number. destruct (float_text _ _); apply HL; rewrite list_ascii_of_string_of_list_ascii; exact P. }
  destruct (dec_repr_plain x) as (b & a & E & Hn & Hb & Ha & W).
  destruct (plain_head (mant x <? 0)%Z b a Hn Hb) as (c & r & E2 & D).
  unfold num_expr. destruct (Z.ltb_spec (mant x) 0) as [S|S].
  - rewrite E, E2. cbn [app]. change (Ascii.eqb "-" "-") with true. cbv iota.
    assert (Er : c :: r = plain_text false b a).
    { unfold plain_text in *. cbn [app] in *. inversion E2. reflexivity. }
    rewrite Er. cbn [den]. rewrite (L _ _ (parse_plain false b a Hn Hb Ha)). rewrite <- HN. apply HE.
    rewrite dval_dneg, Z.mul_1_l, W. unfold dabs, dval; cbn [mant scale]. rewrite Z.abs_neq, inject_Z_opp by lia. ring.
  - rewrite E, E2. cbn [app]. assert (M : Ascii.eqb c "-" = false).
    { destruct (Ascii.eqb_spec c "-") as [->|]; [discriminate D|reflexivity]. }
    rewrite M. cbn [app] in E2. rewrite <- E2. cbn [den]. rewrite (L _ _ (parse_plain false b a Hn Hb Ha)). apply HE.
    rewrite Z.mul_1_l, W. unfold dabs, dval; cbn [mant scale]. rewrite Z.abs_eq by lia. reflexivity.
Qed.

(** ** The chain *)
Definition chain (arg : expr) (h : bd) (ts : list bd) : expr :=
  fold_left (fun acc t => EMethodCall acc "mul_add" None [arg; num_expr t]) ts (EParen (num_expr h)).

Lemma mul_adds_ok terms arg is ts :
  map (fun i => nth_error terms i) is = map Some ts ->
  mul_adds terms (toks arg) is = Ok (List.concat (map (fun t => mul_add_toks (toks arg) (num_expr t)) ts)).
Proof.
  revert ts. induction is as [|i is IH]; intros [|t ts] H; try discriminate H; [reflexivity|].
  cbn [map] in H. inversion H as [[H1 H2]]. cbn [mul_adds]. unfold get. rewrite H1. cbn [rbind].
  rewrite expr_of_bd_eq. cbn [rbind]. rewrite (IH ts H2). cbn [rbind map List.concat]. f_equal. f_equal.
  unfold mul_add_toks. rewrite (proj1 (num_expr_ok t)). reflexivity.
Qed.

Lemma chain_toks arg h ts :
  toks (chain arg h ts) =
  (TLParen :: toks (num_expr h) ++ [TRParen]) ++ List.concat (map (fun t => mul_add_toks (toks arg) (num_expr t)) ts).
Proof.
  unfold chain. change (TLParen :: toks (num_expr h) ++ [TRParen]) with (toks (EParen (num_expr h))).
  generalize (EParen (num_expr h)) as e. induction ts as [|t ts IH]; intros e; cbn [fold_left map List.concat].
  - rewrite app_nil_r. reflexivity.
  - rewrite IH. rewrite app_assoc. f_equal. cbn [toks turbo_toks map commas app]. unfold mul_add_toks.
    f_equal. f_equal. f_equal. f_equal. rewrite <- app_assoc. reflexivity.
Qed.
Lemma chain_wp arg h ts : wp rust_prec arg = true -> wp rust_prec (chain arg h ts) = true /\ lvl rust_prec (chain arg h ts) = 101.
Proof.
  intros A. unfold chain.
  assert (G : forall e, wp rust_prec e = true -> lvl rust_prec e = 101 ->
    wp rust_prec (fold_left (fun acc t => EMethodCall acc "mul_add" None [arg; num_expr t]) ts e) = true /\
    lvl rust_prec (fold_left (fun acc t => EMethodCall acc "mul_add" None [arg; num_expr t]) ts e) = 101).
  { induction ts as [|t ts IH]; intros e W L; cbn [fold_left]; [auto|]. apply IH; [|reflexivity].
    cbn [wp forallb]. rewrite W, L, A, (proj1 (proj2 (num_expr_ok t))). reflexivity. }
  apply G; [|reflexivity]. cbn [wp]. apply num_expr_ok.
Qed.

Section Value.
  Context {V : Type} (I : interp V) (zero one : V) (num : bd -> V).
  Hypothesis NI : number_interp I zero one num.
  Let RT := proj1 NI.
  Add Ring vring : RT.
  Notation "a + b" := (i_bin I BAdd a b).
  Notation "a * b" := (i_bin I BMul a b).

  (** Horner on the coefficients from the highest down. *)
  Lemma chain_val arg h ts :
    den I (chain arg h ts) = fold_left (fun acc t => acc * den I arg + num t) ts (num h).
  Proof.
    unfold chain. assert (E : den I (EParen (num_expr h)) = num h) by (cbn [den]; apply (num_expr_val I zero one num); exact NI).
    rewrite <- E. generalize (EParen (num_expr h)) as e. clear E.
    induction ts as [|t ts IH]; intros e; cbn [fold_left]; [reflexivity|]. rewrite IH. f_equal.
    cbn [den map]. rewrite (proj1 (proj2 NI)). f_equal. apply (num_expr_val I zero one num); exact NI.
  Qed.

  (** l_0 + l_1 x + l_2 x^2 + ... *)
  Fixpoint hval (l : list bd) (x : V) : V := match l with [] => zero | a :: r => num a + x * hval r x end.
  Lemma horner_val l h x :
    fold_left (fun acc t => acc * x + num t) (rev l) (num h) = hval (l ++ [h]) x.
  Proof.
    induction l as [|a l IH]; cbn [rev app hval fold_left]; [ring|].
    rewrite fold_left_app. cbn [fold_left]. rewrite IH. ring.
  Qed.

  Lemma vpow_add x a b : vpow I one x (a + b)%nat = vpow I one x a * vpow I one x b.
  Proof. induction a as [|a IH]; cbn [vpow plus]; [ring|]. rewrite IH. ring. Qed.
  Lemma hval_vsum l x s : vpow I one x s * hval l x = vsum I zero one num (fun _ => true) l x s.
  Proof.
    revert s. induction l as [|a l IH]; intros s; cbn [hval vsum]; [ring|]. rewrite <- IH. cbn [vpow]. ring.
  Qed.
  (** every second coefficient *)
  Lemma half_vsum (want : nat -> bool) x : (forall s, want (S (S s)) = want s) -> (forall s, want (S s) = negb (want s)) ->
    forall n l s, (length l <= n)%nat -> want s = true ->
    vpow I one x s * hval (every_second l) (x * x) = vsum I zero one num want l x s.
  Proof.
    intros W2 W1. induction n as [|n IH]; intros l s L Ws.
    - destruct l; [cbn; ring|cbn in L; lia].
    - destruct l as [|a [|b l]]; cbn [every_second hval vsum].
      + ring.
      + rewrite Ws. ring.
      + rewrite Ws, W1, Ws. cbn [negb]. rewrite <- (IH l (S (S s))) by (cbn in L; (lia || (rewrite W2; exact Ws))).
        cbn [vpow]. ring.
  Qed.
End Value.

(** ** Indices *)
Lemma nth_error_skip {A} (l : list A) a i : nth_error (skipn a l) i = nth_error l (a + i).
Proof. revert l. induction a as [|a IH]; intros [|x l]; cbn; auto. destruct i; reflexivity. Qed.
Lemma nth_error_first {A} (l : list A) k i : i < k -> nth_error (firstn k l) i = nth_error l i.
Proof. revert k i. induction l as [|x l IH]; intros [|k] [|i] H; cbn; auto; try lia. apply IH. lia. Qed.
Lemma map_nth_range {A} (l : list A) a k : a <= k -> k <= length l ->
  map (fun i => nth_error l i) (range a k) = map Some (skipn a (firstn k l)).
Proof.
  intros H L. apply list_ext. intros i. unfold range. rewrite !nth_error_map.
  destruct (Nat.lt_ge_cases i (k - a)) as [Hi|Hi].
  - rewrite (nth_error_nth' (seq a (k - a)) 0) by (rewrite seq_length; exact Hi). rewrite seq_nth by exact Hi. cbn [option_map].
    rewrite nth_error_skip, nth_error_first by lia.
    destruct (nth_error l (a + i)) eqn:E; [reflexivity|]. apply nth_error_None in E. lia.
  - replace (nth_error (seq a (k - a)) i) with (@None nat) by (symmetry; apply nth_error_None; rewrite seq_length; lia).
    replace (nth_error (skipn a (firstn k l)) i) with (@None A); [reflexivity|].
    symmetry. apply nth_error_None. rewrite skipn_length, firstn_length. lia.
Qed.
Lemma every_second_map {A B} (f : A -> B) l : every_second (map f l) = map f (every_second l).
Proof.
  assert (G : forall n l, length l <= n -> every_second (map f l) = map f (every_second l)).
  { induction n as [|n IH]; intros [|a [|b r]] L; cbn in *; try reflexivity; try lia. rewrite IH by lia. reflexivity. }
  apply (G (length l)). lia.
Qed.
Lemma last_split {A} (l : list A) k : length l = S k -> exists h, l = firstn k l ++ [h] /\ nth_error l k = Some h.
Proof.
  intros L. destruct (nth_error l k) as [h|] eqn:E; [|apply nth_error_None in E; lia]. exists h. split; [|reflexivity].
  apply list_ext. intros i. destruct (Nat.lt_ge_cases i k) as [H|H].
  - rewrite nth_error_app1 by (rewrite firstn_length; lia). rewrite nth_error_first by exact H. reflexivity.
  - rewrite nth_error_app2 by (rewrite firstn_length; lia). rewrite firstn_length. replace (i - Nat.min k (length l)) with (i - k) by lia.
    destruct (Nat.eq_dec i k) as [->|N]; [rewrite Nat.sub_diag, E; reflexivity|].
    replace (nth_error l i) with (@None A) by (symmetry; apply nth_error_None; lia).
    destruct (i - k) as [|[|m]] eqn:D; [lia|reflexivity|reflexivity].
Qed.
(** every second element of l ++ [h] when h is one of them *)
Lemma every_second_last {A} (l : list A) h : Nat.even (length l) = true -> every_second (l ++ [h]) = every_second l ++ [h].
Proof.
  assert (G : forall n l, length l <= n -> Nat.even (length l) = true -> every_second (l ++ [h]) = every_second l ++ [h]).
  { induction n as [|n IH]; intros [|a [|b r]] L E; cbn in *; try reflexivity; try lia; try discriminate. rewrite IH by (lia || exact E). reflexivity. }
  apply (G (length l)). lia.
Qed.

(** ** The theorem *)
Definition var_square (x : list string) : expr := EBinary BMul (EPath x) (EPath x).
Definition emitted (terms : list bd) (x : list string) (p : parity) (h : bd) : expr :=
  let k' := pred (length terms) in
  match p with
  | PNeither => chain (EPath x) h (rev (firstn k' terms))
  | PEven => chain (var_square x) h (rev (every_second (firstn k' terms)))
  | POdd => EBinary BMul (chain (var_square x) h (rev (every_second (skipn 1 (firstn k' terms))))) (EPath x)
  end.

Lemma head_toks h : TLParen :: toks (ELit (LFloat (string_of_list_ascii (dec_repr h)) "")) ++ [TRParen] = TLParen :: toks (num_expr h) ++ [TRParen].
Proof. rewrite (proj1 (num_expr_ok h)). reflexivity. Qed.

Definition right_parity (p : parity) (k : nat) : bool :=
  match p with POdd => Nat.even k | PEven => Nat.odd k | PNeither => true end.

Lemma mul_add_ok terms x p k' h : length terms = S k' -> nth_error terms k' = Some h -> right_parity p (S k') = true ->
  mul_add_polynomial terms x p = Ok (emitted terms x p h).
Proof.
  intros L H R. unfold mul_add_polynomial, emitted. rewrite L. unfold get at 1. rewrite H. cbn [rbind pred].
  rewrite expr_of_bd_eq. cbn [rbind]. cbv zeta. rewrite head_toks.
  change ([TPath x; TBin BMul; TPath x]) with (toks (var_square x)).
  destruct p; cbn [right_parity] in R.
  - rewrite <- Nat.negb_even, R. cbn [negb].
    rewrite (mul_adds_ok _ _ _ (rev (every_second (skipn 1 (firstn k' terms))))).
    2:{ destruct k' as [|k'']; [discriminate R|]. rewrite !map_rev, <- !every_second_map, map_nth_range by lia. reflexivity. }
    cbn [rbind]. unfold parse_quote, rust_parse.
    set (c := chain (var_square x) h (rev (every_second (skipn 1 (firstn k' terms))))).
    match goal with |- context [parse_toks _ ?t] => replace t with (toks (EBinary BMul c (EPath x))) end.
    2:{ cbn [toks]. unfold c. rewrite chain_toks, <- app_assoc. reflexivity. }
    rewrite (parse_wp rust_prec rust_prec_small); [reflexivity|]. cbn [wp]. destruct (chain_wp (var_square x) h (rev (every_second (skipn 1 (firstn k' terms)))) eq_refl) as [W Lv].
    fold c in W, Lv. rewrite W, Lv. reflexivity.
  - rewrite <- Nat.negb_odd, R. cbn [negb].
    rewrite (mul_adds_ok _ _ _ (rev (every_second (firstn k' terms)))).
    2:{ rewrite !map_rev, <- !every_second_map, map_nth_range by lia. reflexivity. }
    cbn [rbind]. unfold parse_quote, rust_parse. rewrite <- chain_toks.
    rewrite (parse_wp rust_prec rust_prec_small); [reflexivity|]. apply chain_wp. reflexivity.
  - change [TPath x] with (toks (EPath x)). rewrite (mul_adds_ok _ _ _ (rev (firstn k' terms))).
    2:{ rewrite !map_rev, map_nth_range by lia. reflexivity. }
    cbn [rbind]. unfold parse_quote, rust_parse. rewrite <- chain_toks.
    rewrite (parse_wp rust_prec rust_prec_small); [reflexivity|]. apply chain_wp. reflexivity.
Qed.

Theorem mul_add_value terms x p : terms <> [] -> right_parity p (length terms) = true ->
  exists e, mul_add_polynomial terms x p = Ok e /\
  forall V (I : interp V) zero one num, number_interp I zero one num ->
    den I e = vsum I zero one num (wanted p) terms (i_path I x) 0.
Proof.
  intros N R. destruct (length terms) as [|k'] eqn:L; [destruct terms; [congruence|discriminate]|].
  destruct (last_split terms k' L) as (h & E & H). exists (emitted terms x p h). split; [apply (mul_add_ok _ _ _ k'); auto|].
  intros V I zero one num NI. unfold emitted. rewrite L. cbn [pred].
  assert (LF : length (firstn k' terms) = k') by (rewrite firstn_length; lia).
  pose proof (proj1 NI) as RT.
  destruct p; cbn [right_parity wanted] in *.
  - cbn [den]. rewrite (chain_val I zero one num NI), (horner_val I zero one num NI). cbn [den var_square].
    destruct k' as [|k'']; [discriminate R|]. destruct terms as [|t0 r]; [discriminate L|]. cbn [firstn skipn length app] in *.
    rewrite <- (every_second_last) by (injection LF as ->; exact R).
    inversion E as [[E1]]. cbn [vsum]. change (Nat.odd 0) with false. cbv iota.
    rewrite <- (half_vsum I zero one num NI Nat.odd (i_path I x)) with (n := length r); try reflexivity; try lia.
    + cbn [vpow]. destruct RT. rewrite (Rmul_comm (i_path I x) one), Rmul_1_l, Rmul_comm. change (wanted POdd 0) with false. cbv iota. f_equal. f_equal. f_equal. rewrite <- !E1. reflexivity.
    + intros s. rewrite Nat.odd_succ. symmetry. apply Nat.negb_odd.
    + rewrite <- E1. lia.
  - rewrite (chain_val I zero one num NI), (horner_val I zero one num NI). cbn [den var_square].
    rewrite <- every_second_last, <- E.
    2:{ rewrite LF. rewrite <- Nat.odd_succ. exact R. }
    rewrite <- (half_vsum I zero one num NI Nat.even (i_path I x)) with (n := length terms); try reflexivity; try lia.
    + cbn [vpow]. destruct RT. rewrite Rmul_1_l. reflexivity.
    + intros s. rewrite Nat.even_succ. symmetry. apply Nat.negb_even.
  - rewrite (chain_val I zero one num NI), (horner_val I zero one num NI). cbn [den].
    rewrite <- E. rewrite <- (hval_vsum I zero one num NI). cbn [vpow]. destruct RT. rewrite Rmul_1_l. reflexivity.
Qed.
Theorem mul_add_refused terms x p :
  mul_add_polynomial terms x p = Err WrongNumberOfTerms <-> terms <> [] /\ right_parity p (length terms) = false.
Proof.
  split.
  - intros H. destruct terms as [|t r]; [discriminate H|]. split; [discriminate|].
    destruct (right_parity p (length (t :: r))) eqn:R; [|reflexivity].
    destruct (mul_add_value (t :: r) x p ltac:(discriminate) R) as (e & E & _). congruence.
  - intros [N R]. destruct (length terms) as [|k'] eqn:L; [destruct terms; [congruence|discriminate]|].
    destruct (last_split terms k' L) as (h & E & H). unfold mul_add_polynomial. rewrite L. unfold get at 1. rewrite H. cbn [rbind].
    rewrite expr_of_bd_eq. cbn [rbind]. destruct p; cbn [right_parity] in R; try discriminate R.
    + rewrite <- Nat.negb_even, R. reflexivity.
    + rewrite <- Nat.negb_odd, R. reflexivity.
Qed.
