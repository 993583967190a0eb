(** A class of expressions on which the evaluator does not panic. *)
From Coq Require Import ZArith QArith List Bool String Lia.
From Verif Require Import Res Dec DecFacts DecStr DecStrFacts Syntax Visitor Trans TransFacts ExprOps
  BdMath Eval EvalSpec EvalFacts TransParse.
Import ListNotations.
Open Scope string_scope.

(** Methods computed by series, logarithms or quotients. *)
Definition risky_methods : list string :=
  ["powi"; "powf"; "exp"; "exp2"; "ln"; "log"; "log2"; "log10"; "sin"; "cos"; "tan"; "asin"; "acos";
   "atan"; "erf"; "erfc"; "dnorm"; "pnorm"; "qnorm"].

(** No division, no risky method, every numeric literal readable. *)
Fixpoint safe (e : expr) : bool :=
  match e with
  | ELit l => negb (is_numeric e) || is_ok (bd_of_expr e)
  | EUnary _ a | EParen a | EField a _ => safe a
  | EBinary op a b => (match op with BDiv => false | _ => true end) && safe a && safe b
  | EMethodCall r m _ args =>
      negb (existsb (String.eqb m) risky_methods) && safe r && forallb safe args
  | _ => true
  end.

Definition good (e : expr) : Prop := is_numeric e = true -> exists x, bd_of_expr e = Ok x.
Definition fine (r : res expr) : Prop := match r with Ok e => good e | Err _ => True | Panic => False end.

Lemma fine_of_bd x : fine (expr_of_bd x).
Proof. destruct (expr_of_bd_ok x) as (r & z & R & Z & _). rewrite R. intros _. exists z. exact Z. Qed.

Lemma bd_of_expr_no_panic e : bd_of_expr e <> Panic.
Proof. destruct e as [[]| | | | | | | | | | |]; cbn; try discriminate; destruct (parse_dec _); discriminate. Qed.

Lemma rseq_no_panic {A} (l : list (res A)) : Forall (fun r => r <> Panic) l -> rseq l <> Panic.
Proof.
  induction 1 as [|r l H _ IH]; cbn [rseq]; [discriminate|]. destruct r; cbn [rbind]; try discriminate; [|congruence].
  destruct (rseq l); cbn [rbind]; try discriminate; congruence.
Qed.
Lemma fine_no_panic r : fine r -> r <> Panic.
Proof. destruct r; cbn; [discriminate|discriminate|tauto]. Qed.

Section S.
Variables (o : oracles) (fuel : nat) (n : Z).
Hypothesis Hn : (n < 100)%Z.
Notation ev := (eval o fuel n).

Lemma call_safe m x args : existsb (String.eqb m) risky_methods = false -> eval_call o fuel n m x args <> Panic.
Proof.
  intros R. unfold eval_call. unfold risky_methods in R. cbn [existsb] in R. rewrite !orb_false_iff in R.
  repeat match goal with H : _ /\ _ |- _ => destruct H end.
  repeat match goal with H : (m =? _) = false |- _ => rewrite H; clear H end.
  destruct args as [|a [|b [|c args]]]; try discriminate.
  - repeat match goal with |- (if ?c then _ else _) <> _ => destruct c end; try discriminate.
    destruct (o_sqrt o x); discriminate.
  - destruct (m =? "round_ieee"); [|discriminate]. unfold bround_ieee.
    destruct (to_i32 a) as [[|p|p]|]; try discriminate.
    repeat (destruct p as [p|p|]; try discriminate); try (destruct (o_f32 o x)); try (destruct (o_f64 o x)); discriminate.
Qed.

Lemma eval_safe e : safe e = true -> fine (ev e).
Proof.
  induction e as [l|p|op a IHa|op a b IHa IHb|rc m t args IHr IHargs|a IHa|a m IHa|f args IHf IHfa|a t IHa|c t els IHc IHt IHe|blk IHb|k| | | ]
    using expr_ind_nested with (Ps := fun _ => True); try exact I; intros P; cbn [safe] in P.
  - change (ev (ELit l)) with (Ok (ELit l)). cbn [fine]. intros N. rewrite N in P. cbn [negb orb] in P.
    destruct (bd_of_expr (ELit l)) as [x| |]; try discriminate P. exists x. reflexivity.
  - change (ev (EPath p)) with (eval_path o n p). unfold eval_path. destruct p as [|s [|]]; try exact I.
    destruct (s =? "PI"); [|exact I]. unfold bpi. rewrite (proj2 (Z.ltb_lt n 100) Hn). cbn [rbind]. apply fine_of_bd.
  - specialize (IHa P). rewrite eval_un. unfold eval_unary. destruct (ev a) as [r| |]; cbn [rbind]; [|exact I|exact IHa].
    destruct (is_numeric r) eqn:N; [|exact I]. destruct (IHa N) as [x X]. rewrite X. cbn [unwrap rbind].
    destruct op; try exact I. apply fine_of_bd.
  - apply andb_prop in P as [P Pb]. apply andb_prop in P as [Po Pa]. specialize (IHa Pa). specialize (IHb Pb).
    rewrite eval_bin. unfold eval_binary. destruct (ev a) as [r| |]; cbn [rbind]; [|exact I|exact IHa].
    destruct (ev b) as [r'| |]; cbn [rbind]; [|exact I|exact IHb].
    destruct (is_numeric r) eqn:N; [|exact I]. destruct (is_numeric r') eqn:N'; [|exact I]. cbn [andb].
    destruct (IHa N) as [x X]. destruct (IHb N') as [y Y]. rewrite X, Y. cbn [unwrap rbind].
    destruct op; cbn [eval_op]; try discriminate Po; try exact I; try apply fine_of_bd; intros H; discriminate H.
  - apply andb_prop in P as [P Pa]. apply andb_prop in P as [Po Pr]. specialize (IHr Pr).
    rewrite negb_true_iff in Po. rewrite eval_meth. unfold eval_method.
    destruct (ev rc) as [r| |]; cbn [rbind]; [|exact I|exact IHr].
    assert (A : rseq (map ev args) <> Panic).
    { apply rseq_no_panic. apply Forall_map. rewrite forallb_forall in Pa. rewrite Forall_forall in *.
      intros x Hx. apply fine_no_panic. apply IHargs; [exact Hx|]. apply Pa. exact Hx. }
    destruct (rseq (map ev args)) as [a| |]; cbn [rbind]; [|exact I|congruence].
    pose proof (bd_of_expr_no_panic r) as B. destruct (bd_of_expr r) as [x| |]; cbn [rbind]; [|exact I|congruence].
    assert (C : rseq (map bd_of_expr a) <> Panic).
    { apply rseq_no_panic. apply Forall_map. apply Forall_forall. intros y _. apply bd_of_expr_no_panic. }
    destruct (rseq (map bd_of_expr a)) as [xs| |]; cbn [rbind]; [|exact I|congruence].
    pose proof (call_safe m x xs Po) as D. destruct (eval_call o fuel n m x xs) as [y| |]; cbn [rbind]; [|exact I|congruence].
    apply fine_of_bd.
  - rewrite eval_par. apply IHa. exact P.
  - specialize (IHa P). change (ev (EField a m)) with (let? b := ev a in Ok (EField b m)).
    destruct (ev a); cbn [rbind]; [intros N; discriminate N|exact I|exact IHa].
  - exact I. - exact I. - exact I. - exact I. - exact I.
Qed.

Theorem eval_no_panic e : safe e = true -> ev e <> Panic.
Proof. intros H. apply fine_no_panic. apply eval_safe. exact H. Qed.
End S.

(** ** Calling a method on an evaluated receiver *)
Section M.
Variables (o : oracles) (fuel : nat) (n : Z).

Lemma eval_method0 a x m t : evals o fuel n a x ->
  eval o fuel n (EMethodCall a m t []) = (let? y := eval_call o fuel n m x [] in expr_of_bd y).
Proof.
  intros (r & E & X). rewrite eval_meth. unfold eval_method. rewrite E. cbn [map rseq rbind]. rewrite X. reflexivity.
Qed.
Lemma eval_method0_ok a x m t y : evals o fuel n a x -> eval_call o fuel n m x [] = Ok y ->
  exists z, evals o fuel n (EMethodCall a m t []) z /\ (dval z == dval y)%Q.
Proof. intros A C. apply evals_of_bd. rewrite (eval_method0 a x m t A), C. reflexivity. Qed.
Lemma eval_method1 a x b y m t : evals o fuel n a x -> evals o fuel n b y ->
  eval o fuel n (EMethodCall a m t [b]) = (let? z := eval_call o fuel n m x [y] in expr_of_bd z).
Proof.
  intros (r & E & X) (s & F & Y). rewrite eval_meth. unfold eval_method. cbn [map rseq]. rewrite E, F.
  cbn [map rseq rbind]. rewrite X, Y. reflexivity.
Qed.
Lemma eval_method2 a x b y c z m t : evals o fuel n a x -> evals o fuel n b y -> evals o fuel n c z ->
  eval o fuel n (EMethodCall a m t [b; c]) = (let? v := eval_call o fuel n m x [y; z] in expr_of_bd v).
Proof.
  intros (r & E & X) (s & F & Y) (u & G & Z). rewrite eval_meth. unfold eval_method. cbn [map rseq]. rewrite E, F, G.
  cbn [map rseq rbind]. rewrite X, Y, Z. reflexivity.
Qed.
End M.
