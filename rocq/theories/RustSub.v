(** Arithmetic expressions may be interpolated. *)
From Coq Require Import List String Ascii Bool Arith ZArith Lia.
From Verif Require Import Res Syntax RustFmt RustLex RustFmtFacts GenTokens ItemTokens RustLibrary.
Import ListNotations.
Open Scope string_scope.
Open Scope list_scope.

(** Numbers, names, negation, the four operations, method and function calls and
    parentheses.  A number before a method must not be all digits: 2.abs() would
    be read 2. abs(). *)
Definition number_ok (t : string) : bool := lit_text t && negb (runs_together (TLit t) (TPunct "+")).
Definition digits_ok (d s : string) : bool :=
  match number_tts d s with [TLit t] => number_ok t | [_; TLit t] => number_ok t | _ => false end.
Definition path_ok (p : list string) : bool := negb (is_empty p) && forallb word_text p.
Fixpoint simple (e : expr) : bool :=
  match e with
  | ELit (LInt d s) | ELit (LFloat d s) => digits_ok d s
  | EPath p => path_ok p
  | EUnary UNeg a | EParen a => simple a
  | EBinary (BAdd | BSub | BMul | BDiv) a b => simple a && simple b
  | EMethodCall r m None args =>
      simple r && negb (runs_together (last_tt (expr_tts r)) (TPunct ".")) && word_text m && forallb simple args
  | ECall (EPath p) args => path_ok p && forallb simple args
  | _ => false
  end.

Definition first_ok (t : tt) : bool := match t with TLit _ | TWord _ | TGroup DParen _ => true | TPunct o => String.eqb o "-" | _ => false end.
Definition last_ok (t : tt) : bool :=
  match t with TLit l => number_ok l | TWord _ | TGroup DParen _ => true | _ => false end.
Definition flat (t : tt) : bool := match t with TGroup DBrace _ => false | _ => true end.
Definition sound (ts : list tt) : Prop :=
  ts <> [] /\ forallb well_made ts = true /\ forallb flat ts = true /\ no_run ts = true /\
  first_ok (first_tt ts) = true /\ last_ok (last_tt ts) = true.

Definition join_ops : list string := ["+"; "-"; "*"; "/"; "."; "::"; ","; "="].
Lemma op_first_run o t : In o join_ops -> first_ok t = true -> runs_together (TPunct o) t = false.
Proof.
  intros I H. destruct t as [d ts|s|op|s|s]; try reflexivity. apply String.eqb_eq in H. subst op.
  cbn [In join_ops] in I. repeat (destruct I as [<-|I]; [reflexivity|]). destruct I.
Qed.
Lemma last_op_run t o : In o ["+"; "-"; "*"; "/"; "::"; ","; ";"] -> last_ok t = true -> runs_together t (TPunct o) = false.
Proof.
  intros I H. destruct t as [d ts|s|op|s|s]; try reflexivity; [discriminate|].
  cbn [last_ok] in H. unfold number_ok in H. apply andb_prop in H. destruct H as [_ H]. apply negb_true_iff in H.
  cbn [In] in I. repeat (destruct I as [<-|I]; [first [exact H|cbn [runs_together] in *; cbn; cbn in H; try exact H; try apply andb_false_r]|]). destruct I.
Qed.
Lemma first_app x y : x <> [] -> first_tt (x ++ y) = first_tt x.
Proof. destruct x; [contradiction|reflexivity]. Qed.
Lemma sound_insertable ts : sound ts -> insertable ts = true.
Proof.
  intros (N & W & F & R & A & B). unfold insertable. destruct ts as [|t r]; [contradiction|]. set (ts := t :: r) in *.
  assert (L : list_max (map levels ts) = 0 /\ forallb spaced_tt ts = true).
  { clear - F. induction ts as [|a l IH]; [split; reflexivity|]. cbn [forallb] in F. apply andb_prop in F. destruct F as [Fa Fl].
    destruct (IH Fl) as [E S']. split.
    - change (Nat.max (levels a) (list_max (map levels l)) = 0). rewrite E. destruct a as [[] ?|?|?|?|?]; try discriminate; reflexivity.
    - cbn [forallb]. rewrite S', andb_true_r. destruct a as [[] ?|?|?|?|?]; try discriminate; reflexivity. }
  destruct L as [L S']. unfold spaced. rewrite W, R, S', L. cbn [is_empty negb andb Nat.eqb].
  rewrite (op_first_run "=") by (cbn; tauto). cbn [negb andb forallb].
  rewrite !last_op_run by (cbn; tauto). reflexivity.
Qed.
Lemma sound_join x o y : sound x -> In o ["+"; "-"; "*"; "/"] -> sound y -> sound (x ++ TPunct o :: y).
Proof.
  intros (N & W & F & R & A & B) I (N' & W' & F' & R' & A' & B').
  assert (I1 : In o ["+"; "-"; "*"; "/"; "::"; ","; ";"]) by (cbn in *; tauto). assert (I2 : In o join_ops) by (cbn in *; tauto).
  assert (Wo : well_made (TPunct o) = true) by (clear - I; cbn in I; repeat (destruct I as [<-|I]; [reflexivity|]); destruct I).
  unfold sound. split; [intros E; apply app_eq_nil in E; destruct E; discriminate|].
  rewrite !forallb_app. cbn [forallb flat]. rewrite W, W', F, F', Wo. split; [reflexivity|]. split; [reflexivity|].
  rewrite no_run_app by (auto; discriminate). change (first_tt (TPunct o :: y)) with (TPunct o).
  change (TPunct o :: y) with ([TPunct o] ++ y) at 1. rewrite no_run_app by (auto; discriminate). change (last_tt [TPunct o]) with (TPunct o).
  rewrite R, R', (last_op_run _ _ I1 B), (op_first_run _ _ I2 A'). split; [reflexivity|].
  rewrite first_app by exact N. split; [exact A|]. unfold last_tt in *. rewrite last_app by discriminate.
  change (TPunct o :: y) with ([TPunct o] ++ y). rewrite last_app by exact N'. exact B'.
Qed.
Lemma sound_words p : path_ok p = true -> sound (separated (TPunct "::") (map (fun w => [TWord w]) p)).
Proof.
  induction p as [|w p IH]; intros H; [discriminate|]. unfold path_ok in *. cbn [is_empty negb andb forallb] in *. apply andb_prop in H. destruct H as [Hw Hp].
  destruct p as [|v p]; [unfold sound; cbn; rewrite Hw; repeat split; discriminate|].
  specialize (IH Hp). destruct IH as (N & W & F & R & A & B). cbn [map] in *.
  change (separated (TPunct "::") ([TWord w] :: [TWord v] :: map (fun w0 => [TWord w0]) p)) with ([TWord w; TPunct "::"] ++ separated (TPunct "::") ([TWord v] :: map (fun w0 => [TWord w0]) p)).
  set (y := separated _ _) in *. unfold sound. split; [discriminate|]. rewrite !forallb_app. cbn [forallb well_made flat]. rewrite W, F, Hw.
  split; [reflexivity|]. split; [reflexivity|]. rewrite no_run_app by (auto; discriminate). change (last_tt [TWord w; TPunct "::"]) with (TPunct "::").
  rewrite R, (op_first_run "::") by (cbn; tauto). split; [reflexivity|]. split; [reflexivity|]. unfold last_tt in *. rewrite last_app by exact N. exact B.
Qed.
Lemma sep_well l : forallb (forallb well_made) l = true -> forallb well_made (separated (TPunct ",") l) = true.
Proof.
  induction l as [|a l IH]; intros H; [reflexivity|]. cbn [forallb] in H. apply andb_prop in H. destruct H as [Ha Hl]. destruct l as [|b l]; [exact Ha|].
  change (separated (TPunct ",") (a :: b :: l)) with (a ++ TPunct "," :: separated (TPunct ",") (b :: l)).
  rewrite forallb_app, Ha. cbn [forallb]. rewrite (IH Hl). reflexivity.
Qed.
Lemma sound_group ts : forallb well_made ts = true -> sound [TGroup DParen ts].
Proof. intros H. unfold sound. cbn. rewrite H. repeat split; discriminate. Qed.
Lemma args_well args : Forall (fun e => simple e = true -> sound (expr_tts e)) args -> forallb simple args = true ->
  forallb well_made (separated (TPunct ",") (map expr_tts args)) = true.
Proof.
  intros F H. apply sep_well. rewrite forallb_forall. intros x Hx. apply in_map_iff in Hx. destruct Hx as (e & <- & He).
  rewrite Forall_forall in F. rewrite forallb_forall in H. destruct (F e He (H e He)) as (_ & W & _). exact W.
Qed.
Lemma sound_group_after x ts : sound x -> forallb well_made ts = true -> sound (x ++ [TGroup DParen ts]).
Proof.
  intros (N & W & F & R & A & B) H. unfold sound. split; [intros E; apply app_eq_nil in E; destruct E; discriminate|].
  rewrite !forallb_app. cbn [forallb well_made flat]. rewrite W, F, H. split; [reflexivity|]. split; [reflexivity|].
  rewrite no_run_app by (auto; discriminate). change (first_tt [TGroup DParen ts]) with (TGroup DParen ts).
  assert (E : runs_together (last_tt x) (TGroup DParen ts) = false) by (destruct (last_tt x); reflexivity). rewrite R, E. split; [reflexivity|].
  rewrite first_app by exact N. split; [exact A|]. unfold last_tt. rewrite last_last. reflexivity.
Qed.

Lemma number_shape d s : (exists t, number_tts d s = [TLit t]) \/ (exists t, number_tts d s = [TPunct "-"; TLit t]).
Proof.
  unfold number_tts. destruct d as [|[[] [] [] [] [] [] [] []] d]; try (left; eexists; reflexivity). right. eexists. reflexivity.
Qed.
Lemma sound_number d s : digits_ok d s = true -> sound (number_tts d s).
Proof.
  unfold digits_ok. destruct (number_shape d s) as [[t ->]|[t ->]]; intros H; pose proof H as H'; unfold number_ok in H'; apply andb_prop in H'; destruct H' as [L _].
  - unfold sound. cbn [forallb well_made flat no_run]. rewrite L. repeat split; [discriminate|exact H].
  - unfold sound. cbn [forallb well_made flat]. rewrite L. repeat split; [discriminate|exact H].
Qed.

Theorem simple_sound e : simple e = true -> sound (expr_tts e).
Proof.
  revert e. apply (expr_ind_nested (fun e => simple e = true -> sound (expr_tts e)) (fun _ => True)); try (intros; exact I); try (intros; discriminate).
  - intros l H. destruct l as [d s|d s|b|t]; try discriminate; exact (sound_number d s H).
  - intros p H. exact (sound_words p H).
  - intros op e IH H. destruct op; try discriminate. destruct (IH H) as (N & W & F & R & A & B). cbn [expr_tts unop_text].
    change (TPunct "-" :: expr_tts e) with ([TPunct "-"] ++ expr_tts e). unfold sound. split; [discriminate|].
    rewrite !forallb_app, W, F. split; [reflexivity|]. split; [reflexivity|]. rewrite no_run_app by (auto; discriminate).
    change (last_tt [TPunct "-"]) with (TPunct "-"). rewrite R, (op_first_run "-") by (cbn; tauto). split; [reflexivity|].
    split; [reflexivity|]. unfold last_tt in *. rewrite last_app by exact N. exact B.
  - intros op a b IHa IHb H. destruct op; try discriminate; cbn [simple] in H; apply andb_prop in H; destruct H as [Ha Hb];
    cbn [expr_tts binop_text]; apply sound_join; auto; cbn; tauto.
  - intros r m t args IHr Fa H. cbn [simple] in H. destruct t; [discriminate|]. apply andb_prop in H. destruct H as [H Ha].
    apply andb_prop in H. destruct H as [H Hm]. apply andb_prop in H. destruct H as [Hr Hd]. apply negb_true_iff in Hd.
    cbn [expr_tts app]. destruct (IHr Hr) as (N & W & F & R & A & B). pose proof (args_well args Fa Ha) as WA. set (g := separated _ _) in *.
    change (expr_tts r ++ TPunct "." :: TWord m :: [TGroup DParen g]) with (expr_tts r ++ ([TPunct "."; TWord m; TGroup DParen g])).
    unfold sound. split; [intros E; apply app_eq_nil in E; destruct E; discriminate|]. rewrite !forallb_app, W, F. cbn [forallb well_made flat]. rewrite Hm, WA.
    split; [reflexivity|]. split; [reflexivity|]. rewrite no_run_app by (auto; discriminate). change (first_tt [TPunct "."; TWord m; TGroup DParen g]) with (TPunct ".").
    rewrite R, Hd. split; [reflexivity|]. rewrite first_app by exact N. split; [exact A|]. unfold last_tt. rewrite last_app by discriminate. reflexivity.
  - intros e IH H. cbn [simple] in H. cbn [expr_tts]. apply sound_group. destruct (IH H) as (_ & W & _). exact W.
  - intros f args IHf Fa H. destruct f as [|p| | | | | | | | | | ]; try discriminate. cbn [simple] in H. apply andb_prop in H. destruct H as [Hp Ha].
    pose proof (args_well args Fa Ha) as WA. pose proof (sound_words p Hp) as SP.
    destruct (list_eq_dec string_dec p ["(,)"]) as [->|Np]; [discriminate|].
    assert (E : expr_tts (ECall (EPath p) args) = expr_tts (EPath p) ++ [TGroup DParen (separated (TPunct ",") (map expr_tts args))]).
    { clear - Np. destruct p as [|w [|w' p]]; try reflexivity; cbn [expr_tts];
      (destruct w as [|c w]; [reflexivity|]; destruct c as [[] [] [] [] [] [] [] []]; try reflexivity;
       destruct w as [|c w]; [reflexivity|]; destruct c as [[] [] [] [] [] [] [] []]; try reflexivity;
       destruct w as [|c w]; [reflexivity|]; destruct c as [[] [] [] [] [] [] [] []]; try reflexivity;
       destruct w as [|c w]; try reflexivity; contradiction). }
    rewrite E. apply sound_group_after; assumption.
Qed.
Theorem simple_insertable e : simple e = true -> insertable (expr_tts e) = true.
Proof. intros H. apply sound_insertable, simple_sound, H. Qed.
