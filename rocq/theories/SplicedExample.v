(** Something to splice in that libmgen can compute. *)
From Coq Require Import List String Ascii Bool ZArith Lia Reals.
From Flocq Require Import Core IEEE754.Binary.
From Verif Require Import Res Dec DecStr DecStrFacts Syntax Poly BdMath Eval AccEval GenSem GenFloat FloatBits UseNumberType NumberTypeFacts ExactFloats
  TestTable ConstSource Constants Item GenCode GenCodeFacts GenTypeLib Spliced.
Import ListNotations.
Open Scope string_scope.
Open Scope list_scope.

Lemma exact_plain nans : plain_show (exact_floats nans).
Proof.
  intros bits x _ _ _. cbn [show exact_floats]. unfold exact_show.
  destruct x as [s|s|s pl H|s m e H]; try (exists ["0"%char], []; repeat split; [discriminate|repeat constructor|constructor]).
  destruct (dec_repr_plain (exact_dec (Z.pos m) e)) as (b & a & E & Hn & Hb & Ha & _). exists b, a.
  assert (M : (mant (exact_dec (Z.pos m) e) <? 0)%Z = false).
  { apply Z.ltb_ge. unfold exact_dec. destruct (0 <=? e)%Z; cbn [mant]; apply Z.mul_nonneg_nonneg; try lia; apply Z.pow_nonneg; lia. }
  rewrite M in E. rewrite E. split; [reflexivity|]. auto.
Qed.
Lemma line_made nans kind v : kind = "decimal" \/ kind = "hex" -> v = "x" \/ v = "z" -> exists e, made_polynomial (exact_floats nans) kind 32 v e.
Proof.
  intros [-> | ->] [-> | ->]; eexists; exists [BD 25 2; BD (-15) 1], PNeither; eexists; (split; [vm_compute; reflexivity|]); vm_compute; reflexivity.
Qed.
Definition constant_names : list string :=
  ["PI"; "PI_BY_2"; "PI_BY_8"; "TAN_PI_BY_8"; "LOG2_E"; "RECIP_LOG2_E"; "RECIP_LOG2_10"; "RECIP_PI"; "RECIP_2PI"; "SQRT_RECIP_2PI"].
Lemma constant_made m : In m constant_names -> exists c, made_constant sqrt_oracles 32 m c.
Proof.
  intros I. assert (V : exists v, In (m, v) constant_values).
  { unfold constant_names in I. cbn in I. unfold constant_values. repeat (destruct I as [<-|I]; [eexists; cbn; tauto|]). destruct I. }
  destruct V as (v & V). destruct (constant_float sqrt_oracles 32 m v (fun _ => sqrt_down_good) (or_introl eq_refl) V) as (e & f & S & H).
  destruct (H f (le_n f)) as (c & E & _). exists c, e, f. auto.
Qed.
Lemma source_names n : const_source n <> None -> In n constant_names.
Proof.
  unfold const_source, constant_names.
  repeat match goal with |- (if String.eqb ?a ?b then _ else _) <> _ -> _ => destruct (String.eqb_spec a b) as [->|_]; [intros _; cbn; tauto|] end. congruence.
Qed.
Lemma choose {A} (P : string -> A -> Prop) l d : P "" d -> (forall m, In m l -> exists a, P m a) -> exists f, forall m, In m l -> P m (f m).
Proof.
  intros _. induction l as [|m l IH]; intros H; [exists (fun _ => d); intros m []|].
  destruct IH as (f & Hf); [intros k I; apply H; right; exact I|]. destruct (H m (or_introl eq_refl)) as (a & Ha).
  exists (fun k => if String.eqb k m then a else f k). intros k [<-|I]; [rewrite String.eqb_refl; exact Ha|].
  destruct (String.eqb_spec k m) as [->|]; [exact Ha|auto].
Qed.
Theorem spliced_exists nans kind : kind = "decimal" \/ kind = "hex" -> exists sub, spliced (exact_floats nans) sqrt_oracles kind 32 sub.
Proof.
  intros K. destruct (line_made nans kind "x" K (or_introl eq_refl)) as (ex & Hx). destruct (line_made nans kind "z" K (or_intror eq_refl)) as (ez & Hz).
  destruct (choose (fun m c => m = "" \/ made_constant sqrt_oracles 32 m c) constant_names ex (or_introl eq_refl)) as (f & Hf).
  { intros m I. destruct (constant_made m I) as (c & C). exists c. auto. }
  assert (G : forall m, In m constant_names -> made_constant sqrt_oracles 32 m (f m)).
  { intros m I. destruct (Hf m I) as [->|H]; [|exact H]. exfalso. cbn in I. repeat (destruct I as [I|I]; [discriminate|]). destruct I. }
  exists (fun n => if is_const_item (template 32 n) then match const_source n with Some _ => f n | None => f "PI" end else if String.eqb n "atan2" then ez else ex).
  intros n. destruct (is_const_item (template 32 n)).
  - destruct (const_source n) as [e|] eqn:E.
    + exists n. split; [reflexivity|]. apply G, source_names. congruence.
    + exists "PI". split; [congruence|]. apply G. left. reflexivity.
  - unfold hole_var. destruct (String.eqb n "atan2"); assumption.
Qed.
