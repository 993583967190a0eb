(** What type-checks (GenType.v) does not get stuck (GenSem.v). *)
From Coq Require Import List String Bool ZArith Ascii Lia Arith.
From Verif Require Import Res Dec DecStr Syntax Functions FunctionsFacts Item GenCode GenCodeFacts GenSem GenType GenTypeFacts GenTypeLib.
Import ListNotations.
Open Scope string_scope.
Open Scope list_scope.
Open Scope Z_scope.

Section Sound.
  Variable bits : Z.
  Notation val := (val bits).
  Notation flt := (flt bits).
  Variable nan_of : list flt -> { x : flt | Flocq.IEEE754.Binary.is_nan (prec bits) (emax bits) x = true }.
  Variable std : string -> list flt -> option flt.
  Variable checked : bool.
  (** the platform has ln *)
  Hypothesis std_ln : forall x, std "ln" [x] <> None.

  Fixpoint has_ty (v : val) (s : sty) : Prop :=
    match s, v with
    | SFlt, VFlt _ => True
    | SInt t, VInt u _ => t = u
    | SBool, VBool _ => True
    | SLitF, (VFlt _ | VLitF _) => True
    | SLitI z, VLitI w => z = w
    | SPair a b, VPair x y => has_ty x a /\ has_ty y b
    | _, _ => False
    end.
  (** a value of the type, or an overflow that is checked for *)
  Definition good (r : res val) (s : sty) : Prop :=
    match r with Ok v => has_ty v s | Panic => checked = true | Err _ => False end.
  Lemma good_bind r s (f : val -> res val) t : good r s -> (forall v, has_ty v s -> good (f v) t) -> good (rbind r f) t.
  Proof. destruct r; cbn; auto. Qed.

  Lemma float_val v s : is_float s = true -> has_ty v s -> exists x, v = VFlt x \/ v = VLitF x.
  Proof. destruct s; try discriminate; destruct v; cbn; intros _ H; try contradiction; eauto. Qed.
  Lemma has_float v s : has_ty v s -> is_float s = true -> exists x, flt_of bits v = Some x.
  Proof. intros H F. destruct (float_val v s F H) as [x [-> | ->]]; cbn; eauto. Qed.
  Lemma flts_typed args ts : Forall2 has_ty args ts -> forallb is_float ts = true -> exists l, flts_of bits args = Some l /\ List.length l = List.length ts.
  Proof.
    induction 1 as [|a s r q H _ IH]; intros F; [exists []; auto|]. cbn in F. apply andb_prop in F. destruct F as [F1 F2].
    destruct (has_float a s H F1) as [x X]. destruct (IH F2) as (l & L & N). exists (x :: l). cbn. rewrite X, L, N. auto.
  Qed.

  Lemma arith_good t z : good (arith bits checked t z) (SInt t).
  Proof. unfold arith. destruct (in_range t z); [reflexivity|]. destruct checked eqn:E; [exact E|reflexivity]. Qed.
  Lemma relate_ok op c : is_rel op = true -> exists b, relate op c = Ok b.
  Proof. destruct op; try discriminate; destruct c as [[]|]; cbn; eauto. Qed.
  Lemma ity_eq a b : ity_eqb a b = true -> a = b.
  Proof. destruct a, b; cbn; congruence. Qed.
  Lemma shift_good op t x k : is_shift op = true -> good (shift_op bits checked op t x k) (SInt t).
  Proof.
    unfold shift_op. destruct op; try discriminate; intros _; destruct ((0 <=? k) && (k <? isize t)); try reflexivity; destruct checked eqn:E; try reflexivity; exact E.
  Qed.
  Lemma flt_op_good op x y s : (if is_rel op then Some SBool else if is_arith op then Some SFlt else None) = Some s ->
    good (flt_op bits nan_of op x y) s.
  Proof.
    intros E. unfold flt_op. destruct op; cbn [is_rel is_arith] in *; try discriminate; injection E as <-; try exact I;
      match goal with |- context [relate ?o ?c] => destruct (relate_ok o c eq_refl) as [b ->]; exact I end.
  Qed.
  Lemma int_op_good op t x y s : (if is_rel op then Some SBool else if is_int_op op then Some (SInt t) else None) = Some s ->
    good (int_op bits checked op t x y) s.
  Proof.
    intros E. unfold int_op. destruct op; cbn [is_rel is_int_op] in *; try discriminate; injection E as <-; try apply arith_good; try reflexivity;
      match goal with |- context [relate ?o ?c] => destruct (relate_ok o c eq_refl) as [b ->]; exact I end.
  Qed.
  Lemma lit_op_good op x y s : (if is_rel op then Some SBool else if is_arith op then Some SLitF else None) = Some s ->
    good (let? v := flt_op bits nan_of op x y in match v with VFlt z => Ok (VLitF z) | _ => Ok v end) s.
  Proof.
    intros E. unfold flt_op. destruct op; cbn [is_rel is_arith] in *; try discriminate; injection E as <-; try exact I;
      match goal with |- context [relate ?o ?c] => destruct (relate_ok o c eq_refl) as [b ->]; exact I end.
  Qed.
  Lemma weaken_lit r : good r SFlt -> good r SLitF.
  Proof. destruct r as [[]| |]; cbn; auto. Qed.
  Lemma weaken_res op r s : good r (if is_rel op then SBool else SFlt) -> (if is_rel op then Some SBool else if is_arith op then Some SLitF else None) = Some s -> good r s.
  Proof. destruct (is_rel op); [intros H E; injection E as <-; exact H|]. destruct (is_arith op); [|discriminate]. intros H E. injection E as <-. apply weaken_lit. exact H. Qed.

  Lemma bin_shift op a b : is_shift op = true -> bin_op bits nan_of checked op a b =
    match a, b with VInt t x, (VInt _ k | VLitI k) => shift_op bits checked op t x k | _, _ => stuck end.
  Proof. destruct op; try discriminate; intros _; destruct a, b; reflexivity. Qed.
  Lemma bin_other op a b : is_shift op = false -> bin_op bits nan_of checked op a b =
    match a, b with
    | VFlt x, (VFlt y | VLitF y) | VLitF x, VFlt y => flt_op bits nan_of op x y
    | VLitF x, VLitF y => let? v := flt_op bits nan_of op x y in match v with VFlt z => Ok (VLitF z) | _ => Ok v end
    | VInt t x, VInt u y => if ity_eqb t u then int_op bits checked op t x y else stuck
    | VInt t x, VLitI y => if in_range t y then int_op bits checked op t x y else stuck
    | VLitI x, VInt t y => if in_range t x then int_op bits checked op t x y else stuck
    | _, _ => stuck
    end.
  Proof. destruct op; try discriminate; intros _; destruct a, b; reflexivity. Qed.
  Lemma rel_arith op s : (if is_rel op then Some SBool else if is_arith op then Some SLitF else None) = Some s ->
    (if is_rel op then Some SBool else if is_arith op then Some SFlt else None) = Some (if is_rel op then SBool else SFlt).
  Proof. destruct (is_rel op); [reflexivity|]. destruct (is_arith op); [reflexivity|discriminate]. Qed.
  Lemma bin_sound op a b v w s : bin_ty op a b = Some s -> has_ty v a -> has_ty w b -> good (bin_op bits nan_of checked op v w) s.
  Proof.
    unfold bin_ty. destruct (is_shift op) eqn:SH.
    - rewrite (bin_shift op v w SH). destruct a; try discriminate. destruct b; try discriminate; intros E; injection E as <-; destruct v; cbn; try contradiction;
        intros <-; destruct w; cbn; try contradiction; intros _; exact (shift_good op _ _ _ SH).
    - rewrite (bin_other op v w SH). destruct a; try discriminate; destruct b; try discriminate; intros E; destruct v; try contradiction; intros Hv; destruct w; try contradiction; intros Hw.
      all: try (apply flt_op_good; exact E).
      all: try (apply lit_op_good; exact E).
      all: try (apply (weaken_res op); [apply flt_op_good; exact (rel_arith op s E)|exact E]).
      all: cbn in Hv, Hw; subst.
      all: match type of E with (if ?c then _ else _) = _ => destruct c; [apply int_op_good; exact E|discriminate] end.
  Qed.
  Lemma un_sound op a v s : un_ty op a = Some s -> has_ty v a -> good (un_op bits checked op v) s.
  Proof.
    destruct op, a; cbn; try discriminate; intros E; destruct v; cbn; try contradiction; intros H; subst.
    all: try (injection E as <-; cbn; auto; fail).
    destruct (signed t0); [|discriminate]. injection E as <-. apply arith_good.
  Qed.
  Lemma cast_sound t a v s : cast_ty bits t a = Some s -> has_ty v a -> good (cast bits t v) s.
  Proof.
    unfold cast_ty, of_ty. destruct a; try discriminate; destruct t as [[w| |]|]; try discriminate; intros E; destruct v; cbn; try contradiction; intros H.
    all: try (destruct (w =? bits); [|discriminate]); injection E as <-; cbn; auto.
  Qed.
  Lemma declare_sound t a v s : declared bits t a = Some s -> has_ty v a -> good (declare bits t v) s.
  Proof.
    unfold declared. destruct t as [[w| |]|]; try discriminate; destruct a; try discriminate; intros E; destruct v; cbn; try contradiction; intros H; subst.
    all: try (destruct (w =? bits); [|discriminate]; injection E as <-; exact I).
    - match goal with |- context [ity_eqb ?a ?b] => destruct (ity_eqb a b) eqn:Q end; [|discriminate]. injection E as <-. cbn. exact (ity_eq _ _ Q).
    - match goal with |- context [in_range ?a ?b] => destruct (in_range a b) end; [|discriminate]. injection E as <-. reflexivity.
    - injection E as <-. exact I.
  Qed.
  Lemma path_sound a b s : path_ty bits a b = Some s -> good (path2 bits a b) s.
  Proof.
    unfold path_ty, path2. destruct (prim a) as [[w| |]|]; try discriminate. destruct (w =? bits); [|discriminate]. cbn [andb existsb].
    destruct (String.eqb b "INFINITY"); [intros E; injection E as <-; exact I|]. destruct (String.eqb b "NAN"); [intros E; injection E as <-; exact I|].
    destruct (String.eqb b "MIN_POSITIVE"); [intros E; injection E as <-; exact I|discriminate].
  Qed.
  Lemma lit_sound l s : lit_ty bits l = Some s -> good (literal bits l) s.
  Proof.
    unfold lit_ty, literal. destruct l as [d u|d u|b|k]; try discriminate.
    - destruct (parse_dec (list_ascii_of_string d)); [|discriminate]. destruct (negb _); [discriminate|]. destruct (String.eqb u "").
      + intros E. injection E as <-. reflexivity.
      + destruct (prim u) as [[w|t|]|]; try discriminate; [destruct (w =? bits)|destruct (in_range t _)]; try discriminate; intros E; injection E as <-; exact I || reflexivity.
    - destruct (parse_dec (list_ascii_of_string d)); [|discriminate]. destruct (String.eqb u "").
      + intros E. injection E as <-. exact I.
      + destruct (prim u) as [[w|t|]|]; try discriminate. destruct (w =? bits); [|discriminate]. intros E; injection E as <-; exact I.
    - intros E. injection E as <-. exact I.
  Qed.
  Lemma method_sound m a args v vs s : method_ty bits m a args = Some s -> has_ty v a -> Forall2 has_ty vs args -> good (method bits nan_of std m v vs) s.
  Proof.
    unfold method_ty, method. destruct a; try discriminate; destruct v; cbn [has_ty]; try contradiction; intros E H HA.
    - destruct (String.eqb m "to_bits").
      + destruct args; [|discriminate]. inversion HA. subst. injection E as <-. reflexivity.
      + destruct (forallb is_float args) eqn:FL; [|rewrite andb_false_r in E; discriminate]. rewrite andb_true_r in E.
        destruct (flts_typed vs args HA FL) as (l & -> & N). rewrite <- N in E. cbn [existsb float_methods fst snd] in E.
        destruct (String.eqb_spec m "abs") as [->|]; [destruct l; [injection E as <-; exact I|discriminate]|].
        destruct (String.eqb_spec m "sqrt") as [->|]; [destruct l; [injection E as <-; exact I|discriminate]|].
        destruct (String.eqb_spec m "recip") as [->|]; [destruct l; [injection E as <-; exact I|discriminate]|].
        destruct (String.eqb_spec m "copysign") as [->|]; [destruct l as [|y [|]]; try discriminate; injection E as <-; exact I|].
        destruct (String.eqb_spec m "mul_add") as [->|]; [destruct l as [|y [|z [|]]]; try discriminate; injection E as <-; exact I|].
        cbn [andb orb] in E. destruct (String.eqb_spec m "ln") as [->|]; [|discriminate]. destruct l; [|discriminate]. cbn in E. injection E as <-.
        pose proof (std_ln x) as L. destruct (std "ln" [x]); [exact I|congruence].
    - subst. destruct (String.eqb m "wrapping_mul"); [|discriminate]. destruct args as [|a [|]]; try (destruct a; discriminate); try discriminate.
      inversion HA as [|x ? r ? Ha Hr]. subst. inversion Hr. subst.
      destruct a; try discriminate; destruct x; cbn in Ha; try contradiction; subst.
      + destruct (ity_eqb t0 t1); [|discriminate]. injection E as <-. reflexivity.
      + destruct (in_range t0 z1); [|discriminate]. injection E as <-. reflexivity.
  Qed.
  Lemma join_sound a b s v : join a b = Some s -> has_ty v a \/ has_ty v b -> has_ty v s.
  Proof.
    destruct a, b; cbn; try discriminate; intros E; try (injection E as <-; destruct v; cbn; tauto).
    destruct (ity_eqb t t0) eqn:Q; [|discriminate]. apply ity_eq in Q. subst t0. injection E as <-. cbn. tauto.
  Qed.
  Lemma join_good a b s r : join a b = Some s -> good r a \/ good r b -> good r s.
  Proof. intros E. destruct r; cbn; try tauto. apply join_sound. exact E. Qed.

  (** ** Expressions *)
  Section Eval.
    Variables (lib : list item) (call : string -> list val -> res val) (const : string -> res val) (D : string -> option decl).
    Hypothesis resolve_ty : forall t, resolve lib t = ty_of D t.
    Hypothesis const_good : forall n s, const_ty bits D n = Some s -> good (const n) s.
    Hypothesis call_good : forall f ts s vs, call_ty bits D f ts = Some s -> Forall2 has_ty vs ts -> good (call f vs) s.
    Notation E := (eval_g bits nan_of std checked lib call const).
    Definition evals (env : list (string * val)) : list expr -> res (list val) :=
      fix evals (l : list expr) : res (list val) := match l with [] => Ok [] | a :: r => let? v := E env a in let? q := evals r in Ok (v :: q) end.
    Fixpoint eblock (env : list (string * val)) (l : list stmt) : res val :=
      match l with
      | [] => stuck
      | [SExpr a] => E env a
      | SLocal n t (Some a) :: r =>
          let? v := E env a in
          let? w := match t with Some t => declare bits (resolve lib t) v | None => Ok v end in
          eblock ((n, w) :: env) r
      | (SSemi a | SExpr a) :: r => let? v := E env a in eblock env r
      | SLocal _ _ None :: _ => stuck
      end.
    Definition env_ok (g : list (string * sty)) (env : list (string * val)) : Prop :=
      forall n, match slookup n g with Some s => exists v, lookup bits n env = Some v /\ has_ty v s | None => lookup bits n env = None end.
    Lemma env_cons g env n v s : env_ok g env -> has_ty v s -> env_ok ((n, s) :: g) ((n, v) :: env).
    Proof. intros H Hv m. cbn. destruct (String.eqb n m); [eauto|exact (H m)]. Qed.
    Definition sound_e (e : expr) : Prop := forall g env s, env_ok g env -> typeof bits D no_hole g e = Some s -> good (E env e) s.
    Definition sound_s (s : stmt) : Prop := match s with SLocal _ _ i => OptP sound_e i | SExpr e | SSemi e => sound_e e end.
    Lemma evals_sound l : Forall sound_e l -> forall g env ts, env_ok g env -> types bits D no_hole g l = Some ts ->
      match evals env l with Ok vs => Forall2 has_ty vs ts | Panic => checked = true | Err _ => False end.
    Proof.
      induction 1 as [|e r H _ IH]; intros g env ts G T; cbn in T; [injection T as <-; constructor|].
      destruct (typeof bits D no_hole g e) as [s|] eqn:E1; [|discriminate]. destruct (types bits D no_hole g r) as [q|] eqn:E2; [|discriminate]. injection T as <-.
      cbn. specialize (H g env s G E1). destruct (E env e) as [v| |]; cbn in *; auto. specialize (IH g env q G E2). destruct (evals env r); cbn in *; auto.
    Qed.
    Lemma eblock_sound l : Forall sound_s l -> forall g env s, env_ok g env -> block bits D no_hole g l = Some s -> good (eblock env l) s.
    Proof.
      induction 1 as [|st r H _ IH]; intros g env s G T; [discriminate|]. destruct st as [m t i|e|e]; cbn [block eblock] in *.
      - destruct i as [a|]; [|discriminate]. destruct (typeof bits D no_hole g a) as [u|] eqn:E1; [|discriminate].
        apply (good_bind _ u); [exact (H g env u G E1)|]. intros v Hv. destruct t as [t|].
        + destruct (declared bits (ty_of D t) u) as [u'|] eqn:E2; [|discriminate]. apply (good_bind _ u'); [rewrite resolve_ty; exact (declare_sound _ u v u' E2 Hv)|].
          intros w Hw. exact (IH _ _ s (env_cons g env m w u' G Hw) T).
        + exact (IH _ _ s (env_cons g env m v u G Hv) T).
      - destruct r as [|st r]; [exact (H g env s G T)|]. destruct (typeof bits D no_hole g e) as [u|] eqn:E1; [|discriminate].
        apply (good_bind _ u); [exact (H g env u G E1)|]. intros v _. exact (IH g env s G T).
      - destruct (typeof bits D no_hole g e) as [u|] eqn:E1; [|discriminate].
        apply (good_bind _ u); [exact (H g env u G E1)|]. intros v _. exact (IH g env s G T).
    Qed.
    Theorem eval_sound e : sound_e e.
    Proof.
      induction e using expr_ind_nested with (Ps := sound_s); unfold sound_e in *; try (intros g env s G T).
      - exact (lit_sound l s T).
      - destruct p as [|m [|m2 [|k p]]]; try discriminate; cbn [typeof eval_g] in *.
        + specialize (G m). destruct (slookup m g) as [u|].
          * injection T as <-. destruct G as (v & -> & Hv). exact Hv.
          * rewrite G. exact (const_good m s T).
        + exact (path_sound m m2 s T).
      - cbn [typeof eval_g] in *. destruct (typeof bits D no_hole g e) as [u|] eqn:E1; [|discriminate].
        apply (good_bind _ u); [exact (IHe g env u G E1)|]. intros v Hv. exact (un_sound op u v s T Hv).
      - cbn [typeof eval_g] in *. destruct (typeof bits D no_hole g e1) as [u|] eqn:E1; [|discriminate]. destruct (typeof bits D no_hole g e2) as [w|] eqn:E2; [|discriminate].
        apply (good_bind _ u); [exact (IHe1 g env u G E1)|]. intros v Hv. apply (good_bind _ w); [exact (IHe2 g env w G E2)|]. intros v' Hv'.
        exact (bin_sound op u w v v' s T Hv Hv').
      - destruct t; [discriminate|]. rewrite t_method in T. destruct (typeof bits D no_hole g e) as [u|] eqn:E1; [|discriminate].
        destruct (types bits D no_hole g args) as [ts|] eqn:E2; [|discriminate].
        change (good (let? v := E env e in let? l := evals env args in method bits nan_of std m v l) s).
        apply (good_bind _ u); [exact (IHe g env u G E1)|]. intros v Hv. pose proof (evals_sound args H g env ts G E2) as K.
        destruct (evals env args) as [vs| |]; cbn; auto. exact (method_sound m u ts v vs s T Hv K).
      - exact (IHe g env s G T).
      - discriminate.
      - destruct e as [|p| | | | | | | | | |]; try discriminate. destruct p as [|m [|m2 [|k p]]]; try discriminate.
        + rewrite t_call in T. destruct (slookup m g) eqn:L; [discriminate|]. destruct (types bits D no_hole g args) as [ts|] eqn:E2; [|discriminate].
          change (good (let? l := evals env args in if String.eqb m "(,)" then match l with [a; b] => Ok (VPair a b) | _ => stuck end else call m l) s).
          pose proof (evals_sound args H g env ts G E2) as K. destruct (evals env args) as [vs| |]; cbn; auto.
          destruct (String.eqb m "(,)"); [|exact (call_good m ts s vs T K)].
          destruct ts as [|a [|b [|]]]; try discriminate. injection T as <-. inversion K as [|x ? r ? K1 K2]. subst. inversion K2 as [|y ? r2 ? K3 K4]. subst. inversion K4. subst.
          cbn. auto.
        + rewrite t_call2 in T. destruct (slookup m g) eqn:L; [discriminate|].
          change (good (let? l := evals env args in match resolve lib m, l with
            | Some (TFlt w), [VInt u n] => if String.eqb m2 "from_bits" && (w =? bits) && ity_eqb u (if bits =? 32 then U32 else U64) then Ok (VFlt (of_bits bits n)) else stuck
            | _, _ => stuck end) s).
          rewrite resolve_ty. destruct (ty_of D m) as [[w| |]|]; try discriminate. destruct (types bits D no_hole g args) as [ts|] eqn:E2; [|discriminate].
          pose proof (evals_sound args H g env ts G E2) as K. destruct (evals env args) as [vs| |]; cbn; auto.
          destruct ts as [|a [|]]; try discriminate; [|destruct a; discriminate]. inversion K as [|x ? r ? K1 K2]. subst. inversion K2. subst. destruct a; try discriminate.
          destruct x; cbn in K1; try contradiction. subst. unfold bits_int in T.
          destruct (String.eqb m2 "from_bits" && (w =? bits) && ity_eqb t0 (if bits =? 32 then U32 else U64)); [|discriminate]. injection T as <-. exact I.
      - cbn [typeof eval_g] in *. destruct (typeof bits D no_hole g e) as [u|] eqn:E1; [|discriminate].
        apply (good_bind _ u); [exact (IHe g env u G E1)|]. intros v Hv. rewrite resolve_ty. exact (cast_sound _ u v s T Hv).
      - destruct e0 as [f|]; [|discriminate]. rewrite t_if in T. destruct (typeof bits D no_hole g e) as [c|] eqn:E1; [|discriminate]. destruct c; try discriminate.
        destruct (block bits D no_hole g t) as [a|] eqn:E2; [|discriminate]. destruct (typeof bits D no_hole g f) as [b|] eqn:E3; [|discriminate].
        change (good (let? v := E env e in match v with VBool true => eblock env t | VBool false => E env f | _ => stuck end) s).
        apply (good_bind _ SBool); [exact (IHe g env SBool G E1)|]. intros v Hv. destruct v; cbn in Hv; try contradiction.
        apply (join_good a b s _ T). destruct b0; [left; exact (eblock_sound t H g env a G E2)|right; exact (H0 g env b G E3)].
      - rewrite t_block in T. exact (eblock_sound b H g env s G T).
      - discriminate.
      - cbn. destruct i; [exact H|exact I].
      - exact (IHe g env s G T).
      - exact (IHe g env s G T).
    Qed.
  End Eval.
End Sound.

(** ** Programs *)
Section Program.
  Variable bits : Z.
  Notation val := (val bits).
  Variable nan_of : list (flt bits) -> { x : flt bits | Flocq.IEEE754.Binary.is_nan (prec bits) (emax bits) x = true }.
  Variable std : string -> list (flt bits) -> option (flt bits).
  Variable checked : bool.
  Hypothesis std_ln : forall x, std "ln" [x] <> None.
  Variable lib : list item.
  Notation D := (decls lib).
  Hypothesis WT : well_typed bits lib.
  (** calls go to lower ranks *)
  Variable rank : string -> nat.
  Definition ranked : Prop := forall i n m, In i lib -> item_name i = Some n -> In m (item_free i) ->
    match D m with Some (DConst _) => (rank m < rank n /\ rank m < const_depth)%nat | Some (DFn _ _) => (rank m < rank n)%nat | _ => True end.
  Hypothesis RK : ranked.
  Definition below (k : nat) (E : string -> option decl) (n : string) : option decl :=
    match E n with
    | Some (DType t) => Some (DType t)
    | Some (DConst t) => if Nat.ltb (rank n) k && Nat.ltb (rank n) const_depth then Some (DConst t) else None
    | Some (DFn ps r) => if Nat.ltb (rank n) k then Some (DFn ps r) else None
    | None => None
    end.
  Lemma below_ty k E t : ty_of (below k E) t = ty_of E t.
  Proof.
    unfold ty_of, below. destruct (prim t); [reflexivity|]. destruct (E t) as [[| |]|]; try reflexivity; destruct (Nat.ltb (rank t) k), (Nat.ltb (rank t) const_depth); reflexivity.
  Qed.
  Lemma resolve_decls t : resolve lib t = ty_of D t.
  Proof. unfold resolve, ty_of, decls. destruct (prim t); [reflexivity|]. destruct (find_item lib t) as [[]|]; reflexivity. Qed.
  Lemma find_in n i : find_item lib n = Some i -> In i lib /\ item_name i = Some n.
  Proof.
    intros E. apply find_some in E. destruct E as [I N]. split; [exact I|]. destruct (item_name i); [|discriminate]. apply String.eqb_eq in N. congruence.
  Qed.
  Lemma item_below i n : In i lib -> item_name i = Some n -> item_ok bits (below (rank n) D) no_hole i = true.
  Proof.
    intros I N. rewrite <- (WT i I). symmetry. apply item_ext.
    - intros m d t _ _ _. symmetry. apply below_ty.
    - intros m Fr. pose proof (RK i n m I N Fr) as K. unfold below. destruct (D m) as [[t|t|ps r]|]; try reflexivity.
      + destruct K as [K K2]. apply Nat.ltb_lt in K, K2. rewrite K, K2. reflexivity.
      + apply Nat.ltb_lt in K. rewrite K. reflexivity.
    - intros d t _ _. symmetry. apply below_ty.
  Qed.

  (** *** Constants *)
  Lemma of_declared t s u : declared bits t s = Some u -> of_ty bits t = Some u.
  Proof.
    destruct t as [[w|i|]|]; try discriminate; destruct s; try discriminate; cbn; auto.
    - destruct (ity_eqb i t); [auto|discriminate].
    - destruct (in_range i z); [auto|discriminate].
  Qed.
  Lemma const_sound : forall d n s, (rank n < d)%nat -> const_ty bits D n = Some s -> good bits checked (const_at bits nan_of std checked lib d n) s.
  Proof.
    induction d as [|d IH]; intros n s L C; [lia|]. unfold const_ty in C. destruct (D n) as [[t|t|ps r]|] eqn:E; try discriminate.
    unfold decls in E. cbn [const_at]. destruct (find_item lib n) as [i|] eqn:FI; [|discriminate]. destruct (find_in n i FI) as [I N].
    pose proof (item_below i n I N) as O. destruct i as [n0 t0 e|n0 t0|n0 ps r b|k]; try discriminate. cbn [decl_of] in E. injection E as ->. cbn [item_ok] in O.
    destruct (typeof bits (no_fn (below (rank n) D)) no_hole [] e) as [u|] eqn:T; [|discriminate].
    rewrite below_ty in O.
    assert (O' : exists u', declared bits (ty_of D t) u = Some u') by (destruct u; try discriminate; destruct (declared bits (ty_of D t) _); try discriminate; eauto).
    destruct O' as (u' & O'). assert (u' = s) by (apply of_declared in O'; congruence). subst u'.
    assert (NL : forall z, u <> SLitI z) by (intros z ->; discriminate).
    apply (good_bind bits checked _ u).
    - apply (eval_sound bits nan_of std checked std_ln lib (fun _ _ => stuck) (const_at bits nan_of std checked lib d) (no_fn (below (rank n) D))
        ) with (g := []).
      + intros x. rewrite no_fn_ty_of, below_ty. apply resolve_decls.
      + intros m v Cm. unfold const_ty, no_fn, below in Cm. destruct (D m) as [[tm|tm|ps r]|] eqn:Dm; try discriminate.
        * destruct (Nat.ltb (rank m) (rank n)) eqn:K; [|discriminate]. destruct (Nat.ltb (rank m) const_depth); [|discriminate]. cbn [andb] in Cm. apply Nat.ltb_lt in K. apply IH; [lia|]. unfold const_ty. rewrite Dm.
          rewrite <- Cm. f_equal. symmetry. etransitivity; [apply (no_fn_ty_of (below (rank n) D))|]. apply below_ty.
        * destruct (Nat.ltb (rank m) (rank n)); discriminate.
      + intros f ts v vs Cf. exfalso. unfold call_ty, no_fn, below in Cf. destruct (D f) as [[tm|tm|ps r]|]; try discriminate; destruct (Nat.ltb (rank f) (rank n)), (Nat.ltb (rank f) const_depth); discriminate.
      + intros m. reflexivity.
      + exact T.
    - intros v Hv. destruct u; try (destruct v; try contradiction); unfold declared in O'; clear O C.
      + destruct (ty_of D t) as [[w| |]|]; try discriminate. destruct (w =? bits); [|discriminate]. injection O' as <-. exact Logic.I.
      + destruct (ty_of D t) as [[w|j|]|]; try discriminate. destruct (ity_eqb j t0) eqn:Q; [|discriminate]. injection O' as <-. apply ity_eq in Q. cbn in *. congruence.
      + destruct (ty_of D t) as [[w|j|]|]; try discriminate. injection O' as <-. exact Logic.I.
      + destruct (ty_of D t) as [[w| |]|]; try discriminate. destruct (w =? bits); [|discriminate]. injection O' as <-. exact Logic.I.
      + destruct (ty_of D t) as [[w| |]|]; try discriminate. destruct (w =? bits); [|discriminate]. injection O' as <-. exact Logic.I.
      + exfalso. exact (NL _ eq_refl).
      + destruct (ty_of D t) as [[w| |]|]; discriminate.
  Qed.

  (** *** Functions *)
  Lemma declare_panic t v : declare bits t v <> Panic.
  Proof.
    destruct t as [[w|i|]|]; [| | |destruct v; discriminate]; destruct v as [x|j z|b|z|x|a b]; unfold declare, stuck; try discriminate.
    all: match goal with |- context [if ?c then _ else _] => destruct c end; discriminate.
  Qed.
  Lemma bind_sound ps ts : args_ok bits D (map snd ps) ts = true -> forall vs, Forall2 (has_ty bits) vs ts ->
    exists g env, params_ty bits D ps = Some g /\ bind_params bits lib ps vs = Ok env /\ env_ok bits g env.
  Proof.
    revert ts. induction ps as [|[n t] r IH]; intros ts A vs H.
    - destruct ts; [|discriminate]. inversion H. subst. exists [], []. split; [reflexivity|]. split; [reflexivity|]. intros m. reflexivity.
    - destruct ts as [|s ts]; [discriminate|]. cbn in A. destruct (declared bits (ty_of D t) s) as [u|] eqn:E; [|discriminate].
      inversion H as [|v ? q ? Hv Hq]. subst. destruct (IH ts A q Hq) as (g & env & P & B & G).
      pose proof (declare_sound bits checked (ty_of D t) s v u E Hv) as Dv. cbn [params_ty bind_params]. rewrite (of_declared _ _ _ E), P, resolve_decls.
      pose proof (declare_panic (ty_of D t) v) as NP.
      destruct (declare bits (ty_of D t) v) as [w| |]; cbn in Dv |- *; [|contradiction|congruence]. rewrite B. cbn. eexists _, _. split; [reflexivity|]. split; [reflexivity|].
      apply env_cons; assumption.
  Qed.
  Theorem run_sound : forall d f ts s vs, (rank f < d)%nat -> call_ty bits D f ts = Some s -> Forall2 (has_ty bits) vs ts ->
    good bits checked (run bits nan_of std checked lib d f vs) s.
  Proof.
    induction d as [|d IH]; intros f ts s vs L C H; [lia|]. unfold call_ty in C. destruct (D f) as [[t|t|ps r]|] eqn:E; try discriminate.
    destruct (args_ok bits D ps ts) eqn:A; [|discriminate]. unfold decls in E. cbn [run]. destruct (find_item lib f) as [i|] eqn:FI; [|discriminate].
    destruct (find_in f i FI) as [I N]. pose proof (item_below i f I N) as O. destruct i as [n0 t0 e|n0 t0|n0 qs r0 b|k]; try discriminate. cbn [decl_of] in E. injection E as <- <-.
    destruct (bind_sound qs ts A vs H) as (g & env & P & B & G). rewrite B. cbn [rbind]. cbn [item_ok] in O.
    assert (P' : params_ty bits (below (rank f) D) qs = Some g).
    { rewrite <- P. clear. induction qs as [|[n t] q IHq]; [reflexivity|]. cbn. rewrite below_ty, IHq. reflexivity. }
    rewrite P' in O. destruct (typeof bits (below (rank f) D) no_hole g (EBlock b)) as [u|] eqn:T; [|discriminate].
    apply (good_bind bits checked _ u).
    - apply (eval_sound bits nan_of std checked std_ln lib (run bits nan_of std checked lib d) (const_of bits nan_of std checked lib) (below (rank f) D)) with (g := g).
      + intros x. rewrite below_ty. apply resolve_decls.
      + intros m v Cm. unfold const_ty, below in Cm. destruct (D m) as [[tm|tm|ps r]|] eqn:Dm; try discriminate.
        * destruct (Nat.ltb (rank m) (rank f)); [|discriminate]. destruct (Nat.ltb (rank m) const_depth) eqn:K; [|discriminate]. cbn [andb] in Cm. apply Nat.ltb_lt in K.
          apply const_sound; [exact K|]. unfold const_ty. rewrite Dm. rewrite <- Cm. f_equal. symmetry. apply (below_ty (rank f) D).
        * destruct (Nat.ltb (rank m) (rank f)); discriminate.
      + intros h hs v ws Ch Hw. assert (K : (rank h < rank f)%nat /\ call_ty bits D h hs = Some v).
        { unfold call_ty in *. unfold below in Ch at 1. destruct (D h) as [[tm|tm|ps' r']|] eqn:Dh; try discriminate.
          - destruct (Nat.ltb (rank h) (rank f)), (Nat.ltb (rank h) const_depth); discriminate.
          - destruct (Nat.ltb (rank h) (rank f)) eqn:K; [|discriminate]. apply Nat.ltb_lt in K. split; [exact K|].
            assert (Q : forall l q, args_ok bits (below (rank f) D) l q = args_ok bits D l q).
            { induction l as [|p l IHl]; intros [|a q]; try reflexivity. cbn. rewrite below_ty, IHl. reflexivity. }
            rewrite Q in Ch. unfold ret_of in *. rewrite !below_ty in Ch. exact Ch. }
        destruct K as [K1 K2]. apply (IH h hs v ws); [lia|exact K2|exact Hw].
      + exact G.
      + exact T.
    - intros v Hv. unfold returns in O. unfold ret_of in C. rewrite !below_ty in O. destruct (String.eqb r0 pair_text).
      + destruct u as [| | | | |a b']; try discriminate. destruct a; try discriminate. destruct b'; try discriminate.
        destruct (of_ty bits (ty_of D "fty")) as [[]|]; try discriminate. injection C as <-. destruct v; cbn in Hv; try contradiction. exact Hv.
      + destruct (declared bits (ty_of D r0) u) as [u'|] eqn:Q; [|discriminate]. pose proof (of_declared _ _ _ Q) as R. rewrite C in R. injection R as <-.
        assert (NV : match v with VPair _ _ => Ok v | _ => declare bits (resolve lib r0) v end = declare bits (resolve lib r0) v).
        { destruct v; try reflexivity. exfalso. destruct u; cbn in Hv; try contradiction. destruct (ty_of D r0) as [[]|]; discriminate. }
        rewrite NV, resolve_decls. exact (declare_sound bits checked _ u v s Q Hv).
  Qed.
End Program.
