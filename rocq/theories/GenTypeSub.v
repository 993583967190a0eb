(** The types of emitted polynomials; generated libraries run. *)
From Coq Require Import List String Bool ZArith Ascii Lia Arith.
From Flocq Require Import IEEE754.Binary.
From Verif Require Import Res Dec DecStr Syntax Parse Poly FloatBits MulAddFacts Visitor UseNumberType NumberTypeFacts HornerFloat HornerParity
  Functions FunctionsFacts Item GenCode GenCodeFacts GenSem GenRun GenFloat GenType GenTypeFacts GenTypeLib GenTypeSound.
Import ListNotations.
Open Scope string_scope.
Open Scope list_scope.
Open Scope Z_scope.

(** ** Numbers *)
Lemma literal_typed bits l (x : flt bits) : literal bits l = Ok (VFlt x) -> lit_ty bits l = Some SFlt.
Proof.
  unfold literal, lit_ty. destruct l as [d s|d s|b|k]; try discriminate; destruct (parse_dec (list_ascii_of_string d)); try discriminate.
  - destruct (negb _); [discriminate|]. destruct (String.eqb s ""); [discriminate|]. destruct (prim s) as [[w|t|]|]; try discriminate.
    + destruct (w =? bits); [reflexivity|discriminate].
    + destruct (in_range t (mant b)); discriminate.
  - destruct (String.eqb s ""); [discriminate|]. destruct (prim s) as [[w|t|]|]; try discriminate. destruct (w =? bits); [reflexivity|discriminate].
Qed.
Section Numbers.
  Context (F : floats) (kind : string) (bits : Z) (W : working kind bits) (RB : reads_back F).
  Context (v : string) (HV : v = "x" \/ v = "z").
  Definition typed (e : expr) : Prop := typeof bits no_decl no_hole [(v, SFlt)] e = Some SFlt.
  Lemma quote_typed b (x : flt b) e : b = bits -> (b = 32 \/ b = 64) -> quote_float F b (float_suffix b) x = Ok e -> typed e.
  Proof.
    intros -> B. unfold quote_float. destruct (Binary.is_finite _ _ x) eqn:FX; [|discriminate]. intros E. injection E as <-.
    destruct (fabs_fin bits x) as [F1 F2]. assert (F3 : finite (fabs bits x) = true) by (rewrite F1; exact FX).
    pose proof (literal_typed bits _ _ (RB bits (fabs bits x) B F3 F2)) as L. unfold typed.
    destruct (Bsign _ _ x); cbn [typeof]; rewrite L; reflexivity.
  Qed.
  Lemma number_typed l e : is_number l = true -> retype_lit F kind bits l = Ok e -> typed e.
  Proof.
    intros N E. assert (R : exists d, retype F kind bits d l = Ok e) by (destruct l; try discriminate; eauto). destruct R as [d R]. unfold retype in R.
    destruct (parse_dec (list_ascii_of_string d)) as [n|]; [|discriminate].
    pose proof W as WW. destruct WW as [[-> [Eb|Eb]]|[-> Eb]]; rewrite Eb in R; cbn [String.eqb Ascii.eqb Bool.eqb andb Z.eqb Pos.eqb] in R.
    - apply (quote_typed 32 (to_f32 F n)); auto.
    - apply (quote_typed 64 (to_f64 F n)); auto.
    - injection R as <-. unfold typed, quote_bits. rewrite t_call2, Eb. assert (Nf : slookup "f32" [(v, SFlt)] = None) by (clear -HV; destruct HV as [-> | ->]; reflexivity). rewrite Nf.
      change (ty_of no_decl "f32") with (Some (TFlt 32)). cbn [types typeof lit_ty]. rewrite list_ascii_of_string_of_list_ascii.
      pose proof (to_bits_range 32 (to_f32 F n)) as Rg. rewrite parse_zdigits by lia. cbn [scale mant Z.eqb negb].
      assert (I : in_range U32 (to_bits (to_f32 F n)) = true).
      { unfold in_range, imin, imax, mw, ew in *. cbn in Rg |- *. apply andb_true_intro. split; apply Z.leb_le; lia. }
      change (String.eqb "u32" "") with false. change (prim "u32") with (Some (TInt U32)). cbv iota. rewrite I. reflexivity.
  Qed.
  Lemma num_expr_typed c e : use_number_type F kind bits (num_expr c) = Ok e -> typed e.
  Proof.
    assert (G : forall t e, retype_lit F kind bits (lex_number t "") = Ok e -> typed e).
    { intros t e'. apply number_typed. unfold lex_number. destruct (float_text _ _); reflexivity. }
    unfold use_number_type, num_expr. destruct (dec_repr c) as [|ch r].
    - cbn [visit number_visitor v_expr v_lit]. unfold def_expr. apply G.
    - destruct (Ascii.eqb ch "-").
      + cbn [visit number_visitor v_expr v_unary v_lit]. unfold def_expr, def_unary.
        destruct (retype_lit F kind bits (lex_number (string_of_list_ascii r) "")) as [q| |] eqn:Q; try discriminate. cbn. intros E. injection E as <-.
        unfold typed. cbn [typeof]. rewrite (G _ _ Q). reflexivity.
      + cbn [visit number_visitor v_expr v_lit]. unfold def_expr. apply G.
  Qed.
  Lemma chain_typed arg h l : use_number_type F kind bits arg = Ok arg -> typed arg -> forall e,
    use_number_type F kind bits (chain arg h (rev l)) = Ok e -> typed e.
  Proof.
    intros Ua Ta. unfold chain. induction l as [|c l IH]; intros e.
    - cbn [rev fold_left]. unfold use_number_type. cbn [visit number_visitor v_expr v_paren]. unfold def_expr, def_paren. fold (number_visitor F kind bits).
      destruct (visit (number_visitor F kind bits) (num_expr h)) as [q| |] eqn:Q; try discriminate. cbn. intros E. injection E as <-.
      exact (num_expr_typed h q Q).
    - cbn [rev]. rewrite fold_left_app. cbn [fold_left]. unfold use_number_type in *. cbn [visit number_visitor v_expr v_method map]. unfold def_expr, def_method.
      fold (number_visitor F kind bits). rewrite Ua.
      destruct (visit (number_visitor F kind bits) (fold_left _ (rev l) _)) as [q| |] eqn:Q; try discriminate.
      destruct (visit (number_visitor F kind bits) (num_expr c)) as [qc| |] eqn:Qc; try discriminate. cbn. intros E. injection E as <-.
      unfold typed. rewrite t_method. rewrite (IH q eq_refl). cbn [types]. rewrite Ta, (num_expr_typed c qc Qc). reflexivity.
  Qed.
  (** polynomials, retyped, are floats *)
  Theorem poly_typed ts p e e' : mul_add_polynomial ts [v] p = Ok e -> use_number_type F kind bits e = Ok e' -> typed e'.
  Proof.
    intros ME U. destruct (List.length ts) as [|k'] eqn:L.
    { exfalso. destruct ts; [|discriminate]. revert ME. unfold mul_add_polynomial. destruct p; discriminate. }
    destruct (last_split ts k' L) as (h & E & Hn). destruct (right_parity p (S k')) eqn:RP.
    2:{ destruct ts as [|c r]; [discriminate L|]. rewrite (proj2 (mul_add_refused (c :: r) [v] p)) in ME; [discriminate|]. split; [discriminate|]. rewrite L. exact RP. }
    rewrite (mul_add_ok ts [v] p k' h L Hn RP) in ME. injection ME as <-. unfold emitted in U. rewrite L in U. cbn [pred] in U.
    assert (Tv : typed (var_square [v])) by (unfold typed; destruct HV as [-> | ->]; reflexivity). assert (Tx : typed (EPath [v])) by (unfold typed; destruct HV as [-> | ->]; reflexivity).
    destruct p.
    - unfold use_number_type in U. cbn [visit number_visitor v_expr v_binary] in U. unfold def_expr, def_binary in U. fold (number_visitor F kind bits) in U.
      match type of U with context [chain ?a ?b (rev ?c)] => set (l := c) in *; pose proof (chain_typed a b l eq_refl Tv) as G end. unfold use_number_type in G.
      destruct (visit (number_visitor F kind bits) (chain (var_square [v]) h (rev l))) as [q| |]; try discriminate. cbn in U. injection U as <-.
      specialize (G q eq_refl). unfold typed in *. cbn [typeof] in Tx |- *. rewrite G, Tx. reflexivity.
    - exact (chain_typed (var_square [v]) h _ eq_refl Tv e' U).
    - exact (chain_typed (EPath [v]) h _ eq_refl Tx e' U).
  Qed.
End Numbers.

(** ** Ranks *)
Definition ranks : list (string * nat) :=
  [("recip_approx", 1); ("sqrt_approx", 1); ("cbrt_approx", 1); ("sinh", 2); ("cosh", 2); ("tanh", 2); ("asinh", 3); ("acosh", 3); ("atanh", 3);
   ("asin", 1); ("acos", 1); ("atan", 1); ("atan2", 1); ("exp2", 1); ("exp", 2); ("exp_m1", 1); ("log2", 1); ("ln", 2); ("log10", 2); ("log", 2);
   ("powf", 2); ("powi", 3); ("sqrt", 2); ("cbrt", 1); ("recip", 2); ("hypot", 1); ("runif", 1); ("dnorm", 2); ("rnorm", 2); ("sin", 1); ("cos", 1);
   ("tan", 1); ("sin_cos", 2)]%nat.
Definition rank_of (n : string) : nat := match find (fun p => String.eqb (fst p) n) ranks with Some (_, k) => k | None => 0%nat end.
(** the deepest nesting of calls *)
Definition call_depth : nat := 4.
Lemma rank_depth n : (rank_of n < call_depth)%nat.
Proof.
  unfold rank_of, call_depth. destruct (find _ ranks) as [[m k]|] eqn:E; [|lia]. apply find_some in E. destruct E as [I _].
  assert (K : forallb (fun p => Nat.ltb (snd p) 4) ranks = true) by reflexivity. rewrite forallb_forall in K. specialize (K _ I). apply Nat.ltb_lt in K. exact K.
Qed.
Definition rank_ok (bits : Z) (f : fn) : bool :=
  forallb (fun m => match full bits m with
    | Some (DConst _) => Nat.ltb (rank_of m) (rank_of (f_name f)) && Nat.ltb (rank_of m) const_depth
    | Some (DFn _ _) => Nat.ltb (rank_of m) (rank_of (f_name f))
    | _ => true end) (used bits (f_name f)).
Lemma ranks_checked bits : bits = 32 \/ bits = 64 -> forallb (rank_ok bits) FUNCTIONS = true.
Proof. intros [-> | ->]; vm_compute; reflexivity. Qed.
Lemma library_ranked bits sub names exclude lib : bits = 32 \/ bits = 64 -> plain_sub sub -> library bits sub names exclude = Some lib -> ranked lib rank_of.
Proof.
  intros HB HP HL i n m I N Fr. destruct (decls lib m) as [d|] eqn:Dm; [|exact Logic.I].
  assert (X : exists it, In it lib /\ item_name it = Some m).
  { unfold decls in Dm. destruct (find_item lib m) as [it|] eqn:E; [|discriminate]. apply find_in in E. eauto. }
  pose proof (lib_table bits sub names exclude lib HB HL m X) as T. rewrite (decl_full bits sub names exclude lib HB HL m X) in Dm.
  destruct (lib_row bits sub names exclude lib HB HL i I) as (j & f & En & C & _ & N'). rewrite N in N'. injection N' as ->.
  pose proof (code_used bits sub HB HP f i m (entry_In _ _ En) C Fr T) as U. pose proof (ranks_checked bits HB) as K. rewrite forallb_forall in K.
  specialize (K f (entry_In _ _ En)). unfold rank_ok in K. rewrite forallb_forall in K. specialize (K m U). rewrite Dm in K.
  destruct d; [apply andb_prop in K; destruct K as [K1 K2]; apply Nat.ltb_lt in K1, K2; auto|exact Logic.I|apply Nat.ltb_lt in K; exact K].
Qed.

(** ** Generated programs *)
(** a value of the type called [t] *)
Definition of_type (bits : Z) (lib : list item) (t : string) (v : val bits) : Prop :=
  match resolve lib t, v with
  | Some (TFlt w), VFlt _ => w = bits
  | Some (TInt i), VInt j _ => i = j
  | Some TBool, VBool _ => True
  | _, _ => False
  end.
(** of the result type called [r] *)
Definition of_result (bits : Z) (lib : list item) (r : string) (v : val bits) : Prop :=
  if String.eqb r "(fty, fty)" then match v with VPair a b => of_type bits lib "fty" a /\ of_type bits lib "fty" b | _ => False end
  else of_type bits lib r v.
Section Run.
  Variables (bits : Z) (sub : string -> expr) (names exclude : list string) (lib : list item).
  Hypothesis HB : bits = 32 \/ bits = 64.
  Hypothesis HP : plain_sub sub.
  Hypothesis HL : library bits sub names exclude = Some lib.
  Hypothesis WT : well_typed bits lib.
  Lemma find_unique it n : In it lib -> item_name it = Some n -> find_item lib n = Some it.
  Proof.
    intros I N. destruct (lib_row bits sub names exclude lib HB HL it I) as (i & f & En & _ & C & N'). rewrite N in N'. injection N' as ->.
    rewrite (lib_has bits sub names exclude lib (f_name f) HB HL (ex_intro _ it (conj I N))), C. reflexivity.
  Qed.
  Lemma type_of_value t v : of_type bits lib t v -> exists s u, has_ty bits v s /\ declared bits (ty_of (decls lib) t) s = Some u.
  Proof.
    unfold of_type. rewrite resolve_decls. destruct (ty_of (decls lib) t) as [[w|i|]|]; destruct v as [x|j z|b|z|x|a b]; try contradiction.
    - intros ->. exists SFlt, SFlt. cbn. rewrite Z.eqb_refl. auto.
    - intros ->. exists (SInt j), (SInt j). cbn. destruct j; auto.
    - intros _. exists SBool, SBool. cbn. auto.
  Qed.
  Lemma value_of_type t s v : of_ty bits (ty_of (decls lib) t) = Some s -> has_ty bits v s -> of_type bits lib t v.
  Proof.
    unfold of_type. rewrite resolve_decls. destruct (ty_of (decls lib) t) as [[w|i|]|]; cbn; try discriminate.
    - destruct (w =? bits) eqn:E; [|discriminate]. apply Z.eqb_eq in E. intros Q. injection Q as <-. destruct v; cbn; tauto.
    - intros Q. injection Q as <-. destruct v; cbn; try tauto. 
    - intros Q. injection Q as <-. destruct v; cbn; tauto.
  Qed.
  Lemma values_typed ps : forall vs, Forall2 (of_type bits lib) ps vs -> exists ts, Forall2 (has_ty bits) vs ts /\ args_ok bits (decls lib) ps ts = true.
  Proof.
    induction ps as [|t ps IH]; intros vs H; inversion H as [|? v ? q Hv Hq]; subst; [exists []; split; constructor|].
    destruct (type_of_value t v Hv) as (s & u & A & B). destruct (IH q Hq) as (ts & C & E). exists (s :: ts). split; [constructor; assumption|]. cbn. rewrite B. exact E.
  Qed.
  Variables (nan_of : list (flt bits) -> { x : flt bits | Binary.is_nan _ _ x = true }) (std : string -> list (flt bits) -> option (flt bits)) (checked : bool).
  Hypothesis std_ln : forall x, std "ln" [x] <> None.
  Theorem library_runs f ps r b vs d : In (IFn f ps r b) lib -> Forall2 (of_type bits lib) (map snd ps) vs ->
    (exists v, run bits nan_of std checked lib (call_depth + d) f vs = Ok v /\ of_result bits lib r v) \/
    (checked = true /\ run bits nan_of std checked lib (call_depth + d) f vs = Panic).
  Proof.
    intros I H. destruct (values_typed (map snd ps) vs H) as (ts & Hts & A). pose proof (WT _ I) as O. cbn [item_ok] in O.
    destruct (params_ty bits (decls lib) ps) as [g|]; [|discriminate]. destruct (typeof bits (decls lib) no_hole g (EBlock b)) as [u|]; [|discriminate].
    assert (R : exists s, ret_of bits (decls lib) r = Some s /\ forall v, has_ty bits v s -> of_result bits lib r v).
    { unfold returns in O. unfold ret_of, of_result. change "(fty, fty)" with pair_text. destruct (String.eqb r pair_text).
      - destruct u as [| | | | |[] []]; try discriminate. destruct (of_ty bits (ty_of (decls lib) "fty")) as [[]|] eqn:E; try discriminate.
        eexists. split; [reflexivity|]. intros v Hv. destruct v; cbn in Hv; try contradiction. split; apply (value_of_type "fty" SFlt); tauto.
      - destruct (declared bits (ty_of (decls lib) r) u) as [u'|] eqn:E; [|discriminate]. exists u'. pose proof (of_declared bits _ _ _ E) as E'. split; [exact E'|].
        intros v Hv. exact (value_of_type r u' v E' Hv). }
    destruct R as (s & Rs & Rv).
    assert (C : call_ty bits (decls lib) f ts = Some s).
    { unfold call_ty, decls at 1. rewrite (find_unique _ f I eq_refl). cbn [decl_of]. rewrite A. exact Rs. }
    assert (Dp : (rank_of f < call_depth + d)%nat) by (pose proof (rank_depth f); lia).
    pose proof (run_sound bits nan_of std checked std_ln lib WT rank_of (library_ranked bits sub names exclude lib HB HP HL) (call_depth + d) f ts s vs Dp C Hts) as G.
    destruct (run bits nan_of std checked lib (call_depth + d) f vs) as [v| |]; cbn in G; [left; exists v; auto|contradiction|right; auto].
  Qed.
  Theorem library_consts_ok n t e : In (IConst n t e) lib ->
    (exists v, const_of bits nan_of std checked lib n = Ok v /\ of_type bits lib t v) \/ (checked = true /\ const_of bits nan_of std checked lib n = Panic).
  Proof.
    intros I. pose proof (WT _ I) as O. cbn [item_ok] in O. destruct (typeof bits (no_fn (decls lib)) no_hole [] e) as [u|]; [|discriminate].
    assert (O' : exists u', declared bits (ty_of (decls lib) t) u = Some u') by (destruct u; try discriminate; destruct (declared bits (ty_of (decls lib) t) _); try discriminate; eauto).
    destruct O' as (u' & E). pose proof (of_declared bits _ _ _ E) as E'.
    assert (C : const_ty bits (decls lib) n = Some u') by (unfold const_ty, decls at 1; rewrite (find_unique _ n I eq_refl); exact E').
    assert (Dp : (rank_of n < const_depth)%nat) by exact (rank_depth n).
    pose proof (const_sound bits nan_of std checked std_ln lib WT rank_of (library_ranked bits sub names exclude lib HB HP HL) const_depth n u' Dp C) as G.
    change (const_at bits nan_of std checked lib const_depth n) with (const_of bits nan_of std checked lib n) in G.
    destruct (const_of bits nan_of std checked lib n) as [v| |]; cbn in G; [left; exists v; split; [reflexivity|exact (value_of_type t u' v E' G)]|contradiction|right; auto].
  Qed.
End Run.
