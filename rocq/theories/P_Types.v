(** C48: which generated libraries type-check, and what that gives. *)
From Coq Require Import List String Bool ZArith.
From Flocq Require Import IEEE754.Binary.
From Verif Require Import Res Syntax Functions FunctionsFacts Item GenCode GenCodeFacts GenSem GenRun Poly UseNumberType NumberTypeFacts GenType GenTypeLib GenTypeSound GenTypeSub.
Import ListNotations.
Open Scope string_scope.
Open Scope list_scope.
Open Scope Z_scope.

(** ** C48 generated libraries type-check *)

(** Exactly the libraries that define what they mention and leave these four
    items out. *)
Theorem C48_criterion_partial :
  forall bits sub names exclude lib, bits = 32 \/ bits = 64 -> plain_sub sub -> fits bits sub ->
  library bits sub names exclude = Some lib ->
  (well_typed bits lib <->
   self_contained lib /\ forall it n, In it lib -> item_name it = Some n -> ~ In n ["ONE_MASK"; "ONE_BITS"; "log2"; "runif"]).
Proof. exact library_types. Qed.
Print Assumptions C48_criterion_partial.

Theorem C48_requests_partial :
  forall bits sub names exclude lib, bits = 32 \/ bits = 64 -> plain_sub sub -> fits bits sub ->
  (forall n, In n exclude -> ~ In n table_names) ->
  (forall n, In n names -> In n table_names ->
     In n ["fty"; "uty"; "ity"; "round"; "nextafter"; "asin"; "acos"; "ln_1p"; "pnorm"; "sin"; "cos"; "sin_cos"; "invtrig"; "trig"]) ->
  library bits sub names exclude = Some lib -> well_typed bits lib.
Proof. exact library_small. Qed.
Print Assumptions C48_requests_partial.

(** The libraries of all functions do not type-check, whatever is spliced in. *)
Theorem C48_libm_refuted :
  forall bits sub names exclude lib, bits = 32 \/ bits = 64 -> plain_sub sub ->
  (forall n, In n exclude -> ~ In n table_names) -> In "libm" names \/ In "all" names ->
  library bits sub names exclude = Some lib -> ~ well_typed bits lib.
Proof. exact library_libm. Qed.
Print Assumptions C48_libm_refuted.

(** What libmgen splices in fits: a polynomial whose numbers got a type. *)
Theorem C48_spliced :
  forall F kind bits v ts p e e', working kind bits -> reads_back F -> v = "x" \/ v = "z" ->
  mul_add_polynomial ts [v] p = Ok e -> use_number_type F kind bits e = Ok e' ->
  typeof bits no_decl no_hole [(v, SFlt)] e' = Some SFlt.
Proof. intros F kind bits v ts p e e' W RB HV. exact (poly_typed F kind bits W RB v HV ts p e e'). Qed.
Print Assumptions C48_spliced.

(** Functions of libraries that type-check take values of the types of their
    parameters to a value of their result type; four nested calls are enough.
    Only a checked overflow stops them. *)
Theorem C48_runs :
  forall bits sub names exclude lib, bits = 32 \/ bits = 64 -> plain_sub sub ->
  library bits sub names exclude = Some lib -> well_typed bits lib ->
  forall nan_of std checked, (forall x, std "ln" [x] <> None) ->
  forall f ps r b vs d, In (IFn f ps r b) lib -> Forall2 (of_type bits lib) (map snd ps) vs ->
  (exists v, run bits nan_of std checked lib (4 + d) f vs = Ok v /\ of_result bits lib r v) \/
  (checked = true /\ run bits nan_of std checked lib (4 + d) f vs = Panic).
Proof.
  intros bits sub names exclude lib HB HP HL WT nan_of std checked SL f ps r b vs d I H.
  exact (library_runs bits sub names exclude lib HB HP HL WT nan_of std checked SL f ps r b vs d I H).
Qed.
Print Assumptions C48_runs.

Theorem C48_consts :
  forall bits sub names exclude lib, bits = 32 \/ bits = 64 -> plain_sub sub ->
  library bits sub names exclude = Some lib -> well_typed bits lib ->
  forall nan_of std checked, (forall x, std "ln" [x] <> None) ->
  forall n t e, In (IConst n t e) lib ->
  (exists v, const_of bits nan_of std checked lib n = Ok v /\ of_type bits lib t v) \/
  (checked = true /\ const_of bits nan_of std checked lib n = Panic).
Proof.
  intros bits sub names exclude lib HB HP HL WT nan_of std checked SL n t e I.
  exact (library_consts_ok bits sub names exclude lib HB HP HL WT nan_of std checked SL n t e I).
Qed.
Print Assumptions C48_consts.

(** Something to splice in: x.mul_add(x, -0.25f64), in atan2 with z, and 0.5 for constants. *)
Definition line (f : string) : expr :=
  if is_const_item (template 64 f) then ELit (LFloat "0.5" "")
  else EMethodCall (EPath [hole_var f]) "mul_add" None [EPath [hole_var f]; EUnary UNeg (ELit (LFloat "0.25" "f64"))].
Lemma line_plain : plain_sub line.
Proof. intros f n H. unfold line, hole_var in H. destruct (is_const_item (template 64 f)); [|destruct (String.eqb f "atan2")]; cbn in H; cbn; tauto. Qed.
Lemma line_fits : fits 64 line.
Proof. intros n. unfold line. destruct (is_const_item (template 64 n)) eqn:E; [exists SLitF; split; reflexivity|]. unfold hole_var. destruct (String.eqb n "atan2"); reflexivity. Qed.

Theorem C48_refuted : exists names lib, library 64 line names [] = Some lib /\ self_contained lib /\ ~ well_typed 64 lib.
Proof.
  exists ["all"]. destruct (library_exists 64 line ["all"] []) as (lib & E). exists lib. split; [exact E|].
  assert (X : forall k, In k (@nil string) -> ~ In k table_names) by (intros k []). split.
  - refine (library_safe 64 line ["all"] [] lib (or_intror eq_refl) line_plain X (or_intror (or_intror _)) E). left. reflexivity.
  - refine (library_libm 64 line ["all"] [] lib (or_intror eq_refl) line_plain X (or_intror _) E). left. reflexivity.
Qed.
Print Assumptions C48_refuted.

(** trig has functions, constants and types; sin of a float is a float *)
Example C48_example :
  (exists lib, library 64 line ["trig"] [] = Some lib /\ well_typed 64 lib /\ Nat.ltb 6 (List.length lib) = true /\
    forall nan_of std checked x d, (forall x, std "ln" [x] <> None) ->
      (exists y, run 64 nan_of std checked lib (4 + d) "sin" [VFlt x] = Ok (VFlt y)) \/ (checked = true /\ run 64 nan_of std checked lib (4 + d) "sin" [VFlt x] = Panic)) /\
  fits 64 line.
Proof.
  split; [|exact line_fits]. destruct (library_exists 64 line ["trig"] []) as (lib & E). exists lib. split; [exact E|].
  assert (W : well_typed 64 lib).
  { refine (C48_requests_partial 64 line ["trig"] [] lib (or_intror eq_refl) line_plain line_fits _ _ E); [intros k []|]. intros n [<-|[]] _. cbn. tauto. }
  split; [exact W|].
  assert (L : option_map (fun l => (Nat.ltb 6 (List.length l), resolve l "fty")) (library 64 line ["trig"] []) = Some (true, Some (TFlt 64))) by (vm_compute; reflexivity).
  rewrite E in L. cbn [option_map] in L. injection L as L1 RF. split; [exact L1|]. intros nan_of std checked x d SL.
  assert (I : exists b, In (IFn "sin" [("arg", "fty")] "fty" b) lib).
  { assert (K : option_map (existsb (fun i => match i with IFn "sin" [("arg", "fty")] "fty" b => true | _ => false end)) (library 64 line ["trig"] []) = Some true) by (vm_compute; reflexivity).
    rewrite E in K. cbn [option_map] in K. injection K as K. apply existsb_exists in K. destruct K as (i & I & K). destruct i as [| |n ps r b|]; try discriminate. exists b.
    revert K I. clear. intros K I.
    repeat match type of K with
    | (match ?s with EmptyString => _ | String _ _ => _ end) = true => destruct s; try discriminate
    | (match ?c with Ascii.Ascii _ _ _ _ _ _ _ _ => _ end) = true => destruct c; try discriminate
    | (if ?b then _ else _) = true => destruct b; try discriminate
    | (match ?l with [] => _ | _ :: _ => _ end) = true => destruct l; try discriminate
    | (match ?p with (_, _) => _ end) = true => destruct p; try discriminate
    end. exact I. }
  destruct I as (b & I).
  assert (T : of_type 64 lib "fty" (VFlt x)) by (unfold of_type; rewrite RF; reflexivity).
  destruct (C48_runs 64 line ["trig"] [] lib (or_intror eq_refl) line_plain E W nan_of std checked SL "sin" [("arg", "fty")] "fty" b [VFlt x] d I) as [(v & R & Tv)|R]; [constructor; [exact T|constructor]| |right; exact R].
  left. unfold of_result in Tv. cbn [String.eqb Ascii.eqb Bool.eqb] in Tv. unfold of_type in *.
  rewrite RF in Tv. destruct v as [y| | | | | ]; try contradiction. exists y. exact R.
Qed.
