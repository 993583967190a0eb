(** Properties C24-C26, C46, C47: the generated library. Theorems only.
    [entry tbl i f]: [f] is the first entry of its name, at index [i];
    [reach]: reachable from a request through declared dependencies avoiding
    excluded names; [self_contained lib]: every name of the function table
    that an item of [lib] mentions (and does not bind itself) is the name of
    an item of [lib]; [defined_before_use]: of an earlier item.  [plain_sub]:
    the spliced approximations mention only x, z and f32/f64. *)
From Coq Require Import List String Bool ZArith Arith Lia Sorted.
From Verif Require Import Res Syntax Item Functions FunctionsFacts GenCode GenCodeFacts.
Import ListNotations.
Open Scope string_scope.
Open Scope list_scope.

(** ** C24 the closure is reachability *)

Theorem C24_exactly_reachable :
  forall tbl names exclude, exists l, get_functions_and_deps tbl names exclude = Some l /\
  forall i f, In (i, f) l <-> entry tbl i f /\ reach tbl names exclude (f_name f).
Proof. exact closure_exact. Qed.
Print Assumptions C24_exactly_reachable.

(** A cyclic table with a name that is not in it and an exclusion. *)
Example C24_example :
  let t := [Fn "a" ["b"; "zz"] true; Fn "b" ["a"; "c"; "d"] true; Fn "c" [] true; Fn "d" ["e"] true; Fn "e" [] true] in
  option_map (map (fun p => f_name (snd p))) (get_functions_and_deps t ["b"; "nope"] ["d"]) = Some ["a"; "b"; "c"].
Proof. vm_compute. reflexivity. Qed.

(** ** C25 once, in order, whatever the request looks like *)

Theorem C25_table_order :
  forall tbl names exclude l, get_functions_and_deps tbl names exclude = Some l -> StronglySorted lt (map fst l).
Proof. exact closure_order. Qed.
Print Assumptions C25_table_order.

Theorem C25_request_as_set :
  forall tbl names names' exclude exclude',
  (forall n, In n names <-> In n names') -> (forall n, In n exclude <-> In n exclude') ->
  get_functions_and_deps tbl names exclude = get_functions_and_deps tbl names' exclude'.
Proof. exact closure_request. Qed.
Print Assumptions C25_request_as_set.

(** [rounds] iterations of the worklist are enough. *)
Theorem C25_terminates :
  forall tbl names exclude fuel, rounds tbl names <= fuel -> collect tbl exclude fuel (rev names) [] <> None.
Proof. exact closure_rounds. Qed.
Print Assumptions C25_terminates.

Example C25_example :
  let t := [Fn "a" ["b"] true; Fn "b" ["a"] true; Fn "c" ["a"] true] in
  get_functions_and_deps t ["c"; "a"; "c"] [] = get_functions_and_deps t ["a"; "c"] ["zz"] /\
  option_map (map fst) (get_functions_and_deps t ["c"] []) = Some [0; 1; 2].
Proof. split; vm_compute; reflexivity. Qed.

(** ** C26 self-contained libraries *)

(** Exactly the [undeclared] pairs (used, but not listed as a dependency)
    decide. *)
Theorem C26_criterion_partial :
  forall bits sub, bits = 32%Z \/ bits = 64%Z -> plain_sub sub ->
  forall names exclude lib, library bits sub names exclude = Some lib ->
  (forall n, In n exclude -> ~ In n table_names) ->
  (self_contained lib <->
   forall f m, In (f, m) undeclared -> reach FUNCTIONS names exclude f -> reach FUNCTIONS names exclude m).
Proof. exact library_criterion. Qed.
Print Assumptions C26_criterion_partial.

Theorem C26_safe_requests_partial :
  forall bits sub names exclude lib, bits = 32%Z \/ bits = 64%Z -> plain_sub sub ->
  (forall n, In n exclude -> ~ In n table_names) ->
  (forall n, In n names -> In n table_names ->
     In n ["fty"; "uty"; "ity"; "round"; "nextafter"; "asin"; "acos"; "ln_1p"; "pnorm"; "sin"; "cos"; "sin_cos";
           "invtrig"; "trig"; "libm"; "all"]) \/ In "libm" names \/ In "all" names ->
  library bits sub names exclude = Some lib -> self_contained lib.
Proof. exact library_safe. Qed.
Print Assumptions C26_safe_requests_partial.

Theorem C26_single_request_refuted :
  forall bits sub n lib, bits = 32%Z \/ bits = 64%Z -> plain_sub sub ->
  In n table_names ->
  ~ In n ["fty"; "uty"; "ity"; "round"; "nextafter"; "asin"; "acos"; "ln_1p"; "pnorm"; "sin"; "cos"; "sin_cos";
          "invtrig"; "trig"; "libm"; "all"] ->
  library bits sub [n] [] = Some lib -> ~ self_contained lib.
Proof. exact library_unsafe. Qed.
Print Assumptions C26_single_request_refuted.

(** A stand-in for the approximations: x.mul_add(x, x). *)
Definition some_sub (f : string) : expr := EMethodCall (EPath ["x"]) "mul_add" None [EPath ["x"]; EPath ["x"]].
Lemma some_sub_plain : plain_sub some_sub.
Proof. intros f n H. cbn in H. cbn. tauto. Qed.

Theorem C26_refuted : exists names lib, library 64 some_sub names [] = Some lib /\ ~ self_contained lib.
Proof.
  exists ["exp2"]. destruct (library_exists 64 some_sub ["exp2"] []) as (lib & E). exists lib. split; [exact E|].
  refine (library_unsafe 64 some_sub "exp2" lib (or_intror eq_refl) some_sub_plain _ _ E).
  - apply contains_In. vm_compute. reflexivity.
  - intros H. apply contains_In in H. vm_compute in H. discriminate.
Qed.
Print Assumptions C26_refuted.

Example C26_example :
  option_map (fun l => List.length l) (library 64 some_sub ["cos"; "cos"; "sqrty"] [""]) = Some 5 /\
  option_map names_of (library 32 some_sub ["exp2"] []) = Some ["fty"; "uty"; "ity"; "EXP2_ONE"; "EXP2_SCALE"; "EXP2_MIN"; "EXP2_MAX"; "exp2"].
Proof. split; vm_compute; reflexivity. Qed.

(** ** C46 each requested function is defined, once, and nothing else is *)

Theorem C46_defined_partial :
  forall bits sub names exclude lib, bits = 32%Z \/ bits = 64%Z ->
  library bits sub names exclude = Some lib ->
  forall i f, entry FUNCTIONS i f -> f_gen f = true -> f_name f <> "pnorm" ->
  ((exists it, In it lib /\ item_name it = Some (f_name f)) <-> reach FUNCTIONS names exclude (f_name f)).
Proof. exact library_defines. Qed.
Print Assumptions C46_defined_partial.

Theorem C46_nothing_else :
  forall bits sub names exclude lib, bits = 32%Z \/ bits = 64%Z ->
  library bits sub names exclude = Some lib ->
  forall it, In it lib -> exists i f, entry FUNCTIONS i f /\ f_gen f = true /\ item_name it = Some (f_name f) /\
    reach FUNCTIONS names exclude (f_name f).
Proof. exact library_only. Qed.
Print Assumptions C46_nothing_else.

Theorem C46_once :
  forall bits sub, bits = 32%Z \/ bits = 64%Z ->
  forall names exclude lib, library bits sub names exclude = Some lib -> NoDup (map item_name lib).
Proof. exact library_names. Qed.
Print Assumptions C46_once.

(** pnorm has a generator that generates nothing. *)
Theorem C46_refuted : exists i f, entry FUNCTIONS i f /\ f_gen f = true /\
  forall bits sub exclude lib, bits = 32%Z \/ bits = 64%Z ->
  library bits sub [f_name f] exclude = Some lib -> ~ exists it, In it lib /\ item_name it = Some (f_name f).
Proof.
  destruct (find_fn FUNCTIONS "pnorm" 0) as [[i f]|] eqn:F; [|vm_compute in F; discriminate].
  exists i, f. pose proof (proj1 (find_fn_entry _ _ _ _) F) as [En N]. split; [exact En|]. rewrite N. split.
  - assert (G : match find_fn FUNCTIONS "pnorm" 0 with Some (_, g) => f_gen g | None => false end = true) by (vm_compute; reflexivity).
    rewrite F in G. exact G.
  - intros bits sub exclude lib HB HL H. apply (lib_name bits sub HB ["pnorm"] exclude lib HL) in H. destruct H as [_ Y].
    vm_compute in Y. discriminate.
Qed.
Print Assumptions C46_refuted.

Example C46_example :
  option_map names_of (library 32 some_sub ["nextafter"; "sin"; "pnorm"] ["RECIP_2PI"]) = Some ["fty"; "ity"; "round"; "nextafter"; "sin"].
Proof. vm_compute. reflexivity. Qed.

(** ** C47 definitions come before uses *)

(** C and generated test code read a file top to bottom. *)
Theorem C47_order_partial :
  forall bits sub, bits = 32%Z \/ bits = 64%Z -> plain_sub sub ->
  forall names exclude lib, library bits sub names exclude = Some lib ->
  self_contained lib ->
  (forall f m, In (f, m) [("sinh", "exp2"); ("cosh", "exp2"); ("tanh", "exp2"); ("asinh", "ln"); ("acosh", "ln"); ("atanh", "ln")] ->
     ~ reach FUNCTIONS names exclude f) ->
  defined_before_use lib.
Proof. exact library_order. Qed.
Print Assumptions C47_order_partial.

Theorem C47_refuted : exists names lib,
  library 64 some_sub names [] = Some lib /\ self_contained lib /\ ~ defined_before_use lib.
Proof.
  exists ["libm"]. destruct (library_exists 64 some_sub ["libm"] []) as (lib & E). exists lib. split; [exact E|]. split.
  - apply (library_safe 64 some_sub ["libm"] [] lib (or_intror eq_refl) some_sub_plain); [intros n []|right; left; left; reflexivity|exact E].
  - intros D.
    assert (K : match library 64 some_sub ["libm"] [] with
      | Some l => forallb (fun i => match item_name i with Some n => negb (String.eqb n "exp2") | None => true end) (firstn 28 l)
                  && match nth_error l 28 with Some i => contains (item_free i) "exp2" | None => false end
      | None => false end = true) by (vm_compute; reflexivity).
    rewrite E in K. apply andb_prop in K. destruct K as [K1 K2]. destruct (nth_error lib 28) as [it|] eqn:N; [|discriminate].
    apply contains_In in K2. destruct (nth_error_split _ _ N) as (a & b & E2 & L).
    destruct (D a it b "exp2" E2 K2) as (it' & Hi & Ni); [apply contains_In; vm_compute; reflexivity|].
    rewrite E2, <- L, firstn_app, firstn_all, Nat.sub_diag, firstn_O, app_nil_r, forallb_forall in K1.
    specialize (K1 it' Hi). rewrite Ni in K1. discriminate.
Qed.
Print Assumptions C47_refuted.

Example C47_example :
  option_map names_of (library 64 some_sub ["cos"] [""]) = Some ["fty"; "ity"; "round"; "RECIP_2PI"; "cos"].
Proof. vm_compute. reflexivity. Qed.
