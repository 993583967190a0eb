(** Properties C68, C69: what a run of libmgen writes. Theorems only. *)
From Coq Require Import List String Ascii Bool Arith ZArith.
From Verif Require Import Res Syntax Item Functions FunctionsFacts RustFmt RustLex GenCode GenCodeFacts GenTokens ItemTokens
  CGen CGenFacts RustLibrary RustSub Main MainFacts.
Import ListNotations.
Open Scope string_scope.
Open Scope list_scope.

(** ** C68 the output is the library and nothing else *)

(** [-f] and [-x] are cut at the commas. *)
Theorem C68_request :
  forall s, String.concat "," (split_commas s) = s /\
  (forall p, In p (split_commas s) -> ~ In ","%char (list_ascii_of_string p)) /\ split_commas s <> [].
Proof. exact split_ok. Qed.
Print Assumptions C68_request.

(** With --output the file is the library.  On standard output it is the library
    exactly if no excluded name is requested or listed by a generated function. *)
Theorem C68_rust_partial :
  forall w o ts, usual w -> asks o -> (o_bits o = 32 \/ o_bits o = 64)%Z -> o_language o = "rust" ->
  library_tokens (o_bits o) (o_tests o) (o_plots o) (fun n => expr_tts (w_sub w n)) (w_rows w) (w_accuracy w)
    (split_commas (o_functions o)) (split_commas (o_exclude o)) = Some ts ->
  exists text, rust_lex text = stream_tokens ts /\
  match o_output o with
  | Some path =>
      (w_writable w path = true -> exists e, main w o = Ok e /\ e_file e = Some (path, text)) /\
      (w_writable w path = false -> main w o = Panic)
  | None => exists e, main w o = Ok e /\ e_file e = None /\
      ((forall n, In n (split_commas (o_exclude o)) -> ~ asked (split_commas (o_functions o)) (split_commas (o_exclude o)) n) ->
         e_out e = text) /\
      (rust_lex (e_out e) = stream_tokens ts <->
       forall n, In n (split_commas (o_exclude o)) -> ~ asked (split_commas (o_functions o)) (split_commas (o_exclude o)) n)
  end.
Proof.
  intros w o ts U A B L E. destruct (main_rust w o ts U A B L E) as (text & R & M). exists text. split; [exact R|].
  destruct (o_output o); [|exact M]. rewrite M. split; intros ->; [eexists; split; reflexivity|reflexivity].
Qed.
Print Assumptions C68_rust_partial.

Definition some_world : world :=
  World (fun _ => ELit (LFloat "1.5" "f32")) (fun _ => []) (fun _ => "0.5") (fun _ => None) (fun _ => None) (fun _ => []) (fun _ => true).
Definition request (f x : string) : opt := Opt None false false None f x 32 "rust".

(** "-f sin -x round", as the help suggests, and "-f sin,": the first line on
    standard output is not Rust. *)
Theorem C68_refuted :
  exists o o' w, usual w /\ asks o /\ asks o' /\ o_exclude o = "round" /\ o_exclude o' = "" /\
  (exists e ts, main w o = Ok e /\ tokens_for w o = Some ts /\ rust_lex (e_out e) <> stream_tokens ts) /\
  (exists e ts, main w o' = Ok e /\ tokens_for w o' = Some ts /\ rust_lex (e_out e) <> stream_tokens ts).
Proof.
  exists (request "sin" "round"), (request "sin," ""), some_world.
  assert (U : usual some_world) by (split; [reflexivity|]; split; [intros t r []|reflexivity]).
  assert (A : asks (request "sin" "round")) by (repeat split; discriminate).
  assert (A' : asks (request "sin," "")) by (repeat split; discriminate).
  split; [exact U|]. split; [exact A|]. split; [exact A'|]. split; [reflexivity|]. split; [reflexivity|]. split.
  - destruct (tokens_some some_world (request "sin" "round")) as (ts & E).
    destruct (main_rust _ _ ts U A (or_introl eq_refl) eq_refl E) as (text & _ & e & M & _ & _ & X).
    exists e, ts. split; [exact M|]. split; [exact E|]. rewrite X. intros H. apply (H "round"); [left; reflexivity|].
    apply visited_asked, contains_In. vm_compute. reflexivity.
  - destruct (tokens_some some_world (request "sin," "")) as (ts & E).
    destruct (main_rust _ _ ts U A' (or_introl eq_refl) eq_refl E) as (text & _ & e & M & _ & _ & X).
    exists e, ts. split; [exact M|]. split; [exact E|]. rewrite X. intros H. apply (H ""); [left; reflexivity|].
    left. right. left. reflexivity.
Qed.
Print Assumptions C68_refuted.

(** The C library, with the prefix and the suffix of its width. *)
Theorem C68_c :
  forall w o ts lib path, asks o -> o_language o = "c" -> o_output o = Some path -> w_writable w path = true ->
  tokens_for w o = Some ts ->
  library (o_bits o) (w_sub w) (split_commas (o_functions o)) (split_commas (o_exclude o)) = Some lib ->
  w_parse_c w ts = Some (map cof_item lib) -> (forall n, expr_ok (cof (w_sub w n)) = true) ->
  exists e, main w o = Ok e /\ e_file e = Some (path,
    file_text (if (o_bits o =? 32)%Z then COpts "ds32_" "f" else COpts "ds64_" "") (map cof_item lib)).
Proof. exact main_c. Qed.
Print Assumptions C68_c.

(** Any other language: nothing is written, and a message says so. *)
Theorem C68_language :
  forall w o, asks o -> ~ In (o_language o) ["rust"; "c"; "portable-simd"] ->
  exists e, main w o = Ok e /\ e_file e = None /\ e_err e <> "" /\
  e_out e = ignoring (split_commas (o_functions o)) (split_commas (o_exclude o)).
Proof. exact main_language. Qed.
Print Assumptions C68_language.

Example C68_example :
  usual some_world /\ asks (request " sin,PI" "") /\
  main some_world (request " sin,PI" "") =
    Ok (Effects ("const PI :fty =1.5f32;" ++ nl ++ nl) ("function  sin not found" ++ nl) None) /\
  main some_world (request "fty,PI" "fty") =
    Ok (Effects ("ignoring fty" ++ nl ++ "const PI :fty =1.5f32;" ++ nl ++ nl) "" None) /\
  main some_world (Opt None false false (Some "lib.f90") "fty" "" 32 "fortran") =
    Ok (Effects "" ("invalid language fortran use ""help"" to list valid options." ++ nl) None) /\
  split_commas "a,,b c," = ["a"; ""; "b c"; ""].
Proof.
  split; [split; [reflexivity|]; split; [intros t r []|reflexivity]|].
  split; [repeat split; discriminate|]. split; [vm_compute; reflexivity|]. split; [vm_compute; reflexivity|].
  split; vm_compute; reflexivity.
Qed.

(** ** C69 names that are not in the table *)

(** They change nothing of the library, *)
Theorem C69_dropped :
  forall bits tests plots sub rows acc names exclude,
  library_tokens bits tests plots sub rows acc names exclude =
  library_tokens bits tests plots sub rows acc (filter (fun n => existsb (String.eqb n) (map f_name FUNCTIONS)) names) exclude.
Proof.
  intros. rewrite (unknown_dropped bits tests plots sub rows acc names). f_equal. apply filter_ext. intros n.
  change (existsb (String.eqb n) (map f_name FUNCTIONS)) with (contains (map f_name FUNCTIONS) n).
  destruct (known n) eqn:K; symmetry.
  - apply contains_In, known_table, K.
  - destruct (contains _ n) eqn:Q; [|reflexivity]. apply contains_In, known_table in Q. congruence.
Qed.
Print Assumptions C69_dropped.

(** and the run is silent on standard error exactly if there are none of them
    (that are not excluded too). *)
Theorem C69_silent :
  forall w o, asks o -> (o_bits o = 32 \/ o_bits o = 64)%Z -> o_language o = "rust" -> usual w -> o_output o = None ->
  exists e, main w o = Ok e /\
  (e_err e = "" <-> forall n, In n (split_commas (o_functions o)) -> In n (split_commas (o_exclude o)) \/ In n (map f_name FUNCTIONS)).
Proof.
  intros w o A B L U O. destruct (tokens_some w o) as (ts & E). destruct (main_rust w o ts U A B L E) as (text & R & M).
  rewrite O in M. destruct M as (e & M & _). exists e. split; [exact M|]. rewrite <- silent.
  rewrite (main_asks w o A ts E) in M. destruct (text_of_tokens w o ts) as [[t|m]|x|] eqn:T; cbn [rbind] in M; try discriminate.
  - rewrite O in M. injection M as <-. reflexivity.
  - unfold text_of_tokens in T. rewrite L, String.eqb_refl in T. destruct (format_token_stream ts); discriminate.
Qed.
Print Assumptions C69_silent.

Example C69_example :
  (exists e, main some_world (request "sin,cos" "") = Ok e /\ e_err e = "") /\
  (exists e e', main some_world (request "sin, cos" "") = Ok e /\ main some_world (request "sin" "") = Ok e' /\
    e_out e = e_out e' /\ e_err e = ("function  cos not found" ++ nl)%string).
Proof. split; [|eexists]; eexists; vm_compute; repeat split. Qed.
