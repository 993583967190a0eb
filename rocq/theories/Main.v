(** libmgen's [main] and the settings of config.rs that decide what is written
    where. *)
From Coq Require Import List String Ascii Bool ZArith.
From Verif Require Import Res Syntax Item Functions RustFmt GenTokens ItemTokens CGen Simd.
Import ListNotations.
Open Scope string_scope.
Open Scope list_scope.

(** [Opt], main.rs:48-96.  [o_debug] is the text that [{:?}] shows of the options
    if --debug is given (external).  Not here: --number-type and
    --function-prefix (the first enters only through the interpolated
    expressions, the second is never used). *)
Record opt : Type := Opt {
  o_debug : option string; o_tests : bool; o_plots : bool; o_output : option string;
  o_functions : string; o_exclude : string; o_bits : Z; o_language : string }.

(** What is given from outside: the interpolated expressions and the numbers of
    the test tables (what the generators compute, C36-C45, C54), [syn::parse2],
    the tokens syn makes of the file of [to_simd], and which files can be
    written. *)
Record world : Type := World {
  w_sub : string -> expr;
  w_rows : string -> list (list tt * list tt * list tt);
  w_accuracy : string -> string;
  w_parse_c : list tt -> option (list citem);
  w_parse : list tt -> option (list item);
  w_methods : list method -> list tt;
  w_writable : string -> bool }.

(** What a run leaves behind: standard output, standard error, a file. *)
Record effects : Type := Effects { e_out : string; e_err : string; e_file : option (string * string) }.

(** [str::split(',')]: the parts between commas, empty ones included. *)
Fixpoint split_from (part : list ascii) (cs : list ascii) : list string :=
  match cs with
  | [] => [string_of_list_ascii (rev part)]
  | c :: r => if Ascii.eqb c "," then string_of_list_ascii (rev part) :: split_from [] r else split_from (c :: part) r
  end.
Definition split_commas (s : string) : list string := split_from [] (list_ascii_of_string s).

(** functions.rs:25-49 again: the names taken from the stack, in order. *)
Fixpoint visits (tbl : list fn) (exclude : list string) (fuel : nat) (stack : list string) (res : list (nat * fn)) : list string :=
  match stack, fuel with
  | n :: rest, S fuel' =>
      n :: (if contains exclude n then visits tbl exclude fuel' rest res
            else match find_fn tbl n 0 with
                 | None => visits tbl exclude fuel' rest res
                 | Some (i, f) =>
                     if existsb (fun g => String.eqb (f_name (snd g)) n) res
                     then visits tbl exclude fuel' rest res
                     else visits tbl exclude fuel' (rev (f_deps f) ++ rest) (res ++ [(i, f)])
                 end)
  | _, _ => []
  end.
Definition visited (names exclude : list string) : list string :=
  visits FUNCTIONS exclude (rounds FUNCTIONS names) (rev names) [].

Definition nl : string := String "010" "".
Definition lines (f : string -> string) (l : list string) : string := fold_right (fun n s => f n ++ nl ++ s)%string "" l.

(** functions.rs:31, on standard output *)
Definition ignoring (names exclude : list string) : string :=
  lines (fun n => "ignoring " ++ n)%string (filter (contains exclude) (visited names exclude)).
(** functions.rs:44, on standard error *)
Definition not_found (names exclude : list string) : string :=
  lines (fun n => "function " ++ n ++ " not found")%string
    (filter (fun n => negb (contains exclude n) && match find_fn FUNCTIONS n 0 with None => true | Some _ => false end)
       (visited names exclude)).

(** config.rs:45-67 *)
Definition cfg_prefix (o : opt) : string :=
  if String.eqb (o_language o) "c" then (if (o_bits o =? 32)%Z then "ds32_" else "ds64_") else "".
Definition cfg_suffix (o : opt) : string :=
  if String.eqb (o_language o) "c" then (if (o_bits o =? 32)%Z then "f" else "") else "".

(** [Option::unwrap] *)
Definition unwrap {A} (o : option A) : res A := match o with Some a => Ok a | None => Panic end.

(** main.rs:402-432: the text, or the message of the languages without one. *)
Definition text_of_tokens (w : world) (o : opt) (ts : list tt) : res (string + string) :=
  if String.eqb (o_language o) "rust" then let? t := format_token_stream ts in Ok (inl t)
  else if String.eqb (o_language o) "c" then
    let? items := unwrap (w_parse_c w ts) in
    let? t := to_c (COpts (cfg_prefix o) (cfg_suffix o)) items in Ok (inl t)
  else if String.eqb (o_language o) "portable-simd" then
    let? items := unwrap (w_parse w ts) in
    let? ms := to_simd (o_bits o) items in
    let? t := format_token_stream (w_methods w ms) in Ok (inl t)
  else if String.eqb (o_language o) "help" then
    Ok (inr (lines (fun s => s) ["Available languages:"; "    rust"; "    c"; "    portable-simd"]))
  else Ok (inr ("invalid language " ++ o_language o ++ " use ""help"" to list valid options." ++ nl)%string).

(** main.rs:348-440.  The effects of a run that panics are not kept. *)
Definition main (w : world) (o : opt) : res effects :=
  let shown := match o_debug o with Some t => ("opt=" ++ t ++ nl)%string | None => "" end in
  if String.eqb (o_functions o) "" then Ok (Effects shown ("re-run with -f or -h" ++ nl)%string None)
  else if String.eqb (o_functions o) "help" then Ok (Effects (shown ++ lines (fun n => n) (map f_name FUNCTIONS))%string "" None)
  else
    let names := split_commas (o_functions o) in
    let exclude := split_commas (o_exclude o) in
    let out := (shown ++ ignoring names exclude)%string in
    let err := not_found names exclude in
    let? ts := unwrap (library_tokens (o_bits o) (o_tests o) (o_plots o) (fun n => expr_tts (w_sub w n)) (w_rows w) (w_accuracy w) names exclude) in
    let? t := text_of_tokens w o ts in
    match t with
    | inr message => Ok (Effects out (err ++ message)%string None)
    | inl text =>
        match o_output o with
        | Some path => if w_writable w path then Ok (Effects out err (Some (path, text))) else Panic
        | None => Ok (Effects (out ++ text)%string err None)
        end
    end.
