(** Properties of the Rust formatter. *)
From Coq Require Import List String Ascii Bool Arith.
From Verif Require Import Res RustFmt RustLex RustFmtFacts RustFmtInvisible.
Import ListNotations.
Open Scope string_scope.

(** ** C29: formatting changes no token *)

(** Missing from the full claim: streams in which two neighbours run together
    (next theorem), invisible groups with neighbours ([C29_invisible] and what follows it), and the literals and raw identifiers that
    the specification of lexing leaves out. *)
Theorem C29_lex_partial : forall ts text,
  forallb well_made ts = true -> spaced ts = true ->
  format_token_stream ts = Ok text -> rust_lex text = stream_tokens ts.
Proof. exact format_reads. Qed.
Print Assumptions C29_lex_partial.

(** Any two tokens that run together are not read back as they were. *)
Theorem C29_neighbours : forall a b text,
  well_made a = true -> well_made b = true -> runs_together a b = true ->
  format_token_stream [a; b] = Ok text -> rust_lex text <> stream_tokens [a; b].
Proof. exact pair_differs. Qed.
Print Assumptions C29_neighbours.

(** A literal before [as], a comparison with a negative number, a division by a
    dereferenced value (which opens a comment). *)
Theorem C29_refuted : exists ts text,
  forallb well_made ts = true /\ format_token_stream ts = Ok text /\ rust_lex text <> stream_tokens ts.
Proof.
  exists [TLit "0.5"; TWord "as"; TWord "fty"], "0.5as fty ".
  repeat split; [vm_compute; discriminate].
Qed.
Print Assumptions C29_refuted.
Theorem C29_less_refuted : exists ts text,
  forallb well_made ts = true /\ format_token_stream ts = Ok text /\ rust_lex text <> stream_tokens ts.
Proof.
  exists [TWord "x"; TPunct "<"; TPunct "-"; TWord "y"], "x <-y ".
  repeat split; [vm_compute; discriminate].
Qed.
Print Assumptions C29_less_refuted.
Theorem C29_comment_refuted : exists ts text,
  forallb well_made ts = true /\ format_token_stream ts = Ok text /\ rust_lex text <> stream_tokens ts.
Proof.
  exists [TWord "x"; TPunct "/"; TPunct "*"; TWord "y"], "x /*y ".
  repeat split; [vm_compute; discriminate].
Qed.
Print Assumptions C29_comment_refuted.

(** A group without delimiters reads back as the tokens in it, groups of any kind inside it included, with no condition on neighbours. *)
Theorem C29_invisible : forall ts text,
  forallb made ts = true -> format_token_stream [TGroup DNone ts] = Ok text -> rust_lex text = stream_tokens ts.
Proof. exact invisible_reads. Qed.
Print Assumptions C29_invisible.
Example C29_invisible_example :
  forallb made [TWord "a"; TGroup DNone [TLit "1.0"; TWord "b"]; TPunct "<"; TPunct "-"] = true /\
  format_token_stream [TGroup DNone [TWord "a"; TGroup DNone [TLit "1.0"; TWord "b"]; TPunct "<"; TPunct "-"]] = Ok "a 1.0 b < -".
Proof. vm_compute. split; reflexivity. Qed.

(** It is not kept apart from the token after it: a b comes out as ab. *)
Theorem C29_invisible_refuted : exists ts text,
  forallb made ts = true /\ format_token_stream ts = Ok text /\ rust_lex text <> stream_tokens ts.
Proof. exists [TGroup DNone [TWord "a"]; TWord "b"], "ab ". repeat split; vm_compute; discriminate || reflexivity. Qed.
Print Assumptions C29_invisible_refuted.

(** [fn f(x: f64) -> f64 { let y = x * 2.0 - (x < -1.0 as f64); y.max(0.5e-3) } #[doc = "a;b"]]
    is a stream of the kind [C29_lex_partial] speaks about. *)
Definition sample : list tt :=
  [TWord "fn"; TWord "f"; TGroup DParen [TWord "x"; TPunct ":"; TWord "f64"]; TPunct "->"; TWord "f64";
   TGroup DBrace
     [TWord "let"; TWord "y"; TPunct "="; TWord "x"; TPunct "*"; TLit "2.0"; TPunct "-";
      TGroup DParen [TWord "x"; TPunct "<"; TPunct "-"; TLit "1.0"; TWord "as"; TWord "f64"]; TPunct ";";
      TWord "y"; TPunct "."; TWord "max"; TGroup DParen [TLit "0.5e-3"]];
   TPunct "#"; TGroup DBracket [TWord "doc"; TPunct "="; TLit """a;b"""]].
Example C29_example :
  forallb well_made sample = true /\ spaced sample = true
  /\ match format_token_stream sample with
     | Ok text => rust_lex text = stream_tokens sample /\ List.length (rust_lex text) = 39
     | _ => False
     end.
Proof. vm_compute. repeat split. Qed.

(** ** C30: formatting never fails *)

(** It returns exactly when brace groups are nested at most 30 deep. *)
Theorem C30_returns_partial : forall ts,
  (list_max (map levels ts) <= 30 -> exists text, format_token_stream ts = Ok text)
  /\ (30 < list_max (map levels ts) -> format_token_stream ts = Panic).
Proof. exact format_levels. Qed.
Print Assumptions C30_returns_partial.

Fixpoint nest (n : nat) (t : tt) : tt := match n with O => t | S n => TGroup DBrace [nest n t] end.
Theorem C30_refuted : exists ts, forallb well_made ts = true /\ format_token_stream ts = Panic.
Proof. exists [nest 31 (TWord "x")]. split; vm_compute; reflexivity. Qed.
Print Assumptions C30_refuted.

Example C30_example :
  list_max (map levels [nest 30 (TWord "x")]) = 30
  /\ (exists text, format_token_stream [nest 30 (TWord "x")] = Ok text)
  /\ list_max (map levels [TGroup DParen [nest 40 (TWord "x")]]) = 0.
Proof. split; [reflexivity|]. split; [eexists; vm_compute; reflexivity|reflexivity]. Qed.
