(** What libmgen computes and puts into its templates: the expressions behind
    [#approx], the numbers behind the constants, the rows and limits of the
    tests.

    The generators of functions call [approx] and then [use_number_type]
    (libmgen/src/trig.rs:15-40, 66-95, 119-130, 147-158, 185-196; inv_trig.rs:
    10-22, 86-97, 118-129, 147-158; log_exp.rs:13-24, 52-63, 122-133;
    stats_norm.rs:45-56); [approx] ends with [mul_add_polynomial]
    (doctor-syn/src/expression.rs).  Those of the constants call [eval]
    (auxfuncs.rs:188-268, ConstSource.v).  The rows are those of TestTable.v
    (test.rs:31-59); the limit is an [f64] put in by [quote!] (test.rs:64-68).

    Left open: the coefficients (any list) and the number of terms. *)
From Coq Require Import List String Ascii Bool ZArith.
From Flocq Require Import IEEE754.Binary.
From Verif Require Import Res Dec DecStr DecStrFacts Syntax Poly BdMath Eval GenSem GenFloat FloatBits UseNumberType TestTable ConstSource Item GenCode GenCodeFacts GenTypeLib ItemTokens Main.
Import ListNotations.
Open Scope string_scope.
Open Scope list_scope.

(** Rust's [Display] writes finite floats that are not negative as digits, with
    a point and more digits if need be, never with an exponent. *)
Definition plain_show (F : floats) : Prop :=
  forall bits (x : flt bits), (bits = 32 \/ bits = 64)%Z -> finite x = true -> sign x = false ->
  exists before after, show F bits x = string_of_list_ascii (before ++ match after with [] => [] | _ => "."%char :: after end) /\
    before <> [] /\ Forall (fun c => is_digit c = true) before /\ Forall (fun c => is_digit c = true) after.

(** A polynomial after [use_number_type]. *)
Definition made_polynomial (F : floats) (kind : string) (bits : Z) (v : string) (e' : expr) : Prop :=
  exists ts p e, mul_add_polynomial ts [v] p = Ok e /\ use_number_type F kind bits e = Ok e'.
(** The value of the expression behind the constant [m]. *)
Definition made_constant (o : oracles) (bits : Z) (m : string) (c : expr) : Prop :=
  exists e fuel, const_source m = Some e /\ eval o fuel (config_digits bits) e = Ok c.
(** What the generator of every name puts in.  Constants with a fixed value
    (ONE_THIRD and others) put nothing in; they may have any of the numbers. *)
Definition spliced (F : floats) (o : oracles) (kind : string) (bits : Z) (sub : string -> expr) : Prop :=
  forall n,
  if is_const_item (template bits n)
  then exists m, (const_source n <> None -> m = n) /\ made_constant o bits m (sub n)
  else made_polynomial F kind bits (hole_var n) (sub n).

(** A row of a test, and its limit. *)
Definition made_row (o : oracles) (bits : Z) (r : list RustFmt.tt * list RustFmt.tt * list RustFmt.tt) : Prop :=
  exists fuel refe tmin tmax n i x y ye,
    table_row o fuel (config_digits bits) bits refe tmin tmax n i = Ok (x, y, ye) /\ r = (expr_tts x, expr_tts y, expr_tts ye).
Definition made_limit (F : floats) (t : string) : Prop :=
  exists x : flt 64, finite x = true /\ sign x = false /\ t = (show F 64 x ++ "f64")%string.

(** A run in which everything is computed as above. *)
Definition made (F : floats) (o : oracles) (kind : string) (bits : Z) (w : world) : Prop :=
  spliced F o kind bits (w_sub w) /\ (forall t r, In r (w_rows w t) -> made_row o bits r) /\ forall t, made_limit F (w_accuracy w t).
