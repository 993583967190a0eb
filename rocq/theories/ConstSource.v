(** The expressions behind the generated mathematical constants.

    libmgen/src/auxfuncs.rs:188-268: each [gen_*] evaluates one expression with
    [config.num_digits()] digits and unwraps; the resulting literal, which is
    not retyped, becomes the initialiser of a [const] of type [fty] (its item
    is in GenCode.v). *)
From Coq Require Import List String ZArith.
From Verif Require Import Syntax.
Import ListNotations.
Open Scope string_scope.

Definition e_int (digits : string) : expr := ELit (LInt digits "").
Definition e_pi : expr := EPath ["PI"].
(** [1.exp().log(2)] *)
Definition e_log2_e : expr := EMethodCall (EMethodCall (e_int "1") "exp" None []) "log" None [e_int "2"].
(** auxfuncs.rs:188-268: PI/8 as the receiver of [tan] and the argument of [sqrt] are in parentheses *)
Definition const_source (name : string) : option expr :=
  if name =? "PI" then Some e_pi
  else if name =? "PI_BY_2" then Some (EBinary BDiv e_pi (e_int "2"))
  else if name =? "PI_BY_8" then Some (EBinary BDiv e_pi (e_int "8"))
  else if name =? "TAN_PI_BY_8" then Some (EMethodCall (EParen (EBinary BDiv e_pi (e_int "8"))) "tan" None [])
  else if name =? "LOG2_E" then Some e_log2_e
  else if name =? "RECIP_LOG2_E" then Some (EBinary BDiv (e_int "1") e_log2_e)
  else if name =? "RECIP_LOG2_10" then Some (EBinary BDiv (e_int "1") (EMethodCall (e_int "10") "log" None [e_int "2"]))
  else if name =? "RECIP_PI" then Some (EBinary BDiv (e_int "1") e_pi)
  else if name =? "RECIP_2PI" then Some (EBinary BDiv (e_int "1") (EParen (EBinary BMul (e_int "2") e_pi)))
  else if name =? "SQRT_RECIP_2PI"
       then Some (EMethodCall (EParen (EBinary BDiv (e_int "1") (EParen (EBinary BMul (e_int "2") e_pi)))) "sqrt" None [])
  else None.
