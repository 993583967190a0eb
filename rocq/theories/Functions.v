(** The function table of libmgen and the dependency closure.
    Model of libmgen/src/functions.rs. *)
From Coq Require Import List String Bool Arith ZArith.
From Verif Require Import Res.
Import ListNotations.
Open Scope string_scope.
Open Scope list_scope.

(** functions.rs:17-23.  [f_gen] tells whether [gen] is [Some]; the generators
    themselves are in GenCode.v.  [num_terms] and [test_specs] are not used by
    the closure. *)
Record fn := Fn { f_name : string; f_deps : list string; f_gen : bool }.

(** [names.contains(&name)] *)
Definition contains (l : list string) (n : string) : bool := existsb (String.eqb n) l.

(** [FUNCTIONS.iter().find(|f| f.name == name)]; a reference into the static
    table is its index. *)
Fixpoint find_fn (tbl : list fn) (n : string) (i : nat) : option (nat * fn) :=
  match tbl with
  | [] => None
  | f :: r => if String.eqb (f_name f) n then Some (i, f) else find_fn r n (S i)
  end.

(** functions.rs:28-46: one round of the loop per unit of fuel.  The top of the
    stack is the head of [stack]; [res] in order of insertion.  Messages are
    not modelled. *)
Fixpoint collect (tbl : list fn) (exclude : list string) (fuel : nat)
    (stack : list string) (res : list (nat * fn)) : option (list (nat * fn)) :=
  match stack with
  | [] => Some res
  | n :: rest =>
      match fuel with
      | O => None
      | S fuel' =>
          if contains exclude n then collect tbl exclude fuel' rest res
          else match find_fn tbl n 0 with
               | None => collect tbl exclude fuel' rest res
               | Some (i, f) =>
                   if existsb (fun g => String.eqb (f_name (snd g)) n) res
                   then collect tbl exclude fuel' rest res
                   else collect tbl exclude fuel' (rev (f_deps f) ++ rest) (res ++ [(i, f)])
               end
      end
  end.

(** functions.rs:47 [sort_by] address; entries of one static slice have
    increasing addresses. *)
Fixpoint insert_fn (x : nat * fn) (l : list (nat * fn)) : list (nat * fn) :=
  match l with
  | [] => [x]
  | y :: r => if Nat.leb (fst x) (fst y) then x :: l else y :: insert_fn x r
  end.
Definition sort_fns (l : list (nat * fn)) : list (nat * fn) := fold_right insert_fn [] l.

(** Rounds that are always enough (shown in FunctionsFacts). *)
Definition rounds (tbl : list fn) (names : list string) : nat :=
  List.length names + fold_right (fun f n => List.length (f_deps f) + n) 0 tbl.

(** functions.rs:25-49; [names.clone()] has its last element on top. *)
Definition get_functions_and_deps (tbl : list fn) (names exclude : list string) : option (list (nat * fn)) :=
  match collect tbl exclude (rounds tbl names) (rev names) [] with
  | Some res => Some (sort_fns res)
  | None => None
  end.

(** functions.rs:52-826 *)
Definition FUNCTIONS : list fn := [
  Fn "fty" [] true;
  Fn "uty" [] true;
  Fn "ity" [] true;
  Fn "round" ["fty"; "ity"] true;
  Fn "LOG2_SHIFT" [] true;
  Fn "LOG2_OFFSET" [] true;
  Fn "NAN" [] true;
  Fn "INFINITY" [] true;
  Fn "MIN_POSITIVE" [] true;
  Fn "ONE_MASK" [] true;
  Fn "ONE_BITS" [] true;
  Fn "EXP2_ONE" [] true;
  Fn "EXP2_SCALE" [] true;
  Fn "EXP2_MIN" [] true;
  Fn "EXP2_MAX" [] true;
  Fn "ONE_THIRD" [] true;
  Fn "TWO_THIRDS" [] true;
  Fn "PI" [] true;
  Fn "PI_BY_2" [] true;
  Fn "TAN_PI_BY_8" [] true;
  Fn "PI_BY_8" [] true;
  Fn "LOG2_E" [] true;
  Fn "RECIP_LOG2_E" [] true;
  Fn "RECIP_LOG2_10" [] true;
  Fn "RECIP_PI" [] true;
  Fn "RECIP_2PI" [] true;
  Fn "SQRT_RECIP_2PI" [] true;
  Fn "negate_on_odd" ["fty"] true;
  Fn "recip_approx" ["fty"] true;
  Fn "sqrt_approx" ["fty"; "uty"] true;
  Fn "cbrt_approx" ["fty"] true;
  Fn "nextafter" ["fty"] true;
  Fn "sinh" ["fty"] true;
  Fn "cosh" ["fty"] true;
  Fn "tanh" ["fty"] true;
  Fn "asinh" ["fty"; "ln"] true;
  Fn "acosh" ["fty"; "NAN"; "ln"] true;
  Fn "atanh" ["fty"; "ln"] true;
  Fn "asin" ["fty"; "PI_BY_2"] true;
  Fn "acos" ["fty"; "PI_BY_2"; "PI"] true;
  Fn "atan" ["fty"] true;
  Fn "atan2" ["fty"; "PI_BY_8"; "PI_BY_2"; "TAN_PI_BY_8"] true;
  Fn "exp2" ["fty"; "ity"; "uty"; "EXP2_SCALE"; "EXP2_ONE"; "EXP2_MIN"; "EXP2_MAX"] true;
  Fn "exp" ["fty"; "exp2"; "LOG2_E"] true;
  Fn "exp_m1" ["fty"; "exp2"] true;
  Fn "log2" ["fty"; "LOG2_SHIFT"; "LOG2_OFFSET"; "ONE_MASK"; "ONE_BITS"; "MIN_POSITIVE"; "NAN"; "INFINITY"] true;
  Fn "ln_1p" ["fty"; "RECIP_LOG2_E"] true;
  Fn "ln" ["log2"; "RECIP_LOG2_E"] true;
  Fn "log10" ["log2"; "RECIP_LOG2_10"] true;
  Fn "log" ["fty"; "log2"] true;
  Fn "powf" ["fty"; "log2"; "exp2"] true;
  Fn "powi" ["fty"; "log2"; "exp2"] true;
  Fn "sqrt" ["fty"; "sqrt_approx"] true;
  Fn "cbrt" ["fty"; "ONE_THIRD"; "TWO_THIRDS"] true;
  Fn "recip" ["fty"; "recip_approx"] true;
  Fn "hypot" ["fty"] true;
  Fn "runif" ["fty"] true;
  Fn "dnorm" ["fty"; "LOG2_E"; "SQRT_RECIP_2PI"; "recip"; "exp2"] true;
  Fn "pnorm" ["fty"] true;
  Fn "qnorm" ["fty"; "sqrt"; "log2"] true;
  Fn "rnorm" ["fty"; "runif"; "qnorm"] true;
  Fn "sin" ["fty"; "round"; "RECIP_2PI"] true;
  Fn "cos" ["fty"; "round"; "RECIP_2PI"] true;
  Fn "tan" ["fty"; "RECIP_PI"] true;
  Fn "sin_cos" ["fty"; "sin"; "cos"] true;
  Fn "invtrig" ["fty"; "asin"; "acos"; "atan"; "atan2"] false;
  Fn "trig" ["fty"; "sin"; "cos"; "tan"; "invtrig"] false;
  Fn "invhyperbolic" ["fty"; "asinh"; "acosh"; "atanh"] false;
  Fn "hyperbolic" ["sinh"; "cosh"; "tanh"; "invhyperbolic"] false;
  Fn "logexp" ["exp2"; "exp"; "exp_m1"; "log2"; "ln_1p"; "ln"; "log10"; "log"; "powf"; "powi"] false;
  Fn "recip_sqrt" ["recip"; "sqrt"; "cbrt"] false;
  Fn "libm" ["logexp"; "trig"; "hyperbolic"; "recip_sqrt"] false;
  Fn "normal" ["fty"; "rnorm"; "dnorm"; "pnorm"; "qnorm"] false;
  Fn "stats" ["fty"; "normal"] false;
  Fn "all" ["fty"; "stats"; "libm"] false
].
