(** Which names a C text uses and which it declares (specification, independent
    of the code).

    A text is [#include <math.h>] followed by external declarations (C11 6.9).
    Only words are looked at: a declaration ends with a semicolon or a closing
    brace outside of all braces, and it declares the words that directly follow
    the name of a type.  The first of these is visible in the declarations that
    follow, the others only inside.  This is more lenient than C, which also
    asks where inside of a function a name is declared. *)
From Coq Require Import List String Ascii Bool Arith.
From Verif Require Import CLex.
Import ListNotations.
Open Scope string_scope.
Open Scope list_scope.

Definition mem (w : string) (l : list string) : bool := existsb (String.eqb w) l.
Definition is_ident (w : string) : bool := is_alpha (first_char w).

Definition c_keywords : list string := ["const"; "return"; "typedef"; "union"].

(** C11 7.12.  Functions come for [double], [float] and [long double]. *)
Definition math_functions : list string :=
  ["acos"; "asin"; "atan"; "atan2"; "cos"; "sin"; "tan"; "acosh"; "asinh"; "atanh"; "cosh"; "sinh"; "tanh";
   "exp"; "exp2"; "expm1"; "frexp"; "ilogb"; "ldexp"; "log"; "log10"; "log1p"; "log2"; "logb"; "modf"; "scalbn";
   "scalbln"; "cbrt"; "fabs"; "hypot"; "pow"; "sqrt"; "erf"; "erfc"; "lgamma"; "tgamma"; "ceil"; "floor";
   "nearbyint"; "rint"; "lrint"; "llrint"; "round"; "lround"; "llround"; "trunc"; "fmod"; "remainder"; "remquo";
   "copysign"; "nan"; "nextafter"; "nexttoward"; "fdim"; "fmax"; "fmin"; "fma"].
Definition math_macros : list string :=
  ["fpclassify"; "isfinite"; "isinf"; "isnan"; "isnormal"; "signbit"; "isgreater"; "isgreaterequal"; "isless";
   "islessequal"; "islessgreater"; "isunordered"; "HUGE_VAL"; "HUGE_VALF"; "HUGE_VALL"; "INFINITY"; "NAN";
   "FP_INFINITE"; "FP_NAN"; "FP_NORMAL"; "FP_SUBNORMAL"; "FP_ZERO"; "FP_FAST_FMA"; "FP_FAST_FMAF"; "FP_FAST_FMAL";
   "FP_ILOGB0"; "FP_ILOGBNAN"; "MATH_ERRNO"; "MATH_ERREXCEPT"; "math_errhandling"; "float_t"; "double_t"].
Definition in_math_h (w : string) : bool :=
  mem w math_macros || existsb (fun f => String.eqb w f || String.eqb w (f ++ "f") || String.eqb w (f ++ "l")) math_functions.

(** The words of each external declaration; [cur] holds the words of the current
    one, last first. *)
Fixpoint decls_from (depth : nat) (cur ws : list string) : list (list string) :=
  match ws with
  | [] => match cur with [] => [] | _ => [rev cur] end
  | w :: r =>
      let d := if String.eqb w "{" then S depth else if String.eqb w "}" then pred depth else depth in
      if Nat.eqb d 0 && (String.eqb w ";" || String.eqb w "}") then rev (w :: cur) :: decls_from 0 [] r
      else decls_from d (w :: cur) r
  end.

(** The words that follow a type. *)
Fixpoint declared (types ws : list string) : list string :=
  match ws with
  | a :: r =>
      match r with
      | b :: _ => if is_type types a && is_ident b && negb (is_type types b) then b :: declared types r else declared types r
      | [] => []
      end
  | [] => []
  end.

Definition known_word (types known d : list string) (w : string) : bool :=
  negb (is_ident w) || mem w c_keywords || is_type types w || in_math_h w || mem w known || mem w (declared types d).

Fixpoint all_known (types known : list string) (ds : list (list string)) : bool :=
  match ds with
  | [] => true
  | d :: r =>
      forallb (known_word types known d) d &&
      match declared types d with
      | n :: _ => all_known (if match d with w :: _ => String.eqb w "typedef" | [] => false end then n :: types else types) (n :: known) r
      | [] => false
      end
  end.

Definition include_line : list string := ["#"; "include"; "<"; "math"; "."; "h"; ">"].
Definition c_closed (text : string) : bool :=
  let ws := c_lex text in
  forallb (fun p => String.eqb (fst p) (snd p)) (combine (firstn 7 ws) include_line) && Nat.leb 7 (List.length ws) &&
  all_known [] [] (decls_from 0 [] (skipn 7 ws)).
