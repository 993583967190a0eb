(** The code that libmgen generates, as streams of tokens.
    Transcribed from the quote! bodies in libmgen/src by tools/gentokens.py.  The
    definitions [q_...] are the bodies as they stand, the interpolated variable
    #v being the word "#v"; [quote] puts the tokens of the variables in.  A doc
    comment is the attribute #[doc = "..."] (its literal is written here as an
    ordinary string; rustc may write it as a raw one).  Ordinary comments are not
    tokens. *)
From Coq Require Import List String Ascii ZArith Bool.
From Verif Require Import RustFmt Item Functions.
Import ListNotations.
Open Scope string_scope.
Open Scope list_scope.

(** quote! (external): every #v is replaced by the tokens of v. *)
Fixpoint interpolate (env : list (string * list tt)) (t : tt) : list tt :=
  match t with
  | TGroup d ts => [TGroup d (flat_map (interpolate env) ts)]
  | TWord (String "#" v) => match find (fun p => String.eqb (fst p) v) env with Some p => snd p | None => [] end
  | _ => [t]
  end.
Definition quote (env : list (string * list tt)) (ts : list tt) : list tt := flat_map (interpolate env) ts.

(** The variables of the generators: [sub] are the tokens of #approx or #value,
    [bits] is config.num_bits().  auxfuncs.rs:271, 279, 286, 294 *)
Definition variables (bits : Z) (sub : list tt) : list (string * list tt) :=
  [("approx", sub); ("value", sub); ("fty", [TWord (width "f" bits)]); ("ity", [TWord (width "i" bits)]);
   ("uty", [TWord (width "u" bits)]); ("shift", [TLit (width "" (bits - 1) ++ "i32")])].

(** auxfuncs.rs:347-363 *)
Definition q_power_scale : list tt := [TWord "pub"; TWord "fn"; TWord "#name"; TGroup DParen [TWord "x"; TPunct
    ":"; TWord "fty"]; TPunct "->"; TWord "fty"; TGroup DBrace [TWord "let"; TWord "y"; TPunct ":"; TWord "fty";
    TPunct "="; TWord "fty"; TPunct "::"; TWord "from_bits"; TGroup DParen [TGroup DParen [TGroup DParen [TGroup
    DParen [TWord "x"; TPunct "."; TWord "abs"; TGroup DParen []; TPunct "."; TWord "to_bits"; TGroup DParen [];
    TWord "as"; TWord "fty"]; TPunct "."; TWord "mul_add"; TGroup DParen [TWord "#scale"; TPunct ","; TWord
    "EXP2_ONE"; TPunct "*"; TWord "#offset"]]]; TWord "as"; TWord "uty"]; TPunct ";"; TWord "#correction"]] .

(** auxfuncs.rs:270-276 *)
Definition q_fty : list tt := [TPunct "#"; TGroup DBracket [TWord "allow"; TGroup DParen [TWord
    "non_camel_case_types"]]; TWord "type"; TWord "fty"; TPunct "="; TWord "#fty"; TPunct ";"] .
Definition tokens_fty (bits : Z) (sub : list tt) : list tt := quote (variables bits sub) q_fty.

(** auxfuncs.rs:285-290 *)
Definition q_uty : list tt := [TPunct "#"; TGroup DBracket [TWord "allow"; TGroup DParen [TWord
    "non_camel_case_types"]]; TWord "type"; TWord "uty"; TPunct "="; TWord "#uty"; TPunct ";"] .
Definition tokens_uty (bits : Z) (sub : list tt) : list tt := quote (variables bits sub) q_uty.

(** auxfuncs.rs:278-283 *)
Definition q_ity : list tt := [TPunct "#"; TGroup DBracket [TWord "allow"; TGroup DParen [TWord
    "non_camel_case_types"]]; TWord "type"; TWord "ity"; TPunct "="; TWord "#ity"; TPunct ";"] .
Definition tokens_ity (bits : Z) (sub : list tt) : list tt := quote (variables bits sub) q_ity.

(** auxfuncs.rs:323-330 *)
Definition q_round : list tt := [TWord "fn"; TWord "round"; TGroup DParen [TWord "x"; TPunct ":"; TWord "fty"];
    TPunct "->"; TWord "fty"; TGroup DBrace [TWord "let"; TWord "half"; TPunct "="; TGroup DParen [TLit "0.5"];
    TWord "as"; TWord "fty"; TPunct ";"; TGroup DParen [TWord "x"; TPunct "+"; TWord "half"; TPunct "."; TWord
    "copysign"; TGroup DParen [TWord "x"]]; TWord "as"; TWord "ity"; TWord "as"; TWord "fty"]] .
Definition tokens_round (bits : Z) (sub : list tt) : list tt := quote (variables bits sub) q_round.

(** auxfuncs.rs:133-144 *)
Definition q_LOG2_SHIFT_32 : list tt := [TWord "const"; TWord "LOG2_SHIFT"; TPunct ":"; TWord "ity"; TPunct "=";
    TLit "23_i32"; TPunct ";"] .
Definition q_LOG2_SHIFT_64 : list tt := [TWord "const"; TWord "LOG2_SHIFT"; TPunct ":"; TWord "ity"; TPunct "=";
    TLit "52_i64"; TPunct ";"] .
Definition tokens_LOG2_SHIFT (bits : Z) (sub : list tt) : list tt := quote (variables bits sub) (if (bits =?
    32)%Z then q_LOG2_SHIFT_32 else q_LOG2_SHIFT_64).

(** auxfuncs.rs:147-157 *)
Definition q_LOG2_OFFSET_32 : list tt := [TWord "const"; TWord "LOG2_OFFSET"; TPunct ":"; TWord "ity"; TPunct
    "="; TLit "127_i32"; TPunct ";"] .
Definition q_LOG2_OFFSET_64 : list tt := [TWord "const"; TWord "LOG2_OFFSET"; TPunct ":"; TWord "ity"; TPunct
    "="; TLit "1023_i64"; TPunct ";"] .
Definition tokens_LOG2_OFFSET (bits : Z) (sub : list tt) : list tt := quote (variables bits sub) (if (bits =?
    32)%Z then q_LOG2_OFFSET_32 else q_LOG2_OFFSET_64).

(** auxfuncs.rs:21-32 *)
Definition q_NAN_32 : list tt := [TWord "const"; TWord "NAN"; TPunct ":"; TWord "fty"; TPunct "="; TWord "f32";
    TPunct "::"; TWord "NAN"; TPunct ";"] .
Definition q_NAN_64 : list tt := [TWord "const"; TWord "NAN"; TPunct ":"; TWord "fty"; TPunct "="; TWord "f64";
    TPunct "::"; TWord "NAN"; TPunct ";"] .
Definition tokens_NAN (bits : Z) (sub : list tt) : list tt := quote (variables bits sub) (if (bits =? 32)%Z then
    q_NAN_32 else q_NAN_64).

(** auxfuncs.rs:35-46 *)
Definition q_INFINITY_32 : list tt := [TWord "const"; TWord "INFINITY"; TPunct ":"; TWord "fty"; TPunct "=";
    TWord "f32"; TPunct "::"; TWord "INFINITY"; TPunct ";"] .
Definition q_INFINITY_64 : list tt := [TWord "const"; TWord "INFINITY"; TPunct ":"; TWord "fty"; TPunct "=";
    TWord "f64"; TPunct "::"; TWord "INFINITY"; TPunct ";"] .
Definition tokens_INFINITY (bits : Z) (sub : list tt) : list tt := quote (variables bits sub) (if (bits =? 32)%Z
    then q_INFINITY_32 else q_INFINITY_64).

(** auxfuncs.rs:7-18 *)
Definition q_MIN_POSITIVE_32 : list tt := [TWord "const"; TWord "MIN_POSITIVE"; TPunct ":"; TWord "fty"; TPunct
    "="; TWord "f32"; TPunct "::"; TWord "MIN_POSITIVE"; TPunct ";"] .
Definition q_MIN_POSITIVE_64 : list tt := [TWord "const"; TWord "MIN_POSITIVE"; TPunct ":"; TWord "fty"; TPunct
    "="; TWord "f64"; TPunct "::"; TWord "MIN_POSITIVE"; TPunct ";"] .
Definition tokens_MIN_POSITIVE (bits : Z) (sub : list tt) : list tt := quote (variables bits sub) (if (bits =?
    32)%Z then q_MIN_POSITIVE_32 else q_MIN_POSITIVE_64).

(** auxfuncs.rs:63-74 *)
Definition q_ONE_MASK_32 : list tt := [TWord "const"; TWord "ONE_MASK"; TPunct ":"; TWord "fty"; TPunct "=";
    TLit "0x007fffff_u32"; TPunct ";"] .
Definition q_ONE_MASK_64 : list tt := [TWord "const"; TWord "ONE_MASK"; TPunct ":"; TWord "fty"; TPunct "=";
    TLit "0x000fffffffffffff_u64"; TPunct ";"] .
Definition tokens_ONE_MASK (bits : Z) (sub : list tt) : list tt := quote (variables bits sub) (if (bits =? 32)%Z
    then q_ONE_MASK_32 else q_ONE_MASK_64).

(** auxfuncs.rs:49-60 *)
Definition q_ONE_BITS_32 : list tt := [TWord "const"; TWord "ONE_BITS"; TPunct ":"; TWord "fty"; TPunct "=";
    TLit "0x3f800000_u32"; TPunct ";"] .
Definition q_ONE_BITS_64 : list tt := [TWord "const"; TWord "ONE_BITS"; TPunct ":"; TWord "fty"; TPunct "=";
    TLit "0x3ff0000000000000_u64"; TPunct ";"] .
Definition tokens_ONE_BITS (bits : Z) (sub : list tt) : list tt := quote (variables bits sub) (if (bits =? 32)%Z
    then q_ONE_BITS_32 else q_ONE_BITS_64).

(** auxfuncs.rs:77-88 *)
Definition q_EXP2_ONE_32 : list tt := [TWord "const"; TWord "EXP2_ONE"; TPunct ":"; TWord "fty"; TPunct "=";
    TLit "1065353216.0f32"; TPunct ";"] .
Definition q_EXP2_ONE_64 : list tt := [TWord "const"; TWord "EXP2_ONE"; TPunct ":"; TWord "fty"; TPunct "=";
    TLit "4607182418800017408.0f64"; TPunct ";"] .
Definition tokens_EXP2_ONE (bits : Z) (sub : list tt) : list tt := quote (variables bits sub) (if (bits =? 32)%Z
    then q_EXP2_ONE_32 else q_EXP2_ONE_64).

(** auxfuncs.rs:91-102 *)
Definition q_EXP2_SCALE_32 : list tt := [TWord "const"; TWord "EXP2_SCALE"; TPunct ":"; TWord "fty"; TPunct "=";
    TLit "8388608.0f32"; TPunct ";"] .
Definition q_EXP2_SCALE_64 : list tt := [TWord "const"; TWord "EXP2_SCALE"; TPunct ":"; TWord "fty"; TPunct "=";
    TLit "4503599627370496.0f64"; TPunct ";"] .
Definition tokens_EXP2_SCALE (bits : Z) (sub : list tt) : list tt := quote (variables bits sub) (if (bits =?
    32)%Z then q_EXP2_SCALE_32 else q_EXP2_SCALE_64).

(** auxfuncs.rs:105-116 *)
Definition q_EXP2_MIN_32 : list tt := [TWord "const"; TWord "EXP2_MIN"; TPunct ":"; TWord "fty"; TPunct "=";
    TPunct "-"; TLit "127.0f32"; TPunct ";"] .
Definition q_EXP2_MIN_64 : list tt := [TWord "const"; TWord "EXP2_MIN"; TPunct ":"; TWord "fty"; TPunct "=";
    TPunct "-"; TLit "1023.0f64"; TPunct ";"] .
Definition tokens_EXP2_MIN (bits : Z) (sub : list tt) : list tt := quote (variables bits sub) (if (bits =? 32)%Z
    then q_EXP2_MIN_32 else q_EXP2_MIN_64).

(** auxfuncs.rs:119-130 *)
Definition q_EXP2_MAX_32 : list tt := [TWord "const"; TWord "EXP2_MAX"; TPunct ":"; TWord "fty"; TPunct "=";
    TLit "127.0f32"; TPunct ";"] .
Definition q_EXP2_MAX_64 : list tt := [TWord "const"; TWord "EXP2_MAX"; TPunct ":"; TWord "fty"; TPunct "=";
    TLit "1023.0f64"; TPunct ";"] .
Definition tokens_EXP2_MAX (bits : Z) (sub : list tt) : list tt := quote (variables bits sub) (if (bits =? 32)%Z
    then q_EXP2_MAX_32 else q_EXP2_MAX_64).

(** auxfuncs.rs:160-171 *)
Definition q_ONE_THIRD_32 : list tt := [TWord "const"; TWord "ONE_THIRD"; TPunct ":"; TWord "fty"; TPunct "=";
    TLit "0.33333333f32"; TPunct ";"] .
Definition q_ONE_THIRD_64 : list tt := [TWord "const"; TWord "ONE_THIRD"; TPunct ":"; TWord "fty"; TPunct "=";
    TLit "0.333333333333333333f64"; TPunct ";"] .
Definition tokens_ONE_THIRD (bits : Z) (sub : list tt) : list tt := quote (variables bits sub) (if (bits =?
    32)%Z then q_ONE_THIRD_32 else q_ONE_THIRD_64).

(** auxfuncs.rs:174-185 *)
Definition q_TWO_THIRDS_32 : list tt := [TWord "const"; TWord "TWO_THIRDS"; TPunct ":"; TWord "fty"; TPunct "=";
    TLit "0.66666667f32"; TPunct ";"] .
Definition q_TWO_THIRDS_64 : list tt := [TWord "const"; TWord "TWO_THIRDS"; TPunct ":"; TWord "fty"; TPunct "=";
    TLit "0.666666666666666667f64"; TPunct ";"] .
Definition tokens_TWO_THIRDS (bits : Z) (sub : list tt) : list tt := quote (variables bits sub) (if (bits =?
    32)%Z then q_TWO_THIRDS_32 else q_TWO_THIRDS_64).

(** auxfuncs.rs:188-193 *)
Definition q_PI : list tt := [TWord "const"; TWord "PI"; TPunct ":"; TWord "fty"; TPunct "="; TWord "#value";
    TPunct ";"] .
Definition tokens_PI (bits : Z) (sub : list tt) : list tt := quote (variables bits sub) q_PI.

(** auxfuncs.rs:196-201 *)
Definition q_PI_BY_2 : list tt := [TWord "const"; TWord "PI_BY_2"; TPunct ":"; TWord "fty"; TPunct "="; TWord
    "#value"; TPunct ";"] .
Definition tokens_PI_BY_2 (bits : Z) (sub : list tt) : list tt := quote (variables bits sub) q_PI_BY_2.

(** auxfuncs.rs:212-217 *)
Definition q_TAN_PI_BY_8 : list tt := [TWord "const"; TWord "TAN_PI_BY_8"; TPunct ":"; TWord "fty"; TPunct "=";
    TWord "#value"; TPunct ";"] .
Definition tokens_TAN_PI_BY_8 (bits : Z) (sub : list tt) : list tt := quote (variables bits sub) q_TAN_PI_BY_8.

(** auxfuncs.rs:204-209 *)
Definition q_PI_BY_8 : list tt := [TWord "const"; TWord "PI_BY_8"; TPunct ":"; TWord "fty"; TPunct "="; TWord
    "#value"; TPunct ";"] .
Definition tokens_PI_BY_8 (bits : Z) (sub : list tt) : list tt := quote (variables bits sub) q_PI_BY_8.

(** auxfuncs.rs:220-225 *)
Definition q_LOG2_E : list tt := [TWord "const"; TWord "LOG2_E"; TPunct ":"; TWord "fty"; TPunct "="; TWord
    "#value"; TPunct ";"] .
Definition tokens_LOG2_E (bits : Z) (sub : list tt) : list tt := quote (variables bits sub) q_LOG2_E.

(** auxfuncs.rs:228-233 *)
Definition q_RECIP_LOG2_E : list tt := [TWord "const"; TWord "RECIP_LOG2_E"; TPunct ":"; TWord "fty"; TPunct
    "="; TWord "#value"; TPunct ";"] .
Definition tokens_RECIP_LOG2_E (bits : Z) (sub : list tt) : list tt := quote (variables bits sub)
    q_RECIP_LOG2_E.

(** auxfuncs.rs:236-241 *)
Definition q_RECIP_LOG2_10 : list tt := [TWord "const"; TWord "RECIP_LOG2_10"; TPunct ":"; TWord "fty"; TPunct
    "="; TWord "#value"; TPunct ";"] .
Definition tokens_RECIP_LOG2_10 (bits : Z) (sub : list tt) : list tt := quote (variables bits sub)
    q_RECIP_LOG2_10.

(** auxfuncs.rs:244-250 *)
Definition q_RECIP_PI : list tt := [TWord "const"; TWord "RECIP_PI"; TPunct ":"; TWord "fty"; TPunct "="; TWord
    "#value"; TPunct ";"] .
Definition tokens_RECIP_PI (bits : Z) (sub : list tt) : list tt := quote (variables bits sub) q_RECIP_PI.

(** auxfuncs.rs:253-259 *)
Definition q_RECIP_2PI : list tt := [TWord "const"; TWord "RECIP_2PI"; TPunct ":"; TWord "fty"; TPunct "=";
    TWord "#value"; TPunct ";"] .
Definition tokens_RECIP_2PI (bits : Z) (sub : list tt) : list tt := quote (variables bits sub) q_RECIP_2PI.

(** auxfuncs.rs:262-268 *)
Definition q_SQRT_RECIP_2PI : list tt := [TWord "const"; TWord "SQRT_RECIP_2PI"; TPunct ":"; TWord "fty"; TPunct
    "="; TWord "#value"; TPunct ";"] .
Definition tokens_SQRT_RECIP_2PI (bits : Z) (sub : list tt) : list tt := quote (variables bits sub)
    q_SQRT_RECIP_2PI.

(** auxfuncs.rs:292-302 *)
Definition q_negate_on_odd : list tt := [TWord "pub"; TWord "fn"; TWord "negate_on_odd"; TGroup DParen [TWord
    "x"; TPunct ":"; TWord "fty"; TPunct ","; TWord "y"; TPunct ":"; TWord "fty"]; TPunct "->"; TWord "fty";
    TGroup DBrace [TWord "let"; TWord "sign_bit"; TPunct ":"; TWord "uty"; TPunct "="; TGroup DParen [TGroup
    DParen [TGroup DParen [TWord "x"; TWord "as"; TWord "ity"]; TPunct "&"; TLit "1"]; TPunct "<<"; TWord
    "#shift"]; TWord "as"; TWord "uty"; TPunct ";"; TWord "fty"; TPunct "::"; TWord "from_bits"; TGroup DParen
    [TWord "sign_bit"; TPunct "^"; TWord "y"; TPunct "."; TWord "to_bits"; TGroup DParen []]]].
Definition tokens_negate_on_odd (bits : Z) (sub : list tt) : list tt := quote (variables bits sub)
    q_negate_on_odd.

(** auxfuncs.rs:365-370 *)
Definition q_recip_approx_scale : list tt := [TPunct "-"; TLit "1.0"] .
Definition q_recip_approx_offset : list tt := [TLit "2.0"] .
Definition q_recip_approx_correction : list tt := [TGroup DParen [TWord "y"; TPunct "-"; TLit "0.08"]; TPunct
    "."; TWord "copysign"; TGroup DParen [TWord "x"]] .
Definition tokens_recip_approx (bits : Z) (sub : list tt) : list tt := quote (("scale", q_recip_approx_scale) ::
    ("offset", q_recip_approx_offset) :: ("correction", q_recip_approx_correction) :: ("name", [TWord
    "recip_approx"]) :: variables bits sub) q_power_scale.

(** auxfuncs.rs:372-377 *)
Definition q_sqrt_approx_scale : list tt := [TLit "0.5"] .
Definition q_sqrt_approx_offset : list tt := [TLit "0.5"] .
Definition q_sqrt_approx_correction : list tt := [TWord "y"; TPunct "-"; TLit "0.08"] .
Definition tokens_sqrt_approx (bits : Z) (sub : list tt) : list tt := quote (("scale", q_sqrt_approx_scale) ::
    ("offset", q_sqrt_approx_offset) :: ("correction", q_sqrt_approx_correction) :: ("name", [TWord
    "sqrt_approx"]) :: variables bits sub) q_power_scale.

(** auxfuncs.rs:379-384 *)
Definition q_cbrt_approx_scale : list tt := [TLit "1.0"; TPunct "/"; TLit "3.0"] .
Definition q_cbrt_approx_offset : list tt := [TLit "2.0"; TPunct "/"; TLit "3.0"] .
Definition q_cbrt_approx_correction : list tt := [TGroup DParen [TWord "y"; TPunct "-"; TLit "0.08"]; TPunct
    "."; TWord "copysign"; TGroup DParen [TWord "x"]] .
Definition tokens_cbrt_approx (bits : Z) (sub : list tt) : list tt := quote (("scale", q_cbrt_approx_scale) ::
    ("offset", q_cbrt_approx_offset) :: ("correction", q_cbrt_approx_correction) :: ("name", [TWord
    "cbrt_approx"]) :: variables bits sub) q_power_scale.

(** auxfuncs.rs:406-412 *)
Definition q_nextafter : list tt := [TWord "pub"; TWord "fn"; TWord "nextafter"; TGroup DParen [TWord "arg";
    TPunct ":"; TWord "fty"]; TPunct "->"; TWord "fty"; TGroup DBrace [TWord "fty"; TPunct "::"; TWord
    "from_bits"; TGroup DParen [TWord "arg"; TPunct "."; TWord "to_bits"; TGroup DParen []; TPunct "+"; TLit
    "1"]]] .
Definition tokens_nextafter (bits : Z) (sub : list tt) : list tt := quote (variables bits sub) q_nextafter.

(** hyperbolic.rs:6-14 *)
Definition q_sinh : list tt := [TWord "pub"; TWord "fn"; TWord "sinh"; TGroup DParen [TWord "x"; TPunct ":";
    TWord "fty"]; TPunct "->"; TWord "fty"; TGroup DBrace [TWord "let"; TWord "a"; TPunct ":"; TWord "fty";
    TPunct "="; TWord "x"; TPunct "."; TWord "mul_add"; TGroup DParen [TWord "LOG2_E"; TPunct ","; TPunct "-";
    TLit "1.0"]; TPunct ";"; TWord "let"; TWord "b"; TPunct ":"; TWord "fty"; TPunct "="; TWord "x"; TPunct ".";
    TWord "mul_add"; TGroup DParen [TPunct "-"; TWord "LOG2_E"; TPunct ","; TPunct "-"; TLit "1.0"]; TPunct ";";
    TWord "exp2"; TGroup DParen [TWord "a"]; TPunct "-"; TWord "exp2"; TGroup DParen [TWord "b"]]] .
Definition tokens_sinh (bits : Z) (sub : list tt) : list tt := quote (variables bits sub) q_sinh.

(** hyperbolic.rs:17-25 *)
Definition q_cosh : list tt := [TWord "pub"; TWord "fn"; TWord "cosh"; TGroup DParen [TWord "x"; TPunct ":";
    TWord "fty"]; TPunct "->"; TWord "fty"; TGroup DBrace [TWord "let"; TWord "a"; TPunct ":"; TWord "fty";
    TPunct "="; TWord "x"; TPunct "."; TWord "mul_add"; TGroup DParen [TWord "LOG2_E"; TPunct ","; TPunct "-";
    TLit "1.0"]; TPunct ";"; TWord "let"; TWord "b"; TPunct ":"; TWord "fty"; TPunct "="; TWord "x"; TPunct ".";
    TWord "mul_add"; TGroup DParen [TPunct "-"; TWord "LOG2_E"; TPunct ","; TPunct "-"; TLit "1.0"]; TPunct ";";
    TWord "exp2"; TGroup DParen [TWord "a"]; TPunct "+"; TWord "exp2"; TGroup DParen [TWord "b"]]] .
Definition tokens_cosh (bits : Z) (sub : list tt) : list tt := quote (variables bits sub) q_cosh.

(** hyperbolic.rs:28-35 *)
Definition q_tanh : list tt := [TWord "pub"; TWord "fn"; TWord "tanh"; TGroup DParen [TWord "x"; TPunct ":";
    TWord "fty"]; TPunct "->"; TWord "fty"; TGroup DBrace [TWord "let"; TWord "exp2x"; TPunct ":"; TWord "fty";
    TPunct "="; TWord "exp2"; TGroup DParen [TWord "x"; TPunct "*"; TGroup DParen [TWord "LOG2_E"; TPunct "*";
    TLit "2.0"]]; TPunct ";"; TGroup DParen [TWord "exp2x"; TPunct "-"; TLit "1.0"]; TPunct "/"; TGroup DParen
    [TWord "exp2x"; TPunct "+"; TLit "1.0"]]] .
Definition tokens_tanh (bits : Z) (sub : list tt) : list tt := quote (variables bits sub) q_tanh.

(** hyperbolic.rs:38-44 *)
Definition q_asinh : list tt := [TWord "pub"; TWord "fn"; TWord "asinh"; TGroup DParen [TWord "x"; TPunct ":";
    TWord "fty"]; TPunct "->"; TWord "fty"; TGroup DBrace [TWord "ln"; TGroup DParen [TWord "x"; TPunct "+";
    TGroup DParen [TWord "x"; TPunct "*"; TWord "x"; TPunct "+"; TLit "1.0"]; TPunct "."; TWord "sqrt"; TGroup
    DParen []]]].
Definition tokens_asinh (bits : Z) (sub : list tt) : list tt := quote (variables bits sub) q_asinh.

(** hyperbolic.rs:47-53 *)
Definition q_acosh : list tt := [TWord "pub"; TWord "fn"; TWord "acosh"; TGroup DParen [TWord "x"; TPunct ":";
    TWord "fty"]; TPunct "->"; TWord "fty"; TGroup DBrace [TWord "if"; TWord "x"; TPunct "<"; TLit "1.0"; TGroup
    DBrace [TWord "NAN"]; TWord "else"; TGroup DBrace [TWord "ln"; TGroup DParen [TWord "x"; TPunct "+"; TGroup
    DParen [TWord "x"; TPunct "*"; TWord "x"; TPunct "-"; TLit "1.0"]; TPunct "."; TWord "sqrt"; TGroup DParen
    []]]]].
Definition tokens_acosh (bits : Z) (sub : list tt) : list tt := quote (variables bits sub) q_acosh.

(** hyperbolic.rs:56-62 *)
Definition q_atanh : list tt := [TWord "pub"; TWord "fn"; TWord "atanh"; TGroup DParen [TWord "x"; TPunct ":";
    TWord "fty"]; TPunct "->"; TWord "fty"; TGroup DBrace [TGroup DParen [TWord "ln"; TGroup DParen [TLit "1.0";
    TPunct "+"; TWord "x"]; TPunct "-"; TWord "ln"; TGroup DParen [TLit "1.0"; TPunct "-"; TWord "x"]]; TPunct
    "*"; TLit "0.5"]] .
Definition tokens_atanh (bits : Z) (sub : list tt) : list tt := quote (variables bits sub) q_atanh.

(** inv_trig.rs:81-112 *)
Definition q_asin_lim : list tt := [TLit "0.70710678118654752440"] .
Definition q_asin : list tt := [TWord "pub"; TWord "fn"; TWord "asin"; TGroup DParen [TWord "arg"; TPunct ":";
    TWord "fty"]; TPunct "->"; TWord "fty"; TGroup DBrace [TWord "let"; TWord "LIM"; TPunct ":"; TWord "fty";
    TPunct "="; TWord "#lim"; TPunct ";"; TWord "let"; TWord "c"; TPunct ":"; TWord "fty"; TPunct "="; TWord
    "if"; TWord "arg"; TPunct "<"; TLit "0.0"; TGroup DBrace [TPunct "-"; TWord "PI_BY_2"]; TWord "else"; TGroup
    DBrace [TWord "PI_BY_2"]; TPunct ";"; TWord "let"; TWord "s"; TPunct ":"; TWord "fty"; TPunct "="; TWord
    "if"; TWord "arg"; TPunct "<"; TLit "0.0"; TGroup DBrace [TPunct "-"; TLit "1.0"]; TWord "else"; TGroup
    DBrace [TLit "1.0"]; TPunct ";"; TWord "let"; TWord "x"; TPunct ":"; TWord "fty"; TPunct "="; TWord "if";
    TWord "arg"; TPunct "*"; TWord "arg"; TPunct "<"; TWord "LIM"; TPunct "*"; TWord "LIM"; TGroup DBrace [TWord
    "arg"]; TWord "else"; TGroup DBrace [TGroup DParen [TLit "1.0"; TPunct "-"; TWord "arg"; TPunct "*"; TWord
    "arg"]; TPunct "."; TWord "sqrt"; TGroup DParen []]; TPunct ";"; TWord "let"; TWord "y"; TPunct ":"; TWord
    "fty"; TPunct "="; TWord "#approx"; TPunct ";"; TWord "if"; TWord "arg"; TPunct "*"; TWord "arg"; TPunct
    "<"; TWord "LIM"; TPunct "*"; TWord "LIM"; TGroup DBrace [TWord "y"]; TWord "else"; TGroup DBrace [TWord
    "c"; TPunct "-"; TWord "y"; TPunct "*"; TWord "s"]]] .
Definition tokens_asin (bits : Z) (sub : list tt) : list tt := quote (("lim", q_asin_lim) :: variables bits sub)
    q_asin.

(** inv_trig.rs:114-141 *)
Definition q_acos_lim : list tt := [TLit "0.70710678118654752440"] .
Definition q_acos : list tt := [TWord "pub"; TWord "fn"; TWord "acos"; TGroup DParen [TWord "arg"; TPunct ":";
    TWord "fty"]; TPunct "->"; TWord "fty"; TGroup DBrace [TWord "let"; TWord "LIM"; TPunct ":"; TWord "fty";
    TPunct "="; TWord "#lim"; TPunct ";"; TWord "let"; TWord "c"; TPunct ":"; TWord "fty"; TPunct "="; TWord
    "if"; TWord "arg"; TPunct "<"; TLit "0.0"; TGroup DBrace [TWord "PI"]; TWord "else"; TGroup DBrace [TLit
    "0.0"]; TPunct ";"; TWord "let"; TWord "s"; TPunct ":"; TWord "fty"; TPunct "="; TWord "if"; TWord "arg";
    TPunct "<"; TLit "0.0"; TGroup DBrace [TLit "1.0"]; TWord "else"; TGroup DBrace [TPunct "-"; TLit "1.0"];
    TPunct ";"; TWord "let"; TWord "x"; TPunct ":"; TWord "fty"; TPunct "="; TWord "if"; TWord "arg"; TPunct
    "*"; TWord "arg"; TPunct "<"; TWord "LIM"; TPunct "*"; TWord "LIM"; TGroup DBrace [TWord "arg"]; TWord
    "else"; TGroup DBrace [TGroup DParen [TLit "1.0"; TPunct "-"; TWord "arg"; TPunct "*"; TWord "arg"]; TPunct
    "."; TWord "sqrt"; TGroup DParen []]; TPunct ";"; TWord "let"; TWord "y"; TPunct ":"; TWord "fty"; TPunct
    "="; TWord "#approx"; TPunct ";"; TWord "if"; TWord "arg"; TPunct "*"; TWord "arg"; TPunct "<"; TWord "LIM";
    TPunct "*"; TWord "LIM"; TGroup DBrace [TWord "PI_BY_2"; TPunct "-"; TWord "y"]; TWord "else"; TGroup DBrace
    [TWord "c"; TPunct "-"; TWord "y"; TPunct "*"; TWord "s"]]] .
Definition tokens_acos (bits : Z) (sub : list tt) : list tt := quote (("lim", q_acos_lim) :: variables bits sub)
    q_acos.

(** inv_trig.rs:143-169 *)
Definition q_atan_lim : list tt := [TLit "1.0"] .
Definition q_atan : list tt := [TWord "pub"; TWord "fn"; TWord "atan"; TGroup DParen [TWord "arg"; TPunct ":";
    TWord "fty"]; TPunct "->"; TWord "fty"; TGroup DBrace [TWord "let"; TWord "LIM"; TPunct ":"; TWord "fty";
    TPunct "="; TWord "#lim"; TPunct ";"; TWord "let"; TWord "c"; TPunct ":"; TWord "fty"; TPunct "="; TWord
    "if"; TWord "arg"; TPunct "<"; TLit "0.0"; TGroup DBrace [TPunct "-"; TWord "PI_BY_2"]; TWord "else"; TGroup
    DBrace [TWord "PI_BY_2"]; TPunct ";"; TWord "let"; TWord "x"; TPunct ":"; TWord "fty"; TPunct "="; TWord
    "if"; TWord "arg"; TPunct "."; TWord "abs"; TGroup DParen []; TPunct "<"; TWord "LIM"; TGroup DBrace [TWord
    "arg"]; TWord "else"; TGroup DBrace [TWord "arg"; TPunct "."; TWord "recip"; TGroup DParen []]; TPunct ";";
    TWord "let"; TWord "y"; TPunct ":"; TWord "fty"; TPunct "="; TWord "#approx"; TPunct ";"; TWord "if"; TWord
    "arg"; TPunct "."; TWord "abs"; TGroup DParen []; TPunct "<"; TWord "LIM"; TGroup DBrace [TWord "y"]; TWord
    "else"; TGroup DBrace [TWord "c"; TPunct "-"; TWord "y"]]] .
Definition tokens_atan (bits : Z) (sub : list tt) : list tt := quote (("lim", q_atan_lim) :: variables bits sub)
    q_atan.

(** inv_trig.rs:9-79 *)
Definition q_atan2 : list tt := [TWord "pub"; TWord "fn"; TWord "atan2"; TGroup DParen [TWord "y"; TPunct ":";
    TWord "fty"; TPunct ","; TWord "x"; TPunct ":"; TWord "fty"]; TPunct "->"; TWord "fty"; TGroup DBrace [TWord
    "let"; TWord "x1"; TPunct "="; TWord "x"; TPunct "."; TWord "abs"; TGroup DParen []; TPunct ";"; TWord
    "let"; TWord "y1"; TPunct "="; TWord "y"; TPunct "."; TWord "abs"; TGroup DParen []; TPunct ";"; TWord
    "let"; TWord "x2"; TPunct "="; TWord "if"; TWord "x1"; TPunct ">"; TWord "y1"; TGroup DBrace [TWord "x1"];
    TWord "else"; TGroup DBrace [TWord "y1"]; TPunct ";"; TWord "let"; TWord "y2"; TPunct "="; TWord "if"; TWord
    "x1"; TPunct ">"; TWord "y1"; TGroup DBrace [TWord "y1"]; TWord "else"; TGroup DBrace [TWord "x1"]; TPunct
    ";"; TWord "let"; TWord "x3"; TPunct ":"; TWord "fty"; TPunct "="; TWord "TAN_PI_BY_8"; TPunct "*"; TWord
    "y2"; TPunct "+"; TWord "x2"; TPunct ";"; TWord "let"; TWord "y3"; TPunct ":"; TWord "fty"; TPunct "=";
    TGroup DParen [TPunct "-"; TWord "TAN_PI_BY_8"]; TPunct "*"; TWord "x2"; TPunct "+"; TWord "y2"; TPunct ";";
    TWord "let"; TWord "z"; TPunct "="; TWord "y3"; TPunct "/"; TWord "x3"; TPunct ";"; TWord "let"; TWord "a";
    TPunct ":"; TWord "fty"; TPunct "="; TWord "#approx"; TPunct "+"; TWord "PI_BY_8"; TPunct ";"; TWord "let";
    TWord "q1"; TPunct ":"; TWord "fty"; TPunct "="; TWord "if"; TWord "x1"; TPunct ">"; TWord "y1"; TGroup
    DBrace [TWord "a"]; TWord "else"; TGroup DBrace [TWord "PI_BY_2"; TPunct "-"; TWord "a"]; TPunct ";"; TWord
    "let"; TWord "q12"; TPunct ":"; TWord "fty"; TPunct "="; TWord "if"; TWord "x"; TPunct ">="; TLit "0.0";
    TGroup DBrace [TWord "q1"]; TWord "else"; TGroup DBrace [TWord "PI"; TPunct "-"; TWord "q1"]; TPunct ";";
    TWord "if"; TWord "y"; TPunct ">="; TLit "0.0"; TGroup DBrace [TWord "q12"]; TWord "else"; TGroup DBrace
    [TPunct "-"; TWord "q12"]]] .
Definition tokens_atan2 (bits : Z) (sub : list tt) : list tt := quote (variables bits sub) q_atan2.

(** log_exp.rs:8-36 *)
Definition q_exp2 : list tt := [TWord "pub"; TWord "fn"; TWord "exp2"; TGroup DParen [TWord "arg"; TPunct ":";
    TWord "fty"]; TPunct "->"; TWord "fty"; TGroup DBrace [TWord "let"; TWord "r"; TPunct ":"; TWord "fty";
    TPunct "="; TWord "round"; TGroup DParen [TWord "arg"]; TPunct ";"; TWord "let"; TWord "mul"; TPunct ":";
    TWord "fty"; TPunct "="; TWord "fty"; TPunct "::"; TWord "from_bits"; TGroup DParen [TGroup DParen [TWord
    "r"; TPunct "."; TWord "mul_add"; TGroup DParen [TWord "EXP2_SCALE"; TPunct ","; TWord "EXP2_ONE"]]; TWord
    "as"; TWord "uty"]; TPunct ";"; TWord "let"; TWord "x"; TPunct ":"; TWord "fty"; TPunct "="; TWord "arg";
    TPunct "-"; TWord "r"; TPunct ";"; TWord "let"; TWord "y"; TPunct ":"; TWord "fty"; TPunct "="; TWord
    "#approx"; TPunct "*"; TWord "mul"; TPunct ";"; TWord "let"; TWord "y1"; TPunct "="; TWord "if"; TWord
    "arg"; TPunct ">"; TWord "EXP2_MAX"; TGroup DBrace [TWord "INFINITY"]; TWord "else"; TGroup DBrace [TWord
    "y"]; TPunct ";"; TWord "if"; TWord "r"; TPunct "<"; TWord "EXP2_MIN"; TGroup DBrace [TLit "0.0"]; TWord
    "else"; TGroup DBrace [TWord "y1"]]] .
Definition tokens_exp2 (bits : Z) (sub : list tt) : list tt := quote (variables bits sub) q_exp2.

(** log_exp.rs:38-44 *)
Definition q_exp : list tt := [TWord "pub"; TWord "fn"; TWord "exp"; TGroup DParen [TWord "arg"; TPunct ":";
    TWord "fty"]; TPunct "->"; TWord "fty"; TGroup DBrace [TWord "exp2"; TGroup DParen [TWord "arg"; TPunct "*";
    TWord "LOG2_E"]]] .
Definition tokens_exp (bits : Z) (sub : list tt) : list tt := quote (variables bits sub) q_exp.

(** log_exp.rs:47-75 *)
Definition q_exp_m1 : list tt := [TPunct "#"; TGroup DBracket [TWord "doc"; TPunct "="; TLit
    """ Generate exp(arg) - 1 more accurately than separate calls."""]; TWord "pub"; TWord "fn"; TWord "exp_m1";
    TGroup DParen [TWord "arg"; TPunct ":"; TWord "fty"]; TPunct "->"; TWord "fty"; TGroup DBrace [TWord "let";
    TWord "scaled"; TPunct ":"; TWord "fty"; TPunct "="; TWord "arg"; TPunct "*"; TWord "LOG2_E"; TPunct ";";
    TWord "let"; TWord "r"; TPunct ":"; TWord "fty"; TPunct "="; TWord "round"; TGroup DParen [TWord "scaled"];
    TPunct ";"; TWord "let"; TWord "mul"; TPunct ":"; TWord "fty"; TPunct "="; TWord "fty"; TPunct "::"; TWord
    "from_bits"; TGroup DParen [TGroup DParen [TWord "r"; TPunct "."; TWord "mul_add"; TGroup DParen [TWord
    "EXP2_SCALE"; TPunct ","; TWord "EXP2_ONE"]]; TWord "as"; TWord "uty"]; TPunct ";"; TWord "let"; TWord "x";
    TPunct ":"; TWord "fty"; TPunct "="; TWord "scaled"; TPunct "-"; TWord "r"; TPunct ";"; TWord "#approx";
    TPunct "*"; TWord "mul"; TPunct "+"; TGroup DParen [TWord "mul"; TPunct "-"; TLit "1.0"]]] .
Definition tokens_exp_m1 (bits : Z) (sub : list tt) : list tt := quote (variables bits sub) q_exp_m1.

(** log_exp.rs:112-148 *)
Definition q_log2 : list tt := [TWord "pub"; TWord "fn"; TWord "log2"; TGroup DParen [TWord "arg"; TPunct ":";
    TWord "fty"]; TPunct "->"; TWord "fty"; TGroup DBrace [TWord "let"; TWord "arg_bits"; TPunct ":"; TWord
    "uty"; TPunct "="; TWord "arg"; TPunct "."; TWord "to_bits"; TGroup DParen []; TPunct ";"; TWord "let";
    TWord "exponent"; TPunct ":"; TWord "ity"; TPunct "="; TGroup DParen [TWord "arg_bits"; TWord "as"; TWord
    "ity"; TPunct ">>"; TWord "LOG2_SHIFT"]; TPunct "-"; TWord "LOG2_OFFSET"; TPunct ";"; TWord "let"; TWord
    "x"; TPunct ":"; TWord "fty"; TPunct "="; TWord "fty"; TPunct "::"; TWord "from_bits"; TGroup DParen [TGroup
    DParen [TWord "arg_bits"; TPunct "&"; TWord "ONE_MASK"]; TPunct "|"; TWord "ONE_BITS"]; TPunct "-"; TLit
    "1.5"; TPunct ";"; TWord "let"; TWord "y"; TPunct ":"; TWord "fty"; TPunct "="; TWord "#approx"; TPunct ";";
    TWord "if"; TWord "arg"; TPunct "<"; TLit "0.0"; TGroup DBrace [TPunct "-"; TWord "NAN"]; TWord "else";
    TGroup DBrace [TWord "if"; TWord "arg"; TPunct "<"; TWord "MIN_POSITIVE"; TGroup DBrace [TPunct "-"; TWord
    "INFINITY"]; TWord "else"; TGroup DBrace [TWord "y"; TPunct "+"; TGroup DParen [TWord "exponent"; TWord
    "as"; TWord "fty"]]]]] .
Definition tokens_log2 (bits : Z) (sub : list tt) : list tt := quote (variables bits sub) q_log2.

(** log_exp.rs:77-110 *)
Definition q_ln_1p : list tt := [TWord "pub"; TWord "fn"; TWord "ln_1p"; TGroup DParen [TWord "arg"; TPunct ":";
    TWord "fty"]; TPunct "->"; TWord "fty"; TGroup DBrace [TGroup DParen [TLit "1.0"; TPunct "+"; TWord "arg"];
    TPunct "."; TWord "ln"; TGroup DParen []]].
Definition tokens_ln_1p (bits : Z) (sub : list tt) : list tt := quote (variables bits sub) q_ln_1p.

(** log_exp.rs:150-156 *)
Definition q_ln : list tt := [TWord "pub"; TWord "fn"; TWord "ln"; TGroup DParen [TWord "arg"; TPunct ":"; TWord
    "fty"]; TPunct "->"; TWord "fty"; TGroup DBrace [TWord "log2"; TGroup DParen [TWord "arg"]; TPunct "*";
    TWord "RECIP_LOG2_E"]] .
Definition tokens_ln (bits : Z) (sub : list tt) : list tt := quote (variables bits sub) q_ln.

(** log_exp.rs:158-164 *)
Definition q_log10 : list tt := [TWord "pub"; TWord "fn"; TWord "log10"; TGroup DParen [TWord "arg"; TPunct ":";
    TWord "fty"]; TPunct "->"; TWord "fty"; TGroup DBrace [TWord "log2"; TGroup DParen [TWord "arg"]; TPunct
    "*"; TWord "RECIP_LOG2_10"]] .
Definition tokens_log10 (bits : Z) (sub : list tt) : list tt := quote (variables bits sub) q_log10.

(** log_exp.rs:166-172 *)
Definition q_log : list tt := [TWord "pub"; TWord "fn"; TWord "log"; TGroup DParen [TWord "arg"; TPunct ":";
    TWord "fty"; TPunct ","; TWord "base"; TPunct ":"; TWord "fty"]; TPunct "->"; TWord "fty"; TGroup DBrace
    [TWord "log2"; TGroup DParen [TWord "arg"]; TPunct "/"; TWord "log2"; TGroup DParen [TWord "base"]]] .
Definition tokens_log (bits : Z) (sub : list tt) : list tt := quote (variables bits sub) q_log.

(** log_exp.rs:174-180 *)
Definition q_powf : list tt := [TWord "pub"; TWord "fn"; TWord "powf"; TGroup DParen [TWord "arg"; TPunct ":";
    TWord "fty"; TPunct ","; TWord "y"; TPunct ":"; TWord "fty"]; TPunct "->"; TWord "fty"; TGroup DBrace [TWord
    "exp2"; TGroup DParen [TWord "log2"; TGroup DParen [TWord "arg"]; TPunct "*"; TWord "y"]]] .
Definition tokens_powf (bits : Z) (sub : list tt) : list tt := quote (variables bits sub) q_powf.

(** log_exp.rs:182-205 *)
Definition q_powi : list tt := [TWord "pub"; TWord "fn"; TWord "powi"; TGroup DParen [TWord "x"; TPunct ":";
    TWord "fty"; TPunct ","; TWord "y"; TPunct ":"; TWord "ity"]; TPunct "->"; TWord "fty"; TGroup DBrace [TWord
    "powf"; TGroup DParen [TWord "x"; TPunct ","; TWord "y"; TWord "as"; TWord "fty"]]] .
Definition tokens_powi (bits : Z) (sub : list tt) : list tt := quote (variables bits sub) q_powi.

(** recip_sqrt.rs:7-27 *)
Definition q_sqrt : list tt := [TWord "pub"; TWord "fn"; TWord "sqrt"; TGroup DParen [TWord "x"; TPunct ":";
    TWord "fty"]; TPunct "->"; TWord "fty"; TGroup DBrace [TWord "let"; TWord "r"; TPunct ":"; TWord "fty";
    TPunct "="; TWord "sqrt_approx"; TGroup DParen [TWord "x"]; TPunct ";"; TWord "let"; TWord "y"; TPunct ":";
    TWord "fty"; TPunct "="; TWord "r"; TPunct "+"; TGroup DParen [TWord "x"; TPunct "-"; TWord "r"; TPunct "*";
    TWord "r"]; TPunct "/"; TGroup DParen [TLit "2.0"; TPunct "*"; TWord "r"]; TPunct ";"; TWord "y"]] .
Definition tokens_sqrt (bits : Z) (sub : list tt) : list tt := quote (variables bits sub) q_sqrt.

(** recip_sqrt.rs:29-55 *)
Definition q_cbrt : list tt := [TWord "pub"; TWord "fn"; TWord "cbrt"; TGroup DParen [TWord "x"; TPunct ":";
    TWord "fty"]; TPunct "->"; TWord "fty"; TGroup DBrace [TWord "let"; TWord "r"; TPunct ":"; TWord "fty";
    TPunct "="; TWord "fty"; TPunct "::"; TWord "from_bits"; TGroup DParen [TGroup DParen [TGroup DParen [TWord
    "x"; TPunct "."; TWord "abs"; TGroup DParen []; TPunct "."; TWord "to_bits"; TGroup DParen []; TWord "as";
    TWord "fty"]; TPunct "."; TWord "mul_add"; TGroup DParen [TWord "ONE_THIRD"; TPunct ","; TWord "EXP2_ONE";
    TPunct "*"; TWord "TWO_THIRDS"]]; TWord "as"; TWord "uty"]; TPunct ";"; TWord "let"; TWord "r"; TPunct ":";
    TWord "fty"; TPunct "="; TWord "r"; TPunct "+"; TGroup DParen [TWord "x"; TPunct "."; TWord "abs"; TGroup
    DParen []; TPunct "-"; TWord "r"; TPunct "*"; TWord "r"; TPunct "*"; TWord "r"]; TPunct "/"; TGroup DParen
    [TLit "3.0"; TPunct "*"; TWord "r"; TPunct "*"; TWord "r"]; TPunct ";"; TWord "let"; TWord "r"; TPunct ":";
    TWord "fty"; TPunct "="; TWord "r"; TPunct "+"; TGroup DParen [TWord "x"; TPunct "."; TWord "abs"; TGroup
    DParen []; TPunct "-"; TWord "r"; TPunct "*"; TWord "r"; TPunct "*"; TWord "r"]; TPunct "/"; TGroup DParen
    [TLit "3.0"; TPunct "*"; TWord "r"; TPunct "*"; TWord "r"]; TPunct ";"; TWord "let"; TWord "r"; TPunct ":";
    TWord "fty"; TPunct "="; TWord "r"; TPunct "+"; TGroup DParen [TWord "x"; TPunct "."; TWord "abs"; TGroup
    DParen []; TPunct "-"; TWord "r"; TPunct "*"; TWord "r"; TPunct "*"; TWord "r"]; TPunct "/"; TGroup DParen
    [TLit "3.0"; TPunct "*"; TWord "r"; TPunct "*"; TWord "r"]; TPunct ";"; TWord "let"; TWord "r"; TPunct ":";
    TWord "fty"; TPunct "="; TWord "r"; TPunct "+"; TGroup DParen [TWord "x"; TPunct "."; TWord "abs"; TGroup
    DParen []; TPunct "-"; TWord "r"; TPunct "*"; TWord "r"; TPunct "*"; TWord "r"]; TPunct "/"; TGroup DParen
    [TLit "3.0"; TPunct "*"; TWord "r"; TPunct "*"; TWord "r"]; TPunct ";"; TWord "r"; TPunct "."; TWord
    "copysign"; TGroup DParen [TWord "x"]]] .
Definition tokens_cbrt (bits : Z) (sub : list tt) : list tt := quote (variables bits sub) q_cbrt.

(** recip_sqrt.rs:57-76 *)
Definition q_recip : list tt := [TWord "pub"; TWord "fn"; TWord "recip"; TGroup DParen [TWord "x"; TPunct ":";
    TWord "fty"]; TPunct "->"; TWord "fty"; TGroup DBrace [TWord "let"; TWord "r"; TPunct ":"; TWord "fty";
    TPunct "="; TWord "recip_approx"; TGroup DParen [TWord "x"]; TPunct ";"; TWord "let"; TWord "r1"; TPunct
    ":"; TWord "fty"; TPunct "="; TWord "r"; TPunct "*"; TGroup DParen [TLit "2.0"; TPunct "-"; TWord "x";
    TPunct "*"; TWord "r"]; TPunct ";"; TWord "let"; TWord "r2"; TPunct ":"; TWord "fty"; TPunct "="; TWord
    "r1"; TPunct "*"; TGroup DParen [TLit "2.0"; TPunct "-"; TWord "x"; TPunct "*"; TWord "r1"]; TPunct ";";
    TWord "let"; TWord "r3"; TPunct ":"; TWord "fty"; TPunct "="; TWord "r2"; TPunct "*"; TGroup DParen [TLit
    "2.0"; TPunct "-"; TWord "x"; TPunct "*"; TWord "r2"]; TPunct ";"; TWord "r3"]] .
Definition tokens_recip (bits : Z) (sub : list tt) : list tt := quote (variables bits sub) q_recip.

(** recip_sqrt.rs:78-89 *)
Definition q_hypot : list tt := [TWord "pub"; TWord "fn"; TWord "hypot"; TGroup DParen [TWord "x"; TPunct ":";
    TWord "fty"; TPunct ","; TWord "y"; TPunct ":"; TWord "fty"]; TPunct "->"; TWord "fty"; TGroup DBrace [TWord
    "let"; TWord "xgty"; TPunct ":"; TWord "bool"; TPunct "="; TWord "x"; TPunct "."; TWord "abs"; TGroup DParen
    []; TPunct ">"; TWord "y"; TPunct "."; TWord "abs"; TGroup DParen []; TPunct ";"; TWord "let"; TWord "x2";
    TPunct ":"; TWord "fty"; TPunct "="; TWord "if"; TWord "xgty"; TGroup DBrace [TWord "x"]; TWord "else";
    TGroup DBrace [TWord "y"]; TPunct ";"; TWord "let"; TWord "y2"; TPunct ":"; TWord "fty"; TPunct "="; TWord
    "if"; TWord "xgty"; TGroup DBrace [TWord "y"]; TWord "else"; TGroup DBrace [TWord "x"]; TPunct ";"; TWord
    "if"; TWord "x2"; TPunct "."; TWord "abs"; TGroup DParen []; TPunct "<="; TWord "MIN_POSITIVE"; TGroup
    DBrace [TWord "x2"]; TWord "else"; TGroup DBrace [TWord "x2"; TPunct "."; TWord "abs"; TGroup DParen [];
    TPunct "*"; TGroup DParen [TLit "1.0"; TPunct "+"; TGroup DParen [TWord "y2"; TPunct "/"; TWord "x2"];
    TPunct "*"; TGroup DParen [TWord "y2"; TPunct "/"; TWord "x2"]]; TPunct "."; TWord "sqrt"; TGroup DParen
    []]]].
Definition tokens_hypot (bits : Z) (sub : list tt) : list tt := quote (variables bits sub) q_hypot.

(** stats_random.rs:5-18 *)
Definition q_runif : list tt := [TPunct "#"; TGroup DBracket [TWord "doc"; TPunct "="; TLit
    """ See https://xorshift.di.unimi.it/splitmix64.c"""]; TPunct "#"; TGroup DBracket [TWord "doc"; TPunct "=";
    TLit """ Returns half-close range 0-1"""]; TWord "pub"; TWord "fn"; TWord "runif"; TGroup DParen [TWord
    "index"; TPunct ":"; TWord "usize"; TPunct ","; TWord "min"; TPunct ":"; TWord "fty"; TPunct ","; TWord
    "max"; TPunct ":"; TWord "fty"]; TPunct "->"; TWord "fty"; TGroup DBrace [TWord "let"; TWord "z"; TPunct
    ":"; TWord "uty"; TPunct "="; TGroup DParen [TWord "index"; TWord "as"; TWord "u64"; TPunct "+"; TLit "1"];
    TPunct "."; TWord "wrapping_mul"; TGroup DParen [TLit "0x9e3779b97f4a7c15"]; TPunct ";"; TWord "let"; TWord
    "z1"; TPunct ":"; TWord "uty"; TPunct "="; TGroup DParen [TWord "z"; TPunct "^"; TGroup DParen [TWord "z";
    TPunct ">>"; TLit "30"]]; TPunct "."; TWord "wrapping_mul"; TGroup DParen [TLit "0xbf58476d1ce4e5b9"];
    TPunct ";"; TWord "let"; TWord "z2"; TPunct ":"; TWord "uty"; TPunct "="; TGroup DParen [TWord "z1"; TPunct
    "^"; TGroup DParen [TWord "z1"; TPunct ">>"; TLit "27"]]; TPunct "."; TWord "wrapping_mul"; TGroup DParen
    [TLit "0x94d049bb133111eb"]; TPunct ";"; TWord "let"; TWord "z3"; TPunct ":"; TWord "uty"; TPunct "="; TWord
    "z2"; TPunct "^"; TGroup DParen [TWord "z2"; TPunct ">>"; TLit "31"]; TPunct ";"; TWord "let"; TWord "x";
    TPunct ":"; TWord "fty"; TPunct "="; TWord "fty"; TPunct "::"; TWord "from_bits"; TGroup DParen [TGroup
    DParen [TWord "z3"; TWord "as"; TWord "uty"; TPunct ">>"; TLit "2"]; TPunct "|"; TWord "ONE_BITS"]; TPunct
    "-"; TLit "1.0"; TPunct ";"; TGroup DParen [TWord "x"; TPunct "*"; TGroup DParen [TWord "max"; TPunct "-";
    TWord "min"]]; TPunct "+"; TWord "min"]] .
Definition tokens_runif (bits : Z) (sub : list tt) : list tt := quote (variables bits sub) q_runif.

(** stats_norm.rs:9-18 *)
Definition q_dnorm : list tt := [TWord "pub"; TWord "fn"; TWord "dnorm"; TGroup DParen [TWord "arg"; TPunct ":";
    TWord "fty"; TPunct ","; TWord "mean"; TPunct ":"; TWord "fty"; TPunct ","; TWord "sigma"; TPunct ":"; TWord
    "fty"]; TPunct "->"; TWord "fty"; TGroup DBrace [TWord "let"; TWord "rsigma"; TPunct ":"; TWord "fty";
    TPunct "="; TGroup DParen [TLit "1.0"; TWord "as"; TWord "fty"]; TPunct "/"; TWord "sigma"; TPunct ";";
    TWord "let"; TWord "y"; TPunct ":"; TWord "fty"; TPunct "="; TGroup DParen [TWord "arg"; TPunct "-"; TWord
    "mean"]; TPunct "*"; TWord "rsigma"; TPunct ";"; TWord "let"; TWord "e"; TPunct ":"; TWord "fty"; TPunct
    "="; TGroup DParen [TPunct "-"; TLit "0.5"; TPunct "*"; TWord "LOG2_E"]; TWord "as"; TWord "fty"; TPunct
    "*"; TWord "y"; TPunct "*"; TWord "y"; TPunct ";"; TWord "rsigma"; TPunct "*"; TWord "SQRT_RECIP_2PI";
    TPunct "*"; TWord "exp2"; TGroup DParen [TWord "e"]]] .
Definition tokens_dnorm (bits : Z) (sub : list tt) : list tt := quote (variables bits sub) q_dnorm.

(** stats_norm.rs:20-26 *)
Definition q_pnorm : list tt := [].
Definition tokens_pnorm (bits : Z) (sub : list tt) : list tt := quote (variables bits sub) q_pnorm.

(** stats_norm.rs:39-74 *)
Definition q_qnorm : list tt := [TWord "pub"; TWord "fn"; TWord "qnorm"; TGroup DParen [TWord "arg"; TPunct ":";
    TWord "fty"; TPunct ","; TWord "mean"; TPunct ":"; TWord "fty"; TPunct ","; TWord "sigma"; TPunct ":"; TWord
    "fty"]; TPunct "->"; TWord "fty"; TGroup DBrace [TWord "let"; TWord "scaled"; TPunct ":"; TWord "fty";
    TPunct "="; TWord "arg"; TPunct "-"; TLit "0.5"; TPunct ";"; TWord "let"; TWord "x"; TPunct "="; TWord
    "scaled"; TPunct ";"; TWord "let"; TWord "recip"; TPunct ":"; TWord "fty"; TPunct "="; TWord "sigma"; TPunct
    "/"; TGroup DParen [TWord "x"; TPunct "*"; TWord "x"; TPunct "-"; TLit "0.5"; TPunct "*"; TLit "0.5"];
    TPunct ";"; TWord "let"; TWord "y"; TPunct ":"; TWord "fty"; TPunct "="; TWord "#approx"; TPunct ";"; TWord
    "y"; TPunct "*"; TWord "recip"; TPunct "+"; TWord "mean"]] .
Definition tokens_qnorm (bits : Z) (sub : list tt) : list tt := quote (variables bits sub) q_qnorm.

(** stats_norm.rs:28-37 *)
Definition q_rnorm : list tt := [TWord "pub"; TWord "fn"; TWord "rnorm"; TGroup DParen [TWord "index"; TPunct
    ":"; TWord "usize"; TPunct ","; TWord "mean"; TPunct ":"; TWord "fty"; TPunct ","; TWord "sigma"; TPunct
    ":"; TWord "fty"]; TPunct "->"; TWord "fty"; TGroup DBrace [TWord "const"; TWord "MIN"; TPunct ":"; TWord
    "fty"; TPunct "="; TLit "0.000001"; TPunct ";"; TWord "const"; TWord "MAX"; TPunct ":"; TWord "fty"; TPunct
    "="; TLit "1.0"; TPunct "-"; TWord "MIN"; TPunct ";"; TWord "let"; TWord "x"; TPunct ":"; TWord "fty";
    TPunct "="; TWord "runif"; TGroup DParen [TWord "index"; TPunct ","; TWord "MIN"; TPunct ","; TWord "MAX"];
    TPunct ";"; TWord "qnorm"; TGroup DParen [TWord "x"; TPunct ","; TWord "mean"; TPunct ","; TWord "sigma"]]]
    .
Definition tokens_rnorm (bits : Z) (sub : list tt) : list tt := quote (variables bits sub) q_rnorm.

(** trig.rs:114-139 *)
Definition q_sin : list tt := [TWord "pub"; TWord "fn"; TWord "sin"; TGroup DParen [TWord "arg"; TPunct ":";
    TWord "fty"]; TPunct "->"; TWord "fty"; TGroup DBrace [TWord "let"; TWord "scaled"; TPunct ":"; TWord "fty";
    TPunct "="; TWord "arg"; TPunct "*"; TWord "RECIP_2PI"; TPunct ";"; TWord "let"; TWord "x"; TPunct ":";
    TWord "fty"; TPunct "="; TWord "scaled"; TPunct "-"; TWord "round"; TGroup DParen [TWord "scaled"]; TPunct
    ";"; TWord "#approx"]] .
Definition tokens_sin (bits : Z) (sub : list tt) : list tt := quote (variables bits sub) q_sin.

(** trig.rs:142-167 *)
Definition q_cos : list tt := [TWord "pub"; TWord "fn"; TWord "cos"; TGroup DParen [TWord "arg"; TPunct ":";
    TWord "fty"]; TPunct "->"; TWord "fty"; TGroup DBrace [TWord "let"; TWord "scaled"; TPunct ":"; TWord "fty";
    TPunct "="; TWord "arg"; TPunct "*"; TWord "RECIP_2PI"; TPunct ";"; TWord "let"; TWord "x"; TPunct ":";
    TWord "fty"; TPunct "="; TWord "scaled"; TPunct "-"; TWord "round"; TGroup DParen [TWord "scaled"]; TPunct
    ";"; TWord "#approx"]] .
Definition tokens_cos (bits : Z) (sub : list tt) : list tt := quote (variables bits sub) q_cos.

(** trig.rs:178-208 *)
Definition q_tan : list tt := [TWord "pub"; TWord "fn"; TWord "tan"; TGroup DParen [TWord "arg"; TPunct ":";
    TWord "fty"]; TPunct "->"; TWord "fty"; TGroup DBrace [TWord "let"; TWord "scaled"; TPunct ":"; TWord "fty";
    TPunct "="; TWord "arg"; TPunct "*"; TWord "RECIP_PI"; TPunct ";"; TWord "let"; TWord "x"; TPunct ":"; TWord
    "fty"; TPunct "="; TWord "scaled"; TPunct "-"; TWord "round"; TGroup DParen [TWord "scaled"]; TPunct ";";
    TWord "let"; TWord "recip"; TPunct ":"; TWord "fty"; TPunct "="; TLit "1.0"; TPunct "/"; TGroup DParen
    [TWord "x"; TPunct "*"; TWord "x"; TPunct "-"; TLit "0.25"]; TPunct ";"; TWord "let"; TWord "y"; TPunct ":";
    TWord "fty"; TPunct "="; TWord "#approx"; TPunct ";"; TWord "y"; TPunct "*"; TWord "recip"]] .
Definition tokens_tan (bits : Z) (sub : list tt) : list tt := quote (variables bits sub) q_tan.

(** trig.rs:169-176 *)
Definition q_sin_cos : list tt := [TWord "pub"; TWord "fn"; TWord "sin_cos"; TGroup DParen [TWord "arg"; TPunct
    ":"; TWord "fty"]; TPunct "->"; TGroup DParen [TWord "fty"; TPunct ","; TWord "fty"]; TGroup DBrace [TGroup
    DParen [TWord "sin"; TGroup DParen [TWord "arg"]; TPunct ","; TWord "cos"; TGroup DParen [TWord "arg"]]]] .
Definition tokens_sin_cos (bits : Z) (sub : list tt) : list tt := quote (variables bits sub) q_sin_cos.

(** The generators of the table, functions.rs:52-826: what is written before the
    tests.  [sub name] are the tokens that the generator of [name] interpolates. *)
Definition tokens (bits : Z) (sub : string -> list tt) (name : string) : list tt :=
  if String.eqb name "fty" then tokens_fty bits (sub name) else
  if String.eqb name "uty" then tokens_uty bits (sub name) else
  if String.eqb name "ity" then tokens_ity bits (sub name) else
  if String.eqb name "round" then tokens_round bits (sub name) else
  if String.eqb name "LOG2_SHIFT" then tokens_LOG2_SHIFT bits (sub name) else
  if String.eqb name "LOG2_OFFSET" then tokens_LOG2_OFFSET bits (sub name) else
  if String.eqb name "NAN" then tokens_NAN bits (sub name) else
  if String.eqb name "INFINITY" then tokens_INFINITY bits (sub name) else
  if String.eqb name "MIN_POSITIVE" then tokens_MIN_POSITIVE bits (sub name) else
  if String.eqb name "ONE_MASK" then tokens_ONE_MASK bits (sub name) else
  if String.eqb name "ONE_BITS" then tokens_ONE_BITS bits (sub name) else
  if String.eqb name "EXP2_ONE" then tokens_EXP2_ONE bits (sub name) else
  if String.eqb name "EXP2_SCALE" then tokens_EXP2_SCALE bits (sub name) else
  if String.eqb name "EXP2_MIN" then tokens_EXP2_MIN bits (sub name) else
  if String.eqb name "EXP2_MAX" then tokens_EXP2_MAX bits (sub name) else
  if String.eqb name "ONE_THIRD" then tokens_ONE_THIRD bits (sub name) else
  if String.eqb name "TWO_THIRDS" then tokens_TWO_THIRDS bits (sub name) else
  if String.eqb name "PI" then tokens_PI bits (sub name) else
  if String.eqb name "PI_BY_2" then tokens_PI_BY_2 bits (sub name) else
  if String.eqb name "TAN_PI_BY_8" then tokens_TAN_PI_BY_8 bits (sub name) else
  if String.eqb name "PI_BY_8" then tokens_PI_BY_8 bits (sub name) else
  if String.eqb name "LOG2_E" then tokens_LOG2_E bits (sub name) else
  if String.eqb name "RECIP_LOG2_E" then tokens_RECIP_LOG2_E bits (sub name) else
  if String.eqb name "RECIP_LOG2_10" then tokens_RECIP_LOG2_10 bits (sub name) else
  if String.eqb name "RECIP_PI" then tokens_RECIP_PI bits (sub name) else
  if String.eqb name "RECIP_2PI" then tokens_RECIP_2PI bits (sub name) else
  if String.eqb name "SQRT_RECIP_2PI" then tokens_SQRT_RECIP_2PI bits (sub name) else
  if String.eqb name "negate_on_odd" then tokens_negate_on_odd bits (sub name) else
  if String.eqb name "recip_approx" then tokens_recip_approx bits (sub name) else
  if String.eqb name "sqrt_approx" then tokens_sqrt_approx bits (sub name) else
  if String.eqb name "cbrt_approx" then tokens_cbrt_approx bits (sub name) else
  if String.eqb name "nextafter" then tokens_nextafter bits (sub name) else
  if String.eqb name "sinh" then tokens_sinh bits (sub name) else
  if String.eqb name "cosh" then tokens_cosh bits (sub name) else
  if String.eqb name "tanh" then tokens_tanh bits (sub name) else
  if String.eqb name "asinh" then tokens_asinh bits (sub name) else
  if String.eqb name "acosh" then tokens_acosh bits (sub name) else
  if String.eqb name "atanh" then tokens_atanh bits (sub name) else
  if String.eqb name "asin" then tokens_asin bits (sub name) else
  if String.eqb name "acos" then tokens_acos bits (sub name) else
  if String.eqb name "atan" then tokens_atan bits (sub name) else
  if String.eqb name "atan2" then tokens_atan2 bits (sub name) else
  if String.eqb name "exp2" then tokens_exp2 bits (sub name) else
  if String.eqb name "exp" then tokens_exp bits (sub name) else
  if String.eqb name "exp_m1" then tokens_exp_m1 bits (sub name) else
  if String.eqb name "log2" then tokens_log2 bits (sub name) else
  if String.eqb name "ln_1p" then tokens_ln_1p bits (sub name) else
  if String.eqb name "ln" then tokens_ln bits (sub name) else
  if String.eqb name "log10" then tokens_log10 bits (sub name) else
  if String.eqb name "log" then tokens_log bits (sub name) else
  if String.eqb name "powf" then tokens_powf bits (sub name) else
  if String.eqb name "powi" then tokens_powi bits (sub name) else
  if String.eqb name "sqrt" then tokens_sqrt bits (sub name) else
  if String.eqb name "cbrt" then tokens_cbrt bits (sub name) else
  if String.eqb name "recip" then tokens_recip bits (sub name) else
  if String.eqb name "hypot" then tokens_hypot bits (sub name) else
  if String.eqb name "runif" then tokens_runif bits (sub name) else
  if String.eqb name "dnorm" then tokens_dnorm bits (sub name) else
  if String.eqb name "pnorm" then tokens_pnorm bits (sub name) else
  if String.eqb name "qnorm" then tokens_qnorm bits (sub name) else
  if String.eqb name "rnorm" then tokens_rnorm bits (sub name) else
  if String.eqb name "sin" then tokens_sin bits (sub name) else
  if String.eqb name "cos" then tokens_cos bits (sub name) else
  if String.eqb name "tan" then tokens_tan bits (sub name) else
  if String.eqb name "sin_cos" then tokens_sin_cos bits (sub name) else
  [].

(** auxfuncs.rs:426-474 *)
Definition q_plot_function : list tt := [TWord "fn"; TWord "plot_function"; TPunct "<"; TWord "F"; TPunct ":";
    TWord "Fn"; TGroup DParen [TWord "fty"]; TPunct "->"; TWord "fty"; TPunct ">"; TGroup DParen [TWord
    "test_name"; TPunct ":"; TPunct "&"; TWord "str"; TPunct ","; TWord "accurate_values"; TPunct ":"; TPunct
    "&"; TGroup DBracket [TGroup DParen [TWord "fty"; TPunct ","; TWord "fty"; TPunct ","; TWord "fty"]]; TPunct
    ","; TWord "f"; TPunct ":"; TWord "F"]; TGroup DBrace [TWord "use"; TWord "std"; TPunct "::"; TWord "io";
    TPunct "::"; TWord "Write"; TPunct ";"; TWord "let"; TWord "mut"; TWord "csv"; TPunct "="; TWord "std";
    TPunct "::"; TWord "fs"; TPunct "::"; TWord "File"; TPunct "::"; TWord "create"; TGroup DParen [TWord
    "format"; TPunct "!"; TGroup DParen [TLit """{}.csv"""; TPunct ","; TWord "test_name"]]; TPunct "."; TWord
    "unwrap"; TGroup DParen []; TPunct ";"; TWord "writeln"; TPunct "!"; TGroup DParen [TWord "csv"; TPunct ",";
    TLit """x, yref, ycalc, eref"""]; TPunct "."; TWord "unwrap"; TGroup DParen []; TPunct ";"; TWord "for";
    TPunct "&"; TGroup DParen [TWord "x"; TPunct ","; TWord "yref"; TPunct ","; TWord "yerr"]; TWord "in"; TWord
    "accurate_values"; TGroup DBrace [TWord "let"; TWord "ycalc"; TPunct "="; TWord "f"; TGroup DParen [TWord
    "x"]; TPunct ";"; TWord "let"; TWord "eref"; TPunct "="; TGroup DParen [TWord "ycalc"; TPunct "-"; TWord
    "yref"; TPunct "-"; TWord "yerr"]; TPunct "."; TWord "abs"; TGroup DParen []; TPunct ";"; TWord "writeln";
    TPunct "!"; TGroup DParen [TWord "csv"; TPunct ","; TLit """{}, {}, {}, {}"""; TPunct ","; TWord "x"; TPunct
    ","; TWord "yref"; TPunct ","; TWord "ycalc"; TPunct ","; TWord "eref"]; TPunct "."; TWord "unwrap"; TGroup
    DParen []; TPunct ";"]]] .
Definition q_test_function : list tt := [TWord "fn"; TWord "test_function"; TPunct "<"; TWord "F"; TPunct ":";
    TWord "Fn"; TGroup DParen [TWord "fty"]; TPunct "->"; TWord "fty"; TPunct ">"; TGroup DParen [TWord
    "test_name"; TPunct ":"; TPunct "&"; TWord "str"; TPunct ","; TWord "accurate_values"; TPunct ":"; TPunct
    "&"; TGroup DBracket [TGroup DParen [TWord "fty"; TPunct ","; TWord "fty"; TPunct ","; TWord "fty"]]; TPunct
    ","; TWord "limit"; TPunct ":"; TWord "fty"; TPunct ","; TWord "f"; TPunct ":"; TWord "F"]; TGroup DBrace
    [TWord "let"; TWord "mut"; TWord "max_ref_error"; TPunct ":"; TWord "fty"; TPunct "="; TLit "0.0"; TPunct
    ";"; TWord "let"; TWord "mut"; TWord "bad_ycalc"; TPunct ":"; TWord "fty"; TPunct "="; TLit "0.0"; TPunct
    ";"; TWord "let"; TWord "mut"; TWord "bad_yref"; TPunct ":"; TWord "fty"; TPunct "="; TLit "0.0"; TPunct
    ";"; TWord "let"; TWord "mut"; TWord "bad_x"; TPunct ":"; TWord "fty"; TPunct "="; TLit "0.0"; TPunct ";";
    TWord "for"; TPunct "&"; TGroup DParen [TWord "x"; TPunct ","; TWord "yref"; TPunct ","; TWord "yerr"];
    TWord "in"; TWord "accurate_values"; TGroup DBrace [TWord "let"; TWord "ycalc"; TPunct "="; TWord "f";
    TGroup DParen [TWord "x"]; TPunct ";"; TWord "let"; TWord "eref"; TPunct "="; TGroup DParen [TWord "ycalc";
    TPunct "-"; TWord "yref"; TPunct "-"; TWord "yerr"]; TPunct "."; TWord "abs"; TGroup DParen []; TPunct ";";
    TWord "if"; TWord "eref"; TPunct ">"; TWord "max_ref_error"; TGroup DBrace [TWord "max_ref_error"; TPunct
    "="; TWord "eref"; TPunct ";"; TWord "bad_ycalc"; TPunct "="; TWord "ycalc"; TPunct ";"; TWord "bad_yref";
    TPunct "="; TWord "yref"; TPunct ";"; TWord "bad_x"; TPunct "="; TWord "x"; TPunct ";"]]; TWord "println";
    TPunct "!"; TGroup DParen [TLit """{}:"""; TPunct ","; TWord "test_name"]; TPunct ";"; TWord "println";
    TPunct "!"; TGroup DParen [TLit """max_ref_error          = {:25.20}"""; TPunct ","; TWord "max_ref_error"];
    TPunct ";"; TWord "println"; TPunct "!"; TGroup DParen [TLit """max_ref_error x 2^53   = {:7.2}"""; TPunct
    ","; TWord "max_ref_error"; TPunct "*"; TGroup DParen [TLit "2.0"; TWord "as"; TWord "fty"]; TPunct ".";
    TWord "powi"; TGroup DParen [TLit "53"]]; TPunct ";"; TWord "println"; TPunct "!"; TGroup DParen [TLit
    """limit         x 2^53   = {:7.2}"""; TPunct ","; TWord "limit"; TPunct "*"; TGroup DParen [TLit "2.0";
    TWord "as"; TWord "fty"]; TPunct "."; TWord "powi"; TGroup DParen [TLit "53"]]; TPunct ";"; TWord "println";
    TPunct "!"; TGroup DParen [TLit """x    ={:016x}            {:25.20}"""; TPunct ","; TWord "bad_x"; TPunct
    "."; TWord "to_bits"; TGroup DParen []; TPunct ","; TWord "bad_x"]; TPunct ";"; TWord "println"; TPunct "!";
    TGroup DParen [TLit """ycalc={:016x}            {:25.20}"""; TPunct ","; TWord "bad_ycalc"; TPunct ".";
    TWord "to_bits"; TGroup DParen []; TPunct ","; TWord "bad_ycalc"]; TPunct ";"; TWord "println"; TPunct "!";
    TGroup DParen [TLit """yref ={:016x}            {:25.20}"""; TPunct ","; TWord "bad_yref"; TPunct "."; TWord
    "to_bits"; TGroup DParen []; TPunct ","; TWord "bad_yref"]; TPunct ";"; TWord "assert"; TPunct "!"; TGroup
    DParen [TPunct "!"; TWord "max_ref_error"; TPunct "."; TWord "is_nan"; TGroup DParen []]; TPunct ";"; TWord
    "assert"; TPunct "!"; TGroup DParen [TWord "max_ref_error"; TPunct "<="; TWord "limit"]; TPunct ";"]; TWord
    "#plot_function"] .
Definition gen_test_function (plots : bool) : list tt :=
  quote [("plot_function", if plots then q_plot_function else [])] q_test_function.

(** test.rs:12-85: the quoted parts. *)
Definition q_row : list tt := [TGroup DParen [TWord "#x"; TPunct ","; TWord "#y"; TPunct ","; TWord "#ye"];
    TPunct ","] .
Definition q_max_abs_plot : list tt := [TWord "plot_function"; TGroup DParen [TWord "#test_name_str"; TPunct
    ","; TWord "accurate_values"; TPunct ","; TPunct "|"; TWord "x"; TPunct "|"; TWord "#expr"]; TPunct ";"] .
Definition q_max_abs : list tt := [TPunct "#"; TGroup DBracket [TWord "test"]; TWord "pub"; TWord "fn"; TWord
    "#test_name"; TGroup DParen []; TGroup DBrace [TWord "let"; TWord "accurate_values"; TPunct ":"; TPunct "&";
    TGroup DBracket [TGroup DParen [TWord "fty"; TPunct ","; TWord "fty"; TPunct ","; TWord "fty"]]; TPunct "=";
    TPunct "&"; TGroup DBracket [TWord "#accurate_values"]; TPunct ";"; TWord "test_function"; TGroup DParen
    [TWord "#test_name_str"; TPunct ","; TWord "accurate_values"; TPunct ","; TWord "#accuracy"; TWord "as";
    TWord "fty"; TPunct ","; TPunct "|"; TWord "x"; TPunct "|"; TWord "#expr"]; TPunct ";"; TWord
    "#plot_function"]] .
(** test.rs:89-131 *)
Definition q_histogram : list tt := [TPunct "#"; TGroup DBracket [TWord "test"]; TWord "pub"; TWord "fn"; TWord
    "#test_name"; TGroup DParen []; TGroup DBrace [TWord "let"; TWord "mut"; TWord "h"; TPunct "="; TGroup
    DBracket [TLit "0"; TPunct ";"; TWord "#nbuckets"]; TPunct ";"; TWord "for"; TWord "i"; TWord "in"; TLit
    "0"; TPunct ".."; TWord "#niter"; TGroup DBrace [TWord "let"; TWord "y"; TPunct "="; TWord "#expr"; TWord
    "as"; TWord "f64"; TPunct ";"; TWord "let"; TWord "idx"; TPunct "="; TGroup DParen [TGroup DParen [TWord
    "y"; TPunct "-"; TWord "#tmin"]; TPunct "/"; TGroup DParen [TWord "#tmax"; TPunct "-"; TWord "#tmin"];
    TPunct "*"; TWord "#nbuckets"; TWord "as"; TWord "f64"]; TPunct "."; TWord "floor"; TGroup DParen []; TWord
    "as"; TWord "isize"; TPunct ";"; TWord "if"; TWord "idx"; TPunct ">="; TLit "0"; TPunct "&&"; TWord "idx";
    TPunct "<"; TGroup DParen [TWord "#nbuckets"]; TWord "as"; TWord "isize"; TGroup DBrace [TWord "h"; TGroup
    DBracket [TWord "idx"; TWord "as"; TWord "usize"]; TPunct "+="; TLit "1"; TPunct ";"]]; TWord "let"; TWord
    "dx"; TPunct "="; TGroup DParen [TWord "#tmax"; TPunct "-"; TWord "#tmin"]; TWord "as"; TWord "f64"; TPunct
    "/"; TGroup DParen [TWord "#nbuckets"]; TWord "as"; TWord "f64"; TPunct ";"; TWord "let"; TWord "mut"; TWord
    "max_err"; TPunct ":"; TWord "f64"; TPunct "="; TLit "0.0"; TPunct ";"; TWord "for"; TWord "i"; TWord "in";
    TLit "0"; TPunct ".."; TWord "#nbuckets"; TGroup DBrace [TWord "let"; TWord "x"; TPunct "="; TGroup DParen
    [TGroup DParen [TWord "i"; TWord "as"; TWord "f64"; TPunct "+"; TLit "0.5"]; TPunct "/"; TWord "#nbuckets";
    TWord "as"; TWord "f64"]; TPunct "*"; TGroup DParen [TWord "#tmax"; TPunct "-"; TWord "#tmin"]; TPunct "+";
    TWord "#tmin"; TPunct ";"; TWord "let"; TWord "pdf_est"; TPunct "="; TWord "h"; TGroup DBracket [TWord "i"];
    TWord "as"; TWord "f64"; TPunct "/"; TGroup DParen [TGroup DParen [TWord "#niter"]; TWord "as"; TWord "f64";
    TPunct "*"; TWord "dx"]; TPunct ";"; TWord "let"; TWord "pdf_ref"; TPunct "="; TGroup DParen [TWord
    "#refexpr"]; TWord "as"; TWord "f64"; TPunct ";"; TWord "println"; TPunct "!"; TGroup DParen [TLit
    """{} {} {}"""; TPunct ","; TWord "x"; TPunct ","; TWord "pdf_est"; TPunct ","; TWord "pdf_ref"]; TPunct
    ";"; TWord "max_err"; TPunct "="; TGroup DParen [TWord "pdf_est"; TPunct "-"; TWord "pdf_ref"]; TPunct ".";
    TWord "abs"; TGroup DParen []; TPunct ";"]; TWord "println"; TPunct "!"; TGroup DParen [TLit
    """max err = {}"""; TPunct ","; TWord "max_err"]; TPunct ";"; TWord "assert"; TPunct "!"; TGroup DParen
    [TWord "max_err"; TPunct "<"; TLit "0.001"]; TPunct ";"]] .

(** The test specifications of functions.rs:52-826, their strings as the tokens
    TokenStream::from_str makes of them: name of the test, tested expression, and
    for a histogram the density and the limits. *)
Record spec : Type := Spec { s_name : string; s_expr : list tt; s_hist : option (list tt * list tt * list tt) }.
Definition specs (name : string) : list spec :=
if String.eqb name "nextafter" then [Spec "test_nextafter" [TWord "nextafter"; TGroup DParen [TWord "x"]] None]
    else
if String.eqb name "asin" then [Spec "test_asin" [TWord "asin"; TGroup DParen [TWord "x"]] None; Spec
    "test_asin2" [TWord "asin"; TGroup DParen [TWord "x"]] None] else
if String.eqb name "acos" then [Spec "test_acos" [TWord "acos"; TGroup DParen [TWord "x"]] None; Spec
    "test_acos2" [TWord "acos"; TGroup DParen [TWord "x"]] None] else
if String.eqb name "exp2" then [Spec "test_exp2_1" [TWord "exp2"; TGroup DParen [TWord "x"]] None; Spec
    "test_exp2_2" [TWord "exp2"; TGroup DParen [TWord "x"]] None] else
if String.eqb name "exp" then [Spec "test_exp_1" [TWord "exp"; TGroup DParen [TWord "x"]] None; Spec
    "test_exp_2" [TWord "exp"; TGroup DParen [TWord "x"]] None; Spec "test_exp_3" [TWord "exp"; TGroup DParen
    [TWord "x"]] None] else
if String.eqb name "exp_m1" then [Spec "test_exp_m1_1" [TWord "exp_m1"; TGroup DParen [TWord "x"]] None; Spec
    "test_exp_m1_2" [TWord "exp_m1"; TGroup DParen [TWord "x"]] None] else
if String.eqb name "log2" then [Spec "test_log2_1" [TWord "log2"; TGroup DParen [TWord "x"]] None; Spec
    "test_log2_2" [TWord "log2"; TGroup DParen [TWord "x"]] None] else
if String.eqb name "ln_1p" then [Spec "test_ln_1p_1" [TWord "ln_1p"; TGroup DParen [TWord "x"]] None] else
if String.eqb name "ln" then [Spec "test_ln_1" [TWord "ln"; TGroup DParen [TWord "x"]] None; Spec "test_ln_2"
    [TWord "ln"; TGroup DParen [TWord "x"]] None] else
if String.eqb name "log10" then [Spec "test_log10_1" [TWord "log10"; TGroup DParen [TWord "x"]] None; Spec
    "test_log10_2" [TWord "log10"; TGroup DParen [TWord "x"]] None] else
if String.eqb name "log" then [Spec "test_log_1" [TWord "log"; TGroup DParen [TWord "x"; TPunct ","; TLit
    "10.0"; TWord "as"; TWord "fty"]] None; Spec "test_log_2" [TWord "log"; TGroup DParen [TWord "x"; TPunct
    ","; TLit "10.0"; TWord "as"; TWord "fty"]] None] else
if String.eqb name "runif" then [Spec "test_runif" [TWord "runif"; TGroup DParen [TWord "i"; TPunct ","; TLit
    "0.0"; TPunct ","; TLit "1.0"]] (Some ([TLit "1"] , [TLit "0.0"] , [TLit "1.0"]))] else
if String.eqb name "dnorm" then [Spec "test_dnorm_1" [TWord "dnorm"; TGroup DParen [TWord "x"; TPunct ","; TLit
    "0.0"; TWord "as"; TWord "fty"; TPunct ","; TLit "1.0"; TWord "as"; TWord "fty"]] None] else
if String.eqb name "qnorm" then [Spec "test_qnorm_1" [TWord "qnorm"; TGroup DParen [TWord "x"; TPunct ","; TLit
    "0.0"; TWord "as"; TWord "fty"; TPunct ","; TLit "1.0"; TWord "as"; TWord "fty"]] None] else
if String.eqb name "rnorm" then [Spec "test_rnorm" [TWord "rnorm"; TGroup DParen [TWord "i"; TPunct ","; TLit
    "0.0"; TPunct ","; TLit "1.0"]] (Some ([TWord "dnorm"; TGroup DParen [TWord "x"; TPunct ","; TLit "0.0";
    TPunct ","; TLit "1.0"]] , [TPunct "-"; TLit "2.0"] , [TLit "2.0"]))] else
if String.eqb name "sin" then [Spec "test_sin" [TWord "sin"; TGroup DParen [TWord "x"]] None; Spec "test_sini"
    [TWord "sin"; TGroup DParen [TWord "x"]] None; Spec "test_sin2" [TWord "sin"; TGroup DParen [TWord "x"]]
    None; Spec "test_sin3" [TWord "sin"; TGroup DParen [TWord "x"]] None] else
if String.eqb name "cos" then [Spec "test_cos" [TWord "cos"; TGroup DParen [TWord "x"]] None; Spec "test_cos2"
    [TWord "cos"; TGroup DParen [TWord "x"]] None; Spec "test_cos3" [TWord "cos"; TGroup DParen [TWord "x"]]
    None] else
if String.eqb name "tan" then [Spec "test_tan" [TWord "tan"; TGroup DParen [TWord "x"]] None; Spec "test_tan2"
    [TWord "tan"; TGroup DParen [TWord "x"]] None] else
  [].

(** test.rs:46-60, 74-86 [gen_max_abs], from the rows of the table (each the tokens
    of x, y and the error of y) and the literal of the accuracy. *)
Definition gen_max_abs (plots : bool) (rows : list (list tt * list tt * list tt)) (accuracy : string) (t : spec) : list tt :=
  let str := TLit (String """" (s_name t) ++ """") in
  let vars := [("test_name", [TWord (s_name t)]); ("test_name_str", [str]); ("expr", s_expr t); ("accuracy", [TLit accuracy]);
               ("accurate_values",
                flat_map (fun r => let '(x, y, ye) := r in quote [("x", x); ("y", y); ("ye", ye)] q_row) rows)] in
  quote (("plot_function", if plots then quote vars q_max_abs_plot else []) :: vars) q_max_abs.

(** test.rs:94-129 [gen_histogram] *)
Definition gen_histogram (pdf tmin tmax : list tt) (t : spec) : list tt :=
  quote [("test_name", [TWord (s_name t)]); ("expr", s_expr t); ("nbuckets", [TLit "32usize"]); ("niter", [TLit "1000000usize"]);
         ("tmin", tmin); ("tmax", tmax); ("refexpr", pdf)] q_histogram.

(** test.rs:132-141 [gen_test] *)
Definition gen_test (plots : bool) (rows : string -> list (list tt * list tt * list tt)) (accuracy : string -> string)
  (t : spec) : list tt :=
  match s_hist t with
  | Some (pdf, tmin, tmax) => gen_histogram pdf tmin tmax t
  | None => gen_max_abs plots (rows (s_name t)) (accuracy (s_name t)) t
  end.

(** main.rs:376-409: the token stream that is made for a list of names, without
    and with tests.  What the generators interpolate is given by [sub], [rows]
    and [accuracy].  [tests] is config.generate_tests(), [plots] is
    config.generate_plots(). *)
Definition library_tokens (bits : Z) (tests plots : bool) (sub : string -> list tt)
  (rows : string -> list (list tt * list tt * list tt)) (accuracy : string -> string) (names exclude : list string)
  : option (list tt) :=
  match get_functions_and_deps FUNCTIONS names exclude with
  | Some l =>
      let fs := map snd l in
      Some (flat_map (fun f => if f_gen f then tokens bits sub (f_name f) else []) fs
            ++ if tests then
                 gen_test_function plots ++ flat_map (fun f => flat_map (gen_test plots rows accuracy) (specs (f_name f))) fs
               else [])
  | None => None
  end.
