(** The code that libmgen generates, as syntax trees.
    Transcribed from the quote! bodies in libmgen/src by tools/gencode.py.
    [bits] is config.num_bits(); [sub] is the interpolated expression (#approx
    or #value), the result of [approx] or [eval]: a literal or a chain of mul_add,
    possibly followed by "* x", so that splicing its tokens before * or + is
    the same as splicing the tree.  A tuple is written as a call
    of "(,)", a const inside of a function body as a local.  Comments,
    attributes and pub are dropped. *)
From Coq Require Import List String ZArith.
From Verif Require Import Syntax Item Functions.
Import ListNotations.
Open Scope string_scope.
Open Scope list_scope.

(** auxfuncs.rs:270-276 *)
Definition code_fty (bits : Z) (sub : expr) : list item := [IType "fty" (width "f" bits)].

(** auxfuncs.rs:285-290 *)
Definition code_uty (bits : Z) (sub : expr) : list item := [IType "uty" (width "u" bits)].

(** auxfuncs.rs:278-283 *)
Definition code_ity (bits : Z) (sub : expr) : list item := [IType "ity" (width "i" bits)].

(** auxfuncs.rs:323-330 *)
Definition code_round (bits : Z) (sub : expr) : list item := [IFn "round" [("x", "fty")] "fty" [SLocal "half"
    None (Some (ECast (EParen (ELit (LFloat "0.5" ""))) "fty")); SExpr (ECast (ECast (EParen (EBinary BAdd
    (EPath ["x"]) (EMethodCall (EPath ["half"]) "copysign" None [(EPath ["x"])]))) "ity") "fty")]].

(** auxfuncs.rs:133-144 *)
Definition code_LOG2_SHIFT (bits : Z) (sub : expr) : list item := if (bits =? 32)%Z then [IConst "LOG2_SHIFT"
    "ity" (ELit (LInt "23" "i32"))] else [IConst "LOG2_SHIFT" "ity" (ELit (LInt "52" "i64"))].

(** auxfuncs.rs:147-157 *)
Definition code_LOG2_OFFSET (bits : Z) (sub : expr) : list item := if (bits =? 32)%Z then [IConst "LOG2_OFFSET"
    "ity" (ELit (LInt "127" "i32"))] else [IConst "LOG2_OFFSET" "ity" (ELit (LInt "1023" "i64"))].

(** auxfuncs.rs:21-32 *)
Definition code_NAN (bits : Z) (sub : expr) : list item := if (bits =? 32)%Z then [IConst "NAN" "fty" (EPath
    ["f32"; "NAN"])] else [IConst "NAN" "fty" (EPath ["f64"; "NAN"])].

(** auxfuncs.rs:35-46 *)
Definition code_INFINITY (bits : Z) (sub : expr) : list item := if (bits =? 32)%Z then [IConst "INFINITY" "fty"
    (EPath ["f32"; "INFINITY"])] else [IConst "INFINITY" "fty" (EPath ["f64"; "INFINITY"])].

(** auxfuncs.rs:7-18 *)
Definition code_MIN_POSITIVE (bits : Z) (sub : expr) : list item := if (bits =? 32)%Z then [IConst
    "MIN_POSITIVE" "fty" (EPath ["f32"; "MIN_POSITIVE"])] else [IConst "MIN_POSITIVE" "fty" (EPath ["f64";
    "MIN_POSITIVE"])].

(** auxfuncs.rs:63-74 *)
Definition code_ONE_MASK (bits : Z) (sub : expr) : list item := if (bits =? 32)%Z then [IConst "ONE_MASK" "fty"
    (ELit (LInt "8388607" "u32"))] else [IConst "ONE_MASK" "fty" (ELit (LInt "4503599627370495" "u64"))].

(** auxfuncs.rs:49-60 *)
Definition code_ONE_BITS (bits : Z) (sub : expr) : list item := if (bits =? 32)%Z then [IConst "ONE_BITS" "fty"
    (ELit (LInt "1065353216" "u32"))] else [IConst "ONE_BITS" "fty" (ELit (LInt "4607182418800017408" "u64"))].

(** auxfuncs.rs:77-88 *)
Definition code_EXP2_ONE (bits : Z) (sub : expr) : list item := if (bits =? 32)%Z then [IConst "EXP2_ONE" "fty"
    (ELit (LFloat "1065353216.0" "f32"))] else [IConst "EXP2_ONE" "fty" (ELit (LFloat "4607182418800017408.0"
    "f64"))].

(** auxfuncs.rs:91-102 *)
Definition code_EXP2_SCALE (bits : Z) (sub : expr) : list item := if (bits =? 32)%Z then [IConst "EXP2_SCALE"
    "fty" (ELit (LFloat "8388608.0" "f32"))] else [IConst "EXP2_SCALE" "fty" (ELit (LFloat "4503599627370496.0"
    "f64"))].

(** auxfuncs.rs:105-116 *)
Definition code_EXP2_MIN (bits : Z) (sub : expr) : list item := if (bits =? 32)%Z then [IConst "EXP2_MIN" "fty"
    (EUnary UNeg (ELit (LFloat "127.0" "f32")))] else [IConst "EXP2_MIN" "fty" (EUnary UNeg (ELit (LFloat
    "1023.0" "f64")))].

(** auxfuncs.rs:119-130 *)
Definition code_EXP2_MAX (bits : Z) (sub : expr) : list item := if (bits =? 32)%Z then [IConst "EXP2_MAX" "fty"
    (ELit (LFloat "127.0" "f32"))] else [IConst "EXP2_MAX" "fty" (ELit (LFloat "1023.0" "f64"))].

(** auxfuncs.rs:160-171 *)
Definition code_ONE_THIRD (bits : Z) (sub : expr) : list item := if (bits =? 32)%Z then [IConst "ONE_THIRD"
    "fty" (ELit (LFloat "0.33333333" "f32"))] else [IConst "ONE_THIRD" "fty" (ELit (LFloat
    "0.333333333333333333" "f64"))].

(** auxfuncs.rs:174-185 *)
Definition code_TWO_THIRDS (bits : Z) (sub : expr) : list item := if (bits =? 32)%Z then [IConst "TWO_THIRDS"
    "fty" (ELit (LFloat "0.66666667" "f32"))] else [IConst "TWO_THIRDS" "fty" (ELit (LFloat
    "0.666666666666666667" "f64"))].

(** auxfuncs.rs:188-193 *)
Definition code_PI (bits : Z) (sub : expr) : list item := [IConst "PI" "fty" sub].

(** auxfuncs.rs:196-201 *)
Definition code_PI_BY_2 (bits : Z) (sub : expr) : list item := [IConst "PI_BY_2" "fty" sub].

(** auxfuncs.rs:212-217 *)
Definition code_TAN_PI_BY_8 (bits : Z) (sub : expr) : list item := [IConst "TAN_PI_BY_8" "fty" sub].

(** auxfuncs.rs:204-209 *)
Definition code_PI_BY_8 (bits : Z) (sub : expr) : list item := [IConst "PI_BY_8" "fty" sub].

(** auxfuncs.rs:220-225 *)
Definition code_LOG2_E (bits : Z) (sub : expr) : list item := [IConst "LOG2_E" "fty" sub].

(** auxfuncs.rs:228-233 *)
Definition code_RECIP_LOG2_E (bits : Z) (sub : expr) : list item := [IConst "RECIP_LOG2_E" "fty" sub].

(** auxfuncs.rs:236-241 *)
Definition code_RECIP_LOG2_10 (bits : Z) (sub : expr) : list item := [IConst "RECIP_LOG2_10" "fty" sub].

(** auxfuncs.rs:244-250 *)
Definition code_RECIP_PI (bits : Z) (sub : expr) : list item := [IConst "RECIP_PI" "fty" sub].

(** auxfuncs.rs:253-259 *)
Definition code_RECIP_2PI (bits : Z) (sub : expr) : list item := [IConst "RECIP_2PI" "fty" sub].

(** auxfuncs.rs:262-268 *)
Definition code_SQRT_RECIP_2PI (bits : Z) (sub : expr) : list item := [IConst "SQRT_RECIP_2PI" "fty" sub].

(** auxfuncs.rs:292-302 *)
Definition code_negate_on_odd (bits : Z) (sub : expr) : list item := [IFn "negate_on_odd" [("x", "fty"); ("y",
    "fty")] "fty" [SLocal "sign_bit" (Some "uty") (Some (ECast (EParen (EBinary BShl (EParen (EBinary BBitAnd
    (EParen (ECast (EPath ["x"]) "ity")) (ELit (LInt "1" "")))) (ELit (LInt (width "" (bits - 1)) "i32"))))
    "uty")); SExpr (ECall (EPath ["fty"; "from_bits"]) [(EBinary BBitXor (EPath ["sign_bit"]) (EMethodCall
    (EPath ["y"]) "to_bits" None []))])]].

(** auxfuncs.rs:347-363, 365-370 *)
Definition code_recip_approx (bits : Z) (sub : expr) : list item := [IFn "recip_approx" [("x", "fty")] "fty"
    [SLocal "y" (Some "fty") (Some (ECall (EPath ["fty"; "from_bits"]) [(ECast (EParen (EParen (EMethodCall
    (EParen (ECast (EMethodCall (EMethodCall (EPath ["x"]) "abs" None []) "to_bits" None []) "fty")) "mul_add"
    None [(EUnary UNeg (ELit (LFloat "1.0" ""))); (EBinary BMul (EPath ["EXP2_ONE"]) (ELit (LFloat "2.0"
    "")))]))) "uty")])); SExpr (EMethodCall (EParen (EBinary BSub (EPath ["y"]) (ELit (LFloat "0.08" ""))))
    "copysign" None [(EPath ["x"])])]].

(** auxfuncs.rs:347-363, 372-377 *)
Definition code_sqrt_approx (bits : Z) (sub : expr) : list item := [IFn "sqrt_approx" [("x", "fty")] "fty"
    [SLocal "y" (Some "fty") (Some (ECall (EPath ["fty"; "from_bits"]) [(ECast (EParen (EParen (EMethodCall
    (EParen (ECast (EMethodCall (EMethodCall (EPath ["x"]) "abs" None []) "to_bits" None []) "fty")) "mul_add"
    None [(ELit (LFloat "0.5" "")); (EBinary BMul (EPath ["EXP2_ONE"]) (ELit (LFloat "0.5" "")))]))) "uty")]));
    SExpr (EBinary BSub (EPath ["y"]) (ELit (LFloat "0.08" "")))]].

(** auxfuncs.rs:347-363, 379-384 *)
Definition code_cbrt_approx (bits : Z) (sub : expr) : list item := [IFn "cbrt_approx" [("x", "fty")] "fty"
    [SLocal "y" (Some "fty") (Some (ECall (EPath ["fty"; "from_bits"]) [(ECast (EParen (EParen (EMethodCall
    (EParen (ECast (EMethodCall (EMethodCall (EPath ["x"]) "abs" None []) "to_bits" None []) "fty")) "mul_add"
    None [(EBinary BDiv (ELit (LFloat "1.0" "")) (ELit (LFloat "3.0" ""))); (EBinary BDiv (EBinary BMul (EPath
    ["EXP2_ONE"]) (ELit (LFloat "2.0" ""))) (ELit (LFloat "3.0" "")))]))) "uty")])); SExpr (EMethodCall (EParen
    (EBinary BSub (EPath ["y"]) (ELit (LFloat "0.08" "")))) "copysign" None [(EPath ["x"])])]].

(** auxfuncs.rs:406-412 *)
Definition code_nextafter (bits : Z) (sub : expr) : list item := [IFn "nextafter" [("arg", "fty")] "fty" [SExpr
    (ECall (EPath ["fty"; "from_bits"]) [(EBinary BAdd (EMethodCall (EPath ["arg"]) "to_bits" None []) (ELit
    (LInt "1" "")))])]].

(** hyperbolic.rs:6-14 *)
Definition code_sinh (bits : Z) (sub : expr) : list item := [IFn "sinh" [("x", "fty")] "fty" [SLocal "a" (Some
    "fty") (Some (EMethodCall (EPath ["x"]) "mul_add" None [(EPath ["LOG2_E"]); (EUnary UNeg (ELit (LFloat "1.0"
    "")))])); SLocal "b" (Some "fty") (Some (EMethodCall (EPath ["x"]) "mul_add" None [(EUnary UNeg (EPath
    ["LOG2_E"])); (EUnary UNeg (ELit (LFloat "1.0" "")))])); SExpr (EBinary BSub (ECall (EPath ["exp2"]) [(EPath
    ["a"])]) (ECall (EPath ["exp2"]) [(EPath ["b"])]))]].

(** hyperbolic.rs:17-25 *)
Definition code_cosh (bits : Z) (sub : expr) : list item := [IFn "cosh" [("x", "fty")] "fty" [SLocal "a" (Some
    "fty") (Some (EMethodCall (EPath ["x"]) "mul_add" None [(EPath ["LOG2_E"]); (EUnary UNeg (ELit (LFloat "1.0"
    "")))])); SLocal "b" (Some "fty") (Some (EMethodCall (EPath ["x"]) "mul_add" None [(EUnary UNeg (EPath
    ["LOG2_E"])); (EUnary UNeg (ELit (LFloat "1.0" "")))])); SExpr (EBinary BAdd (ECall (EPath ["exp2"]) [(EPath
    ["a"])]) (ECall (EPath ["exp2"]) [(EPath ["b"])]))]].

(** hyperbolic.rs:28-35 *)
Definition code_tanh (bits : Z) (sub : expr) : list item := [IFn "tanh" [("x", "fty")] "fty" [SLocal "exp2x"
    (Some "fty") (Some (ECall (EPath ["exp2"]) [(EBinary BMul (EPath ["x"]) (EParen (EBinary BMul (EPath
    ["LOG2_E"]) (ELit (LFloat "2.0" "")))))])); SExpr (EBinary BDiv (EParen (EBinary BSub (EPath ["exp2x"])
    (ELit (LFloat "1.0" "")))) (EParen (EBinary BAdd (EPath ["exp2x"]) (ELit (LFloat "1.0" "")))))]].

(** hyperbolic.rs:38-44 *)
Definition code_asinh (bits : Z) (sub : expr) : list item := [IFn "asinh" [("x", "fty")] "fty" [SExpr (ECall
    (EPath ["ln"]) [(EBinary BAdd (EPath ["x"]) (EMethodCall (EParen (EBinary BAdd (EBinary BMul (EPath ["x"])
    (EPath ["x"])) (ELit (LFloat "1.0" "")))) "sqrt" None []))])]].

(** hyperbolic.rs:47-53 *)
Definition code_acosh (bits : Z) (sub : expr) : list item := [IFn "acosh" [("x", "fty")] "fty" [SExpr (EIf
    (EBinary BLt (EPath ["x"]) (ELit (LFloat "1.0" ""))) [SExpr (EPath ["NAN"])] (Some (EBlock [SExpr (ECall
    (EPath ["ln"]) [(EBinary BAdd (EPath ["x"]) (EMethodCall (EParen (EBinary BSub (EBinary BMul (EPath ["x"])
    (EPath ["x"])) (ELit (LFloat "1.0" "")))) "sqrt" None []))])])))]].

(** hyperbolic.rs:56-62 *)
Definition code_atanh (bits : Z) (sub : expr) : list item := [IFn "atanh" [("x", "fty")] "fty" [SExpr (EBinary
    BMul (EParen (EBinary BSub (ECall (EPath ["ln"]) [(EBinary BAdd (ELit (LFloat "1.0" "")) (EPath ["x"]))])
    (ECall (EPath ["ln"]) [(EBinary BSub (ELit (LFloat "1.0" "")) (EPath ["x"]))]))) (ELit (LFloat "0.5"
    "")))]].

(** inv_trig.rs:81-112 *)
Definition code_asin (bits : Z) (sub : expr) : list item := [IFn "asin" [("arg", "fty")] "fty" [SLocal "LIM"
    (Some "fty") (Some (ELit (LFloat "0.70710678118654752440" ""))); SLocal "c" (Some "fty") (Some (EIf (EBinary
    BLt (EPath ["arg"]) (ELit (LFloat "0.0" ""))) [SExpr (EUnary UNeg (EPath ["PI_BY_2"]))] (Some (EBlock [SExpr
    (EPath ["PI_BY_2"])])))); SLocal "s" (Some "fty") (Some (EIf (EBinary BLt (EPath ["arg"]) (ELit (LFloat
    "0.0" ""))) [SExpr (EUnary UNeg (ELit (LFloat "1.0" "")))] (Some (EBlock [SExpr (ELit (LFloat "1.0"
    ""))])))); SLocal "x" (Some "fty") (Some (EIf (EBinary BLt (EBinary BMul (EPath ["arg"]) (EPath ["arg"]))
    (EBinary BMul (EPath ["LIM"]) (EPath ["LIM"]))) [SExpr (EPath ["arg"])] (Some (EBlock [SExpr (EMethodCall
    (EParen (EBinary BSub (ELit (LFloat "1.0" "")) (EBinary BMul (EPath ["arg"]) (EPath ["arg"])))) "sqrt" None
    [])])))); SLocal "y" (Some "fty") (Some sub); SExpr (EIf (EBinary BLt (EBinary BMul (EPath ["arg"]) (EPath
    ["arg"])) (EBinary BMul (EPath ["LIM"]) (EPath ["LIM"]))) [SExpr (EPath ["y"])] (Some (EBlock [SExpr
    (EBinary BSub (EPath ["c"]) (EBinary BMul (EPath ["y"]) (EPath ["s"])))])))]].

(** inv_trig.rs:114-141 *)
Definition code_acos (bits : Z) (sub : expr) : list item := [IFn "acos" [("arg", "fty")] "fty" [SLocal "LIM"
    (Some "fty") (Some (ELit (LFloat "0.70710678118654752440" ""))); SLocal "c" (Some "fty") (Some (EIf (EBinary
    BLt (EPath ["arg"]) (ELit (LFloat "0.0" ""))) [SExpr (EPath ["PI"])] (Some (EBlock [SExpr (ELit (LFloat
    "0.0" ""))])))); SLocal "s" (Some "fty") (Some (EIf (EBinary BLt (EPath ["arg"]) (ELit (LFloat "0.0" "")))
    [SExpr (ELit (LFloat "1.0" ""))] (Some (EBlock [SExpr (EUnary UNeg (ELit (LFloat "1.0" "")))])))); SLocal
    "x" (Some "fty") (Some (EIf (EBinary BLt (EBinary BMul (EPath ["arg"]) (EPath ["arg"])) (EBinary BMul (EPath
    ["LIM"]) (EPath ["LIM"]))) [SExpr (EPath ["arg"])] (Some (EBlock [SExpr (EMethodCall (EParen (EBinary BSub
    (ELit (LFloat "1.0" "")) (EBinary BMul (EPath ["arg"]) (EPath ["arg"])))) "sqrt" None [])])))); SLocal "y"
    (Some "fty") (Some sub); SExpr (EIf (EBinary BLt (EBinary BMul (EPath ["arg"]) (EPath ["arg"])) (EBinary
    BMul (EPath ["LIM"]) (EPath ["LIM"]))) [SExpr (EBinary BSub (EPath ["PI_BY_2"]) (EPath ["y"]))] (Some
    (EBlock [SExpr (EBinary BSub (EPath ["c"]) (EBinary BMul (EPath ["y"]) (EPath ["s"])))])))]].

(** inv_trig.rs:143-169 *)
Definition code_atan (bits : Z) (sub : expr) : list item := [IFn "atan" [("arg", "fty")] "fty" [SLocal "LIM"
    (Some "fty") (Some (ELit (LFloat "1.0" ""))); SLocal "c" (Some "fty") (Some (EIf (EBinary BLt (EPath
    ["arg"]) (ELit (LFloat "0.0" ""))) [SExpr (EUnary UNeg (EPath ["PI_BY_2"]))] (Some (EBlock [SExpr (EPath
    ["PI_BY_2"])])))); SLocal "x" (Some "fty") (Some (EIf (EBinary BLt (EMethodCall (EPath ["arg"]) "abs" None
    []) (EPath ["LIM"])) [SExpr (EPath ["arg"])] (Some (EBlock [SExpr (EMethodCall (EPath ["arg"]) "recip" None
    [])])))); SLocal "y" (Some "fty") (Some sub); SExpr (EIf (EBinary BLt (EMethodCall (EPath ["arg"]) "abs"
    None []) (EPath ["LIM"])) [SExpr (EPath ["y"])] (Some (EBlock [SExpr (EBinary BSub (EPath ["c"]) (EPath
    ["y"]))])))]].

(** inv_trig.rs:9-79 *)
Definition code_atan2 (bits : Z) (sub : expr) : list item := [IFn "atan2" [("y", "fty"); ("x", "fty")] "fty"
    [SLocal "x1" None (Some (EMethodCall (EPath ["x"]) "abs" None [])); SLocal "y1" None (Some (EMethodCall
    (EPath ["y"]) "abs" None [])); SLocal "x2" None (Some (EIf (EBinary BGt (EPath ["x1"]) (EPath ["y1"]))
    [SExpr (EPath ["x1"])] (Some (EBlock [SExpr (EPath ["y1"])])))); SLocal "y2" None (Some (EIf (EBinary BGt
    (EPath ["x1"]) (EPath ["y1"])) [SExpr (EPath ["y1"])] (Some (EBlock [SExpr (EPath ["x1"])])))); SLocal "x3"
    (Some "fty") (Some (EBinary BAdd (EBinary BMul (EPath ["TAN_PI_BY_8"]) (EPath ["y2"])) (EPath ["x2"])));
    SLocal "y3" (Some "fty") (Some (EBinary BAdd (EBinary BMul (EParen (EUnary UNeg (EPath ["TAN_PI_BY_8"])))
    (EPath ["x2"])) (EPath ["y2"]))); SLocal "z" None (Some (EBinary BDiv (EPath ["y3"]) (EPath ["x3"])));
    SLocal "a" (Some "fty") (Some (EBinary BAdd sub (EPath ["PI_BY_8"]))); SLocal "q1" (Some "fty") (Some (EIf
    (EBinary BGt (EPath ["x1"]) (EPath ["y1"])) [SExpr (EPath ["a"])] (Some (EBlock [SExpr (EBinary BSub (EPath
    ["PI_BY_2"]) (EPath ["a"]))])))); SLocal "q12" (Some "fty") (Some (EIf (EBinary BGe (EPath ["x"]) (ELit
    (LFloat "0.0" ""))) [SExpr (EPath ["q1"])] (Some (EBlock [SExpr (EBinary BSub (EPath ["PI"]) (EPath
    ["q1"]))])))); SExpr (EIf (EBinary BGe (EPath ["y"]) (ELit (LFloat "0.0" ""))) [SExpr (EPath ["q12"])] (Some
    (EBlock [SExpr (EUnary UNeg (EPath ["q12"]))])))]].

(** log_exp.rs:8-36 *)
Definition code_exp2 (bits : Z) (sub : expr) : list item := [IFn "exp2" [("arg", "fty")] "fty" [SLocal "r" (Some
    "fty") (Some (ECall (EPath ["round"]) [(EPath ["arg"])])); SLocal "mul" (Some "fty") (Some (ECall (EPath
    ["fty"; "from_bits"]) [(ECast (EParen (EMethodCall (EPath ["r"]) "mul_add" None [(EPath ["EXP2_SCALE"]);
    (EPath ["EXP2_ONE"])])) "uty")])); SLocal "x" (Some "fty") (Some (EBinary BSub (EPath ["arg"]) (EPath
    ["r"]))); SLocal "y" (Some "fty") (Some (EBinary BMul sub (EPath ["mul"]))); SLocal "y1" None (Some (EIf
    (EBinary BGt (EPath ["arg"]) (EPath ["EXP2_MAX"])) [SExpr (EPath ["INFINITY"])] (Some (EBlock [SExpr (EPath
    ["y"])])))); SExpr (EIf (EBinary BLt (EPath ["r"]) (EPath ["EXP2_MIN"])) [SExpr (ELit (LFloat "0.0" ""))]
    (Some (EBlock [SExpr (EPath ["y1"])])))]].

(** log_exp.rs:38-44 *)
Definition code_exp (bits : Z) (sub : expr) : list item := [IFn "exp" [("arg", "fty")] "fty" [SExpr (ECall
    (EPath ["exp2"]) [(EBinary BMul (EPath ["arg"]) (EPath ["LOG2_E"]))])]].

(** log_exp.rs:47-75 *)
Definition code_exp_m1 (bits : Z) (sub : expr) : list item := [IFn "exp_m1" [("arg", "fty")] "fty" [SLocal
    "scaled" (Some "fty") (Some (EBinary BMul (EPath ["arg"]) (EPath ["LOG2_E"]))); SLocal "r" (Some "fty")
    (Some (ECall (EPath ["round"]) [(EPath ["scaled"])])); SLocal "mul" (Some "fty") (Some (ECall (EPath ["fty";
    "from_bits"]) [(ECast (EParen (EMethodCall (EPath ["r"]) "mul_add" None [(EPath ["EXP2_SCALE"]); (EPath
    ["EXP2_ONE"])])) "uty")])); SLocal "x" (Some "fty") (Some (EBinary BSub (EPath ["scaled"]) (EPath ["r"])));
    SExpr (EBinary BAdd (EBinary BMul sub (EPath ["mul"])) (EParen (EBinary BSub (EPath ["mul"]) (ELit (LFloat
    "1.0" "")))))]].

(** log_exp.rs:112-148 *)
Definition code_log2 (bits : Z) (sub : expr) : list item := [IFn "log2" [("arg", "fty")] "fty" [SLocal
    "arg_bits" (Some "uty") (Some (EMethodCall (EPath ["arg"]) "to_bits" None [])); SLocal "exponent" (Some
    "ity") (Some (EBinary BSub (EParen (EBinary BShr (ECast (EPath ["arg_bits"]) "ity") (EPath ["LOG2_SHIFT"])))
    (EPath ["LOG2_OFFSET"]))); SLocal "x" (Some "fty") (Some (EBinary BSub (ECall (EPath ["fty"; "from_bits"])
    [(EBinary BBitOr (EParen (EBinary BBitAnd (EPath ["arg_bits"]) (EPath ["ONE_MASK"]))) (EPath
    ["ONE_BITS"]))]) (ELit (LFloat "1.5" "")))); SLocal "y" (Some "fty") (Some sub); SExpr (EIf (EBinary BLt
    (EPath ["arg"]) (ELit (LFloat "0.0" ""))) [SExpr (EUnary UNeg (EPath ["NAN"]))] (Some (EBlock [SExpr (EIf
    (EBinary BLt (EPath ["arg"]) (EPath ["MIN_POSITIVE"])) [SExpr (EUnary UNeg (EPath ["INFINITY"]))] (Some
    (EBlock [SExpr (EBinary BAdd (EPath ["y"]) (EParen (ECast (EPath ["exponent"]) "fty")))])))])))]].

(** log_exp.rs:77-110 *)
Definition code_ln_1p (bits : Z) (sub : expr) : list item := [IFn "ln_1p" [("arg", "fty")] "fty" [SExpr
    (EMethodCall (EParen (EBinary BAdd (ELit (LFloat "1.0" "")) (EPath ["arg"]))) "ln" None [])]].

(** log_exp.rs:150-156 *)
Definition code_ln (bits : Z) (sub : expr) : list item := [IFn "ln" [("arg", "fty")] "fty" [SExpr (EBinary BMul
    (ECall (EPath ["log2"]) [(EPath ["arg"])]) (EPath ["RECIP_LOG2_E"]))]].

(** log_exp.rs:158-164 *)
Definition code_log10 (bits : Z) (sub : expr) : list item := [IFn "log10" [("arg", "fty")] "fty" [SExpr (EBinary
    BMul (ECall (EPath ["log2"]) [(EPath ["arg"])]) (EPath ["RECIP_LOG2_10"]))]].

(** log_exp.rs:166-172 *)
Definition code_log (bits : Z) (sub : expr) : list item := [IFn "log" [("arg", "fty"); ("base", "fty")] "fty"
    [SExpr (EBinary BDiv (ECall (EPath ["log2"]) [(EPath ["arg"])]) (ECall (EPath ["log2"]) [(EPath
    ["base"])]))]].

(** log_exp.rs:174-180 *)
Definition code_powf (bits : Z) (sub : expr) : list item := [IFn "powf" [("arg", "fty"); ("y", "fty")] "fty"
    [SExpr (ECall (EPath ["exp2"]) [(EBinary BMul (ECall (EPath ["log2"]) [(EPath ["arg"])]) (EPath ["y"]))])]].

(** log_exp.rs:182-205 *)
Definition code_powi (bits : Z) (sub : expr) : list item := [IFn "powi" [("x", "fty"); ("y", "ity")] "fty"
    [SExpr (ECall (EPath ["powf"]) [(EPath ["x"]); (ECast (EPath ["y"]) "fty")])]].

(** recip_sqrt.rs:7-27 *)
Definition code_sqrt (bits : Z) (sub : expr) : list item := [IFn "sqrt" [("x", "fty")] "fty" [SLocal "r" (Some
    "fty") (Some (ECall (EPath ["sqrt_approx"]) [(EPath ["x"])])); SLocal "y" (Some "fty") (Some (EBinary BAdd
    (EPath ["r"]) (EBinary BDiv (EParen (EBinary BSub (EPath ["x"]) (EBinary BMul (EPath ["r"]) (EPath ["r"]))))
    (EParen (EBinary BMul (ELit (LFloat "2.0" "")) (EPath ["r"])))))); SExpr (EPath ["y"])]].

(** recip_sqrt.rs:29-55 *)
Definition code_cbrt (bits : Z) (sub : expr) : list item := [IFn "cbrt" [("x", "fty")] "fty" [SLocal "r" (Some
    "fty") (Some (ECall (EPath ["fty"; "from_bits"]) [(ECast (EParen (EMethodCall (EParen (ECast (EMethodCall
    (EMethodCall (EPath ["x"]) "abs" None []) "to_bits" None []) "fty")) "mul_add" None [(EPath ["ONE_THIRD"]);
    (EBinary BMul (EPath ["EXP2_ONE"]) (EPath ["TWO_THIRDS"]))])) "uty")])); SLocal "r" (Some "fty") (Some
    (EBinary BAdd (EPath ["r"]) (EBinary BDiv (EParen (EBinary BSub (EMethodCall (EPath ["x"]) "abs" None [])
    (EBinary BMul (EBinary BMul (EPath ["r"]) (EPath ["r"])) (EPath ["r"])))) (EParen (EBinary BMul (EBinary
    BMul (ELit (LFloat "3.0" "")) (EPath ["r"])) (EPath ["r"])))))); SLocal "r" (Some "fty") (Some (EBinary BAdd
    (EPath ["r"]) (EBinary BDiv (EParen (EBinary BSub (EMethodCall (EPath ["x"]) "abs" None []) (EBinary BMul
    (EBinary BMul (EPath ["r"]) (EPath ["r"])) (EPath ["r"])))) (EParen (EBinary BMul (EBinary BMul (ELit
    (LFloat "3.0" "")) (EPath ["r"])) (EPath ["r"])))))); SLocal "r" (Some "fty") (Some (EBinary BAdd (EPath
    ["r"]) (EBinary BDiv (EParen (EBinary BSub (EMethodCall (EPath ["x"]) "abs" None []) (EBinary BMul (EBinary
    BMul (EPath ["r"]) (EPath ["r"])) (EPath ["r"])))) (EParen (EBinary BMul (EBinary BMul (ELit (LFloat "3.0"
    "")) (EPath ["r"])) (EPath ["r"])))))); SLocal "r" (Some "fty") (Some (EBinary BAdd (EPath ["r"]) (EBinary
    BDiv (EParen (EBinary BSub (EMethodCall (EPath ["x"]) "abs" None []) (EBinary BMul (EBinary BMul (EPath
    ["r"]) (EPath ["r"])) (EPath ["r"])))) (EParen (EBinary BMul (EBinary BMul (ELit (LFloat "3.0" "")) (EPath
    ["r"])) (EPath ["r"])))))); SExpr (EMethodCall (EPath ["r"]) "copysign" None [(EPath ["x"])])]].

(** recip_sqrt.rs:57-76 *)
Definition code_recip (bits : Z) (sub : expr) : list item := [IFn "recip" [("x", "fty")] "fty" [SLocal "r" (Some
    "fty") (Some (ECall (EPath ["recip_approx"]) [(EPath ["x"])])); SLocal "r1" (Some "fty") (Some (EBinary BMul
    (EPath ["r"]) (EParen (EBinary BSub (ELit (LFloat "2.0" "")) (EBinary BMul (EPath ["x"]) (EPath ["r"]))))));
    SLocal "r2" (Some "fty") (Some (EBinary BMul (EPath ["r1"]) (EParen (EBinary BSub (ELit (LFloat "2.0" ""))
    (EBinary BMul (EPath ["x"]) (EPath ["r1"])))))); SLocal "r3" (Some "fty") (Some (EBinary BMul (EPath ["r2"])
    (EParen (EBinary BSub (ELit (LFloat "2.0" "")) (EBinary BMul (EPath ["x"]) (EPath ["r2"])))))); SExpr (EPath
    ["r3"])]].

(** recip_sqrt.rs:78-89 *)
Definition code_hypot (bits : Z) (sub : expr) : list item := [IFn "hypot" [("x", "fty"); ("y", "fty")] "fty"
    [SLocal "xgty" (Some "bool") (Some (EBinary BGt (EMethodCall (EPath ["x"]) "abs" None []) (EMethodCall
    (EPath ["y"]) "abs" None []))); SLocal "x2" (Some "fty") (Some (EIf (EPath ["xgty"]) [SExpr (EPath ["x"])]
    (Some (EBlock [SExpr (EPath ["y"])])))); SLocal "y2" (Some "fty") (Some (EIf (EPath ["xgty"]) [SExpr (EPath
    ["y"])] (Some (EBlock [SExpr (EPath ["x"])])))); SExpr (EIf (EBinary BLe (EMethodCall (EPath ["x2"]) "abs"
    None []) (EPath ["MIN_POSITIVE"])) [SExpr (EPath ["x2"])] (Some (EBlock [SExpr (EBinary BMul (EMethodCall
    (EPath ["x2"]) "abs" None []) (EMethodCall (EParen (EBinary BAdd (ELit (LFloat "1.0" "")) (EBinary BMul
    (EParen (EBinary BDiv (EPath ["y2"]) (EPath ["x2"]))) (EParen (EBinary BDiv (EPath ["y2"]) (EPath
    ["x2"])))))) "sqrt" None []))])))]].

(** stats_random.rs:5-18 *)
Definition code_runif (bits : Z) (sub : expr) : list item := [IFn "runif" [("index", "usize"); ("min", "fty");
    ("max", "fty")] "fty" [SLocal "z" (Some "uty") (Some (EMethodCall (EParen (EBinary BAdd (ECast (EPath
    ["index"]) "u64") (ELit (LInt "1" "")))) "wrapping_mul" None [(ELit (LInt "11400714819323198485" ""))]));
    SLocal "z1" (Some "uty") (Some (EMethodCall (EParen (EBinary BBitXor (EPath ["z"]) (EParen (EBinary BShr
    (EPath ["z"]) (ELit (LInt "30" "")))))) "wrapping_mul" None [(ELit (LInt "13787848793156543929" ""))]));
    SLocal "z2" (Some "uty") (Some (EMethodCall (EParen (EBinary BBitXor (EPath ["z1"]) (EParen (EBinary BShr
    (EPath ["z1"]) (ELit (LInt "27" "")))))) "wrapping_mul" None [(ELit (LInt "10723151780598845931" ""))]));
    SLocal "z3" (Some "uty") (Some (EBinary BBitXor (EPath ["z2"]) (EParen (EBinary BShr (EPath ["z2"]) (ELit
    (LInt "31" "")))))); SLocal "x" (Some "fty") (Some (EBinary BSub (ECall (EPath ["fty"; "from_bits"])
    [(EBinary BBitOr (EParen (EBinary BShr (ECast (EPath ["z3"]) "uty") (ELit (LInt "2" "")))) (EPath
    ["ONE_BITS"]))]) (ELit (LFloat "1.0" "")))); SExpr (EBinary BAdd (EParen (EBinary BMul (EPath ["x"]) (EParen
    (EBinary BSub (EPath ["max"]) (EPath ["min"]))))) (EPath ["min"]))]].

(** stats_norm.rs:9-18 *)
Definition code_dnorm (bits : Z) (sub : expr) : list item := [IFn "dnorm" [("arg", "fty"); ("mean", "fty");
    ("sigma", "fty")] "fty" [SLocal "rsigma" (Some "fty") (Some (EBinary BDiv (EParen (ECast (ELit (LFloat "1.0"
    "")) "fty")) (EPath ["sigma"]))); SLocal "y" (Some "fty") (Some (EBinary BMul (EParen (EBinary BSub (EPath
    ["arg"]) (EPath ["mean"]))) (EPath ["rsigma"]))); SLocal "e" (Some "fty") (Some (EBinary BMul (EBinary BMul
    (ECast (EParen (EBinary BMul (EUnary UNeg (ELit (LFloat "0.5" ""))) (EPath ["LOG2_E"]))) "fty") (EPath
    ["y"])) (EPath ["y"]))); SExpr (EBinary BMul (EBinary BMul (EPath ["rsigma"]) (EPath ["SQRT_RECIP_2PI"]))
    (ECall (EPath ["exp2"]) [(EPath ["e"])]))]].

(** stats_norm.rs:20-26 *)
Definition code_pnorm (bits : Z) (sub : expr) : list item := [].

(** stats_norm.rs:39-74 *)
Definition code_qnorm (bits : Z) (sub : expr) : list item := [IFn "qnorm" [("arg", "fty"); ("mean", "fty");
    ("sigma", "fty")] "fty" [SLocal "scaled" (Some "fty") (Some (EBinary BSub (EPath ["arg"]) (ELit (LFloat
    "0.5" "")))); SLocal "x" None (Some (EPath ["scaled"])); SLocal "recip" (Some "fty") (Some (EBinary BDiv
    (EPath ["sigma"]) (EParen (EBinary BSub (EBinary BMul (EPath ["x"]) (EPath ["x"])) (EBinary BMul (ELit
    (LFloat "0.5" "")) (ELit (LFloat "0.5" ""))))))); SLocal "y" (Some "fty") (Some sub); SExpr (EBinary BAdd
    (EBinary BMul (EPath ["y"]) (EPath ["recip"])) (EPath ["mean"]))]].

(** stats_norm.rs:28-37 *)
Definition code_rnorm (bits : Z) (sub : expr) : list item := [IFn "rnorm" [("index", "usize"); ("mean", "fty");
    ("sigma", "fty")] "fty" [SLocal "MIN" (Some "fty") (Some (ELit (LFloat "0.000001" ""))); SLocal "MAX" (Some
    "fty") (Some (EBinary BSub (ELit (LFloat "1.0" "")) (EPath ["MIN"]))); SLocal "x" (Some "fty") (Some (ECall
    (EPath ["runif"]) [(EPath ["index"]); (EPath ["MIN"]); (EPath ["MAX"])])); SExpr (ECall (EPath ["qnorm"])
    [(EPath ["x"]); (EPath ["mean"]); (EPath ["sigma"])])]].

(** trig.rs:114-139 *)
Definition code_sin (bits : Z) (sub : expr) : list item := [IFn "sin" [("arg", "fty")] "fty" [SLocal "scaled"
    (Some "fty") (Some (EBinary BMul (EPath ["arg"]) (EPath ["RECIP_2PI"]))); SLocal "x" (Some "fty") (Some
    (EBinary BSub (EPath ["scaled"]) (ECall (EPath ["round"]) [(EPath ["scaled"])]))); SExpr sub]].

(** trig.rs:142-167 *)
Definition code_cos (bits : Z) (sub : expr) : list item := [IFn "cos" [("arg", "fty")] "fty" [SLocal "scaled"
    (Some "fty") (Some (EBinary BMul (EPath ["arg"]) (EPath ["RECIP_2PI"]))); SLocal "x" (Some "fty") (Some
    (EBinary BSub (EPath ["scaled"]) (ECall (EPath ["round"]) [(EPath ["scaled"])]))); SExpr sub]].

(** trig.rs:178-208 *)
Definition code_tan (bits : Z) (sub : expr) : list item := [IFn "tan" [("arg", "fty")] "fty" [SLocal "scaled"
    (Some "fty") (Some (EBinary BMul (EPath ["arg"]) (EPath ["RECIP_PI"]))); SLocal "x" (Some "fty") (Some
    (EBinary BSub (EPath ["scaled"]) (ECall (EPath ["round"]) [(EPath ["scaled"])]))); SLocal "recip" (Some
    "fty") (Some (EBinary BDiv (ELit (LFloat "1.0" "")) (EParen (EBinary BSub (EBinary BMul (EPath ["x"]) (EPath
    ["x"])) (ELit (LFloat "0.25" "")))))); SLocal "y" (Some "fty") (Some sub); SExpr (EBinary BMul (EPath ["y"])
    (EPath ["recip"]))]].

(** trig.rs:169-176 *)
Definition code_sin_cos (bits : Z) (sub : expr) : list item := [IFn "sin_cos" [("arg", "fty")] "(fty, fty)"
    [SExpr (ECall (EPath ["(,)"]) [(ECall (EPath ["sin"]) [(EPath ["arg"])]); (ECall (EPath ["cos"]) [(EPath
    ["arg"])])])]].

(** The generators of the table, functions.rs:52-826. *)
Definition code (bits : Z) (sub : string -> expr) (name : string) : list item :=
  if String.eqb name "fty" then code_fty bits (sub name) else
  if String.eqb name "uty" then code_uty bits (sub name) else
  if String.eqb name "ity" then code_ity bits (sub name) else
  if String.eqb name "round" then code_round bits (sub name) else
  if String.eqb name "LOG2_SHIFT" then code_LOG2_SHIFT bits (sub name) else
  if String.eqb name "LOG2_OFFSET" then code_LOG2_OFFSET bits (sub name) else
  if String.eqb name "NAN" then code_NAN bits (sub name) else
  if String.eqb name "INFINITY" then code_INFINITY bits (sub name) else
  if String.eqb name "MIN_POSITIVE" then code_MIN_POSITIVE bits (sub name) else
  if String.eqb name "ONE_MASK" then code_ONE_MASK bits (sub name) else
  if String.eqb name "ONE_BITS" then code_ONE_BITS bits (sub name) else
  if String.eqb name "EXP2_ONE" then code_EXP2_ONE bits (sub name) else
  if String.eqb name "EXP2_SCALE" then code_EXP2_SCALE bits (sub name) else
  if String.eqb name "EXP2_MIN" then code_EXP2_MIN bits (sub name) else
  if String.eqb name "EXP2_MAX" then code_EXP2_MAX bits (sub name) else
  if String.eqb name "ONE_THIRD" then code_ONE_THIRD bits (sub name) else
  if String.eqb name "TWO_THIRDS" then code_TWO_THIRDS bits (sub name) else
  if String.eqb name "PI" then code_PI bits (sub name) else
  if String.eqb name "PI_BY_2" then code_PI_BY_2 bits (sub name) else
  if String.eqb name "TAN_PI_BY_8" then code_TAN_PI_BY_8 bits (sub name) else
  if String.eqb name "PI_BY_8" then code_PI_BY_8 bits (sub name) else
  if String.eqb name "LOG2_E" then code_LOG2_E bits (sub name) else
  if String.eqb name "RECIP_LOG2_E" then code_RECIP_LOG2_E bits (sub name) else
  if String.eqb name "RECIP_LOG2_10" then code_RECIP_LOG2_10 bits (sub name) else
  if String.eqb name "RECIP_PI" then code_RECIP_PI bits (sub name) else
  if String.eqb name "RECIP_2PI" then code_RECIP_2PI bits (sub name) else
  if String.eqb name "SQRT_RECIP_2PI" then code_SQRT_RECIP_2PI bits (sub name) else
  if String.eqb name "negate_on_odd" then code_negate_on_odd bits (sub name) else
  if String.eqb name "recip_approx" then code_recip_approx bits (sub name) else
  if String.eqb name "sqrt_approx" then code_sqrt_approx bits (sub name) else
  if String.eqb name "cbrt_approx" then code_cbrt_approx bits (sub name) else
  if String.eqb name "nextafter" then code_nextafter bits (sub name) else
  if String.eqb name "sinh" then code_sinh bits (sub name) else
  if String.eqb name "cosh" then code_cosh bits (sub name) else
  if String.eqb name "tanh" then code_tanh bits (sub name) else
  if String.eqb name "asinh" then code_asinh bits (sub name) else
  if String.eqb name "acosh" then code_acosh bits (sub name) else
  if String.eqb name "atanh" then code_atanh bits (sub name) else
  if String.eqb name "asin" then code_asin bits (sub name) else
  if String.eqb name "acos" then code_acos bits (sub name) else
  if String.eqb name "atan" then code_atan bits (sub name) else
  if String.eqb name "atan2" then code_atan2 bits (sub name) else
  if String.eqb name "exp2" then code_exp2 bits (sub name) else
  if String.eqb name "exp" then code_exp bits (sub name) else
  if String.eqb name "exp_m1" then code_exp_m1 bits (sub name) else
  if String.eqb name "log2" then code_log2 bits (sub name) else
  if String.eqb name "ln_1p" then code_ln_1p bits (sub name) else
  if String.eqb name "ln" then code_ln bits (sub name) else
  if String.eqb name "log10" then code_log10 bits (sub name) else
  if String.eqb name "log" then code_log bits (sub name) else
  if String.eqb name "powf" then code_powf bits (sub name) else
  if String.eqb name "powi" then code_powi bits (sub name) else
  if String.eqb name "sqrt" then code_sqrt bits (sub name) else
  if String.eqb name "cbrt" then code_cbrt bits (sub name) else
  if String.eqb name "recip" then code_recip bits (sub name) else
  if String.eqb name "hypot" then code_hypot bits (sub name) else
  if String.eqb name "runif" then code_runif bits (sub name) else
  if String.eqb name "dnorm" then code_dnorm bits (sub name) else
  if String.eqb name "pnorm" then code_pnorm bits (sub name) else
  if String.eqb name "qnorm" then code_qnorm bits (sub name) else
  if String.eqb name "rnorm" then code_rnorm bits (sub name) else
  if String.eqb name "sin" then code_sin bits (sub name) else
  if String.eqb name "cos" then code_cos bits (sub name) else
  if String.eqb name "tan" then code_tan bits (sub name) else
  if String.eqb name "sin_cos" then code_sin_cos bits (sub name) else
  [].

(** main.rs:382-391: the generated items, in the order of the closure.  The
    interpolated expressions of each function are given by [sub]. *)
Definition library (bits : Z) (sub : string -> expr) (names exclude : list string) : option (list item) :=
  match get_functions_and_deps FUNCTIONS names exclude with
  | Some l => Some (flat_map (fun p => if f_gen (snd p) then code bits sub (f_name (snd p)) else []) l)
  | None => None
  end.
