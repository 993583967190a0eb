{
 "claims": [
  {
   "property": "C01",
   "status": "proved",
   "theorems": [
    "C01_number_roundtrip"
   ],
   "note": "Exact for every BigDecimal value, through the text form written by Display and read back by FromStr."
  },
  {
   "property": "C02",
   "status": "proved",
   "theorems": [
    "C02_round_half_away",
    "C02_round_determined",
    "C02_round_idempotent",
    "C02_round_negation",
    "C02_round_monotone",
    "C02_round_negative_digits"
   ],
   "note": "Rounding specified by its three defining conditions, shown to determine the result; also idempotent, odd, monotone."
  },
  {
   "property": "C03",
   "status": "proved",
   "theorems": [
    "C03_find_first_binding",
    "C03_find_none",
    "C03_add_var_index",
    "C03_add_var_stable"
   ],
   "note": "First binding wins, for every sequence of add_var calls."
  },
  {
   "property": "C04",
   "status": "proved",
   "theorems": [
    "C04_subst_meaning"
   ],
   "note": "Simultaneous, hygienic substitution, in every interpretation of names and operators."
  },
  {
   "property": "C05",
   "status": "proved",
   "theorems": [
    "C05_subst_fails_exactly",
    "C05_subst_unbound_unchanged",
    "C05_subst_names"
   ],
   "note": "Exact success condition, unbound names untouched, and exact set of names of the result."
  },
  {
   "property": "C06",
   "status": "partial",
   "theorems": [
    "C06_subst_reads_back_partial",
    "C06_subst_reads_back_refuted",
    "C06_reads_back_exactly",
    "C06_print_parse"
   ],
   "note": "False as stated: (x*2)[x:=a+b] prints a + b * 2. Proved when bound expressions are not bare operators; and an exact criterion for reading back."
  },
  {
   "property": "C07",
   "status": "partial",
   "theorems": [
    "C07_paren_value",
    "C07_paren_fails_exactly",
    "C07_paren_reads_back_partial",
    "C07_paren_of_parsed_reads_back",
    "C07_paren_any_precedence",
    "C07_paren_reads_back_refuted"
   ],
   "note": "Value and idempotence proved for every supported expression; reading back proved for every expression whose receivers are not bare operators, which includes every parsed expression, under any precedence table. Refuted for x.sin() after x:=a+b."
  },
  {
   "property": "C08",
   "status": "proved",
   "theorems": [
    "C08_expand_value"
   ],
   "note": "In every commutative ring."
  },
  {
   "property": "C09",
   "status": "proved",
   "theorems": [
    "C09_expand_total",
    "C09_expand_fails_exactly"
   ],
   "note": "Exact success condition; never panics."
  },
  {
   "property": "C10",
   "status": "partial",
   "theorems": [
    "C10_expand_multiplies_out_partial",
    "C10_expand_multiplies_out_refuted"
   ],
   "note": "Proved for expressions whose parentheses are single and whose minus signs are not applied to sums inside products; refuted by -(x+y)*z."
  },
  {
   "property": "C11",
   "status": "proved",
   "theorems": [
    "C11_collect_value"
   ],
   "note": "collect_terms leaves the expression unchanged; proved for every supported expression."
  },
  {
   "property": "C12",
   "status": "partial",
   "theorems": [
    "C12_numeric_exact",
    "C12_numeric_division",
    "C12_symbolic_partial",
    "C12_symbolic_builds_sum",
    "C12_symbolic_refuted"
   ],
   "note": "Numeric operands fully proved. For symbolic operands +, holds; -, * and / build a sum (refuted for each)."
  },
  {
   "property": "C13",
   "status": "proved",
   "theorems": [
    "C13_error_bound",
    "C13_sum",
    "C13_difference",
    "C13_negation",
    "C13_product",
    "C13_quotient",
    "C13_comparison"
   ],
   "note": "Error propagation through every arithmetic expression, plus the exact rule of each operator and comparison."
  },
  {
   "property": "C14",
   "status": "partial",
   "theorems": [
    "C14_literal_partial",
    "C14_literal_refuted",
    "C14_only_pi",
    "C14_only_known_methods"
   ],
   "note": "Names and methods fully proved. A field access such as (2).y survives evaluation, so the result need not be a literal: refuted; proved without field access."
  },
  {
   "property": "C15",
   "status": "partial",
   "theorems": [
    "C15_within_limits_partial",
    "C15_series_end",
    "C15_series_overrun",
    "C15_no_panic_partial",
    "C15_polynomial_evaluates_partial",
    "C15_division_by_zero",
    "C15_asin_outside",
    "C15_no_panic_refuted"
   ],
   "note": "False: 1/0, 2.log(1), asin(2), dnorm with deviation 0, qnorm(1), exp, sin and cos of every |x| >= 15003, and literals with oversized exponents panic. Proved for every expression whose divisors do not evaluate to zero and whose method calls stay within stated limits (2 to 94 digits, all methods but qnorm); exact condition for division and asin."
  },
  {
   "property": "C16",
   "status": "proved",
   "theorems": [
    "C16_parentheses_ignored"
   ],
   "note": "Holds for every expression."
  },
  {
   "property": "C17",
   "status": "partial",
   "theorems": [
    "C17_pi_half_unit_partial",
    "C17_eval_pi_partial",
    "C17_pi_digits_refuted"
   ],
   "note": "Within half a unit for every n < 100; refuted at 101 digits, where the 100-digit quotients are too coarse."
  },
  {
   "property": "C18",
   "status": "proved",
   "theorems": [
    "C18_exp_accurate",
    "C18_eval_exp_accurate"
   ],
   "note": "Full error analysis of the series, its stopping rule and roundings."
  },
  {
   "property": "C19",
   "status": "proved",
   "theorems": [
    "C19_sin_accurate",
    "C19_cos_accurate",
    "C19_eval_sin_accurate",
    "C19_eval_cos_accurate"
   ],
   "note": "Full error analysis of the series, its stopping rule and roundings."
  },
  {
   "property": "C20",
   "status": "proved",
   "theorems": [
    "C20_ln_domain",
    "C20_pow_domain",
    "C20_log_domain",
    "C20_eval_ln",
    "C20_eval_pow"
   ],
   "note": "Exact domains."
  },
  {
   "property": "C21",
   "status": "proved",
   "theorems": [
    "C21_sin",
    "C21_cos",
    "C21_tan",
    "C21_asin",
    "C21_atan",
    "C21_erf"
   ],
   "note": "Exact equality of results, including failures."
  },
  {
   "property": "C22",
   "status": "proved",
   "theorems": [
    "C22_interpolates",
    "C22_unique",
    "C22_eval"
   ],
   "note": "Exact rational arithmetic; existence, interpolation, uniqueness and Horner evaluation for any number of points."
  },
  {
   "property": "C23",
   "status": "proved",
   "theorems": [
    "C23_mul_add_value",
    "C23_refused"
   ],
   "note": "In every commutative ring with a mul_add; exact refusal condition."
  },
  {
   "property": "C24",
   "status": "proved",
   "theorems": [
    "C24_exactly_reachable"
   ],
   "note": "Any table, cyclic ones and repeated names included."
  },
  {
   "property": "C25",
   "status": "proved",
   "theorems": [
    "C25_table_order",
    "C25_request_as_set",
    "C25_terminates"
   ],
   "note": "Any table; the iteration bound is explicit."
  },
  {
   "property": "C26",
   "status": "partial",
   "theorems": [
    "C26_criterion_partial",
    "C26_safe_requests_partial",
    "C26_single_request_refuted",
    "C26_refuted"
   ],
   "note": "False for every single request outside of a list of 16 names (57 uses are not declared as dependencies). Proved: an exact criterion, and that requests with libm or all, or made of those 16 names, are self-contained."
  },
  {
   "property": "C27",
   "status": "partial",
   "theorems": [
    "C27_same_tree_partial",
    "C27_refuted",
    "C27_decrement_refuted"
   ],
   "note": "False as stated: a & b == c regroups and - -x becomes a decrement. Proved, down to characters (longest-match C lexer and C grammar), for every other expression of operators, numbers, names, parentheses, casts, calls and methods. Conditionals and blocks are not covered."
  },
  {
   "property": "C28",
   "status": "partial",
   "theorems": [
    "C28_stack_partial",
    "C28_one_string_partial",
    "C28_file_partial",
    "C28_library",
    "C28_refuted",
    "C28_two_strings_refuted"
   ],
   "note": "False as stated: mul_add with fewer than two arguments and Verbatim nodes panic, a compound assignment leaves an extra string. Proved for all other trees (with the exact contents of the stack and text), and for every library libmgen can generate."
  },
  {
   "property": "C29",
   "status": "partial",
   "theorems": [
    "C29_lex_partial",
    "C29_neighbours",
    "C29_refuted",
    "C29_less_refuted",
    "C29_comment_refuted",
    "C29_invisible",
    "C29_invisible_refuted"
   ],
   "note": "False as stated: a literal before a word, < before -, / before * run together. Proved, down to characters (longest-match Rust lexer), for every stream without such neighbours; neighbours that run together are proved never to read back. An invisible group reads back as its contents when it stands alone (C29_invisible) and runs into the token after it otherwise (C29_invisible_refuted). Character, byte and raw literals are not covered."
  },
  {
   "property": "C30",
   "status": "partial",
   "theorems": [
    "C30_returns_partial",
    "C30_refuted"
   ],
   "note": "False as stated: 31 nested braces panic. Proved: it returns exactly when braces nest at most 30 deep."
  },
  {
   "property": "C31",
   "status": "partial",
   "theorems": [
    "C31_lanes_partial",
    "C31_function_partial",
    "C31_integer_refuted",
    "C31_width_refuted",
    "C31_and_refuted",
    "C31_branch_refuted",
    "C31_cast_refuted"
   ],
   "note": "False as stated: unsuffixed and wrong-width integer literals, && and ||, a let in a first branch (panic), and casts of prefix operations. Proved for every other expression, over any algebra of scalars and any set of lanes, and for whole functions with their constants."
  },
  {
   "property": "C32",
   "status": "partial",
   "theorems": [
    "C32_consts_partial",
    "C32_library",
    "C32_refuted",
    "C32_nested_refuted",
    "C32_order_refuted",
    "C32_missing_refuted"
   ],
   "note": "False as stated: constants that mention constants, constants defined after the function, and constants missing from the library (PI for atan2). Proved for every file without these, and for every library libmgen can generate: no method leaves a constant of the library unbound."
  },
  {
   "property": "C33",
   "status": "partial",
   "theorems": [
    "C33_structure",
    "C33_other_modes",
    "C33_close_partial",
    "C33_integer_partial",
    "C33_nearest_refuted",
    "C33_twice_rounded_refuted",
    "C33_hex64_refuted",
    "C33_zero_refuted"
   ],
   "note": "False as stated: hex 64 emits f32::from_bits of a u64; to_f64 multiplies by 10^-scale, so 0.3 becomes 0.30000000000000004; f32 values are rounded twice; 0e400 becomes NaN. Proved: only integer and float literals change, other modes change nothing, and in decimal 32, decimal 64 and hex 32 every number becomes an expression of the requested type within the error of powi plus about one unit; integers become the nearest float (up to 2^53 for f32). powi and Display are parameters with stated assumptions, shown satisfiable."
  },
  {
   "property": "C34",
   "status": "proved",
   "theorems": [
    "C34_runif"
   ],
   "note": "The generated code run on IEEE floats; index 2^64-1 panics with overflow checks (example)."
  },
  {
   "property": "C35",
   "status": "proved",
   "theorems": [
    "C35_scaling",
    "C35_accuracy",
    "C35_too_small",
    "C35_too_large"
   ],
   "note": "Both widths; the one argument below 1/2 that round sends to 1 is left out of the scaling theorems. The polynomial is arbitrary."
  },
  {
   "property": "C36",
   "status": "proved",
   "theorems": [
    "C36_split",
    "C36_accuracy"
   ],
   "note": "Both widths, every positive normal float, any polynomial."
  },
  {
   "property": "C37",
   "status": "partial",
   "theorems": [
    "C37_in_range_partial",
    "C37_refuted"
   ],
   "note": "Proved below 2^63 (2^31); refuted at 2^63, which saturates to an odd integer."
  },
  {
   "property": "C38",
   "status": "partial",
   "theorems": [
    "C38_positive_partial",
    "C38_refuted"
   ],
   "note": "Proved for non-negative floats up to the largest; refuted for -1."
  },
  {
   "property": "C39",
   "status": "partial",
   "theorems": [
    "C39_nearest_partial",
    "C39_refuted"
   ],
   "note": "Proved below 2^52 (2^23) but for one float; refuted at that float and at 2^52+1."
  },
  {
   "property": "C40",
   "status": "partial",
   "theorems": [
    "C40_measured_partial",
    "C40_error_partial",
    "C40_nan_refuted",
    "C40_nan_assertion_vacuous",
    "C40_histogram_partial",
    "C40_histogram_refuted"
   ],
   "note": "False as stated: NaN errors are never recorded and the histogram test keeps only the last bucket's error. Proved for every sample whose error is not NaN, infinities included, and in real numbers up to the rounding of the measurement itself."
  },
  {
   "property": "C41",
   "status": "partial",
   "theorems": [
    "C41_exp_everywhere_refuted"
   ],
   "note": "False: exp(12.34567) at 2 digits is off by 0.5. The range where it holds is C18."
  },
  {
   "property": "C42",
   "status": "partial",
   "theorems": [
    "C42_ln_terminates_partial",
    "C42_ln_terminates_refuted"
   ],
   "note": "False: at 0 digits the scale factor exp(-1/2) rounds to 1 and ln(3) loops forever. Proved for 2 to 94 digits."
  },
  {
   "property": "C43",
   "status": "proved",
   "theorems": [
    "C43_rounding_error"
   ],
   "note": "The constant depends on the number of points, the spacing and the bounds only."
  },
  {
   "property": "C44",
   "status": "proved",
   "theorems": [
    "C44_chebyshev_samples",
    "C44_needs_two_terms"
   ],
   "note": "For 2 to 97 digits; pi and cos by the accuracy theorems."
  },
  {
   "property": "C45",
   "status": "proved",
   "theorems": [
    "C45_approx_error"
   ],
   "note": "For parity Neither; end to end."
  },
  {
   "property": "C46",
   "status": "partial",
   "theorems": [
    "C46_defined_partial",
    "C46_nothing_else",
    "C46_once",
    "C46_refuted"
   ],
   "note": "False for pnorm, whose generator is empty; holds for every other entry."
  },
  {
   "property": "C47",
   "status": "partial",
   "theorems": [
    "C47_order_partial",
    "C47_refuted"
   ],
   "note": "False for libraries with the hyperbolic functions, which precede exp2 and ln in the table; holds without them."
  },
  {
   "property": "C48",
   "status": "partial",
   "theorems": [
    "C48_criterion_partial",
    "C48_requests_partial",
    "C48_libm_refuted",
    "C48_spliced",
    "C48_runs",
    "C48_consts",
    "C48_refuted"
   ],
   "note": "Partial: false for libm, all and every other request that reaches ONE_MASK, ONE_BITS, log2 or runif (ONE_MASK and ONE_BITS are declared fty and initialised with an integer; log2 and runif use them or mix u64 with uty). Proved to be exactly the exception among libraries that define what they mention. GenType.v is stricter than rustc in the four points its header names, so the refutations rest on mismatches that rustc also rejects: the initialiser of ONE_MASK and ONE_BITS. Approximations are assumed to be of the declared type; C48_spliced and C71 show it for those libmgen makes."
  },
  {
   "property": "C49",
   "status": "partial",
   "theorems": [
    "C49_not_below_partial",
    "C49_refuted"
   ],
   "note": "Lower bound proved for bounds up to 2^53; refuted: between 1 and the next float the upper bound is returned."
  },
  {
   "property": "C50",
   "status": "proved",
   "theorems": [
    "C50_ln",
    "C50_log",
    "C50_pow",
    "C50_eval_ln",
    "C50_eval_log",
    "C50_eval_log2",
    "C50_eval_log10",
    "C50_eval_pow",
    "C50_eval_exp2"
   ],
   "note": "Bounds in terms of the real logarithm; termination is part of the statement (some number of loop steps suffices)."
  },
  {
   "property": "C51",
   "status": "proved",
   "theorems": [
    "C51_atan",
    "C51_asin",
    "C51_acos",
    "C51_tan",
    "C51_eval_atan",
    "C51_eval_asin",
    "C51_eval_acos",
    "C51_eval_tan"
   ],
   "note": "The crate's square root is a parameter assumed correct to a relative 10^-96 (the crate computes 100 digits); an integer square root rounded down is shown to meet the assumption. tan does not need it."
  },
  {
   "property": "C52",
   "status": "partial",
   "theorems": [
    "C52_erf",
    "C52_erfc",
    "C52_dnorm",
    "C52_pnorm",
    "C52_qnorm_partial",
    "C52_qnorm_ends",
    "C52_qnorm_turns",
    "C52_eval_erf",
    "C52_eval_erfc",
    "C52_eval_dnorm",
    "C52_eval_pnorm",
    "C52_eval_qnorm_partial",
    "C52_eval_qnorm_ends"
   ],
   "note": "Same square-root assumption as C51. qnorm is partial: its Newton iteration is shown to end (within 2 n + 3 turns) for probabilities from 0.46 to 0.54 and a mean within 0.04 standard deviations of 0, not in general; what it returns is shown to be right."
  },
  {
   "property": "C53",
   "status": "partial",
   "theorems": [
    "C53_ln_units_refuted"
   ],
   "note": "False: ln(10000, 2) is 9.224, off by more than 0.01. The error grows with |ln x| (see C50)."
  },
  {
   "property": "C54",
   "status": "proved",
   "theorems": [
    "C54_rows",
    "C54_grid",
    "C54_other_bits"
   ],
   "note": "The strings of the test specification are taken as parsed; round_ieee is any function here."
  },
  {
   "property": "C55",
   "status": "partial",
   "theorems": [
    "C55_close_partial",
    "C55_float_refuted",
    "C55_idempotent_refuted",
    "C55_test_partial",
    "C55_compiles",
    "C55_compensated_refuted",
    "C55_limit"
   ],
   "note": "False as stated: from_f64 reads a text of 16 digits (7 for f32), so round_ieee(0.1) is the decimal 0.1, which is no float; rounding the result again gives 0.09999999999999999; and the float nearest to y differs from y by up to half a unit, which err does not contain. Proved: round_ieee is within the error of powi plus 3*2^-53 + 10^-15 (2^-23 + 10^-6 for f32) of v in the normal range, and a passing test bounds the error against the reference at the printed x by the limit plus that half unit and the rounding of the measurement. The argument of the tested function is the float nearest to the printed x."
  },
  {
   "property": "C56",
   "status": "proved",
   "theorems": [
    "C56_abs",
    "C56_signum",
    "C56_round",
    "C56_recip",
    "C56_sqrt",
    "C56_sqrt_none"
   ],
   "note": "recip and sqrt are the crate's functions, which are parameters; sqrt has the assumption of C51."
  },
  {
   "property": "C57",
   "status": "partial",
   "theorems": [
    "C57_qnorm_undefined",
    "C57_qnorm_defined",
    "C57_qnorm_one_refuted"
   ],
   "note": "False at x = 1: the odds x / (1 - x) divide by zero and panic. Proved everywhere else."
  },
  {
   "property": "C58",
   "status": "proved",
   "theorems": [
    "C58_interval",
    "C58_exp",
    "C58_sin",
    "C58_cos"
   ],
   "note": "Success and error bound together, for any expression whose samples the evaluator computes within eps of a smooth f, and instantiated at exp, sin and cos. C depends on the number of terms and the size of the interval and values only, not on the precision; it is not given explicitly. Result valued in real arithmetic."
  },
  {
   "property": "C59",
   "status": "proved",
   "theorems": [
    "C59_explicit",
    "C59_exp2_32",
    "C59_exp2_64"
   ],
   "note": "Explicit constants for C58. The hypotheses on g, E and q are inequalities between given numbers; for exp2 they are met with the tables g8, E8, g12, E12. Result valued in real arithmetic."
  },
  {
   "property": "C60",
   "status": "proved",
   "theorems": [
    "C60_horner"
   ],
   "note": "powi_within and reads_back are the assumptions on Rust's float routines of C33. n <= 1001 and S(1) <= 2^99 keep the sums in range."
  },
  {
   "property": "C61",
   "status": "proved",
   "theorems": [
    "C61_exp2_32",
    "C61_exp2_64"
   ],
   "note": "Includes the arguments next to 1/2 where the generated round is one off (C39). Same assumptions on Rust's float routines as C60; f32 assumes k <= 2^-27, f64 k <= 1/1024."
  },
  {
   "property": "C62",
   "status": "proved",
   "theorems": [
    "C62_constants"
   ],
   "note": "SQRT_RECIP_2PI assumes that BigDecimal::sqrt is accurate (sqrt_good, as in C50); the other constants need no assumption."
  },
  {
   "property": "C63",
   "status": "proved",
   "theorems": [
    "C63_exp",
    "C63_far"
   ],
   "note": "Built on C61 and C62, so the same assumptions on Rust's float routines (reads_back, powi_within). Between the stated ranges nothing is claimed."
  },
  {
   "property": "C64",
   "status": "proved",
   "theorems": [
    "C64_cosh",
    "C64_sinh",
    "C64_sinh_tiny"
   ],
   "note": "Same assumptions as C63."
  },
  {
   "property": "C65",
   "status": "proved",
   "theorems": [
    "C65_tanh",
    "C65_far"
   ],
   "note": "Same assumptions as C63. NaN for large arguments is a defect of the generated code."
  },
  {
   "property": "C66",
   "status": "proved",
   "theorems": [
    "C66_text",
    "C66_spliced",
    "C66_trees"
   ],
   "note": "A doc comment is taken to be an ordinary string literal (rustc may hand it over as a raw string). The equality with the trees is up to attributes, pub, digit separators, hexadecimal spelling, and const for let inside of bodies."
  },
  {
   "property": "C67",
   "status": "partial",
   "theorems": [
    "C67_called_partial",
    "C67_refuted",
    "C67_names"
   ],
   "note": "Partial: false for requests that reach rnorm but not dnorm (the test of rnorm calls dnorm, which rnorm does not list); proved for every other request that excludes no entry of the table."
  },
  {
   "property": "C68",
   "status": "partial",
   "theorems": [
    "C68_request",
    "C68_rust_partial",
    "C68_refuted",
    "C68_c",
    "C68_language"
   ],
   "note": "Partial: false on standard output as soon as an excluded name is requested or listed by a generated function, because functions.rs:31 prints 'ignoring ...' there (also for '-f sin,', whose empty last name is in the default exclusion); proved to be the only exception, and true of --output files. syn::parse2 and the printing of the SIMD file are given from outside; the C case assumes that parse2 returns the items whose tokens were generated."
  },
  {
   "property": "C69",
   "status": "proved",
   "theorems": [
    "C69_dropped",
    "C69_silent"
   ],
   "note": "Names are compared as they stand between the commas, so 'sin, cos' asks for ' cos'."
  },
  {
   "property": "C70",
   "status": "partial",
   "theorems": [
    "C70_criterion_partial",
    "C70_requests_partial",
    "C70_functions_refuted",
    "C70_refuted"
   ],
   "note": "Partial: false for every library with a function other than asin and acos (a let without a type becomes an assignment to an undeclared name, as half in round; abs, to_bits, recip, wrapping_mul and ln are not in math.h; f32::NAN becomes f32_NAN; tuples print as markers). Proved to be exactly the exception. CNames.v looks at words only and is more lenient than C, so the refutations hold in C; accepted texts are not claimed to compile. What is spliced in is assumed to have no name but its variable (x, for atan2 z, none in constants); C71 shows it for what libmgen computes with decimal numbers."
  },
  {
   "property": "C71",
   "status": "proved",
   "theorems": [
    "C71_spliced",
    "C71_file",
    "C71_types",
    "C71_c",
    "C71_hex"
   ],
   "note": "Assumed of Rust: Display of a finite non-negative float is digits, possibly with a point and digits, and reads back as the same float (met by exact_floats). hex works for 32 bits only (C33); C71_hex shows that its C text calls an undefined function. The stopping of approx and eval themselves is not claimed here (C15-C19, C36-C45)."
  },
  {
   "property": "C72",
   "status": "proved",
   "theorems": [
    "C72_sin",
    "C72_cos",
    "C72_tan",
    "C72_asin",
    "C72_atan",
    "C72_sinh",
    "C72_cosh",
    "C72_cbrt",
    "C72_recip",
    "C72_atan2",
    "C72_atan2_zero",
    "C72_dnorm"
   ],
   "note": "Zeros: the sign of a zero result of sin, tan, asin, atan and sinh is not claimed (x - round(x) is +0 on both sides when it cancels); cbrt and recip keep it. The polynomials are any of the parity the generator asks approx for (trig.rs, inv_trig.rs), the constants those it computes; acos, hypot, tanh, asinh and atanh are not claimed symmetric."
  },
  {
   "property": "C73",
   "status": "proved",
   "theorems": [
    "C73_accuracy",
    "C73_tiny",
    "C73_symmetric",
    "C73_infinite",
    "C73_infinities",
    "C73_nan_second",
    "C73_nan_first"
   ],
   "note": "Overflow: the last 8 units below 2^emax are left out of C73_accuracy, where the exact length is representable but the product may round up to infinity. hypot is not in libm's all and its dependency list lacks MIN_POSITIVE (functions.rs:588-589): a request for hypot alone gives code that names an undeclared constant (C73_alone)."
  },
  {
   "property": "C74",
   "status": "partial",
   "theorems": [
    "C74_small",
    "C74_refuted",
    "C74_nan",
    "C74_infinite"
   ],
   "note": "False as stated: C74_refuted (x = 1/256), and C74_small says that the result is negative for every argument from 0 to 1/256, because sqrt_approx subtracts 0.08 whatever the size of its estimate. C74_nan and C74_infinite hold in full. No error bound is proved for larger arguments; C74_values computes four (sqrt(16) = 4.000816, sqrt(f32::MAX) = -infinity, sqrt(-1) = -0.0835). A request for sqrt alone lacks EXP2_ONE (C74_alone)."
  }
 ]
}