{
"C01": "Exact for every BigDecimal value, through the text form written by Display and read back by FromStr.",
"C02": "Rounding specified by its three defining conditions, shown to determine the result; also idempotent, odd, monotone.",
"C03": "First binding wins, for every sequence of add_var calls.",
"C04": "Simultaneous, hygienic substitution, in every interpretation of names and operators.",
"C05": "Exact success condition, unbound names untouched, and exact set of names of the result.",
"C06": "False as stated: (x*2)[x:=a+b] prints a + b * 2. Proved when bound expressions are not bare operators; and an exact criterion for reading back.",
"C07": "Value and idempotence proved for every supported expression; reading back proved for every expression whose receivers are not bare operators, which includes every parsed expression, under any precedence table. Refuted for x.sin() after x:=a+b.",
"C08": "In every commutative ring.",
"C09": "Exact success condition; never panics.",
"C10": "Proved for expressions whose parentheses are single and whose minus signs are not applied to sums inside products; refuted by -(x+y)*z.",
"C11": "collect_terms leaves the expression unchanged; proved for every supported expression.",
"C12": "Numeric operands fully proved. For symbolic operands +, holds; -, * and / build a sum (refuted for each).",
"C13": "Error propagation through every arithmetic expression, plus the exact rule of each operator and comparison.",
"C14": "Names and methods fully proved. A field access such as (2).y survives evaluation, so the result need not be a literal: refuted; proved without field access.",
"C15": "False: 1/0, 2.log(1), asin(2), dnorm with deviation 0, qnorm(1), exp, sin and cos of every |x| >= 15003, and literals with oversized exponents panic. Proved for every expression whose divisors do not evaluate to zero and whose method calls stay within stated limits (2 to 94 digits, all methods but qnorm); exact condition for division and asin.",
"C16": "Holds for every expression.",
"C17": "Within half a unit for every n < 100; refuted at 101 digits, where the 100-digit quotients are too coarse.",
"C18": "Full error analysis of the series, its stopping rule and roundings.",
"C19": "Full error analysis of the series, its stopping rule and roundings.",
"C20": "Exact domains.",
"C21": "Exact equality of results, including failures.",
"C41": "False: exp(12.34567) at 2 digits is off by 0.5. The range where it holds is C18.",
"C42": "False: at 0 digits the scale factor exp(-1/2) rounds to 1 and ln(3) loops forever. Proved for 2 to 94 digits.",
"C22": "Exact rational arithmetic; existence, interpolation, uniqueness and Horner evaluation for any number of points.",
"C23": "In every commutative ring with a mul_add; exact refusal condition.",
"C43": "The constant depends on the number of points, the spacing and the bounds only.",
"C44": "For 2 to 97 digits; pi and cos by the accuracy theorems.",
"C45": "For parity Neither; end to end.",
"C24": "Any table, cyclic ones and repeated names included.",
"C25": "Any table; the iteration bound is explicit.",
"C26": "False for every single request outside of a list of 16 names (57 uses are not declared as dependencies). Proved: an exact criterion, and that requests with libm or all, or made of those 16 names, are self-contained.",
"C46": "False for pnorm, whose generator is empty; holds for every other entry.",
"C47": "False for libraries with the hyperbolic functions, which precede exp2 and ln in the table; holds without them.",
"C34": "The generated code run on IEEE floats; index 2^64-1 panics with overflow checks (example).",
"C35": "Both widths; the one argument below 1/2 that round sends to 1 is left out of the scaling theorems. The polynomial is arbitrary.",
"C36": "Both widths, every positive normal float, any polynomial.",
"C37": "Proved below 2^63 (2^31); refuted at 2^63, which saturates to an odd integer.",
"C38": "Proved for non-negative floats up to the largest; refuted for -1.",
"C39": "Proved below 2^52 (2^23) but for one float; refuted at that float and at 2^52+1.",
"C49": "Lower bound proved for bounds up to 2^53; refuted: between 1 and the next float the upper bound is returned.",
"C27": "False as stated: a & b == c regroups and - -x becomes a decrement. Proved, down to characters (longest-match C lexer and C grammar), for every other expression of operators, numbers, names, parentheses, casts, calls and methods. Conditionals and blocks are not covered.",
"C28": "False as stated: mul_add with fewer than two arguments and Verbatim nodes panic, a compound assignment leaves an extra string. Proved for all other trees (with the exact contents of the stack and text), and for every library libmgen can generate.",
"C29": "False as stated: a literal before a word, < before -, / before * run together. Proved, down to characters (longest-match Rust lexer), for every stream without such neighbours; neighbours that run together are proved never to read back. An invisible group reads back as its contents when it stands alone (C29_invisible) and runs into the token after it otherwise (C29_invisible_refuted). Character, byte and raw literals are not covered.",
"C30": "False as stated: 31 nested braces panic. Proved: it returns exactly when braces nest at most 30 deep.",
"C31": "False as stated: unsuffixed and wrong-width integer literals, && and ||, a let in a first branch (panic), and casts of prefix operations. Proved for every other expression, over any algebra of scalars and any set of lanes, and for whole functions with their constants.",
"C32": "False as stated: constants that mention constants, constants defined after the function, and constants missing from the library (PI for atan2). Proved for every file without these, and for every library libmgen can generate: no method leaves a constant of the library unbound.",
"C33": "False as stated: hex 64 emits f32::from_bits of a u64; to_f64 multiplies by 10^-scale, so 0.3 becomes 0.30000000000000004; f32 values are rounded twice; 0e400 becomes NaN. Proved: only integer and float literals change, other modes change nothing, and in decimal 32, decimal 64 and hex 32 every number becomes an expression of the requested type within the error of powi plus about one unit; integers become the nearest float (up to 2^53 for f32). powi and Display are parameters with stated assumptions, shown satisfiable.",
"C40": "False as stated: NaN errors are never recorded and the histogram test keeps only the last bucket's error. Proved for every sample whose error is not NaN, infinities included, and in real numbers up to the rounding of the measurement itself.",
"C50": "Bounds in terms of the real logarithm; termination is part of the statement (some number of loop steps suffices).",
"C51": "The crate's square root is a parameter assumed correct to a relative 10^-96 (the crate computes 100 digits); an integer square root rounded down is shown to meet the assumption. tan does not need it.",
"C53": "False: ln(10000, 2) is 9.224, off by more than 0.01. The error grows with |ln x| (see C50).",
"C52": "Same square-root assumption as C51. qnorm is partial: its Newton iteration is shown to end (within 2 n + 3 turns) for probabilities from 0.46 to 0.54 and a mean within 0.04 standard deviations of 0, not in general; what it returns is shown to be right.",
"C54": "The strings of the test specification are taken as parsed; round_ieee is any function here.",
"C55": "False as stated: from_f64 reads a text of 16 digits (7 for f32), so round_ieee(0.1) is the decimal 0.1, which is no float; rounding the result again gives 0.09999999999999999; and the float nearest to y differs from y by up to half a unit, which err does not contain. Proved: round_ieee is within the error of powi plus 3*2^-53 + 10^-15 (2^-23 + 10^-6 for f32) of v in the normal range, and a passing test bounds the error against the reference at the printed x by the limit plus that half unit and the rounding of the measurement. The argument of the tested function is the float nearest to the printed x.",
"C56": "recip and sqrt are the crate's functions, which are parameters; sqrt has the assumption of C51.",
"C57": "False at x = 1: the odds x / (1 - x) divide by zero and panic. Proved everywhere else.",
"C58": "Success and error bound together, for any expression whose samples the evaluator computes within eps of a smooth f, and instantiated at exp, sin and cos. C depends on the number of terms and the size of the interval and values only, not on the precision; it is not given explicitly. Result valued in real arithmetic.",
"C59": "Explicit constants for C58. The hypotheses on g, E and q are inequalities between given numbers; for exp2 they are met with the tables g8, E8, g12, E12. Result valued in real arithmetic.",
"C60": "powi_within and reads_back are the assumptions on Rust's float routines of C33. n <= 1001 and S(1) <= 2^99 keep the sums in range.",
"C61": "Includes the arguments next to 1/2 where the generated round is one off (C39). Same assumptions on Rust's float routines as C60; f32 assumes k <= 2^-27, f64 k <= 1/1024.",
"C62": "SQRT_RECIP_2PI assumes that BigDecimal::sqrt is accurate (sqrt_good, as in C50); the other constants need no assumption.",
"C63": "Built on C61 and C62, so the same assumptions on Rust's float routines (reads_back, powi_within). Between the stated ranges nothing is claimed.",
"C64": "Same assumptions as C63.",
"C65": "Same assumptions as C63. NaN for large arguments is a defect of the generated code.",
"C66": "A doc comment is taken to be an ordinary string literal (rustc may hand it over as a raw string). The equality with the trees is up to attributes, pub, digit separators, hexadecimal spelling, and const for let inside of bodies.",
"C67": "Partial: false for requests that reach rnorm but not dnorm (the test of rnorm calls dnorm, which rnorm does not list); proved for every other request that excludes no entry of the table.",
"C68": "Partial: false on standard output as soon as an excluded name is requested or listed by a generated function, because functions.rs:31 prints 'ignoring ...' there (also for '-f sin,', whose empty last name is in the default exclusion); proved to be the only exception, and true of --output files. syn::parse2 and the printing of the SIMD file are given from outside; the C case assumes that parse2 returns the items whose tokens were generated.",
"C69": "Names are compared as they stand between the commas, so 'sin, cos' asks for ' cos'.",
"C48": "Partial: false for libm, all and every other request that reaches ONE_MASK, ONE_BITS, log2 or runif (ONE_MASK and ONE_BITS are declared fty and initialised with an integer; log2 and runif use them or mix u64 with uty). Proved to be exactly the exception among libraries that define what they mention. GenType.v is stricter than rustc in the four points its header names, so the refutations rest on mismatches that rustc also rejects: the initialiser of ONE_MASK and ONE_BITS. Approximations are assumed to be of the declared type; C48_spliced and C71 show it for those libmgen makes.",
"C70": "Partial: false for every library with a function other than asin and acos (a let without a type becomes an assignment to an undeclared name, as half in round; abs, to_bits, recip, wrapping_mul and ln are not in math.h; f32::NAN becomes f32_NAN; tuples print as markers). Proved to be exactly the exception. CNames.v looks at words only and is more lenient than C, so the refutations hold in C; accepted texts are not claimed to compile. What is spliced in is assumed to have no name but its variable (x, for atan2 z, none in constants); C71 shows it for what libmgen computes with decimal numbers.",
"C71": "Assumed of Rust: Display of a finite non-negative float is digits, possibly with a point and digits, and reads back as the same float (met by exact_floats). hex works for 32 bits only (C33); C71_hex shows that its C text calls an undefined function. The stopping of approx and eval themselves is not claimed here (C15-C19, C36-C45).",
"C72": "Zeros: the sign of a zero result of sin, tan, asin, atan and sinh is not claimed (x - round(x) is +0 on both sides when it cancels); cbrt and recip keep it. The polynomials are any of the parity the generator asks approx for (trig.rs, inv_trig.rs), the constants those it computes; acos, hypot, tanh, asinh and atanh are not claimed symmetric.",
"C73": "Overflow: the last 8 units below 2^emax are left out of C73_accuracy, where the exact length is representable but the product may round up to infinity. hypot is not in libm's all and its dependency list lacks MIN_POSITIVE (functions.rs:588-589): a request for hypot alone gives code that names an undeclared constant (C73_alone).",
"C74": "False as stated: C74_refuted (x = 1/256), and C74_small says that the result is negative for every argument from 0 to 1/256, because sqrt_approx subtracts 0.08 whatever the size of its estimate. C74_nan and C74_infinite hold in full. No error bound is proved for larger arguments; C74_values computes four (sqrt(16) = 4.000816, sqrt(f32::MAX) = -infinity, sqrt(-1) = -0.0835). A request for sqrt alone lacks EXP2_ONE (C74_alone)."
}
