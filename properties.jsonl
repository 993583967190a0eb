{"id": "C01", "title": "Number to Expression to number is lossless", "statement": "Converting any BigDecimal to an Expression and converting that Expression back to a BigDecimal succeeds and gives a number equal to the original, whatever its sign, digit count and scale (including negative scale and zero).", "quantifier": "every integer mantissa and every scale", "why_tests_cant": "the set of mantissa/scale pairs is infinite and the decimal printing has four layouts (all digits behind the point, around it, before it with appended zeros, zero)", "anchors": ["doctor-syn/src/expression.rs: From<BigDecimal> for Expression", "doctor-syn/src/expression.rs: expr_to", "doctor-syn/src/expression.rs: TryFrom<Expression> for BigDecimal"]}
{"id": "C02", "title": "round is rounding half away from zero", "statement": "For every number x and every n >= 0, round(x, n) is the multiple of 10^-n nearest to x, a tie going away from zero; its error is at most half of 10^-n; rounding an already rounded number changes nothing; round commutes with negation and preserves order; for n < 0 the number is returned unchanged.", "quantifier": "every BigDecimal and every digit count (also negative)", "why_tests_cant": "ties, signs and scales are unbounded; tests sample four positive numbers", "anchors": ["doctor-syn/src/bdmath.rs: round"]}
{"id": "C03", "title": "A variable list is a first-binding-wins map", "statement": "After any sequence of add_var calls, find(name) returns exactly the expression of the earliest binding of that name, None exactly when the name was never added; add_var returns the number of bindings added before it, and never changes what find returns for a name that was already bound.", "quantifier": "every sequence of add_var calls and every looked-up name", "why_tests_cant": "histories are unbounded and the law relates every history to a lookup", "anchors": ["doctor-syn/src/variablelist.rs: VariableList::add_var, VariableList::find"]}
{"id": "C04", "title": "subst means simultaneous substitution", "statement": "If subst succeeds, then for every interpretation of operators, methods, fields, literals and free names, the value of the result equals the value of the original expression in the environment where each name bound in the variable list has the value of its bound expression (first binding wins) and every other name keeps its value. Bound expressions are not themselves substituted into.", "quantifier": "every supported expression, every variable list and every interpretation over every value type", "why_tests_cant": "expressions, variable lists and interpretations are all unbounded", "anchors": ["doctor-syn/src/expression.rs: Expression::subst", "doctor-syn/src/transformation/subst.rs: Subst::visit_path", "doctor-syn/src/visitor.rs: Visitor"]}
{"id": "C05", "title": "subst touches nothing else and fails only on unsupported constructs", "statement": "subst returns an error exactly when the expression contains a construct the visitor does not support; when none of the names occurring in the expression is bound the result is the expression itself; names bound in the list do not occur in the result unless some bound expression mentions them.", "quantifier": "every expression and every variable list", "why_tests_cant": "all shapes of expression trees have to be covered", "anchors": ["doctor-syn/src/transformation/subst.rs: Subst", "doctor-syn/src/visitor.rs: visit_expr_core"]}
{"id": "C06", "title": "The printed form of a result reads back as that result", "statement": "Printing the result of a substitution (Display) and parsing the text again gives the same expression tree that subst returned.", "quantifier": "every expression accepted by the parser and every variable list of such expressions", "why_tests_cant": "needs a print/parse round trip over all trees; tests use substitutions of single tokens", "anchors": ["doctor-syn/src/expression.rs: Display for Expression, Expression::subst", "doctor-syn/src/transformation/subst.rs: Subst::visit_path"]}
{"id": "C07", "title": "paren makes printing faithful and changes no value", "statement": "paren() succeeds on every supported expression, does not change its value under any interpretation of the operators, is idempotent, and the result printed as tokens and parsed again under Rust's operator precedences is the same tree.", "quantifier": "every supported expression and every interpretation", "why_tests_cant": "quantifies over all trees and all operator nestings", "anchors": ["doctor-syn/src/expression.rs: Expression::paren", "doctor-syn/src/transformation/paren.rs: Paren::visit_expr, parenthesise_op"]}
{"id": "C08", "title": "expand preserves the value", "statement": "When expand succeeds, the value of the result equals the value of the original in every commutative ring, for every assignment of the names and every interpretation of the remaining constructs (method calls, division, other operators) as arbitrary functions.", "quantifier": "every expression, every commutative ring, every assignment", "why_tests_cant": "algebraic identity over all trees; the tests compare four fixed results", "anchors": ["doctor-syn/src/expression.rs: Expression::expand", "doctor-syn/src/transformation/expand.rs: match_sum, Expand", "doctor-syn/src/transformation/tools.rs: negate, make_sum, deparen"]}
{"id": "C09", "title": "expand is total and its failures are exact", "statement": "expand never panics (it never asks for the sum of zero terms), and it returns an error exactly when the visitor reaches an unsupported construct or a dereference / logical-not operator outside of a binary operator.", "quantifier": "every expression", "why_tests_cant": "all trees; the empty-sum panic would depend on an unusual shape", "anchors": ["doctor-syn/src/transformation/expand.rs: Expand::visit_unary, Expand::visit_binary, match_sum", "doctor-syn/src/transformation/tools.rs: make_sum"]}
{"id": "C10", "title": "expand multiplies out products of sums", "statement": "The result of expand on an expression built from + - * unary minus and parentheses is a sum of signed products in which no product has a sum as a factor.", "quantifier": "every polynomial expression", "why_tests_cant": "shape invariant over all nestings of parentheses and minus signs", "anchors": ["doctor-syn/src/transformation/expand.rs: match_sum", "doctor-syn/src/transformation/tools.rs: deparen"]}
{"id": "C11", "title": "collect_terms keeps the expression's value", "statement": "collect_terms returns an expression with the same value as its input for every interpretation, and fails exactly on unsupported constructs.", "quantifier": "every expression and every interpretation", "why_tests_cant": "all trees", "anchors": ["doctor-syn/src/expression.rs: Expression::collect_terms", "doctor-syn/src/transformation/collect.rs: Collect", "doctor-syn/src/visitor.rs: Visitor defaults"]}
{"id": "C12", "title": "Expression arithmetic operators build the operation they are named after", "statement": "For all expressions a and b, the values of a + b, a - b, a * b and a / b are the sum, difference, product and quotient of the values of a and b: exactly so when both are numeric literals, and symbolically otherwise.", "quantifier": "every pair of expressions and every operator", "why_tests_cant": "infinitely many operand pairs, and the symbolic branch is not covered by any test", "anchors": ["doctor-syn/src/expression.rs: make_op!, Add/Sub/Mul/Div for Expression"]}
{"id": "C13", "title": "eval of arithmetic is exact up to stated rounding", "statement": "If evaluating an expression made of numbers, + - * /, unary minus and parentheses at n digits gives a number, that number differs from the exact rational value of the expression by no more than the bound obtained by propagating half of 10^-n per product, and half of 10^-n plus a 10^-99 relative error per quotient; sums, differences and negations add no error, and comparisons give the truth about the compared results.", "quantifier": "every arithmetic expression and every digit count n >= 0", "why_tests_cant": "error propagation through arbitrarily deep trees", "anchors": ["doctor-syn/src/transformation/eval.rs: Eval::visit_binary, Eval::visit_unary, Eval::visit_paren", "doctor-syn/src/bdmath.rs: round"]}
{"id": "C14", "title": "eval yields a literal or an error", "statement": "When eval succeeds the result is a literal; an expression mentioning any name other than PI, or any unsupported method, is an error.", "quantifier": "every expression and digit count", "why_tests_cant": "all trees", "anchors": ["doctor-syn/src/expression.rs: Expression::eval", "doctor-syn/src/transformation/eval.rs: Eval"]}
{"id": "C15", "title": "eval does not panic", "statement": "eval returns Ok or Err on every expression; it never panics.", "quantifier": "every expression and digit count", "why_tests_cant": "panics hide in rare operands (zero divisors, domain limits, huge exponents)", "anchors": ["doctor-syn/src/transformation/eval.rs: Eval", "doctor-syn/src/bdmath.rs: log, asin, qnorm, dnorm, maclaurin"]}
{"id": "C16", "title": "eval ignores redundant parentheses", "statement": "Adding or removing pairs of parentheses around any sub-expressions does not change what eval returns (value or failure).", "quantifier": "every expression and every way of adding parentheses", "why_tests_cant": "all trees and all subsets of positions", "anchors": ["doctor-syn/src/transformation/eval.rs: Eval::visit_paren"]}
{"id": "C17", "title": "PI is correctly rounded to the requested digits", "statement": "The value eval gives to PI at n digits differs from the real number pi by at most 10^-n (half a unit of the last digit for 0 <= n < 100).", "quantifier": "every digit count", "why_tests_cant": "a statement about the real number pi for every n; tests check one tolerance", "anchors": ["doctor-syn/src/bdmath.rs: pi", "doctor-syn/src/transformation/eval.rs: Eval::visit_path"]}
{"id": "C18", "title": "exp is accurate to the requested digits", "statement": "exp(x, n) terminates without panic and differs from e^x by at most 10^-n; the same for evaluating a .exp() call.", "quantifier": "every digit count 1 <= n <= 98 and every x with |x| <= R(n), where R(1) = 1 and R(n) = 2*min(n, 99-n)", "why_tests_cant": "uncountably many exact values; the series, its stopping rule and all roundings must be bounded for every x", "anchors": ["doctor-syn/src/bdmath.rs: exp, maclaurin"]}
{"id": "C19", "title": "sin and cos are accurate to the requested digits", "statement": "sin(x, n) and cos(x, n) terminate without panic and differ from the real sine and cosine of x by at most 10^-n; the same for evaluating .sin() and .cos() calls.", "quantifier": "every digit count 1 <= n <= 98 and every x with |x| <= R(n), where R(1) = 1 and R(n) = 2*min(n, 99-n)", "why_tests_cant": "as for exp; in addition alternating signs and skipped terms", "anchors": ["doctor-syn/src/bdmath.rs: sin, cos, maclaurin"]}
{"id": "C20", "title": "ln is defined exactly on the positive numbers", "statement": "ln(x, n) is None exactly when x <= 0; pow(x, y, n) is None exactly when x <= 0; log(x, b, n) is None exactly when x <= 0 or b <= 0; evaluating .ln() reports CouldNotEvaluate exactly when the receiver is <= 0, and .powi/.powf always when it is.", "quantifier": "every x and digit count", "why_tests_cant": "domain statement over all numbers", "anchors": ["doctor-syn/src/bdmath.rs: ln, log, pow", "doctor-syn/src/transformation/eval.rs: Eval::visit_method_call"]}
{"id": "C21", "title": "Evaluated functions keep their symmetry", "statement": "sin(-x) = -sin(x), cos(-x) = cos(x), asin(-x) = -asin(x), atan(-x) = -atan(x), erf(-x) = -erf(x) hold exactly between computed results, for every x and digit count.", "quantifier": "every x and every digit count", "why_tests_cant": "equality of two computations for all inputs", "anchors": ["doctor-syn/src/bdmath.rs: sin, cos, asin, atan, erf, maclaurin, round"]}
{"id": "C22", "title": "The polynomial passes through its points", "statement": "In exact arithmetic, the polynomial built from k >= 1 points with pairwise distinct abscissae takes the value y_i at x_i for every i, and it is the unique polynomial with k coefficients that does so.", "quantifier": "every number of points, all abscissae and ordinates", "why_tests_cant": "Newton interpolation for all k", "anchors": ["doctor-syn/src/polynomial.rs: Polynomial::from_points, divided_differences, Polynomial::eval"]}
{"id": "C23", "title": "The emitted mul_add chain computes the polynomial", "statement": "For coefficients t_0..t_{k-1}, the emitted expression evaluates at any x to sum t_i x^i for parity Neither, to the sum over even i for Even, over odd i for Odd; it is refused with WrongNumberOfTerms exactly when Odd is combined with an odd k or Even with an even k.", "quantifier": "every coefficient list, every x in every commutative ring", "why_tests_cant": "all lengths and parities", "anchors": ["doctor-syn/src/transformation/approx.rs: mul_add_polynomial, approx"]}
{"id": "C24", "title": "Requested functions come with all their dependencies and nothing else", "statement": "The list produced for a request contains exactly the table entries reachable from a requested name through declared dependencies without passing through an excluded name; names not in the table are ignored.", "quantifier": "every function table, every request list, every exclusion list", "why_tests_cant": "graph reachability over all tables, including cyclic ones", "anchors": ["libmgen/src/functions.rs: get_functions_and_deps"]}
{"id": "C25", "title": "Generated functions come once, in table order", "statement": "The produced list has no duplicates, is in table order, and does not depend on order or repetition in the request; the worklist always terminates.", "quantifier": "every table, request and exclusion list", "why_tests_cant": "all permutations and cyclic graphs", "anchors": ["libmgen/src/functions.rs: get_functions_and_deps"]}
{"id": "C26", "title": "A generated library is self-contained", "statement": "Every global name that the code generated for a requested function refers to is itself generated, for every request against the shipped function table.", "quantifier": "every request against the shipped table", "why_tests_cant": "the set of requests is exponential in the table", "anchors": ["libmgen/src/functions.rs: FUNCTIONS, get_functions_and_deps", "libmgen/src/log_exp.rs, trig.rs, inv_trig.rs, hyperbolic.rs, recip_sqrt.rs, auxfuncs.rs, stats_norm.rs, stats_random.rs"]}
{"id": "C27", "title": "C output keeps the meaning of arithmetic expressions", "statement": "The C text produced for an expression parses, under C's precedences, to the same operator tree the Rust expression has.", "quantifier": "every parsed Rust expression made of operators, literals, names, parentheses, casts and calls", "why_tests_cant": "all operator nestings; precedences of Rust and C differ", "anchors": ["doctor-syn/src/codegen/c.rs: CVisitor::visit_expr_binary, visit_expr_unary, visit_expr_paren, visit_expr_cast, visit_expr_method_call, visit_bin_op, visit_un_op"]}
{"id": "C28", "title": "C generation never underflows its stack", "statement": "to_c never panics: each visited node leaves exactly one string on the stack and no node pops more than it caused to be pushed; the result is the string of the whole item.", "quantifier": "every syntax tree", "why_tests_cant": "stack discipline for all trees", "anchors": ["doctor-syn/src/codegen/c.rs: CVisitor::tos, CVisitor::push, to_c"]}
{"id": "C29", "title": "Formatting Rust output changes no token", "statement": "Lexing the text produced by the formatter gives the token sequence that was formatted.", "quantifier": "every token stream", "why_tests_cant": "all adjacencies of tokens and all nestings", "anchors": ["doctor-syn/src/codegen/rust.rs: format_token_stream, append_token"]}
{"id": "C30", "title": "Formatting Rust output never fails", "statement": "format_token_stream returns for every token stream.", "quantifier": "every token stream, every nesting depth", "why_tests_cant": "depth is unbounded", "anchors": ["doctor-syn/src/codegen/rust.rs: indent, append_token"]}
{"id": "C31", "title": "SIMD conversion is lane-wise equivalent", "statement": "For a scalar function body built from arithmetic, comparisons, literals and if/else, the converted vector expression evaluates in every lane to what the scalar expression evaluates to on that lane's inputs.", "quantifier": "every such expression, every lane count, all lane inputs", "why_tests_cant": "all trees and all vectors", "anchors": ["doctor-syn/src/codegen/portable_simd.rs: visit_expr_mut, convert_binary, convert_lit_float, convert_if, deblock1"]}
{"id": "C32", "title": "SIMD conversion brings the constants it needs", "statement": "Every table constant mentioned in a converted function body is bound by a let before its first use in the converted body.", "quantifier": "every item list and function body", "why_tests_cant": "all dependency patterns between constants", "anchors": ["doctor-syn/src/codegen/portable_simd.rs: to_simd"]}
{"id": "C33", "title": "use_number_type only retypes numeric literals", "statement": "use_number_type changes only integer and float literals, leaves all other structure unchanged, and in each of the four modes the replacement is a literal or from_bits call of the requested width denoting the float nearest the original literal.", "quantifier": "every expression and every (kind, bits) mode", "why_tests_cant": "all trees and all literals", "anchors": ["doctor-syn/src/transformation/use_number_type.rs: UseNumberType::visit_lit", "doctor-syn/src/expression.rs: Expression::use_number_type"]}
{"id": "C34", "title": "Generated uniform random numbers lie in [0,1) and do not repeat", "statement": "In 64-bit mode runif(i, 0, 1) is for every index but the largest a finite float k/2^52 in [0, 1), k being 52 bits of a 64-bit word that distinct indices never share. (At the largest index the increment overflows.)", "quantifier": "every 64-bit index", "why_tests_cant": "2^64 indices", "anchors": ["libmgen/src/stats_random.rs: gen_runif"]}
{"id": "C35", "title": "exp2 scaling constant bits are powers of two", "statement": "For every argument in the normal exponent range the generated exp2 multiplies its polynomial, taken at the exact distance to the nearest integer k, by exactly 2^k, so its relative error is the polynomial's; above the clamp range it returns infinity and below it zero, whatever the polynomial.", "quantifier": "every integer exponent, both widths", "why_tests_cant": "bit-level statement over the whole range", "anchors": ["libmgen/src/log_exp.rs: gen_exp2", "libmgen/src/auxfuncs.rs: gen_exp2_consts"]}
{"id": "C36", "title": "log2 splits every normal number exactly", "statement": "For every positive normal float x the exponent and mantissa extracted by the generated log2 satisfy x = 2^e * m with 1 <= m < 2, the polynomial is taken at exactly m - 3/2, and the result differs from log2 x by the polynomial's error and one rounding only.", "quantifier": "every positive normal float, both widths", "why_tests_cant": "2^63 values", "anchors": ["libmgen/src/log_exp.rs: gen_log2", "libmgen/src/auxfuncs.rs: LOG2 constants"]}
{"id": "C37", "title": "negate_on_odd flips the sign exactly for odd quadrants", "statement": "negate_on_odd(x, y) equals y for even integer part of x and -y for odd, for every float y.", "quantifier": "every x in the integer range and every y bit pattern", "why_tests_cant": "all bit patterns", "anchors": ["libmgen/src/auxfuncs.rs: gen_negate_on_odd"]}
{"id": "C38", "title": "nextafter is the next float", "statement": "nextafter(x) is the least float greater than x.", "quantifier": "every finite float", "why_tests_cant": "2^64 values; zeros, negatives and the largest value are special", "anchors": ["libmgen/src/auxfuncs.rs: gen_nextafter"]}
{"id": "C39", "title": "Generated round is round half away from zero", "statement": "The generated round(x) is the integer nearest x, ties away from zero, for every x in the integer range.", "quantifier": "every float in the 64-bit integer range", "why_tests_cant": "2^64 values; fails only at isolated points", "anchors": ["libmgen/src/auxfuncs.rs: gen_round"]}
{"id": "C40", "title": "A passing generated test bounds the error at every sample", "statement": "If a generated accuracy test passes then at each of its sample points the error of the generated function is within the stated limit.", "quantifier": "every vector of sample results, including NaN and infinities", "why_tests_cant": "the harness is itself only run on passing functions", "anchors": ["libmgen/src/auxfuncs.rs: gen_test_function", "libmgen/src/test.rs: gen_max_abs, gen_histogram"]}
{"id": "C41", "title": "exp is accurate at every argument", "statement": "exp(x, n) differs from e^x by at most 10^-n whatever the size of x.", "quantifier": "every x and every digit count", "why_tests_cant": "a loss of digits that grows with x shows up only at some arguments and digit counts", "anchors": ["doctor-syn/src/bdmath.rs: exp, maclaurin"]}
{"id": "C42", "title": "ln terminates", "statement": "ln(x, n) terminates for every positive x.", "quantifier": "every x > 0 and every digit count n >= 0", "why_tests_cant": "non-termination is not observable by a finite test", "anchors": ["doctor-syn/src/bdmath.rs: ln"]}
{"id": "C43", "title": "Rounding in the interpolation is harmless", "statement": "For each number of points, spacing and bound on the data there is a constant C such that, for every working precision n, the polynomial computed with n digits exists and misses each of its points by at most C * 10^-n.", "quantifier": "every number of points, every set of points with the given spacing and bounds, every precision 0..99", "why_tests_cant": "an error bound uniform in the precision and over all point sets", "anchors": ["doctor-syn/src/polynomial.rs: Polynomial::from_points", "doctor-syn/src/transformation/approx.rs: approx"]}
{"id": "C44", "title": "approx samples at the Chebyshev points", "statement": "approx with n >= 2 terms samples the function at points that are within (xmax - xmin) * 10^-digits of (xmax+xmin)/2 - (xmax-xmin)/2 cos(i pi/(n-1)), i = 0..n-1; the sampled value is the value of the expression with the variable replaced by that point; and the result is the emitted polynomial through these points. With fewer than two terms it panics.", "quantifier": "every expression, interval, n and precision 2..97", "why_tests_cant": "real-valued nodes for every n and precision", "anchors": ["doctor-syn/src/transformation/approx.rs: approx", "doctor-syn/src/bdmath.rs: pi, cos"]}
{"id": "C45", "title": "approx reproduces the function at its samples", "statement": "For each number of terms n and each bound on the interval and on the values there is a constant C such that, at every precision d with 8 (n-1)^2 <= 10^d, the expression returned by approx (parity Neither), evaluated in real arithmetic at a sample point, differs from the sampled value by at most C * 10^-d.", "quantifier": "every expression, interval, n and precision up to 97", "why_tests_cant": "composition of pi, cos, evaluation, interpolation, rounding and printing for all inputs", "anchors": ["doctor-syn/src/transformation/approx.rs: approx, mul_add_polynomial", "doctor-syn/src/polynomial.rs: Polynomial::from_points"]}
{"id": "C46", "title": "Each requested function is generated once, under its own name", "statement": "A library request produces, for every table entry with a generator that is requested or needed, exactly one item, named as the entry; all items come from such entries and no name is defined twice.", "quantifier": "every request and exclusion list against the shipped table, both widths", "why_tests_cant": "the set of requests is exponential in the table", "anchors": ["libmgen/src/main.rs: generate_libm", "libmgen/src/functions.rs: FUNCTIONS", "libmgen/src/stats_norm.rs: gen_pnorm"]}
{"id": "C47", "title": "Generated definitions precede their uses", "statement": "In a generated library every table name that an item mentions is defined by an earlier item, so that the C output compiles.", "quantifier": "every self-contained library that can be requested", "why_tests_cant": "the set of requests is exponential in the table", "anchors": ["libmgen/src/functions.rs: FUNCTIONS, get_functions_and_deps", "libmgen/src/hyperbolic.rs"]}
{"id": "C48", "title": "generated libraries type-check", "statement": "The generated Rust library type-checks: with the declared types of its constants and functions, every constant has its declared type and every body its declared result type. Its functions, applied to values of the parameter types, then return a value of the result type (or overflow where overflow is checked) and never meet an undefined name or an operation on values of the wrong types.", "quantifier": "all requests and exclusions, both widths, all spliced approximations", "why_tests_cant": "one test run compiles one library; requests and approximations are unbounded", "anchors": ["libmgen/src/functions.rs:25-60", "libmgen/src/auxfuncs.rs:49-75", "libmgen/src/stats_random.rs:5-18", "libmgen/src/log_exp.rs", "libmgen/src/main.rs:367-400"]}
{"id": "C49", "title": "runif(i, min, max) stays in the half open range", "statement": "In 64-bit mode min <= runif(i, min, max) < max for all finite min < max.", "quantifier": "every index and every pair of floats", "why_tests_cant": "fails only where rounding reaches max", "anchors": ["libmgen/src/stats_random.rs: gen_runif"]}
{"id": "C50", "title": "Logarithms and powers are accurate", "statement": "ln(x, n) terminates and differs from the real logarithm by at most (1 + 5 |ln x|) 10^-n; log(x, b, n) by the corresponding quotient error when |ln b| >= 1/40 (so for bases 2 and 10); pow(x, y, n) by 10^-n + x^y (exp(|y| (1 + 5 |ln x|) 10^-n) - 1) while y ln x stays in the range of exp (C18). The same for evaluating .ln(), .log(b), .log2(), .log10(), .powi(y), .powf(y) and .exp2().", "quantifier": "every digit count 2 <= n <= 94 and every positive x (every base and exponent as stated)", "why_tests_cant": "an error bound over all numbers; the error grows with the number of range-reduction steps, which is unbounded", "anchors": ["doctor-syn/src/bdmath.rs: ln, log, pow", "doctor-syn/src/transformation/eval.rs: Eval::visit_method_call"]}
{"id": "C51", "title": "tan, atan, asin and acos are accurate", "statement": "With a square root correct to a relative 10^-96: atan(x, n) terminates without panic and is within 5 10^-n of the real arctangent, asin within 6 10^-n and acos within 7 10^-n on [-1, 1]. tan(x, n) is within 3 (1 + |tan x|) 10^-n / |cos x| where |cos x| >= 2 10^-n and x is in the range of sin and cos (C19). The same for evaluating the calls.", "quantifier": "every digit count 2 <= n <= 94; every x for atan, every |x| <= 1 for asin and acos", "why_tests_cant": "an error bound over all numbers through argument halving and an infinite series", "anchors": ["doctor-syn/src/bdmath.rs: tan, asin, acos, atan", "doctor-syn/src/transformation/eval.rs: Eval::visit_method_call"]}
{"id": "C52", "title": "erf, erfc, dnorm, pnorm are accurate and qnorm returns a quantile", "statement": "With a square root correct to a relative 10^-96 and a standardised argument whose square is at most 2 min(n, 99-n): erf(x, n) and erfc(x, n) are within 2 |x| 10^-n of the error integral and its complement; dnorm is within 10^-n / |sd| of the normal density; pnorm is within |y| 10^-n of the normal distribution function at y = (x - mean) / sd. None panics. Every r that qnorm(x) returns satisfies |Phi((r - mean) / sd) - x| <= (1/2 + (|r - mean| + 1/4) / |sd|) 10^-n. For x from 0.46 to 0.54 and |mean / sd| <= 0.04 the Newton loop of qnorm ends within 2 n + 3 turns and qnorm returns such an r, with |Phi((r - mean) / sd) - x| <= (0.7 + 0.22 / |sd|) 10^-n. The same for evaluating the calls.", "quantifier": "every digit count 2 <= n <= 94; every x, mean and nonzero sd in the range", "why_tests_cant": "an error bound against an integral over all arguments and precisions", "anchors": ["doctor-syn/src/bdmath.rs: erf, erfc, dnorm, pnorm, qnorm", "doctor-syn/src/transformation/eval.rs: Eval::visit_method_call"]}
{"id": "C53", "title": "ln is accurate to the requested digits everywhere", "statement": "ln(x, n) differs from the real logarithm by at most 10^-n.", "quantifier": "every x > 0, every digit count 2 <= n <= 94", "why_tests_cant": "fails only for large or small arguments at few digits", "anchors": ["doctor-syn/src/bdmath.rs: ln"]}
{"id": "C54", "title": "A generated test table holds the reference values exactly", "statement": "gen_max_abs produces one row (x, y, err) for each i in 0..n, in order. In every row the reference expression, evaluated at the x printed in the row, has the value v with y = round_ieee(v) and y + err = v exactly; x is round_ieee of a number within 2*10^-digits + 10^-99 |max - min| of min + i (max - min) / n. For a width other than 32 or 64 no table is produced.", "quantifier": "every reference expression, range, row count, digit count and width", "why_tests_cant": "the tables are the tests; nothing checks them", "anchors": ["libmgen/src/test.rs: gen_max_abs", "doctor-syn/src/bdmath.rs: round_ieee"]}
{"id": "C55", "title": "round_ieee yields floats, and passing a test bounds the error against the reference", "statement": "round_ieee(v, bits) is the value of a float of that width next to v, and rounding it again changes nothing; the pair (y, err) of a row, read as floats, gives the reference to more than the precision of one float; a function that passes the generated test is within the limit of the reference value at every row.", "quantifier": "every value, table, function and limit", "why_tests_cant": "the tests compare against the table as read, not against the reference it was made from", "anchors": ["doctor-syn/src/bdmath.rs: round_ieee", "libmgen/src/test.rs: gen_max_abs", "libmgen/src/auxfuncs.rs: test_function"]}
{"id": "C56", "title": "abs, signum, round, recip and sqrt evaluate to what they are named after", "statement": "Evaluating a.abs(), a.signum(), a.round() on an expression with value x gives exactly |x|, the sign of x as -1, 0 or 1, and the nearest integer with halves away from zero. recip and sqrt give the crate's inverse and square root of x; with a square root correct to a relative 10^-96 the result of sqrt is within that error. A square root that does not exist is an error.", "quantifier": "every expression, value, digit count", "why_tests_cant": "signs, ties and digit counts over all decimals", "anchors": ["doctor-syn/src/transformation/eval.rs: Eval::visit_method_call"]}
{"id": "C57", "title": "qnorm is defined exactly on the open unit interval", "statement": "qnorm(x) reports that it has no value exactly when x <= 0 or x >= 1, and returns a value only when 0 < x < 1.", "quantifier": "every x, mean, sd and digit count", "why_tests_cant": "the end points are single values", "anchors": ["doctor-syn/src/bdmath.rs: qnorm"]}
{"id": "C58", "title": "approx is within the Chebyshev bound on the whole interval", "statement": "Let f have an n-th derivative bounded by F, and let the evaluator compute the given expression within eps of f at every decimal of the (slightly widened) interval. Then approx with n >= 2 terms succeeds, for the parity Neither and for Even or Odd on a symmetric interval when f has that parity, and the value in real arithmetic of the expression it returns is, at every point of the interval of width w, within F/n! (w/2)^n / 2^(n-2) + L eps + C (1+F) 10^-d of f, where L and C depend only on n and the bounds of interval and values and d is the precision, 8 (n-1)^2 <= 10^d. In particular for exp, sin and cos.", "quantifier": "every smooth function and expression, every interval, number of terms, parity, precision 2..97, and every point of the interval", "why_tests_cant": "a bound at every real point of the interval, for all smooth functions and precisions", "anchors": ["doctor-syn/src/transformation/approx.rs: approx, mul_add_polynomial", "doctor-syn/src/polynomial.rs: Polynomial::from_points", "doctor-syn/src/bdmath.rs: pi, cos"]}
{"id": "C59", "title": "explicit error of approx; the polynomials of exp2", "statement": "On an interval inside [-1/2, 1/2] the error of approx has the explicit bound F_n/n! (w/2)^n/2^(n-2), plus a term for the rounding of the nodes, plus a sum over the divided differences whose rounding errors are followed through the recurrence E(i+1) >= 2.01 E(i)/g(i+1) + ..., g(d) being a lower bound of the distance of nodes d apart. For the calls made by libmgen's gen_exp2, 2.0.powf(x) on [-1/2, 1/2], this gives: with 8 terms and 20 digits (f32) approx succeeds and the polynomial is within 1.16e-10 of 2^x, with 12 terms and 40 digits (f64) within 8.8e-18, at every point of the interval, in real arithmetic.", "quantifier": "every smooth function and expression, number of terms, precision; for exp2 every real point of the interval", "why_tests_cant": "a bound at every real point of the interval; tests sample points in float arithmetic", "anchors": ["doctor-syn/src/transformation/approx.rs: approx, mul_add_polynomial", "doctor-syn/src/polynomial.rs: divided_differences, Polynomial::from_points", "libmgen/src/log_exp.rs: gen_exp2"]}
{"id": "C60", "title": "emitted polynomials in float arithmetic", "statement": "For coefficients within the range of the float type, the mul_add expression that mul_add_polynomial writes becomes, after use_number_type, an expression that in IEEE arithmetic with fused multiply-add yields for every finite float |t| <= 1 a finite float within ((1+k+u)(1+2^-p)^(n-1) - 1) S(|t|) + n 4 (1 + S(1)) 2^(3-emax) of the exact value of the wanted (even, odd, all) part of the polynomial, S being the polynomial of the absolute values of the coefficients, p the precision, u the error of converting a number to a float and k the relative error of powi(10, n).", "quantifier": "every list of up to 1001 coefficients, every parity, f32 and f64, every finite float t in [-1,1]", "why_tests_cant": "bounds the rounding error at every float, for every polynomial", "anchors": ["doctor-syn/src/transformation/approx.rs: mul_add_polynomial", "doctor-syn/src/transformation/use_number_type.rs: use_number_type"]}
{"id": "C61", "title": "accuracy of the generated exp2", "statement": "The exp2 that libmgen generates (polynomial by approx on [-1/2,1/2], retyped, with the scaling code around it) returns in IEEE arithmetic a finite y: for f32 and -125.5 < x <= 127, |y - 2^x| <= (2.67*2^-24 + 0.6k) 2^x (2.33*2^-24 unless |x| = 1/2 - 2^-25), and if x <= n, |y - 2^x| <= 2^n 2^-23, the limit of the generated self tests; for f64 and -1021.5 < x <= 1023, |y - 2^x| <= (8.21*2^-53 + 2.03k) 2^x; k the relative error of powi(10, n).", "quantifier": "every finite float x in the range", "why_tests_cant": "2^31 and 2^63 arguments; the generated tests sample a handful and compare against another float routine", "anchors": ["libmgen/src/log_exp.rs: gen_exp2", "doctor-syn/src/transformation/approx.rs: approx", "doctor-syn/src/transformation/use_number_type.rs: use_number_type", "libmgen/src/functions.rs: exp2"]}
{"id": "C62", "title": "the generated constants", "statement": "For every named mathematical constant the generator defines (PI, LOG2_E, SQRT_RECIP_2PI, RECIP_LOG2_E and the rest of auxfuncs.rs:188-268), its expression evaluates for enough steps to a decimal literal of 20 digits (32 bits) or 40 digits (64 bits) that prints and parses as itself, and the constant in the generated library is a finite float within (1 + 10^-5) 2^-p of the true value, relatively, p the precision.", "quantifier": "every constant, f32 and f64", "why_tests_cant": "the generated tests do not test the constants; the true values are real numbers", "anchors": ["libmgen/src/auxfuncs.rs:188-268", "doctor-syn/src/transformation/eval.rs"]}
{"id": "C63", "title": "accuracy and range of the generated exp", "statement": "The generated exp returns a finite y with |y - e^x| <= ((2.68 + 2.005|x|) 2^-24 + 0.61k) e^x for f32 and -86.98 <= x <= 88.02, and |y - e^x| <= ((8.23 + 2.005|x|) 2^-53 + 2.04k) e^x for f64 and -708.03 <= x <= 709.07. From 88.06 (709.2) on, infinity included, it returns infinity although e^x is representable up to 88.72 (709.78); at and below -88.75 (-709.9) it returns 0. k is the relative error of powi(10, n).", "quantifier": "every float x in the ranges, any library generated with exp in it", "why_tests_cant": "2^32 and 2^64 arguments; no generated test exceeds small arguments", "anchors": ["libmgen/src/log_exp.rs: gen_exp", "libmgen/src/log_exp.rs: gen_exp2", "libmgen/src/auxfuncs.rs:229-235"]}
{"id": "C64", "title": "accuracy of the generated sinh and cosh", "statement": "The generated sinh and cosh return for |x| <= 86.28 (f64: 707.34) a finite value within ((4.4 + 2.005|x|) 2^-24 + 0.61k) cosh x (f64: ((9.95 + 2.005|x|) 2^-53 + 2.04k) cosh x) of sinh x and cosh x. The bound cannot be made relative to sinh x: for every |x| <= 2^-26 (f64: 2^-55) sinh returns exactly +0.", "quantifier": "every finite float x in the range", "why_tests_cant": "2^32 and 2^64 arguments; the tests use absolute limits", "anchors": ["libmgen/src/hyperbolic.rs"]}
{"id": "C65", "title": "accuracy and range of the generated tanh", "statement": "The generated tanh returns for -43.49 <= x <= 44.01 (f64: -354.01 <= x <= 354.53) a finite value within 5.91*2^-24 + 0.31k (f64: 8.75*2^-53 + 1.05k) of tanh x; at and below -44.38 (-354.95), -infinity included, it returns -1; from 44.03 (354.6) on, +infinity included, it returns NaN, not 1.", "quantifier": "every float x in the ranges", "why_tests_cant": "the generated tests do not reach the arguments where the result is NaN", "anchors": ["libmgen/src/hyperbolic.rs"]}
{"id": "C66", "title": "the text of a generated Rust library is the library", "statement": "For every request, width, and choice of tests and plots, formatting the generated token stream returns a text (no panic), and that text, read by a Rust lexer, gives back exactly the generated tokens; every arithmetic expression (numbers, names, negation, + - * /, calls, parentheses) may be spliced in as an approximation. The tokens are those of the syntax trees that the other properties speak about.", "quantifier": "all requests and exclusions, both widths, all spliced approximations of the stated shape, all test tables", "why_tests_cant": "token boundaries depend on neighbours (a literal before `as`, `<` before `-`, `/` before `*` are read differently, C29), and requests and approximations are unbounded", "anchors": ["libmgen/src/main.rs:378-401", "libmgen/src/*.rs (quote! bodies)", "doctor_syn/src/codegen/rust.rs"]}
{"id": "C67", "title": "generated tests call functions that are there", "statement": "Every function that a generated test calls is defined in the same library, and no two generated tests or items share a name.", "quantifier": "all requests, both widths", "why_tests_cant": "each request gives another library; nobody compiles them all", "anchors": ["libmgen/src/functions.rs:52-826", "libmgen/src/test.rs", "libmgen/src/main.rs:393-400"]}
{"id": "C68", "title": "the output of a run is the library and nothing else", "statement": "A run of libmgen with -f writes the requested library, and only that, to the --output file or to standard output: read as Rust it is exactly the generated tokens (for C, the translation with prefix ds32_/ds64_ and suffix f for 32 bits); with an unknown language it writes no library and says so on standard error.", "quantifier": "all option values (any -f and -x text, both widths, with and without tests, plots, output file)", "why_tests_cant": "unbounded option texts; libmgen has no test of its main", "anchors": ["libmgen/src/main.rs:348-440", "libmgen/src/functions.rs:25-49", "libmgen/src/config.rs"]}
{"id": "C69", "title": "requested names that do not exist", "statement": "A requested name that is not in the table does not change the generated library, and standard error is empty exactly if every requested name is in the table or excluded (no dependency is ever missing).", "quantifier": "all requests and exclusions", "why_tests_cant": "unbounded option texts", "anchors": ["libmgen/src/functions.rs:25-49", "libmgen/src/main.rs:367-378"]}
{"id": "C70", "title": "the C output declares the names it uses", "statement": "Every name used in the C text that libmgen writes for a library is declared before in that text or in <math.h>, so that a C compiler accepts it.", "quantifier": "all requests and exclusions, both widths, all spliced approximations", "why_tests_cant": "the set of requests is exponential in the table; no test compiles the C output", "anchors": ["doctor-syn/src/codegen/c.rs: visit_local, visit_expr_method_call, visit_expr_call, visit_item_const, visit_type_path", "libmgen/src/auxfuncs.rs: gen_round", "libmgen/src/main.rs:402-414"]}
{"id": "C71", "title": "what the generators compute is fit for the templates", "statement": "Everything libmgen computes and puts into its templates (the polynomials of approx after use_number_type, the evaluated constants, the rows and limits of the tests) survives printing as Rust text, has the type its place requires and, with decimal numbers, brings no name but its variable into the C text. So a file written by a run reads back as the library, and which libraries type-check and which C libraries declare their names depends on the request alone, never on the coefficients.", "quantifier": "all coefficient lists, parities, number types that work, both widths, all requests, all printers of floats that print plain decimals reading back", "why_tests_cant": "coefficients are unbounded lists of arbitrary decimals; tests see one set per function", "anchors": ["doctor-syn/src/transformation/use_number_type.rs:14-49", "doctor-syn/src/expression.rs: approx, mul_add_polynomial, eval", "libmgen/src/trig.rs:114-130", "libmgen/src/inv_trig.rs:9-22", "libmgen/src/auxfuncs.rs:188-268", "libmgen/src/test.rs:31-68"]}
{"id": "C72", "title": "generated functions are exactly symmetric", "statement": "In every generated library, for every float x (zeros, infinities and NaN included) and both widths: sin, tan, asin, atan and sinh of -x give the negative of their value at x (when the value is a zero, a zero of either sign; NaN for NaN), cos and cosh of -x give the same float as at x, cbrt and recip of -x give the exact negative, zeros included. atan2(-y, x) is exactly -atan2(y, x) for y neither zero nor NaN; for y = 0 and y = -0 it is the same float, so unlike C's atan2 it does not tell the two sides of the cut apart. dnorm(x, m, s) and dnorm(m, x, s) are the same float.", "quantifier": "all floats, all polynomial coefficients of the parity the generator asks for, both widths, all requests", "why_tests_cant": "there are 2^32 or 2^64 arguments and unboundedly many coefficient lists; the generated tests compare values with a tolerance at 16 points", "anchors": ["libmgen/src/trig.rs:9-130", "libmgen/src/inv_trig.rs:9-169", "libmgen/src/hyperbolic.rs:8-30", "libmgen/src/recip_sqrt.rs", "libmgen/src/stats_norm.rs:8-18", "libmgen/src/auxfuncs.rs"]}
{"id": "C73", "title": "generated hypot", "statement": "In every generated library that has hypot and MIN_POSITIVE, for finite x and y of either width: if the larger magnitude exceeds MIN_POSITIVE and the length is at most (1 - 8*2^-p)*2^emax, hypot(x, y) is finite and within 5*2^-p of sqrt(x^2 + y^2), relatively, however small or large the squares are; then neither the signs nor the order of the arguments change the float returned. If neither magnitude exceeds MIN_POSITIVE it returns the argument of larger magnitude (y when equal), sign and all, so the result can be negative. One infinite argument with a finite one gives +infinity; two infinite arguments give NaN (C and Rust give +infinity). A NaN argument gives NaN, except that hypot(NaN, y) is y when |y| does not exceed MIN_POSITIVE.", "quantifier": "all floats, both widths, all requests", "why_tests_cant": "there are 2^64 or 2^128 pairs; the tests for hypot in the source are commented out", "anchors": ["libmgen/src/recip_sqrt.rs:78-89", "libmgen/src/functions.rs:587-593"]}
{"id": "C74", "title": "generated sqrt", "statement": "In every generated library that has sqrt and EXP2_ONE, sqrt(x) of a finite positive float x is within a thousandth of the square root of x, relatively. (False: for every finite x of either width with 0 <= x <= 1/256, zero included, it returns a finite negative float.) A NaN gives NaN; so does +infinity, for which C and Rust give +infinity.", "quantifier": "all floats from 0 to 1/256, NaN and infinity, both widths, all requests", "why_tests_cant": "a test at 1, 2 or 4 shows a good square root; the sign is wrong on a whole range of small arguments, which only a statement about all of them shows", "anchors": ["libmgen/src/recip_sqrt.rs:7-27", "libmgen/src/auxfuncs.rs:347-377", "libmgen/src/functions.rs:270-276", "libmgen/src/functions.rs:566-572"]}
