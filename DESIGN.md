# Design of the formal model of doctor-syn / libmgen

Rocq (Coq 8.16.1). Sources in `rocq/theories`, logical prefix `Verif`.
The code in /repo is read as text; nothing is built or run.

`properties.jsonl` states the claims, `MANIFEST.json` (written by
`tools/manifest.py`) maps each claim to its theorems, `ASSUMPTIONS.md` (written by
`tools/assumptions.py`) lists what `Print Assumptions` prints for each theorem,
`seeded/LOG.jsonl` records the deliberately wrong models and the theorems that
rejected them.

## Conventions

* A Rust function becomes a total Gallina function. Its outcome is `Ok`, `Err` or
  `Panic` (`Res.v`); a panic is a value that theorems talk about, never a missing case.
* A loop without an evident bound takes `fuel`; running out yields `OutOfFuel`,
  which theorems exclude by proving success for large enough fuel, or prove
  to happen for every fuel (non-termination, C42).
* Model files contain definitions with the lines of /repo they cite. Proofs are in
  `*Facts.v` and similar files. `P_*.v` files contain the theorems with short proofs,
  `Print Assumptions` after each, and an `Example` beside each theorem with a
  concrete case that meets its hypotheses.
* Specifications do not use the model's helpers: rational and real values, an
  arbitrary interpretation of operators, commutative rings, reachability, a
  longest-match lexer and a grammar for C and for Rust, lane-wise meaning of vectors.
* A claim that is false in the code has a theorem ending in `_refuted` (a witness);
  what remains true has a theorem ending in `_partial` with the side condition, which
  is exact (an "if and only if" or a list of counterexamples) where we could get it.

## Layout

### Models

| file | models | code |
|---|---|---|
| `Res.v` | outcomes | error.rs:4-23 |
| `Dec.v` | BigDecimal values and `round` | bdmath.rs, crate bigdecimal 0.2 |
| `DecStr.v` | decimal text | expression.rs:81-91, 106-124 |
| `Syntax.v` | expression trees, meaning in an interpretation | visitor.rs:121-133 |
| `Visitor.v` | the `Visitor` trait | visitor.rs |
| `Trans.v` | VariableList, Subst, Collect, Paren, Expand, tools | variablelist.rs, transformation/{subst,collect,paren,expand,tools}.rs |
| `Parse.v` | printing to tokens, precedence parser | expression.rs:180-185, 299-305; syn |
| `ExprOps.v` | `+ - * /` on Expression | expression.rs:199-219 |
| `BdMath.v` | exp, sin, cos, ln, pow, ... | bdmath.rs |
| `Eval.v` | the evaluator | transformation/eval.rs |
| `Poly.v` | interpolation, mul_add_polynomial, approx | polynomial.rs, transformation/approx.rs |
| `UseNumberType.v` | literals to f32/f64, decimal/hex | transformation/use_number_type.rs |
| `Functions.v` | libmgen's table and the dependency closure | functions.rs |
| `Item.v`, `GenCode.v` | the code libmgen generates (`tools/gencode.py` transcribes the `quote!` bodies) | libmgen/src/*.rs |
| `ConstSource.v` | the expressions of the named constants | auxfuncs.rs:188-268 |
| `GenSem.v` | running generated code on IEEE floats (Flocq) | meaning of Rust |
| `CGen.v` | C output | codegen/c.rs |
| `GenTokens.v` | the code and the tests libmgen generates as token streams (`tools/gentokens.py` transcribes the `quote!` bodies, doc comments included) | libmgen/src/*.rs, main.rs:378-400 |
| `ItemTokens.v` | tokens of the trees (syn's `ToTokens`, external) | syn |
| `Main.v` | libmgen's main: options, request, messages, languages, output | libmgen/src/main.rs, config.rs, functions.rs:31,44 |
| `RustFmt.v` | Rust formatter | codegen/rust.rs |
| `Simd.v` | conversion to SIMD methods | codegen/portable_simd.rs |
| `Harness.v` | the generated accuracy tests | auxfuncs.rs:444-470, test.rs:88-130 |
| `TestTable.v` | the tables of the accuracy tests; the conversions of `round_ieee` | test.rs:13-86, config.rs:23-29, bdmath.rs:336-346 |

### Specifications

`ExpandSpec.v` (rings, sums of products), `EvalSpec.v` (exact values, propagated error),
`CLex.v` (C tokens and grammar), `CNames.v` (names that a C text uses and declares), `RustLex.v` (Rust tokens), `SimdSpec.v` (scalar and lane-wise
meaning), `GenType.v` (static types of generated items; stricter than rustc in the points its header lists), `Spliced.v` (what the generators put into templates); smaller ones are at the head of the file that uses them, marked "Specification".

### Proofs

| claims | theorems | proofs |
|---|---|---|
| C01 C02 | `P_Numbers.v` | DecFacts, DecStrFacts, TransParse |
| C03-C12 | `P_Symbolic.v` | TransFacts, ExpandFacts, ParseFacts, TransParse, SymbolicProofs |
| C13-C16 | `P_Eval.v` | EvalFacts, EvalSafe, EvalFunctions |
| C17-C21 C41 C42 | `P_Functions.v` | SymFacts, RFacts, Series, MacFacts, Accuracy, DecFast, PiFacts, LnFacts, FunctionCases |
| C42 C50 C51 C52 C53 | `P_Accuracy.v` | GeoFacts (Maclaurin sums of series with geometric decay), GeoInst, GeoSeries (the real series), LnAcc, TrigAcc, AccEval, ErfSeries (the error integral, normal law), ErfAcc, QnormEnds (the Newton iteration of qnorm ends near one half), MacPanic, PanicFree (no panic within limits, C15) |
| C22 C23 C43-C45 | `P_Poly.v` | PolyFacts, MulAddFacts, PolyErr, ApproxFacts |
| C58 | `P_Approx.v` | Interp, ApproxErr |
| C59 | `P_Explicit.v` | DivDiff, PolyExplicit, ApproxExplicit, Exp2Approx, Exp2Numbers |
| C60 C61 | `P_Exp2.v` | HornerFloat, HornerParity, Exp2Edge, Exp2Float |
| C62 | `P_Constants.v` | Constants |
| C63 C64 C65 | `P_ExpFloat.v` | ExpFloat, ExpGen |
| C56 C57 | `P_Methods.v` | EvalMethods |
| C24-C26 C46 C47 | `P_Library.v` | FunctionsFacts, GenCodeFacts |
| C34-C39 C49 | `P_Generated.v` | FloatBits, GenRun, GenFloat, GenFloat2, GenFloat3, GenFloat4 |
| C27 C28 | `P_C.v` | CGenFacts, CText, CLibrary |
| C70 | `P_CNames.v` | CNamesText, CNamesFacts |
| C71 | `P_Spliced.v` | SplicedFacts, SplicedOk, SplicedExample |
| C72 | `P_Symmetry.v` | SignFacts, GenSym, GenSym2, SymLib |
| C73 | `P_Hypot.v` | Hypot |
| C74 | `P_Sqrt.v` | Sqrt |
| C66 C67 | `P_RustLib.v` | RustLibrary, RustTrees, RustSub, RustTests |
| C68 C69 | `P_Main.v` | MainFacts |
| C48 | `P_Types.v` | GenTypeFacts, GenTypeLib (requests), GenTypeSound (types and runs), GenTypeSub |
| C29 C30 | `P_RustFmt.v` | RustFmtFacts, RustFmtInvisible |
| C31 C32 | `P_Simd.v` | SimdFacts, SimdNames, SimdFile, SimdLibrary |
| C33 | `P_NumberType.v` | DecimalLit, NumberTypeFacts, ExactFloats, NumberTypeCases |
| C40 | `P_Harness.v` | HarnessFacts |
| C54 C55 | `P_TestTable.v` | TestTableFacts, TestTableFloats |

## Not modelled

* structopt's parsing of the command line (`Main.v` starts from the parsed options), the drawing of
  plots, and all commented-out code.
* The macros and extension traits of `name.rs` and `exprext.rs`, which only wrap the functions above.
* Spans, attributes, comments, generic arguments, qualified paths, and syn nodes outside of the
  visitor's list, except that visitors reject them and that C output has a catch-all node for them.
* `BigDecimal` scales and digit counts are unbounded integers (i64 in the code); `usize` is `nat`.
* Memory and time. Recursion depth is unbounded in the model.

## Trusted base

1. Coq's kernel (and `coqchk`). No axioms of our own, no plugins, no switched-off checks.
2. Axioms of Coq's standard library, listed per theorem in `ASSUMPTIONS.md`. Theorems that mention
   real numbers, directly or through Flocq, use
   `ClassicalDedekindReals.sig_not_dec`, `ClassicalDedekindReals.sig_forall_dec`,
   `FunctionalExtensionality.functional_extensionality_dep`, and `Classical_Prop.classic`. All
   others are closed under the global context.
3. The transcription of /repo into the model files, definition by definition, as cited there.
4. Dependencies that are not in /repo, transcribed from knowledge: bigdecimal 0.2 and num-bigint 0.3
   (`Dec.v`, `DecStr.v`), syn 1.0's printing and precedence parser (`Parse.v`), quote and
   proc-macro2's token streams (`RustFmt.v`), `quote!` and syn's `ToTokens` (`GenTokens.v`, `ItemTokens.v`).
5. Dependencies and platform behaviour that are parameters, so that theorems hold whatever they do,
   up to the hypotheses written in the theorem:
   * `BdMath.oracles`: `o_sqrt` (C51 and C52 assume a relative error of at most 10^-96), `o_inverse`
     (BigDecimal::sqrt, inverse), `o_f32`, `o_f64`
     (float conversions in `round_ieee`; C55 takes bigdecimal's: `to_f64` as in `UseNumberType.v`,
     `from_f64` through 16 digits of text);
   * `GenSem`: `nan_of` (which NaN an operation returns), `std` (the platform's libm), `checked`
     (overflow checks on or off);
   * `UseNumberType.floats`: `powi10` (f64::powi of 10), `show` (Display of floats), `nan_for`.
6. The specifications themselves: C11's tokens and expression grammar, Rust's tokens, the meaning of
   Rust's integer and float operations (Flocq's IEEE 754), the lane-wise meaning of portable SIMD.
   None of them depends on the model.
