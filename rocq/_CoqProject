-Q theories Verif
theories/Res.v
theories/Dec.v
theories/DecFacts.v
theories/DecStr.v
theories/DecStrFacts.v
theories/Syntax.v
theories/Visitor.v
theories/Trans.v
theories/TransFacts.v
theories/ExpandSpec.v
theories/ExpandFacts.v
theories/Parse.v
theories/ParseFacts.v
theories/ExprOps.v
theories/TransParse.v
theories/BdMath.v
theories/Eval.v
theories/EvalSpec.v
theories/EvalFacts.v
theories/SymFacts.v
theories/RFacts.v
theories/Series.v
theories/MacFacts.v
theories/Accuracy.v
theories/DecFast.v
theories/PiFacts.v
theories/LnFacts.v
theories/EvalSafe.v
theories/EvalFunctions.v
theories/FunctionCases.v
theories/Poly.v
theories/PolyFacts.v
theories/SymbolicProofs.v
theories/P_Numbers.v
theories/P_Symbolic.v
theories/P_Eval.v
theories/P_Functions.v
theories/GeoFacts.v
theories/GeoInst.v
theories/GeoSeries.v
theories/LnAcc.v
theories/TrigAcc.v
theories/AccEval.v
theories/ErfSeries.v
theories/ErfAcc.v
theories/QnormEnds.v
theories/MacPanic.v
theories/PanicFree.v
theories/P_Accuracy.v
theories/EvalMethods.v
theories/P_Methods.v
theories/MulAddFacts.v
theories/PolyErr.v
theories/ApproxFacts.v
theories/Interp.v
theories/ApproxErr.v
theories/P_Poly.v
theories/P_Approx.v
theories/DivDiff.v
theories/PolyExplicit.v
theories/ApproxExplicit.v
theories/Exp2Approx.v
theories/Exp2Numbers.v
theories/P_Explicit.v
theories/HornerFloat.v
theories/HornerParity.v
theories/Exp2Edge.v
theories/Exp2Float.v
theories/P_Exp2.v
theories/Functions.v
theories/FunctionsFacts.v
theories/Item.v
theories/GenCode.v
theories/GenCodeFacts.v
theories/P_Library.v
theories/GenSem.v
theories/FloatBits.v
theories/GenRun.v
theories/GenFloat.v
theories/GenFloat2.v
theories/GenFloat3.v
theories/GenFloat4.v
theories/P_Generated.v
theories/CGen.v
theories/CGenFacts.v
theories/CLex.v
theories/CText.v
theories/CLibrary.v
theories/P_C.v
theories/RustFmt.v
theories/RustLex.v
theories/RustFmtFacts.v
theories/RustFmtInvisible.v
theories/P_RustFmt.v
theories/Simd.v
theories/SimdSpec.v
theories/SimdFacts.v
theories/SimdNames.v
theories/SimdFile.v
theories/SimdLibrary.v
theories/P_Simd.v
theories/UseNumberType.v
theories/DecimalLit.v
theories/NumberTypeFacts.v
theories/ExactFloats.v
theories/NumberTypeCases.v
theories/P_NumberType.v
theories/Harness.v
theories/HarnessFacts.v
theories/P_Harness.v
theories/TestTable.v
theories/TestTableFacts.v
theories/TestTableFloats.v
theories/P_TestTable.v
theories/ConstSource.v
theories/Constants.v
theories/ExpFloat.v
theories/ExpGen.v
theories/P_Constants.v
theories/P_ExpFloat.v
theories/GenTokens.v
theories/ItemTokens.v
theories/RustLibrary.v
theories/RustTrees.v
theories/RustSub.v
theories/RustTests.v
theories/P_RustLib.v
theories/Main.v
theories/MainFacts.v
theories/P_Main.v
theories/GenType.v
theories/GenTypeFacts.v
theories/GenTypeLib.v
theories/GenTypeSound.v
theories/GenTypeSub.v
theories/P_Types.v
theories/CNames.v
theories/CNamesText.v
theories/CNamesFacts.v
theories/P_CNames.v
theories/Spliced.v
theories/SplicedFacts.v
theories/SplicedOk.v
theories/SplicedExample.v
theories/P_Spliced.v
theories/SignFacts.v
theories/GenSym.v
theories/GenSym2.v
theories/SymLib.v
theories/P_Symmetry.v
theories/Hypot.v
theories/P_Hypot.v
theories/Sqrt.v
theories/P_Sqrt.v
