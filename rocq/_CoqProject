-Q theories Verif
theories/UnicodeTables.v
theories/PyStr.v
theories/Regex.v
theories/Float64.v
theories/Constants.v
theories/Normalize.v
theories/Monad.v
theories/Split.v
theories/Eval.v
theories/Parser.v
theories/TypeEval.v
theories/Tora.v
theories/Prompts.v
theories/LLM.v
theories/MonadTheory.v
theories/PyStrTheory.v
theories/Spec.v
theories/EvalTheory.v
theories/EvalTheory2.v
theories/Demo.v
theories/NumTheory.v
theories/RegexTheory.v
theories/Imaginary.v
theories/SplitTheory.v
theories/Props_Split.v
theories/Props_Eval.v
theories/TypeTheory.v
theories/LLMTheory.v
theories/ToraTheory.v
theories/Props_Types.v
theories/Props_LLM.v
theories/Props_Tora.v
theories/FloatTheory.v
theories/NormTheory.v
theories/RegexFirst.v
theories/NormNum.v
theories/NormPct.v
theories/NormMixed.v
theories/NormSci.v
theories/NormTime.v
theories/ClockEquiv.v
theories/NormProps.v
theories/Props_Norm.v
theories/NormShape.v
theories/NormClean.v
theories/NormUnits.v
theories/NormMerge.v
theories/Props_Norm2.v
theories/ParserTheory.v
theories/ParserNum.v
theories/DemoSympy.v
theories/Props_Parser.v
theories/Interval.v
theories/IntervalTheory.v
theories/DemoInterval.v
theories/IntervalEval.v
theories/Props_Interval.v
theories/L2S.v
theories/L2STheory.v
theories/L2SState.v
theories/L2SValue.v
theories/L2SReject.v
theories/L2SFindings.v
theories/DemoL2S.v
theories/Props_L2S.v
theories/Weight.v
theories/Terminate.v
theories/NormAlg.v
theories/Deep.v
theories/Props_Term.v
theories/Lexer.v
theories/LexTheory.v
theories/Vocabulary.v
theories/VocabTheory.v
theories/Grammar.v
theories/GrammarTheory.v
theories/Arith.v
theories/ArithLex.v
theories/ArithPrep.v
theories/ArithParse.v
theories/GrammarFindings.v
theories/Props_Grammar.v
theories/L2SCalc.v
theories/DemoCalc.v
theories/CalcFindings.v
theories/Props_Calc.v
theories/ParserMore.v
theories/Props_Parser2.v
theories/Automaton.v
theories/FloatText.v
theories/LatexForm.v
theories/Answer.v
theories/Pipeline.v
theories/FloatError.v
theories/DecNorm.v
theories/AnswerNum.v
theories/Pair.v
theories/DemoPipe.v
theories/Written.v
theories/WrittenParse.v
theories/WrittenMore.v
theories/WrittenValue.v
theories/Props_Answer.v
theories/Identity.v
theories/DemoIdent.v
theories/Props_Ident.v
theories/CaseFold.v
theories/Props_Case.v
theories/SeqAuto.v
theories/SeqForm.v
theories/Sequence.v
theories/SeqNum.v
theories/Props_Seq.v
theories/MatAuto.v
theories/MatForm.v
theories/MatNum.v
theories/Props_Mat.v
theories/Props_Read.v
theories/GrammarNames.v
theories/Named.v
theories/NamedMany.v
theories/Props_Names.v
theories/FloatRound.v
theories/FloatRepr.v
theories/Readings.v
theories/PctReads.v
theories/Props_Readings.v
theories/Symbols.v
theories/Props_Symbols.v
theories/Permute.v
theories/Props_Perm.v
theories/Reprint.v
theories/Props_Reprint.v
theories/Evidence.v
theories/IntervalSym.v
theories/Props_Evidence.v
theories/Justified.v
theories/Props_Justified.v
theories/Complex.v
theories/Props_Complex.v
theories/NormText.v
theories/Props_Text.v
theories/WrittenAt.v
theories/Props_At.v
theories/NormDollar.v
theories/Props_Dollar.v
theories/NormLeft.v
theories/Props_Left.v
theories/NormIn.v
theories/Props_In.v
theories/NormCirc.v
theories/Props_Circ.v
theories/NormMillion.v
theories/Props_Million.v
theories/NormOr.v
theories/Props_Or.v
theories/NormThin.v
theories/Props_Thin.v
theories/AllowEval.v
theories/Props_Allow.v
theories/NormOrText.v
theories/Props_OrText.v
theories/NormList.v
theories/Props_List.v
theories/NormBrace.v
theories/Props_Brace.v
theories/NormEqs.v
theories/Props_Eqs.v
