-Q theories Verif
theories/Outcome.v
theories/IntModel.v
theories/IntSpec.v
theories/IntBase.v
theories/IntAddSub.v
theories/IntMulDiv.v
theories/IntIO.v
theories/IntFuncs.v
theories/IntPolicy.v
theories/Show.v
theories/ShowFacts.v
theories/StreamModel.v
theories/IntProgModel.v
theories/IntProgSpec.v
theories/IntProg.v
theories/IntCanon.v
theories/IntStream.v
theories/ExTools.v
theories/IntMore.v
theories/Props_Int.v
theories/FloatModel.v
theories/FloatFacts.v
theories/FracModel.v
theories/FracProgModel.v
theories/FracSpec.v
theories/FracFacts.v
theories/FracGcd.v
theories/FracIO.v
theories/FracMore.v
theories/Props_Frac.v
theories/ListModel.v
theories/ListSpec.v
theories/ListFacts.v
theories/ListMore.v
theories/ListProgModel.v
theories/ListProgSpec.v
theories/ListProg.v
theories/Props_List.v
theories/DequeModel.v
theories/DequeSpec.v
theories/DequeFacts.v
theories/Props_Deque.v
theories/SetModel.v
theories/SetSpec.v
theories/SetFacts.v
theories/SetProg.v
theories/SetMore.v
theories/Props_Set.v
theories/DictModel.v
theories/DictSpec.v
theories/DictFacts.v
theories/DictProg.v
theories/Props_Dict.v
theories/FloatMore.v
theories/StrModel.v
theories/StrSpec.v
theories/StrFacts.v
theories/StrMore.v
theories/StrNum.v
theories/StrDec.v
theories/StrFloat.v
theories/StrError.v
theories/StrSum.v
theories/Props_Str.v
theories/TupleModel.v
theories/TupleSpec.v
theories/TupleFacts.v
theories/Props_Tuple.v
theories/ComplexModel.v
theories/ComplexSpec.v
theories/ComplexFloat.v
theories/ComplexFacts.v
theories/ComplexCases.v
theories/ComplexIO.v
theories/ComplexExact.v
theories/ComplexTexts.v
theories/Props_Complex.v
theories/PrintSpec.v
theories/PrintFacts.v
theories/QuoteText.v
theories/OStreamModel.v
theories/OStreamSpec.v
theories/OStreamFacts.v
theories/Props_Print.v
theories/ThrowFacts.v
theories/LiteralFacts.v
theories/Props_Cross.v
theories/ExprModel.v
theories/ExprSpec.v
theories/IntExpr.v
theories/FracExpr.v
theories/ListAlgebra.v
theories/StrAlgebra.v
theories/Props_Algebra.v
theories/RoundSpec.v
theories/IntRounds.v
theories/Props_Rounds.v
theories/NestModel.v
theories/NestSpec.v
theories/NestFacts.v
theories/Props_Nest.v
theories/FracDouble.v
theories/FracEqual.v
theories/RenameSpec.v
theories/RenameFacts.v
theories/ElemSpec.v
theories/ElemFacts.v
theories/Props_Elem.v
theories/StrProgModel.v
theories/StrProgSpec.v
theories/StrProg.v
theories/Props_Text.v
theories/ListAlias.v
theories/UndefSpec.v
theories/UndefFacts.v
theories/Props_Undef.v
theories/FStreamModel.v
theories/FStreamSpec.v
theories/FStreamFacts.v
theories/FStreamText.v
theories/FStreamCases.v
theories/Props_Input.v
theories/IntHashSpec.v
theories/IntHash.v
theories/Props_Hash.v
theories/HashMore.v
theories/ErrorSpec.v
theories/ErrorFacts.v
theories/Props_Error.v
theories/IntWideModel.v
theories/IntWide.v
theories/Props_Wide.v
theories/DictRefModel.v
theories/DictRefSpec.v
theories/DictRef.v
theories/Props_Ref.v
theories/DictIterModel.v
theories/DictIterSpec.v
theories/DictIter.v
theories/Props_Iter.v
theories/ListRefModel.v
theories/ListRefSpec.v
theories/ListRef.v
theories/Props_LRef.v
theories/DequeRefModel.v
theories/DequeRefSpec.v
theories/DequeRef.v
theories/Props_DRef.v
theories/ListCallModel.v
theories/ListCallSpec.v
theories/ListCall.v
theories/Props_Call.v
theories/ClientModel.v
theories/ClientSpec.v
theories/Client.v
theories/Props_Client.v
theories/ExRun.v
theories/ListIterModel.v
theories/ListIterSpec.v
theories/ListIter.v
theories/Props_LIter.v
theories/DequeIterModel.v
theories/DequeIterSpec.v
theories/DequeIter.v
theories/Props_QIter.v
theories/SetIterModel.v
theories/SetIterSpec.v
theories/SetIter.v
theories/LoopTest.v
theories/SetLoop.v
theories/Props_SIter.v
theories/StrPtrModel.v
theories/StrPtrSpec.v
theories/StrPtr.v
theories/StrPtrLoop.v
theories/Props_Ptr.v
theories/TreeModel.v
theories/SetTreeModel.v
theories/DictTreeModel.v
theories/TreeSpec.v
theories/TreeFacts.v
theories/SetTree.v
theories/DictTree.v
theories/TreeMore.v
theories/TreeCost.v
theories/Props_Tree.v
theories/TestTools.v
theories/Tests_Int.v
theories/Tests_Frac.v
theories/Tests_List.v
theories/Tests_Deque.v
theories/Tests_Set.v
theories/Tests_Dict.v
theories/Tests_Str.v
theories/Tests_Tuple.v
theories/Tests_Complex.v
theories/Tests_Demo.v
theories/IntMemModel.v
theories/IntMemSpec.v
theories/IntMemFacts.v
theories/IntMem.v
theories/IntMemSem.v
theories/IntMemProg.v
theories/IntMemMore.v
theories/Props_Mem.v
theories/IntMemCost.v
theories/Props_MemCost.v
theories/FailModel.v
theories/FailFacts.v
theories/ListFailModel.v
theories/ListFailSpec.v
theories/ListFail.v
theories/ListFailCost.v
theories/Props_Fail.v
theories/FailRunModel.v
theories/FailRunSpec.v
theories/FailRun.v
theories/FailCost.v
theories/DequeFailModel.v
theories/DequeFailSpec.v
theories/DequeFail.v
theories/DequeFailCost.v
theories/Props_Fail2.v
theories/SetFailModel.v
theories/SetFailSpec.v
theories/SetFail.v
theories/SetFailCost.v
theories/Props_Fail3.v
theories/DictFailModel.v
theories/DictFailSpec.v
theories/DictFail.v
theories/DictFailCost.v
theories/Props_Fail4.v
theories/StrFailModel.v
theories/StrFailSpec.v
theories/StrFail.v
theories/StrFailCost.v
theories/Props_Fail5.v
theories/ExnStreamModel.v
theories/ExnStreamSpec.v
theories/ExnStreamFacts.v
theories/ExnStream.v
theories/ExnStreamMore.v
theories/ExnStreamText.v
theories/ExnStreamLoop.v
theories/Props_Mask.v
theories/SinkModel.v
theories/SinkSpec.v
theories/SinkFacts.v
theories/Sink.v
theories/Props_Sink.v
theories/RandomModel.v
theories/RandomSpec.v
theories/Random.v
theories/Props_Random.v
theories/PySpec.v
theories/Py.v
theories/PyDict.v
theories/Props_Py.v
theories/PyPrintSpec.v
theories/PyPrint.v
theories/Props_PyPrint.v
theories/IntPowSpec.v
theories/IntPow.v
theories/Props_Pow.v
theories/FracLoop.v
theories/StrNanSpec.v
theories/StrNan.v
theories/Props_Nan.v
theories/Exact.v
theories/NestChain.v
theories/StrFull.v
theories/ExactMore.v
theories/Props_Exact.v
theories/PyTextSpec.v
theories/PyText.v
theories/Props_PyText.v
theories/SearchModel.v
theories/SearchSpec.v
theories/Search.v
theories/Props_Search.v
theories/PyFloatSpec.v
theories/PyFloat.v
theories/Props_PyFloat.v
theories/PyComplexSpec.v
theories/PyComplex.v
theories/Props_PyComplex.v
theories/WordsModel.v
theories/Words.v
theories/WordSum.v
theories/Props_Words.v
theories/BisectModel.v
theories/Bisect.v
theories/Props_Bisect.v
