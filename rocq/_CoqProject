-Q theories Verif

theories/Base.v
theories/Float.v
theories/Value.v
theories/Special.v
theories/Ast.v
theories/Match.v
theories/Config.v
theories/Assign.v
theories/Bound.v
theories/Tree.v
theories/RbTree.v
theories/PredMap.v
theories/HashMap.v
theories/Source.v
theories/Api.v
theories/Lexer.v
theories/Parser.v
theories/EventText.v
theories/TextApi.v
theories/EventObj.v
theories/Spec.v
theories/LexSpec.v
theories/FloatSpec.v
theories/Grammar.v
theories/EventGrammar.v
theories/BaseProofs.v
theories/LexProofs.v
theories/TextProofs.v
theories/ParseProofs.v
theories/EventProofs.v
theories/ListProofs.v
theories/SpecialProofs.v
theories/EvalProofs.v
theories/CmpProofs.v
theories/RbProofs.v
theories/InternProofs.v
theories/ExtProofs.v
theories/ResProofs.v
theories/PassProofs.v
theories/PredProofs.v
theories/FloatProofs.v
theories/ShortProofs.v
theories/TreeSpec.v
theories/ScoreProofs.v
theories/RoundProofs.v
theories/FloatOrd.v
theories/GvbProofs.v
theories/TreeProofs.v
theories/WideProofs.v
theories/Hist.v
theories/TextHist.v
theories/HistProofs.v
theories/SearchProofs.v
theories/AnswerProofs.v
theories/SplitProofs.v
theories/ExprProofs.v
theories/RewriteProofs.v
theories/RangeProofs.v
theories/Check.v
theories/Cases.v
theories/PropsBasic.v
theories/PropsSearch.v
theories/PropsExpr.v
theories/PropsFloatRange.v
theories/RefuteFloat.v
theories/Refute.v
theories/Bounded.v
theories/BoundedProofs.v
theories/PropsBounds.v
theories/HashProofs.v
theories/PropsTables.v
theories/Calls.v
theories/CallProofs.v
theories/PropsCalls.v
theories/TotalProofs.v
theories/PassTotal.v
theories/PropsTotal.v
theories/TextLink.v
theories/PropsText.v
theories/RefuteText.v
theories/PropsWords.v
theories/ObjSpec.v
theories/ObjProofs.v
theories/PropsObjects.v
theories/RefuteObjects.v
theories/CountSpec.v
theories/CountProofs.v
theories/PropsCounts.v
theories/LateProofs.v
theories/PropsLate.v
theories/RefuteLate.v
theories/Accept.v
theories/AcceptProofs.v
theories/RoomProofs.v
theories/PropsAccept.v
theories/RefuteAccept.v
theories/Helper.v
theories/HelpSpec.v
theories/HelpProofs.v
theories/PropsHelp.v
theories/RefuteHelp.v
theories/Printer.v
theories/PrintSpec.v
theories/PrintProofs.v
theories/PrintStored.v
theories/PropsPrint.v
theories/RefutePrint.v
theories/EqExpr.v
theories/PropsEq.v
theories/RefuteEq.v
theories/Flex.v
theories/FlexTables.v
theories/FlexProofs.v
theories/Bison.v
theories/BisonTables.v
theories/BisonSpec.v
theories/BisonData.v
theories/BisonProofs.v
theories/BisonExpr.v
theories/BisonEvent.v
theories/PropsGen.v
theories/RefuteGen.v
theories/PermTac.v
theories/Linked.v
theories/LinkedSpec.v
theories/LinkedHeap.v
theories/LinkedNode.v
theories/LinkedGrow.v
theories/LinkedInsert.v
theories/LinkedUse.v
theories/LinkedApi.v
theories/LinkedRun.v
theories/PropsLinked.v
theories/RefuteLinked.v
theories/Machine.v
theories/MachineSpec.v
theories/PropsMachine.v
theories/LinkedRb.v
theories/LinkedRbSpec.v
theories/LinkedRbProofs.v
theories/LinkedPred.v
theories/PropsRbLinked.v
theories/Ledger.v
theories/HeapExpr.v
theories/HeapSpec.v
theories/LedgerProofs.v
theories/HeapProofs.v
theories/HeapParse.v
theories/HeapRules.v
theories/HeapText.v
theories/PropsHeap.v
theories/RefuteHeap.v
theories/HeapEvent.v
theories/HeapEventSpec.v
theories/HeapEventProofs.v
theories/HeapEventRules.v
theories/HeapEventText.v
theories/HeapFill.v
theories/HeapSearch.v
theories/PropsHeapEvent.v
theories/RefuteHeapEvent.v
theories/HeapConf.v
theories/HeapConfSpec.v
theories/HeapTable.v
theories/HeapConfProofs.v
theories/PropsHeapConf.v
theories/RefuteHeapConf.v
theories/LinkedFrame.v
theories/HeapWorld.v
theories/HeapWorldSpec.v
theories/HeapPasses.v
theories/HeapSubs.v
theories/HeapWorldProofs.v
theories/PropsHeapWorld.v
theories/RefuteHeapWorld.v
theories/ProgramSpec.v
theories/ProgramProofs.v
theories/PropsProgram.v
theories/ObjProgram.v
theories/HeapObj.v
theories/HeapObjSpec.v
theories/HeapObjProofs.v
theories/HeapObjRun.v
theories/PropsHeapObj.v
theories/RefuteHeapObj.v
theories/ObjProgramSpec.v
theories/ObjProgramProofs.v
theories/PropsObjProgram.v
theories/LinkedErase.v
theories/EraseProofs.v
theories/PropsErase.v
theories/RefuteErase.v
theories/FlexBuffer.v
theories/FlexBufferProofs.v
theories/HeapBuffer.v
theories/PropsBuffer.v
theories/BisonStack.v
theories/BisonStackProofs.v
theories/HeapStack.v
theories/PropsStack.v
theories/BisonLive.v
theories/BisonLiveProofs.v
theories/PropsLive.v
theories/HeapPrint.v
theories/HeapPrintSpec.v
theories/HeapPrintProofs.v
theories/HeapPrintOnly.v
theories/HeapPrintEvent.v
theories/PropsPrintMem.v
theories/RefutePrintMem.v
theories/DotFile.v
theories/DotSpec.v
theories/DotNames.v
theories/DotProofs.v
theories/DotWalk.v
theories/DotLinks.v
theories/DotFine.v
theories/PropsDot.v
theories/RefuteDot.v
theories/ShowDomain.v
theories/ShowSpec.v
theories/ShapeSpec.v
theories/ShapeProofs.v
theories/SizeSpec.v
theories/SizeProofs.v
theories/PropsShape.v
theories/PropsSize.v
theories/WalkSpec.v
theories/WalkProofs.v
theories/PropsWalk.v
theories/RefuteShape.v
theories/PropsShow.v
theories/RefuteShow.v
