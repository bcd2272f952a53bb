-Q theories Verif
theories/Base.v
theories/Types.v
theories/TypeBuild.v
theories/TypeSpec.v
theories/Compat.v
theories/CompatSpec.v
theories/TyInd.v
theories/CompatFacts.v
theories/CompatFacts2.v
theories/Layout.v
theories/EnumFacts.v
theories/PropTypes.v
theories/Mem.v
theories/MemSpec.v
theories/MemEqns.v
theories/MemFacts.v
theories/ConstructFacts.v
theories/CopyFacts.v
theories/DestroyFacts.v
theories/TightFacts.v
theories/CompareFacts.v
theories/MoveFacts.v
theories/Hash.v
theories/HashSpec.v
theories/MapOps.v
theories/MapSpec.v
theories/Ops.v
theories/OpsSpec.v
theories/UnionFacts.v
theories/SeqFacts.v
theories/CollectFacts.v
theories/MapValue.v
theories/PathFacts.v
theories/Realize.v
theories/HashFacts.v
theories/HashInj.v
theories/MapFacts.v
theories/Prog.v
theories/ProgSpec.v
theories/ProgFacts.v
theories/ValueSpec.v
theories/ValueFacts.v
theories/DataSpec.v
theories/DataFacts.v
theories/PropData.v
theories/HistSpec.v
theories/HistFacts.v
theories/PropSeq.v
theories/MapHistSpec.v
theories/MapOrder.v
theories/MapHistFacts.v
theories/PropMap.v
theories/Module.v
theories/ModuleSpec.v
theories/ModuleFacts.v
theories/PropModule.v
theories/IntOps.v
theories/IntSpec.v
theories/IntFacts.v
theories/PropInt.v
theories/ConvSpec.v
theories/ConvFacts.v
theories/ConvTotal.v
theories/PropConvert.v
theories/NumSpec.v
theories/NumFacts.v
theories/Visit.v
theories/VisitSpec.v
theories/VisitFacts.v
theories/PropVisit.v
theories/IdlLit.v
theories/IdlExpr.v
theories/IdlSpec.v
theories/IdlLitFacts.v
theories/IdlFacts.v
theories/PropIdl.v
theories/Log.v
theories/PropLog.v
theories/Instance.v
theories/PropInstance.v
theories/Shell.v
theories/PropShell.v
theories/Codecvt.v
theories/CodecvtFacts.v
theories/PropCodecvt.v
theories/DepTree.v
theories/DepSpec.v
theories/DepFacts.v
theories/DepGen.v
theories/DepSolve.v
theories/DepOrder.v
theories/DepTerm.v
theories/DepCheck.v
theories/PropDep.v
theories/Peg0.v
theories/Grammar.v
theories/Peg.v
theories/PegFacts.v
theories/IdlParse.v
theories/IdlParseFacts.v
theories/PropParse.v
theories/PegRules.v
theories/GenIdl.v
theories/NumText.v
theories/GenSpec.v
theories/TypeText.v
theories/GapSpec.v
theories/GapText.v
theories/StructText.v
theories/StructRead.v
theories/GrowFacts.v
theories/DocFacts.v
theories/GenStruct.v
theories/GenText.v
theories/PropGen.v
theories/AliasText.v
theories/EnumText.v
theories/ModuleText.v
theories/ExprSpec.v
theories/ExprText.v
theories/ConstText.v
theories/PropExpr.v
theories/UnionText.v
theories/UnionSpec.v
theories/LitText.v
theories/UnionBuilt.v
theories/UnionRead.v
theories/GenUnion.v
theories/PropUnion.v
theories/DocSpec.v
theories/DocText.v
theories/PropDoc.v
theories/BlankSpec.v
theories/BlankFacts.v
theories/BlankMatch.v
theories/PropBlank.v
theories/NoteSpec.v
theories/NoteText.v
theories/NoteDecl.v
theories/FreeSpec.v
theories/TokenFacts.v
theories/FreeText.v
theories/FreeStruct.v
theories/FreeDecl.v
theories/CaseSpec.v
theories/CaseText.v
theories/CaseBuilt.v
theories/CaseDecl.v
theories/EnumSpec.v
theories/FreeEnum.v
theories/DeclSpec.v
theories/DeclText.v
theories/PropDecl.v
theories/GenModule.v
theories/RoundSpec.v
theories/RoundGen.v
theories/RoundText.v
theories/RoundCalls.v
theories/RoundFacts.v
theories/RoundStep.v
theories/RoundTree.v
theories/PropRound.v
theories/RoundCheck.v
theories/Print.v
theories/PrintSpec.v
theories/PrintFacts.v
theories/PrintInj.v
theories/PropPrint.v
theories/ModList.v
theories/ModListSpec.v
theories/ModListFacts.v
theories/PropList.v
theories/DataHash.v
theories/PropHash.v
theories/PropForward.v
theories/PropScope.v
theories/PropCast.v
theories/TypeVisit.v
theories/TypeVisitSpec.v
theories/PropTypeVisit.v
theories/VectorOps.v
theories/PropVector.v
theories/RefuseText.v
theories/RefuseUnion.v
theories/PropRedefine.v
theories/KeepRun.v
theories/KeepSpec.v
theories/KeepFacts.v
theories/KeepSteady.v
theories/KeepInv.v
theories/KeepNull.v
theories/PropKeep.v
theories/SplitFacts.v
theories/PropSplit.v
theories/TreeSpec.v
theories/TreeFacts.v
theories/PropTree.v
theories/TypeHeap.v
theories/TypeHeapSpec.v
theories/TypeHeapFacts.v
theories/TypeHeapRel.v
theories/PropTypeHeap.v
theories/Session.v
theories/SessionSpec.v
theories/SessionFacts.v
theories/SessionThreads.v
theories/PropSession.v
theories/PropNote.v
theories/PropCase.v
theories/BitSpec.v
theories/BitText.v
theories/BitDecl.v
theories/PropBit.v
theories/TextSpec.v
theories/TextConst.v
theories/PropConst.v
theories/PropNamed.v
theories/PropComment.v
