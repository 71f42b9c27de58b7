-Q theories Verif
theories/PyBase.v
theories/Model.v
theories/Spec.v
theories/History.v
theories/BaseFacts.v
theories/SpecFacts.v
theories/SliceFacts.v
theories/IndexFacts.v
theories/Shape.v
theories/CoreFacts.v
theories/VtFacts.v
theories/KeyFacts.v
theories/KeyLook.v
theories/ListSim.v
theories/ListFacts.v
theories/HistFacts.v
theories/CheckFacts.v
theories/FaultFacts.v
theories/FaultSpec.v
theories/FaultHist.v
theories/Reach.v
theories/ListProps.v
theories/FaultProps.v
theories/Concrete.v
theories/PropList.v
theories/PropFault.v
theories/KeyProps.v
theories/KeyFaultProps.v
theories/PropKey.v
theories/ListClass.v
theories/ModelSet.v
theories/ClassSpec.v
theories/ClassFacts.v
theories/SetSpec.v
theories/HashFacts.v
theories/SetFacts.v
theories/SetProps.v
theories/ConcreteSet.v
theories/PropSet.v
theories/ModelDict.v
theories/DictSpec.v
theories/MapFacts.v
theories/DictFacts.v
theories/DictProps.v
theories/ConcreteDict.v
theories/PropDict.v
theories/Calls.v
theories/CallSpec.v
theories/CallFacts.v
theories/CallProps.v
theories/PropCalls.v
theories/WildSpec.v
theories/WildClass.v
theories/WildSet.v
theories/WildDict.v
theories/WildProps.v
theories/ConcreteWild.v
theories/PropWild.v
theories/CheckSpec.v
theories/CheckConv.v
theories/ConcreteCheck.v
theories/CheckProps.v
theories/PropCheck.v
theories/LogSpec.v
theories/LogProps.v
theories/ConcreteLog.v
theories/PropLog.v
theories/ModelView.v
theories/ViewSpec.v
theories/ViewFacts.v
theories/ViewProps.v
theories/ConcreteView.v
theories/PropView.v
theories/BalanceSpec.v
theories/BalanceFacts.v
theories/BalanceProps.v
theories/PropBalance.v
theories/ModelGen.v
theories/GenSpec.v
theories/GenProps.v
theories/ConcreteGen.v
theories/PropGen.v
theories/SameSpec.v
theories/SameProps.v
theories/PropSame.v
theories/ModelHeap.v
theories/HeapSpec.v
theories/HeapFacts.v
theories/HeapSim.v
theories/HeapSim2.v
theories/HeapProps.v
theories/PropHeap.v
theories/ModelIter.v
theories/IterSpec.v
theories/IterFacts.v
theories/IterProps.v
theories/IterRefute.v
theories/PropIter.v
theories/HeldSpec.v
theories/HeldFacts.v
theories/HeldProps.v
theories/PropHeld.v
theories/WeakSpec.v
theories/WeakProps.v
theories/WeakRefute.v
theories/PropWeak.v
theories/AmortSpec.v
theories/AmortFacts.v
theories/AmortProps.v
theories/PropAmort.v
theories/ModelObj.v
theories/ObjSpec.v
theories/ObjFacts.v
theories/ObjProps.v
theories/ObjSets.v
theories/PropObj.v
theories/ModelDObj.v
theories/DObjSpec.v
theories/DObjFacts.v
theories/DObjProps.v
theories/DObjDicts.v
theories/PropDObj.v
theories/ModelReinit.v
theories/ReinitProps.v
theories/PropReinit.v
theories/ModelKHeap.v
theories/KHeapFacts.v
theories/KHeapSim.v
theories/KHeapSim2.v
theories/ModelMixed.v
theories/MixedSpec.v
theories/MixedFacts.v
theories/MixedProps.v
theories/PropMixed.v
theories/ModelCompare.v
theories/CompareSpec.v
theories/ConcreteCompare.v
theories/CompareProps.v
theories/PropCompare.v
theories/ModelViewIter.v
theories/ViewIterSpec.v
theories/HeapClass.v
theories/ViewIterFacts.v
theories/ViewIterProps.v
theories/PropViewIter.v
theories/Doctest.v
theories/RepoTests.v
theories/ModelKeep.v
theories/KeepSpec.v
theories/KeepFacts.v
theories/KeepSetFacts.v
theories/KeepProps.v
theories/PropKeep.v
theories/ModelClass.v
theories/ClassesSpec.v
theories/ClassesFacts.v
theories/ClassesProps.v
theories/PropClasses.v
theories/ModelRepr.v
theories/ReprSpec.v
theories/ReprProps.v
theories/PropRepr.v
theories/ModelSetOps.v
theories/SetOpsSpec.v
theories/SetOpsProps.v
theories/PropSetOps.v
theories/KeyUseSpec.v
theories/KeyUseProps.v
theories/PropKeyUse.v
theories/ModelDictOps.v
theories/DictOpsSpec.v
theories/DictOpsProps.v
theories/PropDictOps.v
theories/ModelIloc.v
theories/IlocSpec.v
theories/IlocProps.v
theories/PropIloc.v
theories/IdentSpec.v
theories/IdentProps.v
theories/PropIdent.v
theories/OrderSpec.v
theories/OrderFacts.v
theories/OrderProps.v
theories/PropOrder.v
theories/ModelReads.v
theories/ReadsSpec.v
theories/ReadsProps.v
theories/PropReads.v
theories/ModelAgain.v
theories/RecoverSpec.v
theories/RecoverProps.v
theories/PropRecover.v
theories/SetCalls.v
theories/SetCallProps.v
theories/PropSetCalls.v
theories/ModelHash.v
theories/RaiseSpec.v
theories/RaiseProps.v
theories/PropRaise.v
theories/ModelEffect.v
theories/EffectSpec.v
theories/EffectFacts.v
theories/EffectHist.v
theories/EffectPure.v
theories/EffectProps.v
theories/PropEffect.v
theories/ModelEffectSet.v
theories/EffectSetSpec.v
theories/EffectSet.v
theories/EffectSetProps.v
theories/PropEffectSet.v
theories/ModelReentry.v
theories/ReentrySpec.v
theories/ReentryFacts.v
theories/ReentryProps.v
theories/PropReentry.v
theories/ModelKReads.v
theories/KReadsSpec.v
theories/KReadsFacts.v
theories/KReadsProps.v
theories/KReadsSame.v
theories/PropKReads.v
theories/LawsSpec.v
theories/LawsProps.v
theories/PropLaws.v
theories/SetLawsSpec.v
theories/SetLawsProps.v
theories/PropSetLaws.v
theories/DictLawsSpec.v
theories/DictLawsProps.v
theories/PropDictLaws.v
theories/EffectSameSpec.v
theories/EffectSame.v
theories/EffectSameProps.v
theories/PropEffectSame.v
theories/KeyCallSpec.v
theories/KeyCallFacts.v
theories/KeyCallProps.v
theories/PropKeyCalls.v
theories/SourceSyntax.v
theories/SourceText.v
theories/SourceSem.v
theories/SourceRep.v
theories/SourceFacts.v
theories/SourceLoops.v
theories/SourceBuild.v
theories/SourceTree.v
theories/SourceMoves.v
theories/SourceMethods.v
theories/SourceChange.v
theories/SourceAdd.v
theories/SourcePos.v
theories/SourcePop.v
theories/SourceFill.v
theories/SourceBulk.v
theories/SourceGet.v
theories/SourceSlice.v
theories/SourceIter.v
theories/SourceRange.v
theories/SourceIrange.v
theories/SourceDel.v
theories/SourceRun.v
theories/SourceHist.v
theories/SourceProps.v
theories/PropSource.v
