-Q theories Verif
theories/Lang.v
theories/Common.v
theories/Indirect20.v
theories/Indirect14.v
theories/Polymorphic20.v
theories/Polymorphic14.v
theories/Client.v
theories/Spec.v
theories/Rep.v
theories/Effect.v
theories/RunLemmas.v
theories/RunOps.v
theories/RunInd.v
theories/RunPoly.v
theories/Refine.v
theories/Headers.v
theories/SpecRun.v
theories/Hist.v
theories/LogSpec.v
theories/LogProof.v
theories/OpSpec.v
theories/OpFacts.v
theories/Taint.v
theories/Draft.v
theories/OpProps.v
theories/OpProps2.v
theories/OpProps3.v
theories/OpProps4.v
theories/Poly14.v
theories/Ex.v
theories/Complete.v
theories/ClientProps.v
theories/HeaderProps.v
theories/PropsSafety.v
theories/PropsOps.v
theories/PropsHeaders.v
theories/Wrong.v
theories/Compare.v
theories/CompareProps.v
theories/PropsCompare.v
theories/Balance.v
theories/Tracking.v
theories/TrackingProps.v
theories/PropsAlloc.v
theories/Wrapper.v
theories/WrapperProps.v
theories/PropsWrapper.v
theories/Conc.v
theories/ConcStatic.v
theories/ConcExec.v
theories/ConcProps.v
theories/PropsConc.v
theories/Tree.v
theories/TreeProps.v
theories/TreeAssign.v
theories/TreeAssignC.v
theories/TreeMove.v
theories/TreeMoveAssign.v
theories/TreeSub.v
theories/TreeClient.v
theories/TreePlace.v
theories/TreeForest.v
theories/TreeOps.v
theories/TreeStep.v
theories/TreeScope.v
theories/TreeCalm.v
theories/TreeSubUB.v
theories/TreeComposite.v
theories/TreeObs.v
theories/TreeEx.v
theories/TreeSubMem.v
theories/TreeSubLast.v
theories/TreeAsgObs.v
theories/TreeSubDeep.v
theories/TreeUp.v
theories/TreeUpIn.v
theories/TreeUpMove.v
theories/PropsTree.v
theories/PropsTreeSub.v
theories/PropsTreeUp.v
theories/PropsTreeClient.v
theories/TreeEq.v
theories/TreeEqProps.v
theories/TreeEqLaws.v
theories/PropsTreeEq.v
theories/Overload.v
theories/OverloadSpec.v
theories/OverloadProps.v
theories/OverloadInd.v
theories/OverloadPoly.v
theories/PropsOverload.v
theories/Contract.v
theories/ContractProps.v
theories/ContractOps.v
theories/ContractMove.v
theories/ContractNode.v
theories/ContractClient.v
theories/ContractClientProps.v
theories/ContractUser.v
theories/ContractUserProps.v
theories/ContractTidy.v
theories/ContractTidyProps.v
theories/ContractTidyNode.v
theories/PropsContract.v
theories/ConcPar.v
theories/ContractConcNode.v
theories/ContractConc.v
theories/ContractConcProps.v
theories/ContractConcJoin.v
theories/ContractConcUser.v
theories/ContractConcScoped.v
theories/PropsContractConc.v
theories/ContractValue.v
theories/ContractValueProps.v
theories/ContractValueUser.v
theories/ContractValueClient.v
theories/ContractValueClientProps.v
theories/PropsContractValue.v
theories/CompareSelect.v
theories/CompareSelectProps.v
theories/PropsCompareSelect.v
theories/Deduction.v
theories/PropsDeduction.v
theories/Vector.v
theories/VectorProps.v
theories/PropsVector.v
theories/Arena.v
theories/ArenaProps.v
theories/ArenaHome.v
theories/PropsArena.v
theories/ContractCompare.v
theories/ContractCompareProps.v
theories/PropsContractCompare.v
theories/ContractCompareConc.v
theories/ContractCompareConcProps.v
theories/PropsContractCompareConc.v
theories/Algorithm.v
theories/AlgorithmProps.v
theories/PropsAlgorithm.v
