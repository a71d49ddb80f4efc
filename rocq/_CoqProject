-Q theories Verif
theories/Outcome.v
theories/MonomModel.v
theories/MonomSpec.v
theories/MonomProofs.v
theories/MonomCProofs.v
theories/JanetModel.v
theories/JanetSpec.v
theories/JanetProofs.v
theories/JanetInsProofs.v
theories/JanetFindProofs.v
theories/CompletionModel.v
theories/CompletionSpec.v
theories/CompletionProofs.v
theories/MJanetProofs.v
theories/MCompletionProofs.v
theories/JanetTopProofs.v
theories/Prop_Monom.v
theories/Prop_Janet.v
theories/PolyModel.v
theories/PolySpec.v
theories/PolyProofs.v
theories/PolyRedProofs.v
theories/PolyNfProofs.v
theories/PolyMemModel.v
theories/PolyMemSpec.v
theories/PolyMemProofs.v
theories/PolyTopProofs.v
theories/Prop_Poly.v
theories/RandPermModel.v
theories/RandPermProofs.v
theories/UtilModel.v
theories/UtilSpec.v
theories/UtilProofs.v
theories/Prop_Util.v
theories/AllocModel.v
theories/AllocSpec.v
theories/AllocProofs.v
theories/Prop_Alloc.v
theories/ListModel.v
theories/ListSpec.v
theories/ListProofs.v
theories/ListMisuse.v
theories/PolyHeapModel.v
theories/PolyHeapSpec.v
theories/PolyHeapProofs.v
theories/Prop_List.v
theories/IdealProofs.v
theories/JanetPolyModel.v
theories/JanetPolySpec.v
theories/JanetPolyProofs.v
theories/JanetPolyTop.v
theories/InvolutiveProofs.v
theories/InvolutiveTop.v
theories/InvolutiveExamples.v
theories/JanetPolyExamples.v
theories/JanetPolyHPModel.v
theories/JanetPolyHPProofs.v
theories/JanetPolyHPExamples.v
theories/Prop_JanetPolyHP.v
theories/Prop_JanetPoly.v
theories/RBModel.v
theories/RBSpec.v
theories/RBHeapProofs.v
theories/RBFixProofs.v
theories/RBReadProofs.v
theories/RBEditProofs.v
theories/RBProofs.v
theories/RBTop.v
theories/RBExamples.v
theories/Prop_RBTree.v
theories/BoolModel.v
theories/BoolSpec.v
theories/BoolProofs.v
theories/BoolPolyProofs.v
theories/BoolNfProofs.v
theories/BoolTop.v
theories/Prop_Bool.v
theories/GBModel.v
theories/GBSpec.v
theories/GBProofs.v
theories/Prop_GB.v
theories/HilbertModel.v
theories/HilbertSpec.v
theories/HilbertProofs.v
theories/HilbertTop.v
theories/Prop_Hilbert.v
theories/CythonModel.v
theories/CythonProofs.v
theories/Prop_Cython.v
theories/TQModel.v
theories/TQProofs.v
theories/MultipleProofs.v
theories/TQExamples.v
theories/HomogSpec.v
theories/HomogExamples.v
theories/Prop_TQ.v
theories/PyMonomModel.v
theories/PyMonomSpec.v
theories/PyMonomProofs.v
theories/PyPolyModel.v
theories/PyPolySpec.v
theories/PyPolyProofs.v
theories/PyRedProofs.v
theories/PyTop.v
theories/PyExamples.v
theories/Prop_PyMonom.v
theories/Prop_PyPoly.v
theories/PyHeapModel.v
theories/PyHeapSpec.v
theories/PyHeapProofs.v
theories/PyHeapExamples.v
theories/Prop_PyHeap.v
theories/PyJanetModel.v
theories/PyJanetSpec.v
theories/PyJanetProofs.v
theories/PyJanetTop.v
theories/PyJanetProlong.v
theories/PyJanetExamples.v
theories/Prop_PyJanet.v
theories/PyHPModel.v
theories/PyHPSpec.v
theories/PyHPProofs.v
theories/PyHPExamples.v
theories/Prop_PyHP.v
theories/PyForestModel.v
theories/PyForestSpec.v
theories/PyForestProofs.v
theories/PyForestExamples.v
theories/Prop_PyForest.v
theories/PyQueueModel.v
theories/PyGinvModel.v
theories/PyQueueProofs.v
theories/PyDivProofs.v
theories/PySpan.v
theories/PyGinvBase.v
theories/PyGinvSweep.v
theories/PyGinvRound.v
theories/PyGinvCover.v
theories/PyInvolutive.v
theories/PyGinvMin.v
theories/PyGinvLoop.v
theories/PyGinvLow.v
theories/PyGinvSpec.v
theories/PyGinvTop.v
theories/PyGinvExamples.v
theories/Prop_PyGinvMin.v
theories/Prop_PyGinvLow.v
theories/PyDiffModel.v
theories/PyDiffSpec.v
theories/PyDiffProofs.v
theories/PyDiffArgs.v
theories/PyDiffExamples.v
theories/Prop_PyDiff.v
theories/Prop_PyDiffNF.v
theories/PyCacheModel.v
theories/PyCacheSpec.v
theories/PyCacheProofs.v
theories/PyCacheExamples.v
theories/Prop_PyCache.v
theories/PyReadModel.v
theories/PyReadSpec.v
theories/PyReadProofs.v
theories/PyReadExamples.v
theories/Prop_PyRead.v
theories/TextModel.v
theories/TextSpec.v
theories/TextProofs.v
theories/TextProofs2.v
theories/TextTop.v
theories/Prop_Text.v
theories/PyTextModel.v
theories/PyTextSpec.v
theories/PyTextProofs.v
theories/PyTextProofs2.v
theories/PyTextProofs3.v
theories/PyTextTop.v
theories/Prop_PyText.v
theories/PyGenModel.v
theories/PyGenSpec.v
theories/PyGenProofs.v
theories/PyGenTop.v
theories/PyGenExamples.v
theories/Prop_PyGen.v
theories/Prop_PyGenNF.v
theories/Prop_PySchem.v
theories/PyWrapSpec.v
theories/PyWrapProofs.v
theories/Prop_PyWrap.v
theories/CyMonomModel.v
theories/CyMonomSpec.v
theories/CyMonomProofs.v
theories/Prop_CyMonom.v
theories/CyHeapModel.v
theories/CyHeapSpec.v
theories/CyHeapProofs.v
theories/Prop_CyHeap.v
theories/CyJanetModel.v
theories/CyJanetSpec.v
theories/CyJanetProofs.v
theories/Prop_CyJanet.v
theories/GCModel.v
theories/GCSpec.v
theories/GCProofs.v
theories/Prop_GC.v
theories/PlainAllocModel.v
theories/PlainAllocSpec.v
theories/PlainAllocProofs.v
theories/Prop_PlainAlloc.v
theories/MultisetProofs.v
theories/GrowthProofs.v
theories/JanetTermSpec.v
theories/JanetTermProofs.v
theories/JanetTermMain.v
theories/JanetTermTop.v
theories/Prop_JanetTerm.v
theories/ShapeSpec.v
theories/ShapeProofs.v
theories/ShapeTop.v
theories/ShapeExamples.v
theories/Prop_Shape.v
theories/NormalSpec.v
theories/NormalProofs.v
theories/NormalTop.v
theories/NormalExamples.v
theories/Prop_Normal.v
theories/UnivProofs.v
theories/UnivLoopProofs.v
theories/UnivStepProofs.v
theories/UnivRoundProofs.v
theories/UnivSpec.v
theories/UnivTop.v
theories/UnivExamples.v
theories/Prop_Univ.v
theories/AncProofs.v
theories/AncTop.v
theories/AncExamples.v
theories/Prop_Anc.v
theories/ModSpec.v
theories/ModProofs.v
theories/ModExamples.v
theories/Prop_Mod.v
theories/OwnModel.v
theories/OwnSpec.v
theories/OwnProofs.v
theories/OwnExamples.v
theories/Prop_Own.v
theories/CyViewModel.v
theories/CyViewSpec.v
theories/CyViewProofs.v
theories/CyViewExamples.v
theories/Prop_CyView.v
theories/CntModel.v
theories/CntSpec.v
theories/CntProofs.v
theories/CntBalance.v
theories/CntTop.v
theories/CntRed.v
theories/CntCrit.v
theories/CntExamples.v
theories/Prop_Cnt.v
theories/Cnt2Model.v
theories/Cnt2Spec.v
theories/Cnt2Proofs.v
theories/Cnt2Crit.v
theories/Cnt2Examples.v
theories/Prop_Cnt2.v
theories/TQ2HPModel.v
theories/TQ2HPSpec.v
theories/TQ2HPProofs.v
theories/TQ2HPExamples.v
theories/TQ2Mult.v
theories/Prop_TQ2HP.v
theories/CyTimerModel.v
theories/CyTimerSpec.v
theories/CyTimerProofs.v
theories/CyTimerExamples.v
theories/Prop_CyTimer.v
theories/PyRatModel.v
theories/PyRatSpec.v
theories/PyRatProofs.v
theories/PyRatExamples.v
theories/Prop_PyRat.v
theories/LinProofs.v
theories/LinMain.v
theories/LinSpec.v
theories/LinEval.v
theories/LinGen.v
theories/LinTop.v
theories/LinSol.v
theories/LinExamples.v
theories/Prop_Lin.v
theories/MonoProofs.v
theories/MonoMain.v
theories/MonoSpec.v
theories/MonoTop.v
theories/MonoExamples.v
theories/Prop_Mono.v
theories/PrincSpec.v
theories/PrincProofs.v
theories/PrincTop.v
theories/PrincExamples.v
theories/Prop_Princ.v
theories/JanetCostModel.v
theories/JanetCostProofs.v
theories/JanetCostTop.v
theories/Prop_Cost.v
theories/ClosedSpec.v
theories/ClosedProofs.v
theories/ClosedMain.v
theories/ClosedTop.v
theories/ClosedExamples.v
theories/Prop_Closed.v
theories/SignSpec.v
theories/SignProofs.v
theories/SignMain.v
theories/SignTop.v
theories/SignExamples.v
theories/Sign2Main.v
theories/Prop_Sign.v
theories/RBCheckSpec.v
theories/RBCheckProofs.v
theories/RBCheckExamples.v
theories/Prop_RBCheck.v
theories/TexModel.v
theories/TexSpec.v
theories/TexProofs.v
theories/TexTop.v
theories/TexTop2.v
theories/TexExamples.v
theories/Prop_Tex.v
theories/JanetPolyHPAssert.v
theories/DrawModel.v
theories/JanetDrawModel.v
theories/RBDrawModel.v
theories/PyDrawModel.v
theories/DrawSpec.v
theories/DrawProofs.v
theories/RBDrawProofs.v
theories/PyDrawProofs.v
theories/DrawTop.v
theories/RBDrawTop.v
theories/DrawExamples.v
theories/DrawCallsSpec.v
theories/DrawCalls.v
theories/Prop_Draw.v
theories/CellModel.v
theories/CellPyModel.v
theories/CellSpec.v
theories/CellProofs.v
theories/CellEditProofs.v
theories/CellTop.v
theories/CellExamples.v
theories/Prop_Cells.v
theories/PyHeapqSpec.v
theories/PyHeapqProofs.v
theories/PyHeapqQueue.v
theories/PyHeapqTop.v
theories/Prop_PyHeapq.v
theories/RandPermPyModel.v
theories/RandPermPyProofs.v
theories/Prop_RandPermPy.v
theories/TQ2Normal.v
theories/ClosedTQ2.v
theories/Prop_TQ2Struct.v
theories/TQ2Inv.v
theories/TQ2InvExamples.v
theories/Prop_TQ2Inv.v
theories/PrincTQ2.v
theories/PrincTQ2Examples.v
theories/Prop_PrincTQ2.v
theories/LinTQ2.v
theories/LinSolTQ2.v
theories/UnivTQ2Spec.v
theories/UnivTQ2.v
theories/LinTQ2Examples.v
theories/Prop_LinTQ2.v
theories/Prop_UnivTQ2.v
theories/MonoTQ2.v
theories/MonoTQ2Examples.v
theories/Prop_MonoTQ2.v
theories/ModTree.v
theories/PyRatValid.v
theories/DebugProofs.v
theories/DebugTQ.v
theories/DebugMisc.v
theories/DebugRB.v
theories/DebugList.v
theories/DebugTop.v
theories/Prop_Debug.v
theories/Prop_DebugMisc.v
theories/Prop_DebugUtil.v
theories/PyDiffValid.v
theories/DebugMono.v
theories/PyWalkModel.v
theories/PyWalkProofs.v
theories/PyWalkExamples.v
theories/Prop_PyWalk.v
theories/DebugPrinc.v
theories/DebugPrincTQ2.v
theories/DebugNf.v
theories/DebugNfExamples.v
theories/Prop_DebugOne.v
theories/PolyLifeModel.v
theories/PolyLifeSpec.v
theories/PolyLifeProofs.v
theories/Prop_PolyLife.v
theories/SizeModel.v
theories/SizeSpec.v
theories/SizeProofs.v
theories/Prop_Size.v
theories/PolyWorldModel.v
theories/PolyWorldSpec.v
theories/PolyWorldProofs.v
theories/Prop_PolyWorld.v
theories/DebugMem.v
theories/Prop_DebugMem.v
theories/SizeOps.v
theories/Prop_SizeOps.v
theories/SizeChoice.v
theories/Prop_SizeChoice.v
theories/DebugCell.v
theories/Prop_DebugCell.v
