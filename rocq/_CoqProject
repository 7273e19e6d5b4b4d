-Q theories Verif
theories/Num.v
theories/Arr.v
theories/ModelVertex.v
theories/ModelForce.v
theories/ModelSum.v
theories/ModelEngine.v
theories/ModelBlock.v
theories/ModelAH.v
theories/ArrLemmas.v
theories/SpecPhys.v
theories/RLemmas.v
theories/LemEngine.v
theories/LemPhys.v
theories/LemBlock.v
theories/LemAH.v
theories/ModelParallel.v
theories/LemParallel.v
theories/LemBuffers.v
theories/SpecPar.v
theories/LemOmp.v
theories/LemMisc.v
theories/ModelStat.v
theories/SpecStat.v
theories/LemStat.v
theories/SpecEngine.v
theories/LemSpec.v
theories/LemForce.v
theories/PropForce.v
theories/LemBufProp.v
theories/PropBuffers.v
theories/ModelTree.v
theories/ModelHeap.v
theories/ModelBH.v
theories/SpecTree.v
theories/SpecHeap.v
theories/LemTree.v
theories/LemHeap.v
theories/LemHeap2.v
theories/LemNext.v
theories/LemBH.v
theories/LemTreeR.v
theories/LemTreeProp.v
theories/PropTree.v
theories/ModelButcher.v
theories/ModelSolverBase.v
theories/ModelExtrap.v
theories/ModelSolver.v
theories/SpecSolver.v
theories/SpecExtrap.v
theories/LemOk.v
theories/LemBufR.v
theories/LemExtrap.v
theories/LemSolverTime.v
theories/PropExtrap.v
theories/PropSolver.v
theories/LemSolver.v
theories/LemSolverPhys.v
theories/LemRk.v
theories/LemExact.v
theories/LemAdams.v
theories/PropRk.v
theories/LemOrder.v
theories/SpecOrder.v
theories/PropOrder.v
theories/LemFeagin.v
theories/PropFeagin.v
theories/PropFeagin14.v
theories/ModelRun.v
theories/SpecRun.v
theories/LemRun.v
theories/PropRun.v
theories/ModelText.v
theories/ModelStream.v
theories/LemText.v
theories/SpecStream.v
theories/LemStream.v
theories/LemStreamRun.v
theories/LemStreamRead.v
theories/LemStreamProp.v
theories/PropStream.v
theories/ModelData.v
theories/SpecData.v
theories/LemDataText.v
theories/LemData.v
theories/LemData2.v
theories/LemDataR.v
theories/LemFloat.v
theories/PropData.v
theories/PropData2.v
theories/ModelArgs.v
theories/ModelFeagin.v
theories/SpecCase.v
theories/LemCase.v
theories/SpecArgs.v
theories/LemArgs.v
theories/PropArgs.v
theories/ModelGpu.v
theories/SpecGpu.v
theories/LemGpu.v
theories/LemGpuSum.v
theories/LemGpuHost.v
theories/PropGpu.v
theories/ModelGpuForce.v
theories/LemGpuForce.v
theories/PropGpuForce.v
theories/SpecImplicit.v
theories/LemImplicit.v
theories/PropImplicit.v
theories/ModelGpuOps.v
theories/SpecGpuOps.v
theories/LemGpuOps.v
theories/LemGpuRun.v
theories/LemGpuMax.v
theories/LemGpuClient.v
theories/PropGpuOps.v
theories/ModelGpuBH.v
theories/LemGpuTr.v
theories/LemGpuWalk.v
theories/LemGpuBHForce.v
theories/LemGpuBHUpdate.v
theories/LemGpuBHStep.v
theories/LemGpuBHReal.v
theories/SpecGpuBH.v
theories/LemGpuBHRun.v
theories/PropGpuBH.v
theories/SpecBS.v
theories/LemBS.v
theories/PropBS.v
theories/LemSafe.v
theories/ModelObject.v
theories/SpecSafe.v
theories/LemObject.v
theories/PropSafe.v
theories/ModelOmpForce.v
theories/LemOmpForce.v
theories/SpecOmp.v
theories/LemOmpObject.v
theories/PropOmp.v
theories/ModelPlayer.v
theories/SpecPlayer.v
theories/LemPlayer.v
theories/PropPlayer.v
theories/ModelView.v
theories/SpecView.v
theories/LemView.v
theories/PropView.v
theories/ModelCompressor.v
theories/SpecCompressor.v
theories/LemCompressor.v
theories/PropCompressor.v
theories/LemTwin.v
theories/SpecResume.v
theories/LemResume.v
theories/PropResume.v
theories/ModelMain.v
theories/SpecMain.v
theories/LemMain.v
theories/PropMain.v
theories/SpecConv.v
theories/LemConv.v
theories/LemConvBs.v
theories/LemConvRk.v
theories/LemConvAll.v
theories/LemNewtonLip.v
theories/PropConv.v
theories/PropConvArgs.v
theories/SpecInv.v
theories/LemInv.v
theories/PropInv.v
theories/LemPicard.v
theories/PropMotion.v
theories/SpecBHError.v
theories/LemBHError.v
theories/PropBHError.v
theories/LemErase.v
theories/ModelBHSolver.v
theories/LemConvState.v
theories/PropConvBH.v
theories/SpecSym.v
theories/LemSym.v
theories/LemSymRel.v
theories/LemSymLin.v
theories/LemSymMove.v
theories/PropSym.v
theories/SpecGrid.v
theories/LemGrid.v
theories/ModelGpuGrid.v
theories/LemGpuGrid.v
theories/PropGrid.v
theories/ModelOverlay.v
theories/SpecOverlay.v
theories/PropOverlay.v
theories/SpecGalileo.v
theories/LemGalileo.v
theories/PropGalileo.v
theories/ModelCount.v
theories/SpecCost.v
theories/LemCost.v
theories/PropCost.v
theories/SpecIndex.v
theories/LemIndex.v
theories/PropIndex.v
theories/ModelDevices.v
theories/SpecDevices.v
theories/LemDevices.v
theories/PropDevices.v
theories/LemClock.v
theories/ModelCamera.v
theories/SpecCamera.v
theories/LemCamera.v
theories/PropCamera.v
theories/ModelGpuArgs.v
theories/SpecGpuArgs.v
theories/PropGpuArgs.v
theories/SpecFloatForce.v
theories/LemFloatForce.v
theories/PropUninit.v
theories/SpecMirror.v
theories/LemMirror.v
theories/LemMirrorF.v
theories/PropMirror.v
theories/SpecRead.v
theories/PropRead.v
theories/PropTime.v
theories/ModelControl.v
theories/PropControl.v
theories/SpecMassless.v
theories/PropMassless.v
theories/ModelVideo.v
theories/PropVideo.v
theories/ModelBench.v
theories/PropLost.v
theories/SpecBench.v
