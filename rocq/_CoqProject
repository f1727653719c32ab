-Q theories Verif
theories/Base.v
theories/Mem.v
theories/Model_DagQueue.v
theories/Spec_DagQueue.v
theories/Proof_DagQueue.v
theories/Proof_DagQueueInv.v
theories/Proof_DagQueueLive.v
theories/Proof_DagQueueTop.v
theories/Props_DagQueue.v
theories/Model_Utils.v
theories/Spec_Utils.v
theories/Proof_Utils.v
theories/Props_Utils.v
theories/Conc.v
theories/Model_Dense.v
theories/Spec_Dense.v
theories/Proof_Dense.v
theories/Proof_Dense2.v
theories/Proof_Dense3.v
theories/Props_Dense.v
theories/Model_CSR.v
theories/Spec_CSR.v
theories/Proof_Qsort.v
theories/Proof_CSR.v
theories/Props_CSR.v
theories/Num.v
theories/Model_Partition.v
theories/Proof_Bucket.v
theories/Proof_Partition.v
theories/Proof_Bisect.v
theories/Proof_RootBox.v
theories/Spec_Tree.v
theories/Proof_TreeArray.v
theories/Proof_TreeArray2.v
theories/Spec_Partition.v
theories/Proof_BuildTree.v
theories/Proof_Terminate.v
theories/Proof_UpwardDag.v
theories/Props_Partition.v
theories/Model_Pairs.v
theories/Spec_Pairs.v
theories/Proof_Pairs.v
theories/Proof_PairsTop.v
theories/Proof_PairsPer.v
theories/Props_Pairs.v
theories/CRing.v
theories/Model_Matvec.v
theories/Spec_Matvec.v
theories/Proof_Gemv.v
theories/Proof_MvTree.v
theories/Proof_MvFwd.v
theories/Proof_MvMid.v
theories/Proof_MvBwd.v
theories/Proof_MvTop.v
theories/Proof_MvCor.v
theories/Ex_Matvec.v
theories/Ex_MatvecZ.v
theories/Props_Matvec.v
theories/Model_Build.v
theories/Spec_Build.v
theories/Proof_Build.v
theories/Proof_BuildFill.v
theories/Proof_BuildTop.v
theories/Proof_BuildUse.v
theories/Ex_Build.v
theories/Props_Build.v
theories/FNum.v
theories/Model_ID.v
theories/Proof_IDMem.v
theories/Proof_IDQR.v
theories/Proof_IDIndex.v
theories/Proof_IDSolve.v
theories/Proof_IDQRk.v
theories/Proof_IDStruct.v
theories/Proof_IDMath.v
theories/Proof_IDInv.v
theories/Proof_IDInvk.v
theories/Spec_ID.v
theories/Proof_IDFinal.v
theories/Proof_IDResid.v
theories/Props_ID.v
theories/Model_UJ.v
theories/Spec_UJ.v
theories/Proof_UJ.v
theories/Proof_UJNode.v
theories/Proof_UJSweep.v
theories/Proof_UJDet.v
theories/Proof_UJReal.v
theories/Spec_Approx.v
theories/Proof_Approx.v
theories/Ex_UJ.v
theories/Props_UJ.v
theories/Proof_Sched.v
theories/Proof_Pipe.v
theories/Props_Pipe.v
theories/Model_Matmul.v
theories/Proof_Gemm.v
theories/Proof_MmFwd.v
theories/Proof_MmMid.v
theories/Proof_MmBwd.v
theories/Proof_MmTop.v
theories/Proof_MmFam.v
theories/Proof_MmUse.v
theories/Spec_Matmul.v
theories/Props_Matmul.v
theories/Model_JIT.v
theories/Proof_JitBlk.v
theories/Proof_JitExt.v
theories/Proof_JitApply.v
theories/Proof_JitMid.v
theories/Proof_JitDense.v
theories/Proof_JitTop.v
theories/Proof_JitMain.v
theories/Proof_JitUse.v
theories/Spec_JIT.v
theories/Props_JIT.v
theories/Model_FileIO.v
theories/Spec_FileIO.v
theories/Proof_FileIO.v
theories/Proof_FileRead.v
theories/Proof_FileRead2.v
theories/Proof_FileRead3.v
theories/Proof_FileUse.v
theories/Proof_FileAll.v
theories/Proof_FileBad.v
theories/Proof_FileTop.v
theories/Props_FileIO.v
theories/Race.v
theories/Model_MvFine.v
theories/Proof_MvFine.v
theories/Proof_MvRace.v
theories/Props_Race.v
theories/Model_MmFine.v
theories/Proof_MmFine.v
theories/Proof_MmRace.v
theories/Props_MmRace.v
theories/Model_PCG.v
theories/Spec_PCG.v
theories/Proof_PCG.v
theories/Proof_PCGMath.v
theories/Proof_PCGTop.v
theories/Proof_PCGSpd.v
theories/Props_PCG.v
theories/Model_Periodic.v
theories/Spec_Periodic.v
theories/Proof_PerBlock.v
theories/Proof_PerMid.v
theories/Proof_PerTop.v
theories/Proof_PerRoot.v
theories/Proof_PerMeta.v
theories/Proof_PerExact.v
theories/Model_PerBuild.v
theories/Proof_PerBuild.v
theories/Proof_PerUse.v
theories/Proof_PerFinal.v
theories/Model_Lattice.v
theories/Proof_Lattice.v
theories/Ex_Periodic.v
theories/Props_Periodic.v
theories/Blk.v
theories/Spec_Lapack.v
theories/Model_ULV.v
theories/Spec_ULV.v
theories/Proof_ULVMem.v
theories/Proof_ULVMath.v
theories/Proof_ULVTree.v
theories/Proof_ULVAsm.v
theories/Proof_ULVFac.v
theories/Proof_ULVNode.v
theories/Proof_ULVFact.v
theories/Proof_ULVVec.v
theories/Proof_ULVSolve.v
theories/Proof_ULVMain.v
theories/Spec_SPD.v
theories/Proof_Lapack.v
theories/Proof_ULVEn.v
theories/Proof_ULVBil.v
theories/Proof_ULVSyn.v
theories/Proof_ULVSPD.v
theories/Proof_ULVFail.v
theories/Proof_ULVUse.v
theories/Ex_ULV.v
theories/Props_ULV.v
theories/Spec_FSAI.v
theories/Model_FSAI.v
theories/Proof_FSAISort.v
theories/Proof_FSAIKnn.v
theories/Proof_FSAICsr.v
theories/Proof_FSAIApply.v
theories/Proof_FSAIRow.v
theories/Proof_FSAITop.v
theories/Proof_FSAIReal.v
theories/Proof_FSAIBuild.v
theories/Spec_AFN.v
theories/Model_AFN.v
theories/Proof_FPS.v
theories/Proof_FPSPerm.v
theories/Proof_FPSBad.v
theories/Proof_AFNMath.v
theories/Proof_AFNBuild.v
theories/Proof_AFNApply.v
theories/Proof_AFNTop.v
theories/Ex_AFN.v
theories/Model_Nys.v
theories/Spec_Nys.v
theories/Proof_NysMath.v
theories/Proof_NysBuild.v
theories/Proof_NysTop.v
theories/Proof_Spectral.v
theories/Props_FSAI.v
theories/Props_AFN.v
theories/Model_PerMv.v
theories/Proof_PerMvExt.v
theories/Proof_PerMvMid.v
theories/Proof_PerMvNode.v
theories/Proof_PerMvDen.v
theories/Proof_PerMvTop.v
theories/Proof_PerMvUse.v
theories/Props_PerMv.v
theories/Props_Nys.v
theories/Model_BJ.v
theories/Spec_BJ.v
theories/Proof_BJLeaf.v
theories/Proof_BJ.v
theories/Proof_BJTop.v
theories/Proof_BJReal.v
theories/Proof_BJUse.v
theories/Ex_BJ.v
theories/Props_BJ.v
theories/Model_Rand.v
theories/Spec_Rand.v
theories/Proof_Rand.v
theories/Proof_RandMM.v
theories/Props_Rand.v
theories/Model_LRD.v
theories/Spec_LRD.v
theories/Proof_LRDMath.v
theories/Proof_LRDSel.v
theories/Proof_LRDBuild.v
theories/Proof_LRDTop.v
theories/Proof_LRDUse.v
theories/Props_LRD.v
theories/Model_CSRP.v
theories/Spec_CSRP.v
theories/Proof_CSRPPart.v
theories/Proof_CSRPFact.v
theories/Proof_CSRP.v
theories/Proof_CSRPInit.v
theories/Props_CSRP.v
theories/Model_PPSurf.v
theories/Spec_PPSurf.v
theories/Proof_PPSurf.v
theories/Props_PPSurf.v
