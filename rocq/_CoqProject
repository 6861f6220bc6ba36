-Q theories Verif
theories/Lib/Grid.v
theories/Lib/Loop.v
theories/Lib/QSum.v
theories/Lib/Threads.v
theories/Model/Affinity.v
theories/Model/Aligned.v
theories/Model/Archive.v
theories/Model/ArrayLoader.v
theories/Model/AutoBuffer.v
theories/Model/Batch.v
theories/Model/Bits.v
theories/Model/Bsds.v
theories/Model/Canny.v
theories/Model/Clique.v
theories/Model/ColorMap.v
theories/Model/Cosegm.v
theories/Model/CudaToggle.v
theories/Model/Dasc.v
theories/Model/Display.v
theories/Model/Distances.v
theories/Model/EdgeDetector.v
theories/Model/EdgeMatch.v
theories/Model/Emd.v
theories/Model/EvalArrays.v
theories/Model/FastRand.v
theories/Model/Flow.v
theories/Model/FrameSubset.v
theories/Model/FusionTerms.v
theories/Model/Geometry.v
theories/Model/GlBuffers.v
theories/Model/GlEval.v
theories/Model/GlPipe.v
theories/Model/GlRandom.v
theories/Model/GlScan.v
theories/Model/GlTile.v
theories/Model/Gmm.v
theories/Model/GmmDensity.v
theories/Model/GpuAffinity.v
theories/Model/GpuLobster.v
theories/Model/GpuShape.v
theories/Model/GpuSlic.v
theories/Model/Greying.v
theories/Model/Groups.v
theories/Model/GtIndex.v
theories/Model/GtStack.v
theories/Model/Histogram.v
theories/Model/Hsl.v
theories/Model/Integral.v
theories/Model/Interp.v
theories/Model/JointHist.v
theories/Model/KOfN.v
theories/Model/Kernels.v
theories/Model/KeyPoints.v
theories/Model/Lbsp.v
theories/Model/Linalg.v
theories/Model/Lobster.v
theories/Model/LogPolar.v
theories/Model/Lss.v
theories/Model/MatSize.v
theories/Model/Metrics.v
theories/Model/MoveLoop.v
theories/Model/MutualInfo.v
theories/Model/Names.v
theories/Model/Nms.v
theories/Model/Pack.v
theories/Model/Paths.v
theories/Model/Pawcs.v
theories/Model/Pbas.v
theories/Model/PbasFrame.v
theories/Model/Precacher.v
theories/Model/PrimalDual.v
theories/Model/Producer.v
theories/Model/Ptz.v
theories/Model/PtzCamera.v
theories/Model/PtzEval.v
theories/Model/Reducer.v
theories/Model/ResegmCosts.v
theories/Model/ResegmGraph.v
theories/Model/RoiTable.v
theories/Model/RootSift.v
theories/Model/Sampling.v
theories/Model/Semaphore.v
theories/Model/ShapeContext.v
theories/Model/Simd.v
theories/Model/Slic.v
theories/Model/Sospd.v
theories/Model/StereoCosts.v
theories/Model/StereoMoves.v
theories/Model/StereoProjection.v
theories/Model/Strided.v
theories/Model/Strings.v
theories/Model/SubPix.v
theories/Model/Submodular.v
theories/Model/Subsense.v
theories/Model/SubsenseFrame.v
theories/Model/Tables.v
theories/Model/Thinning.v
theories/Model/Vectors.v
theories/Model/Vibe.v
theories/Model/Warp.v
theories/Model/WordDict.v
theories/Model/WorkerPool.v
theories/Model/Writer.v
theories/Model/YCbCr.v
theories/Proofs/Affinity.v
theories/Proofs/Aligned.v
theories/Proofs/Archive.v
theories/Proofs/ArrayLoader.v
theories/Proofs/AutoBuffer.v
theories/Proofs/Batch.v
theories/Proofs/Bits.v
theories/Proofs/Bsds.v
theories/Proofs/Canny.v
theories/Proofs/Clique.v
theories/Proofs/CliqueBound.v
theories/Proofs/CliqueTight.v
theories/Proofs/ColorMap.v
theories/Proofs/Cosegm.v
theories/Proofs/CudaToggle.v
theories/Proofs/Dasc.v
theories/Proofs/Determinant.v
theories/Proofs/Display.v
theories/Proofs/Distances.v
theories/Proofs/EdgeDetector.v
theories/Proofs/EdgeGradient.v
theories/Proofs/EdgeHysteresis.v
theories/Proofs/EdgeMatch.v
theories/Proofs/EdgePyramid.v
theories/Proofs/Emd.v
theories/Proofs/EmdList.v
theories/Proofs/EvalArrays.v
theories/Proofs/FastRand.v
theories/Proofs/Flow.v
theories/Proofs/FlowCut.v
theories/Proofs/FlowShortcut.v
theories/Proofs/FrameSubset.v
theories/Proofs/FusionTerms.v
theories/Proofs/Geometry.v
theories/Proofs/GlBuffers.v
theories/Proofs/GlEval.v
theories/Proofs/GlPipe.v
theories/Proofs/GlRandom.v
theories/Proofs/GlScan.v
theories/Proofs/GlTile.v
theories/Proofs/Gmm.v
theories/Proofs/GmmDensity.v
theories/Proofs/GmmImage.v
theories/Proofs/GpuAffinity.v
theories/Proofs/GpuLobster.v
theories/Proofs/GpuShape.v
theories/Proofs/GpuSlic.v
theories/Proofs/GrayCode.v
theories/Proofs/Greying.v
theories/Proofs/Groups.v
theories/Proofs/GtIndex.v
theories/Proofs/GtStack.v
theories/Proofs/Histogram.v
theories/Proofs/Hsl.v
theories/Proofs/Integral.v
theories/Proofs/Interp.v
theories/Proofs/JointHist.v
theories/Proofs/KOfN.v
theories/Proofs/Kernels.v
theories/Proofs/KeyPoints.v
theories/Proofs/Lbsp.v
theories/Proofs/LearningRate.v
theories/Proofs/Linalg.v
theories/Proofs/LinalgSmall.v
theories/Proofs/Lobster.v
theories/Proofs/LobsterRun.v
theories/Proofs/LogPolar.v
theories/Proofs/Lss.v
theories/Proofs/MatSize.v
theories/Proofs/Metrics.v
theories/Proofs/MetricsDisp.v
theories/Proofs/MetricsTree.v
theories/Proofs/MoveLoop.v
theories/Proofs/MutualInfo.v
theories/Proofs/Names.v
theories/Proofs/Nms.v
theories/Proofs/Pack.v
theories/Proofs/Paths.v
theories/Proofs/Pawcs.v
theories/Proofs/PawcsFrame.v
theories/Proofs/PawcsImage.v
theories/Proofs/PawcsMore.v
theories/Proofs/PawcsReach.v
theories/Proofs/PawcsRun.v
theories/Proofs/PawcsSpec.v
theories/Proofs/PawcsTable.v
theories/Proofs/Pbas.v
theories/Proofs/PbasFrame.v
theories/Proofs/Precacher.v
theories/Proofs/PrimalDual.v
theories/Proofs/Producer.v
theories/Proofs/Ptz.v
theories/Proofs/PtzCamera.v
theories/Proofs/PtzEval.v
theories/Proofs/Reducer.v
theories/Proofs/ResegmCosts.v
theories/Proofs/ResegmGraph.v
theories/Proofs/RoiTable.v
theories/Proofs/RootSift.v
theories/Proofs/Sampling.v
theories/Proofs/Semaphore.v
theories/Proofs/ShapeContext.v
theories/Proofs/Simd.v
theories/Proofs/Slic.v
theories/Proofs/Sospd.v
theories/Proofs/SospdLoop.v
theories/Proofs/SospdRound.v
theories/Proofs/StereoCosts.v
theories/Proofs/StereoEnergy.v
theories/Proofs/StereoFrames.v
theories/Proofs/StereoMoves.v
theories/Proofs/StereoOutputs.v
theories/Proofs/StereoProjection.v
theories/Proofs/StereoRun.v
theories/Proofs/Strided.v
theories/Proofs/Strings.v
theories/Proofs/SubPix.v
theories/Proofs/Submodular.v
theories/Proofs/SubmodularBound.v
theories/Proofs/SubmodularLinear.v
theories/Proofs/SubmodularNormal.v
theories/Proofs/SubmodularPerm.v
theories/Proofs/SubmodularUpper.v
theories/Proofs/Subsense.v
theories/Proofs/SubsenseFrame.v
theories/Proofs/SubsensePixel.v
theories/Proofs/SubsenseRun.v
theories/Proofs/Tables.v
theories/Proofs/TextureRule.v
theories/Proofs/Thinning.v
theories/Proofs/Vectors.v
theories/Proofs/Vibe.v
theories/Proofs/Warp.v
theories/Proofs/WordDict.v
theories/Proofs/WorkerPool.v
theories/Proofs/Writer.v
theories/Proofs/WriterMany.v
theories/Proofs/YCbCr.v
theories/Properties/C01_NextPow2.v
theories/Properties/C02_Hamming.v
theories/Properties/C03_L1dist.v
theories/Properties/C04_L2dist.v
theories/Properties/C05_ColorDistortion.v
theories/Properties/C06_NearestNeighbour.v
theories/Properties/C07_Interp1.v
theories/Properties/C08_Linspace.v
theories/Properties/C09_ExpandBits.v
theories/Properties/C100_GlPipe.v
theories/Properties/C101_ResegmCosts.v
theories/Properties/C102_Canny.v
theories/Properties/C103_GpuAffinity.v
theories/Properties/C104_GpuShape.v
theories/Properties/C105_GpuSlic.v
theories/Properties/C106_GlScan.v
theories/Properties/C107_GlTile.v
theories/Properties/C108_GlRandom.v
theories/Properties/C109_GpuLobster.v
theories/Properties/C10_FastRand.v
theories/Properties/C110_Submodular.v
theories/Properties/C111_SubmodularBounds.v
theories/Properties/C112_Clique.v
theories/Properties/C113_Flow.v
theories/Properties/C114_Sospd.v
theories/Properties/C115_FrameSubset.v
theories/Properties/C116_KOfN.v
theories/Properties/C117_EdgeMatch.v
theories/Properties/C118_GtIndex.v
theories/Properties/C119_MoveLoop.v
theories/Properties/C11_SmallMatrices.v
theories/Properties/C120_Strided.v
theories/Properties/C121_SubPix.v
theories/Properties/C122_GtStack.v
theories/Properties/C123_CudaToggle.v
theories/Properties/C124_Display.v
theories/Properties/C125_Cosegm.v
theories/Properties/C126_GlBuffers.v
theories/Properties/C12_VectorHelpers.v
theories/Properties/C13_StringHelpers.v
theories/Properties/C14_Putf.v
theories/Properties/C15_AutoBuffer.v
theories/Properties/C16_AutoBufferHazards.v
theories/Properties/C17_AlignedAllocation.v
theories/Properties/C18_Semaphore.v
theories/Properties/C19_WorkerPool.v
theories/Properties/C20_LookupTables.v
theories/Properties/C21_SimdHelpers.v
theories/Properties/C22_SamplePositions.v
theories/Properties/C23_MatSize.v
theories/Properties/C24_PackedYCbCr.v
theories/Properties/C25_Hsl.v
theories/Properties/C26_Archive.v
theories/Properties/C27_Pack.v
theories/Properties/C28_CopyValid.v
theories/Properties/C29_Shift.v
theories/Properties/C30_LogPolar.v
theories/Properties/C31_Reducer.v
theories/Properties/C32_LbspThreshold.v
theories/Properties/C33_LbspLookup.v
theories/Properties/C34_LbspRelative.v
theories/Properties/C35_JointHist.v
theories/Properties/C36_MutualInfo.v
theories/Properties/C37_Thinning.v
theories/Properties/C38_LamLeeSuen.v
theories/Properties/C39_Median.v
theories/Properties/C40_BinaryMedian.v
theories/Properties/C41_Nms.v
theories/Properties/C42_EdgeHysteresis.v
theories/Properties/C43_EdgePyramid.v
theories/Properties/C44_Counters.v
theories/Properties/C45_MetricBounds.v
theories/Properties/C46_Averages.v
theories/Properties/C47_DisparityErrors.v
theories/Properties/C48_Precacher.v
theories/Properties/C49_PrecacherLifecycle.v
theories/Properties/C50_Writer.v
theories/Properties/C51_WriterHazards.v
theories/Properties/C52_Batch.v
theories/Properties/C53_Groups.v
theories/Properties/C54_Names.v
theories/Properties/C55_Vibe.v
theories/Properties/C56_Feedback.v
theories/Properties/C57_RoiTable.v
theories/Properties/C58_Paths.v
theories/Properties/C59_Warp.v
theories/Properties/C60_Aligned.v
theories/Properties/C61_CumulativeSum.v
theories/Properties/C62_DigitCount.v
theories/Properties/C63_CompareLowercase.v
theories/Properties/C64_Emd.v
theories/Properties/C65_ColorMap.v
theories/Properties/C66_LbspDiff.v
theories/Properties/C67_EdgeOrientation.v
theories/Properties/C68_Greying.v
theories/Properties/C69_PbasFrame.v
theories/Properties/C70_Slic.v
theories/Properties/C71_Bsds.v
theories/Properties/C72_Lobster.v
theories/Properties/C73_Gmm.v
theories/Properties/C74_RootSift.v
theories/Properties/C75_SubsenseFrame.v
theories/Properties/C76_WordDictionaries.v
theories/Properties/C77_WordDecisions.v
theories/Properties/C78_WordFeedback.v
theories/Properties/C79_WordBackgrounds.v
theories/Properties/C80_FusionTerms.v
theories/Properties/C81_StereoAssociations.v
theories/Properties/C82_StereoEnergy.v
theories/Properties/C83_StereoOutputs.v
theories/Properties/C84_StereoProjection.v
theories/Properties/C85_PrimalDual.v
theories/Properties/C86_ResegmGraph.v
theories/Properties/C87_Dasc.v
theories/Properties/C88_ShapeContext.v
theories/Properties/C89_Affinity.v
theories/Properties/C90_Ptz.v
theories/Properties/C91_PtzCamera.v
theories/Properties/C92_PtzEval.v
theories/Properties/C93_Lss.v
theories/Properties/C94_KeyPoints.v
theories/Properties/C95_Producers.v
theories/Properties/C96_ArrayLoader.v
theories/Properties/C97_StereoCosts.v
theories/Properties/C98_EvalArrays.v
theories/Properties/C99_GlEval.v
theories/Spec/Affinity.v
theories/Spec/Aligned.v
theories/Spec/Archive.v
theories/Spec/ArrayLoader.v
theories/Spec/AutoBuffer.v
theories/Spec/Batch.v
theories/Spec/Bits.v
theories/Spec/Bsds.v
theories/Spec/Canny.v
theories/Spec/Clique.v
theories/Spec/ColorMap.v
theories/Spec/Cosegm.v
theories/Spec/CudaToggle.v
theories/Spec/Dasc.v
theories/Spec/Display.v
theories/Spec/Distances.v
theories/Spec/EdgeDetector.v
theories/Spec/EdgeMatch.v
theories/Spec/Emd.v
theories/Spec/EvalArrays.v
theories/Spec/Flow.v
theories/Spec/FlowPath.v
theories/Spec/FrameSubset.v
theories/Spec/FusionTerms.v
theories/Spec/Geometry.v
theories/Spec/GlBuffers.v
theories/Spec/GlEval.v
theories/Spec/GlPipe.v
theories/Spec/GlRandom.v
theories/Spec/GlScan.v
theories/Spec/GlTile.v
theories/Spec/Gmm.v
theories/Spec/GmmDensity.v
theories/Spec/GpuAffinity.v
theories/Spec/GpuLobster.v
theories/Spec/GpuShape.v
theories/Spec/GpuSlic.v
theories/Spec/Groups.v
theories/Spec/GtIndex.v
theories/Spec/GtStack.v
theories/Spec/Histogram.v
theories/Spec/Hsl.v
theories/Spec/Integral.v
theories/Spec/Interp.v
theories/Spec/JointHist.v
theories/Spec/KOfN.v
theories/Spec/KeyPoints.v
theories/Spec/Lbsp.v
theories/Spec/Linalg.v
theories/Spec/Lobster.v
theories/Spec/LogPolar.v
theories/Spec/Lss.v
theories/Spec/MatSize.v
theories/Spec/Metrics.v
theories/Spec/MetricsTree.v
theories/Spec/MoveLoop.v
theories/Spec/MutualInfo.v
theories/Spec/Names.v
theories/Spec/Nms.v
theories/Spec/Pack.v
theories/Spec/Paths.v
theories/Spec/Pawcs.v
theories/Spec/Pbas.v
theories/Spec/PbasFrame.v
theories/Spec/Precacher.v
theories/Spec/PrimalDual.v
theories/Spec/Producer.v
theories/Spec/Ptz.v
theories/Spec/PtzCamera.v
theories/Spec/PtzEval.v
theories/Spec/Reducer.v
theories/Spec/ResegmCosts.v
theories/Spec/ResegmGraph.v
theories/Spec/RoiTable.v
theories/Spec/RootSift.v
theories/Spec/Sampling.v
theories/Spec/Semaphore.v
theories/Spec/ShapeContext.v
theories/Spec/Simd.v
theories/Spec/Slic.v
theories/Spec/Sospd.v
theories/Spec/StereoCosts.v
theories/Spec/StereoMoves.v
theories/Spec/StereoProjection.v
theories/Spec/Strided.v
theories/Spec/Strings.v
theories/Spec/SubPix.v
theories/Spec/Submodular.v
theories/Spec/Subsense.v
theories/Spec/SubsenseFrame.v
theories/Spec/Tables.v
theories/Spec/Thinning.v
theories/Spec/Vectors.v
theories/Spec/Vibe.v
theories/Spec/Warp.v
theories/Spec/WorkerPool.v
theories/Spec/Writer.v
