-Q theories Verif
theories/Base.v
theories/BaseLemmas.v
theories/Layout.v
theories/LayoutProofs.v
theories/Search.v
theories/SearchProofs.v
theories/PropsLayout.v
theories/PropsSearch.v
theories/Bits.v
theories/BitsProofs.v
theories/Segment.v
theories/SegmentProofs.v
theories/TransferProofs.v
theories/MergeProofs.v
theories/UnionProofs.v
theories/SegHistory.v
theories/SegHistoryProofs.v
theories/Conc.v
theories/ConcProofs.v
theories/ParSeg.v
theories/ParSegProofs.v
theories/Reduce.v
theories/ReduceProofs.v
theories/SegFinal.v
theories/PropsSegment.v
theories/Bucket.v
theories/BucketProofs.v
theories/Vec.v
theories/VecProofs.v
theories/VecProofs2.v
theories/GraphVert.v
theories/GraphVertProofs.v
theories/PropsVec.v
theories/ListLemmas.v
theories/DCSC.v
theories/DCSCProofs.v
theories/DCSCBuild.v
theories/Kernel.v
theories/KernelProofs.v
theories/MatSpec.v
theories/DCSCFinal.v
theories/TileProofs.v
theories/PropsDCSC.v
theories/SpMat.v
theories/SpMatProofs.v
theories/Graph.v
theories/GraphProofs.v
theories/PropsMat.v
theories/SpMSpV.v
theories/DistProofs.v
theories/Tree.v
theories/TreeProofs.v
theories/MultProofs.v
theories/Runtime.v
theories/RunSegProofs.v
theories/RunSpec.v
theories/OrderSpec.v
theories/HeldProofs.v
theories/RuntimeProofs.v
theories/GraphOps.v
theories/GraphOpsProofs.v
theories/GraphHist.v
theories/GraphHistProofs.v
theories/OrderHist.v
theories/OrderProofs.v
theories/RunFinal.v
theories/RunCong.v
theories/RunClaims.v
theories/PropsRun.v
theories/OrderFinal.v
theories/PropsOrder.v
theories/EdgeList.v
theories/EdgeSpec.v
theories/EdgeListProofs.v
theories/ShuffleProofs.v
theories/EdgeListProofs2.v
theories/EdgeFinal.v
theories/DimProofs.v
theories/PropsEdges.v
theories/Apps.v
theories/IncRank.v
theories/Sgd.v
theories/SgdSpec.v
theories/AppSpec.v
theories/AppBase.v
theories/BfsProofs.v
theories/LabelProofs.v
theories/SsspProofs.v
theories/SsspWrap.v
theories/RankSpec.v
theories/DegreeProofs.v
theories/PageRankProofs.v
theories/FlowSpec.v
theories/FlowProofs.v
theories/IncRankProofs.v
theories/RankFlow.v
theories/SgdProofs.v
theories/TopSortProofs.v
theories/TriangleProofs.v
theories/DeltaProofs.v
theories/DeltaAny.v
theories/AppClaims.v
theories/TriSpec.v
theories/TriangleAll.v
theories/AppExample.v
theories/PropsApps.v
theories/PropsApps2.v
theories/PropsIncRank.v
theories/PropsSgd.v
theories/Lda.v
theories/LdaSpec.v
theories/LdaProofs.v
theories/LdaCounts.v
theories/PropsLda.v
theories/ParSet.v
theories/ParSetProofs.v
theories/TopRace.v
theories/PropsRace.v
theories/FileIO.v
theories/FileSpec.v
theories/FileProofs.v
theories/FileFinal.v
theories/FileClaims.v
theories/FileCutSpec.v
theories/FileCut.v
theories/FileCutClaims.v
theories/PropsFiles.v
theories/Share.v
theories/ShareSpec.v
theories/ShareProofs.v
theories/ShareBad.v
theories/PropsShare.v
theories/GraphBin.v
theories/GraphBinProofs.v
theories/GraphCutSpec.v
theories/GraphCut.v
theories/GraphMix.v
theories/PropsBin.v
theories/PropsGraphCut.v
theories/Mpi.v
theories/MpiProofs.v
theories/Exchange.v
theories/ExchangeSpec.v
theories/ExchangeProofs.v
theories/PropsExchange.v
theories/Convert.v
theories/ConvertSpec.v
theories/ConvertProofs.v
theories/PropsConvert.v
theories/Tiles.v
theories/TileKernel.v
theories/TileArchive.v
theories/TilesProofs.v
theories/TileSpec.v
theories/TileKernelProofs.v
theories/DcsrProofs.v
theories/SimdProofs.v
theories/SimdBorders.v
theories/SimdFinal.v
theories/HybridProofs.v
theories/TileKernelFinal.v
theories/TileArchiveProofs.v
theories/PropsTiles.v
theories/PropsTileKernel.v
theories/PropsTileArchive.v
theories/VecArchive.v
theories/VecArchiveProofs.v
theories/PropsVecArchive.v
theories/Mem.v
theories/MemSpec.v
theories/MemProofs.v
theories/MemFinal.v
theories/PropsMem.v
theories/ParLoop.v
theories/ParLoopProofs.v
theories/ParLoopWords.v
theories/ParLoopWords2.v
theories/ParLoopWords3.v
theories/ParLoopWords4.v
theories/ParLoopEdges.v
theories/ParLoopFinal.v
theories/PropsPar.v
theories/CInt.v
theories/CIntProofs.v
theories/PropsInt.v
theories/FloatSpec.v
theories/FloatProofs.v
theories/FloatRun.v
theories/Float32.v
theories/Float32Proofs.v
theories/Float32Run.v
theories/PropsFloat.v
theories/FloatOrder.v
theories/FloatMono.v
theories/FloatStop.v
theories/Float32Mono.v
theories/PropsFloatStop.v
theories/DoubleSpec.v
theories/Double64.v
theories/DoubleProofs.v
theories/Double64Proofs.v
theories/Double64Run.v
theories/PropsDouble.v
theories/FileCutText.v
theories/FileCutTextClaims.v
theories/PropsCut.v
theories/ParTiles.v
theories/ParTilesProofs.v
theories/ParTilesSimd.v
theories/PropsParTiles.v
theories/FloatText.v
theories/FloatTextScan.v
theories/FloatTextReal.v
theories/FloatTextSpec.v
theories/FloatTextProofs.v
theories/PropsFloatText.v
theories/FloatCut.v
theories/PropsCutFloat.v
theories/ArchiveCut.v
theories/PropsArchiveCut.v
theories/CmdSpec.v
theories/Cmd.v
theories/CmdProofs.v
theories/PropsCmd.v
theories/CmdRank.v
theories/CmdRankProofs.v
theories/PropsCmdRank.v
theories/ConvertCmd.v
theories/ConvertCmdSpec.v
theories/ConvertCmdProofs.v
theories/PropsConvertCmd.v
theories/CmdArgs.v
theories/CmdArgsProofs.v
theories/PropsCmdArgs.v
theories/VertexIdProofs.v
theories/PropsVertexIds.v
theories/PropsEdgeIds.v
theories/PropsFileIds.v
theories/SgdCmd.v
theories/SgdCmdProofs.v
theories/PropsSgdCmd.v
