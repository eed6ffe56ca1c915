-Q theories Verif
theories/Base.v
theories/Spec.v
theories/RunMonad.v
theories/UtilsModel.v
theories/UtilsProofs.v
theories/PartitionProofs.v
theories/ArrayListModel.v
theories/ArrayListProofs.v
theories/ArrayListInv.v
theories/SpecComplex.v
theories/ArrayListHist.v
theories/TreeModel.v
theories/TreeProofs.v
theories/SpecTree.v
theories/TreeHist.v
theories/FastModel.v
theories/SpecGraph.v
theories/KruskalProofs.v
theories/SpecLinear.v
theories/LinearProofs.v
theories/SpecFast.v
theories/ReductionProofs.v
theories/FastProofs.v
theories/FastRuns.v
theories/ArgModel.v
theories/SpecArgs.v
theories/ArgProofs.v
theories/PipeModel.v
theories/SpecPipe.v
theories/PipeProofs.v
theories/PipeRuns.v
theories/GaussModel.v
theories/SpecGauss.v
theories/GaussProofs.v
theories/GaussRuns.v
theories/KdModel.v
theories/SpecKd.v
theories/KdProofs.v
theories/DbscanProofs.v
theories/IoModel.v
theories/SpecIo.v
theories/IoProofs.v
theories/IoTotal.v
theories/MatTotal.v
theories/KmeansModel.v
theories/SpecKmeans.v
theories/KmeansProofs.v
theories/EvalModel.v
theories/WindowModel.v
theories/SpecWindow.v
theories/WindowProofs.v
theories/SlidingProofs.v
theories/DenStreamModel.v
theories/SpecDenStream.v
theories/DenStreamProofs.v
theories/DenStreamRuns.v
theories/StreamKmModel.v
theories/SpecStreamKm.v
theories/StreamKmProofs.v
theories/CollapseModel.v
theories/SpecCollapse.v
theories/CollapseProofs.v
theories/PropertiesUtils.v
theories/PropertiesComplex.v
theories/PropertiesTree.v
theories/PropertiesFast.v
theories/PropertiesDriver.v
theories/PropertiesPipe.v
theories/PropertiesGauss.v
theories/PropertiesKd.v
theories/PropertiesIo.v
theories/PropertiesKmeans.v
theories/PropertiesWindow.v
theories/PropertiesStream.v
theories/PropertiesCollapse.v
theories/CollapseRuns.v
theories/PropertiesCollapseRuns.v
theories/IndModel.v
theories/SpecInd.v
theories/IndProofs.v
theories/IndHist.v
theories/PropertiesInd.v
theories/SpecTwist.v
theories/TwistModel.v
theories/TwistProofs.v
theories/TwistRuns.v
theories/PropertiesTwist.v
theories/MainModel.v
theories/LinkModel.v
theories/SpecMain.v
theories/SpecLink.v
theories/LinkProofs.v
theories/MainProofs.v
theories/MainRuns.v
theories/LinkRuns.v
theories/PropertiesMain.v
theories/PropertiesLink.v
theories/SpecRobust.v
theories/RobustProofs.v
theories/RobustRuns.v
theories/PropertiesRobust.v
theories/TreeDeleteModel.v
theories/TreeDeleteProofs.v
theories/PropertiesTreeDelete.v
theories/IndReduceModel.v
theories/IndReduceProofs.v
theories/PropertiesIndReduce.v
theories/SpecIndRun.v
theories/IndRuns.v
theories/PropertiesIndRun.v
theories/DebugModel.v
theories/SpecDebug.v
theories/DebugRuns.v
theories/PropertiesDebug.v
theories/StatsModel.v
theories/SpecStats.v
theories/StatsRuns.v
theories/PropertiesStats.v
theories/AllModel.v
theories/SpecAll.v
theories/AllRuns.v
theories/OwnRuns.v
theories/UpscaleRuns.v
theories/PropertiesAll.v
theories/StreamUtilsModel.v
theories/StreamUtilsProofs.v
theories/PropertiesStreamUtils.v
theories/StreamLinkModel.v
theories/SpecStreamLink.v
theories/StreamLinkRuns.v
theories/PropertiesStreamLink.v
theories/DoubleModel.v
theories/SpecDouble.v
theories/DoubleProofs.v
theories/DoubleRuns.v
theories/PropertiesDouble.v
theories/TextModel.v
theories/SpecText.v
theories/TextProofs.v
theories/TextRuns.v
theories/PropertiesText.v
theories/ReadModel.v
theories/SpecRead.v
theories/ReadProofs.v
theories/ReadFileProofs.v
theories/ReadUnique.v
theories/ReadRest.v
theories/PropertiesRead.v
theories/SpecProgram.v
theories/ProgramModel.v
theories/ProgramRuns.v
theories/PropertiesProgram.v
theories/NanModel.v
theories/SpecNan.v
theories/NanRuns.v
theories/NanKmeans.v
theories/NanProgram.v
theories/PropertiesNan.v
theories/SpecCompare.v
theories/CompareRuns.v
theories/PropertiesCompare.v
theories/SpecHigher.v
theories/PolygonProofs.v
theories/HigherRuns.v
theories/PropertiesHigher.v
theories/MatrixModel.v
theories/SpecMatrix.v
theories/MatrixRuns.v
theories/PropertiesMatrix.v
theories/MultisetProofs.v
theories/PropertiesMultiset.v
theories/SpecNear.v
theories/NearProofs.v
theories/NearRuns.v
theories/NearEnd.v
theories/NearEval.v
theories/PropertiesNear.v
theories/LowRuns.v
theories/PropertiesLow.v
theories/FloatFacts.v
theories/FloatSqrt.v
theories/SpecKdDouble.v
theories/KdDouble.v
theories/PropertiesKdDouble.v
theories/SpecError.v
theories/FloatError.v
theories/PropertiesError.v
theories/TrueRuns.v
theories/PropertiesTrue.v
theories/SpecMean.v
theories/MeanError.v
theories/PropertiesMean.v
theories/LogModel.v
theories/SpecLog.v
theories/LogRuns.v
theories/PropertiesLog.v
theories/SpecRadius.v
theories/RadiusDouble.v
theories/PropertiesRadius.v
theories/WindowFilesModel.v
theories/SpecWindowFiles.v
theories/WindowFilesRuns.v
theories/PropertiesWindowFiles.v
theories/ReducedModel.v
theories/SpecReduced.v
theories/ReducedRuns.v
theories/PropertiesReduced.v
theories/EvalDoubleModel.v
theories/SpecEvalDouble.v
theories/EvalDouble.v
theories/PropertiesEval.v
theories/SlideDoubleModel.v
theories/SpecSlide.v
theories/SlideDouble.v
theories/PropertiesSlide.v
theories/AllTextModel.v
theories/SpecAllText.v
theories/AllText.v
theories/PropertiesAllText.v
theories/ReducedArray.v
theories/SpecReducedLine.v
theories/ReducedLine.v
theories/PropertiesReducedArray.v
theories/PairsFilesModel.v
theories/SpecPairsFiles.v
theories/PairsFiles.v
theories/PropertiesPairsFiles.v
theories/SpecReducedStats.v
theories/ReducedStats.v
theories/PropertiesReducedStats.v
theories/SpecLastText.v
theories/LastText.v
theories/PropertiesLastText.v
theories/SpecWords.v
theories/PropertiesWords.v
theories/SpecLogDebug.v
theories/LogDebug.v
theories/PropertiesLogDebug.v
