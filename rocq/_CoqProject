-Q theories Verif
theories/AdaBoost.v
theories/AdaBoostFacts.v
theories/AdaBoostMain.v
theories/AdaBoostMore.v
theories/AdaBoostProofs.v
theories/AdaBoostV.v
theories/AdaBoostVFacts.v
theories/AdaBoostVProofs.v
theories/AdaLoopFacts.v
theories/BadLearner.v
theories/BadLearnerFacts.v
theories/Base.v
theories/BinSearch.v
theories/Bins.v
theories/BinsFacts.v
theories/BinsFloat.v
theories/BinsPack.v
theories/BinsProofs.v
theories/BinsSpec.v
theories/Booster.v
theories/BuilderSpec.v
theories/Builders.v
theories/BuildersFacts.v
theories/CERLP.v
theories/CERLPFacts.v
theories/CERLPProofs.v
theories/Cast.v
theories/ConfigFacts.v
theories/ConicSpec.v
theories/CrossVal.v
theories/CrossValFacts.v
theories/Csc.v
theories/CscProofs.v
theories/DTree.v
theories/DTreeBest.v
theories/DTreeFacts.v
theories/DTreeGrow.v
theories/DTreeOut.v
theories/DTreeProofs.v
theories/DTreeSplit.v
theories/Dot.v
theories/DotFacts.v
theories/DotSpec.v
theories/Duality.v
theories/ERLP.v
theories/ERLPFacts.v
theories/ERLPProofs.v
theories/ERLPSoftFacts.v
theories/EdgeLP.v
theories/EdgeProofs.v
theories/ExpBounds.v
theories/ExpNum.v
theories/Feature.v
theories/FeatureFacts.v
theories/Float.v
theories/FloatAda.v
theories/FloatAdaFacts.v
theories/FloatAdaProofs.v
theories/FloatAdaRun.v
theories/FloatAdaSpec.v
theories/FloatAdaStep.v
theories/FloatAdaTree.v
theories/FloatAdaTreeFacts.v
theories/FloatAdaTreeSpec.v
theories/FloatAdaV.v
theories/FloatAdaVFacts.v
theories/FloatAdaVProofs.v
theories/FloatAdaVSpec.v
theories/FloatBestFacts.v
theories/FloatBestFeature.v
theories/FloatBestGrow.v
theories/FloatBestProofs.v
theories/FloatBestSpec.v
theories/FloatBoostFacts.v
theories/FloatBoostSpec.v
theories/FloatCERLP.v
theories/FloatCERLPFacts.v
theories/FloatCERLPFit.v
theories/FloatCERLPFitFacts.v
theories/FloatCERLPProofs.v
theories/FloatCERLPSpec.v
theories/FloatCERLPVoteFacts.v
theories/FloatCheckFacts.v
theories/FloatEdge.v
theories/FloatEdgeFacts.v
theories/FloatEdgeSpec.v
theories/FloatExpDist.v
theories/FloatExpDistFacts.v
theories/FloatExpDistSpec.v
theories/FloatFW.v
theories/FloatFWFacts.v
theories/FloatFWProofs.v
theories/FloatFWSpec.v
theories/FloatFacts.v
theories/FloatGBM.v
theories/FloatGBMFacts.v
theories/FloatGBMProofs.v
theories/FloatGBMSpec.v
theories/FloatGrowProofs.v
theories/FloatGrowthProofs.v
theories/FloatLine.v
theories/FloatLineFacts.v
theories/FloatLineProofs.v
theories/FloatLineSpec.v
theories/FloatMada.v
theories/FloatMadaFacts.v
theories/FloatMadaProofs.v
theories/FloatMadaSpec.v
theories/FloatMedian.v
theories/FloatMedianFacts.v
theories/FloatMedianSpec.v
theories/FloatPackProofs.v
theories/FloatProject.v
theories/FloatProjectFacts.v
theories/FloatProjectMain.v
theories/FloatProjectProofs.v
theories/FloatProjectSpec.v
theories/FloatProofs.v
theories/FloatRTree.v
theories/FloatRTreeFacts.v
theories/FloatRTreeFeature.v
theories/FloatRTreeGrow.v
theories/FloatRTreeNum.v
theories/FloatRTreeScan.v
theories/FloatRTreeSpec.v
theories/FloatRTreeTerm.v
theories/FloatRounds.v
theories/FloatRoundsFacts.v
theories/FloatRoundsProofs.v
theories/FloatRoundsSpec.v
theories/FloatSmooth.v
theories/FloatSmoothFacts.v
theories/FloatSmoothSpec.v
theories/FloatSpec.v
theories/FloatSplit.v
theories/FloatSplitFacts.v
theories/FloatTree.v
theories/FloatTreeFacts.v
theories/FloatTreeProofs.v
theories/FloatTreeSpec.v
theories/FloatTwoingProofs.v
theories/FloatVoteFacts.v
theories/FrankWolfe.v
theories/FrankWolfeFacts.v
theories/FrankWolfeProofs.v
theories/GBM.v
theories/GBMFacts.v
theories/GBMSet.v
theories/GBMSetFacts.v
theories/GBMTreeFacts.v
theories/GentleFacts.v
theories/GraphSep.v
theories/GraphSepFacts.v
theories/GraphSpec.v
theories/Hoeffding.v
theories/LPBoost.v
theories/LPBoostFacts.v
theories/LPBoostProofs.v
theories/LPSpec.v
theories/LineMLPFacts.v
theories/LineMLPSpec.v
theories/LineRunFacts.v
theories/LineRunSpec.v
theories/LineSearchFacts.v
theories/LineSearchSpec.v
theories/LogMoreFacts.v
theories/LogMoreSpec.v
theories/Logger.v
theories/LoggerFacts.v
theories/LossFacts.v
theories/LossSpec.v
theories/Losses.v
theories/MLP.v
theories/MLPFacts.v
theories/MLPProofs.v
theories/MLPSolveSpec.v
theories/MadaBoost.v
theories/MadaBoostFacts.v
theories/MarginFacts.v
theories/NBSpec.v
theories/NBayes.v
theories/NBayesFacts.v
theories/NN.v
theories/NNFacts.v
theories/NNGrad.v
theories/NNSpec.v
theories/NNTrain.v
theories/NNTrainFacts.v
theories/NNValueFacts.v
theories/NNValueSpec.v
theories/NearFacts.v
theories/NearSpec.v
theories/Num.v
theories/Objective.v
theories/ObjectiveFacts.v
theories/PropAdaBoost.v
theories/PropAdaBoostV.v
theories/PropAdaLoop.v
theories/PropBadLearner.v
theories/PropBins.v
theories/PropBuilders.v
theories/PropCERLP.v
theories/PropConfig.v
theories/PropCrossVal.v
theories/PropDTree.v
theories/PropDot.v
theories/PropERLP.v
theories/PropERLPSoft.v
theories/PropFeature.v
theories/PropFloat.v
theories/PropFloatAda.v
theories/PropFloatAdaTree.v
theories/PropFloatAdaV.v
theories/PropFloatBest.v
theories/PropFloatBoost.v
theories/PropFloatCERLP.v
theories/PropFloatCERLPFit.v
theories/PropFloatCERLPVote.v
theories/PropFloatCheck.v
theories/PropFloatEdge.v
theories/PropFloatExpDist.v
theories/PropFloatFW.v
theories/PropFloatGBM.v
theories/PropFloatLine.v
theories/PropFloatMada.v
theories/PropFloatMedian.v
theories/PropFloatProject.v
theories/PropFloatRTree.v
theories/PropFloatRounds.v
theories/PropFloatSmooth.v
theories/PropFloatSplit.v
theories/PropFloatTree.v
theories/PropFloatVote.v
theories/PropFrankWolfe.v
theories/PropGBM.v
theories/PropGBMSet.v
theories/PropGBMTree.v
theories/PropGentle.v
theories/PropGraphSep.v
theories/PropLPBoost.v
theories/PropLineMLP.v
theories/PropLineRun.v
theories/PropLineSearch.v
theories/PropLogMore.v
theories/PropLogger.v
theories/PropLoss.v
theories/PropMLP.v
theories/PropMadaBoost.v
theories/PropMargin.v
theories/PropNBayes.v
theories/PropNN.v
theories/PropNNTrain.v
theories/PropNNValue.v
theories/PropNear.v
theories/PropObjective.v
theories/PropRTree.v
theories/PropReader.v
theories/PropRerun.v
theories/PropResearch.v
theories/PropSample.v
theories/PropSettings.v
theories/PropSmoothBoost.v
theories/PropSoftBoost.v
theories/PropSoftNear.v
theories/PropSolver.v
theories/PropSolverQP.v
theories/PropStatus.v
theories/PropTask.v
theories/PropTreeBoost.v
theories/PropTreeSoft.v
theories/PropUtils.v
theories/PropValid.v
theories/QPExist.v
theories/RTree.v
theories/RTreeFacts.v
theories/RTreeOut.v
theories/RTreeProofs.v
theories/RTreeSpec.v
theories/Rayon.v
theories/Reach.v
theories/Reader.v
theories/ReaderFacts.v
theories/RegSpec.v
theories/RerunFacts.v
theories/RerunSpec.v
theories/Research.v
theories/ResearchFacts.v
theories/ResearchSpec.v
theories/RoundSpec.v
theories/Sample.v
theories/SampleFacts.v
theories/SampleSpec.v
theories/Settings.v
theories/SettingsFacts.v
theories/SmoothAnalysis.v
theories/SmoothBoost.v
theories/SmoothBoostFacts.v
theories/SmoothSpec.v
theories/SoftBoost.v
theories/SoftBoostFacts.v
theories/SoftNearFacts.v
theories/SoftNearProofs.v
theories/SoftProofs.v
theories/Solvable.v
theories/SolverFacts.v
theories/SolverQPFacts.v
theories/SortLib.v
theories/Spec.v
theories/StatusFacts.v
theories/StatusSpec.v
theories/Task.v
theories/TaskFacts.v
theories/TextSpec.v
theories/TreeBoostFacts.v
theories/TreeShape.v
theories/TreeSoftFacts.v
theories/TreeSpec.v
theories/Utils.v
theories/UtilsFacts.v
theories/UtilsProofs.v
theories/Valid.v
theories/ValidFacts.v
theories/ValidProofs.v
theories/ValidSpec.v
theories/WMajority.v
theories/WMajorityProofs.v
