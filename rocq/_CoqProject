-Q theories Verif
theories/Base.v
theories/Spec.v
theories/Arrays.v
theories/ArraysProofs.v
theories/PropArrays.v
theories/PL.v
theories/PLProofs.v
theories/PLEval.v
theories/PLArith.v
theories/PLOps.v
theories/PLOps2.v
theories/PLMono.v
theories/PLInt.v
theories/PL2.v
theories/PLCmp.v
theories/PLComp.v
theories/PLMin.v
theories/PropPL.v
theories/PropMin.v
theories/RC.v
theories/RCProofs.v
theories/RCOps.v
theories/PropRC.v
theories/PQ.v
theories/PQProofs.v
theories/PQOps.v
theories/PQSpec.v
theories/PropPQ.v
theories/FRC.v
theories/FRCProofs.v
theories/FRCExact.v
theories/PropFRC.v
theories/DynFlow.v
theories/DQProofs.v
theories/DynRun.v
theories/DynEvents.v
theories/DynEdge.v
theories/DynFlowProofs.v
theories/PropFlow.v
theories/PropFlow2.v
theories/Graph.v
theories/GraphSpec.v
theories/GraphProofs.v
theories/PropGraph.v
theories/Dijkstra.v
theories/DijkstraSpec.v
theories/DijkstraProofs.v
theories/DijkstraProofs2.v
theories/PropDijkstra.v
theories/FlowBuilder.v
theories/FlowBuilderProofs.v
theories/BuilderRun.v
theories/BuilderFlow.v
theories/PropBuilder.v
theories/PropBuilder2.v
theories/Neighbors.v
theories/NeighborsProofs.v
theories/PropNeighbors.v
theories/Predictors.v
theories/PredictorsProofs.v
theories/PropPredictors.v
theories/PredictorsProofs2.v
theories/PropPredictors2.v
theories/PropPredictors3.v
theories/PropPredictors4.v
theories/Eval.v
theories/PropEval.v
theories/PropEval2.v
theories/PropEval3.v
theories/PropEval4.v
theories/FileLock.v
theories/PropFileLock.v
theories/Dataset.v
theories/PropDataset.v
theories/ActiveEdges.v
theories/PropActive.v
theories/BellmanFord.v
theories/BFSpec.v
theories/BFProofs.v
theories/PropBF.v
theories/PLCache.v
theories/PLCacheProofs.v
theories/PropCache.v
theories/PropCache2.v
theories/RoutesSpec.v
theories/BuilderRoutes.v
theories/BuilderRoutes2.v
theories/BuilderRoutes3.v
theories/PropFlow3.v
theories/PropRoutes.v
theories/TotalSpec.v
theories/BuilderTotal.v
theories/BuilderProgress.v
theories/PropTotal.v
theories/Predictors2.v
theories/PropPredictors5.v
theories/PropPredictors6.v
theories/Eval2.v
theories/PropEval5.v
theories/PropEval6.v
theories/PropEval7.v
theories/PropEval8.v
theories/Import.v
theories/PropImport.v
theories/PropImport2.v
theories/PropImport3.v
theories/Eval3.v
theories/PropEval9.v
theories/EvalLock.v
theories/PropEvalLock.v
theories/Train.v
theories/PropTrain.v
theories/PropTrain2.v
theories/EvalPlot.v
theories/PropEvalPlot.v
theories/EvalCom.v
theories/PropEvalCom.v
theories/Vis.v
theories/PropVis.v
theories/PropVis2.v
theories/PropExtra.v
theories/PropCompress.v
theories/PropFifo.v
theories/PropBalance.v
theories/Expanded.v
theories/PropExpanded.v
theories/Files.v
theories/PropFiles.v
theories/Scenario.v
theories/PropScenario.v
theories/PropScenario2.v
theories/Optimised.v
theories/OptProofs.v
theories/PropOptimised.v
theories/OptTotal.v
theories/PropOptimised2.v
theories/PropUnclean.v
theories/Rounded.v
theories/RoundedSpec.v
theories/RoundedProofs.v
theories/Rnd64.v
theories/PropRounded.v
theories/RndFlocq.v
theories/PropIeee.v
theories/RoundedFlow.v
theories/RoundedFlowProofs.v
theories/PropRoundedFlow.v
theories/BuilderTotal2.v
theories/PropTotal2.v
theories/PropReject.v
theories/RoundedBuilder.v
theories/RoundedBuilderSpec.v
theories/RoundedBuilderProofs.v
theories/RoundedBuilderRun.v
theories/PropRoundedBuilder.v
theories/PropDetails.v
theories/RoundedEvalProofs.v
theories/PropRoundedEval.v
theories/RoundedRates.v
theories/PropRoundedRates.v
theories/RoundedSplit.v
theories/RoundedSplitRun.v
theories/PropRoundedSplit.v
theories/EvalFiles.v
theories/PropEvalFiles.v
theories/RoundedRC.v
theories/PropRoundedRC.v
theories/TFNb.v
theories/PropTFNb.v
theories/RoundedPL.v
theories/PropRoundedPL.v
