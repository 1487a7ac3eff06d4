-Q theories Verif
theories/Base.v
theories/F64.v
theories/ModelApprox.v
theories/ModelUnits.v
theories/ModelConfig.v
theories/ModelGraph.v
theories/ModelBuild.v
theories/Lib.v
theories/ProofNodes.v
theories/ProofStages.v
theories/ProofBuild.v
theories/ProofGraph.v
theories/ProofApprox.v
theories/Spec.v
theories/ProofOrder.v
theories/ProofMetrics.v
theories/Examples.v
theories/ProofProps.v
theories/PropsGraph.v
theories/PropsApprox.v
theories/ModelDijkstra.v
theories/AbsSearch.v
theories/SpecRouting.v
theories/ProofDijkstra.v
theories/ProofRouting.v
theories/ExamplesRouting.v
theories/PropsRouting.v
theories/SpecPaths.v
theories/ProofPaths.v
theories/PropsPaths.v
theories/SpecGenerate.v
theories/ProofGenerate.v
theories/PropsGenerate.v
theories/ModelRoutingCfg.v
theories/SpecConfig.v
theories/PropsConfig.v
theories/ModelExplorator.v
theories/SpecExplorator.v
theories/ProofExplorator.v
theories/PropsExplorator.v
theories/ModelBalancing.v
theories/SpecBalancing.v
theories/ProofBalancing.v
theories/ProofWorkers.v
theories/PropsBalancing.v
theories/ModelText.v
theories/ProofText.v
theories/ModelStreets.v
theories/ModelParsing.v
theories/SpecStreets.v
theories/PropsStreets.v
theories/ModelFmi.v
theories/SpecFmi.v
theories/ProofFmi.v
theories/PropsFmi.v
theories/ModelRoutePairs.v
theories/SpecRoutePairs.v
theories/ProofRoutePairs.v
theories/PropsRoutePairs.v
theories/ModelWriting.v
theories/SpecWriting.v
theories/PropsWriting.v
theories/SpecRoundtrip.v
theories/ProofRoundtrip.v
theories/ProofRebuild.v
theories/PropsRoundtrip.v
theories/ModelHeap.v
theories/SpecHeap.v
theories/ProofHeap.v
theories/ProofHeapSearch.v
theories/PropsHeap.v
theories/PropsCopies.v
theories/PropsExploring.v
theories/PropsSpeeds.v
theories/SpecLines.v
theories/ProofLines.v
theories/PropsLines.v
theories/ModelStats.v
theories/PropsStats.v
theories/ModelSmarts.v
theories/PropsSmarts.v
theories/ModelEvaluating.v
theories/PropsMerge.v
theories/ModelLoop.v
theories/PropsLoop.v
theories/PropsContracted.v
theories/ModelYaml.v
theories/ModelDocs.v
theories/SpecDocs.v
theories/ProofDocs.v
theories/ProofDocs2.v
theories/ProofDocs3.v
theories/ProofDocs4.v
theories/ExamplesDocs.v
theories/PropsDocs.v
theories/ModelProgram.v
theories/SpecProgram.v
theories/ProofProgram.v
theories/ProofProgram2.v
theories/ExamplesProgram.v
theories/PropsProgram.v
theories/SpecRouted.v
theories/ProofNonneg.v
theories/ProofRouted.v
theories/PropsRouted.v
theories/SpecBalanced.v
theories/ProofBalanced.v
theories/PropsBalanced.v
theories/ProofTotal.v
theories/PropsTotal.v
theories/ModelAlgebra.v
theories/SpecCells.v
theories/ProofAlgebra.v
theories/ProofCells.v
theories/ProofCells2.v
theories/ProofCells3.v
theories/PropsCells.v
theories/ModelMultiCh.v
theories/SpecMultiCh.v
theories/PropsMultiCh.v
theories/AbsRounded.v
theories/ModelRounded.v
theories/SpecRounded.v
theories/ProofRounded.v
theories/ProofRoundedRun.v
theories/ProofRounding64.v
theories/ProofRoundedCosts.v
theories/ExamplesRounded.v
theories/PropsRounded.v
theories/ModelDisplay.v
theories/SpecDisplay.v
theories/ProofDisplay.v
theories/PropsDisplay.v
theories/ProofOverflow.v
theories/PropsOverflow.v
theories/ModelCmdline.v
theories/SpecCmdline.v
theories/ProofCmdline.v
theories/PropsCmdline.v
theories/ModelCompare.v
theories/PropsCompare.v
theories/ModelRoundedHeap.v
theories/SpecRoundedHeap.v
theories/ProofRoundedHeap.v
theories/ProofCompare64.v
theories/ProofGrid64.v
theories/PropsRoundedHeap.v
theories/ModelRoundedMetrics.v
theories/SpecRoundedMetrics.v
theories/ProofFactor64.v
theories/ProofRoundedMetrics.v
theories/ProofMonotone64.v
theories/ProofRoundedUpdate.v
theories/ProofRoundedUpdate2.v
theories/PropsRoundedMetrics.v
theories/SpecExploreEnds.v
theories/ProofExploreEnds.v
theories/ProofExploreEnds2.v
theories/ProofExploreEnds3.v
theories/PropsExploreEnds.v
theories/PropsExploreTotal.v
theories/PropsCellsCH.v
theories/SpecOsm.v
theories/ProofOsm.v
theories/ProofOsmBuild.v
theories/ProofOsmRide.v
theories/PropsOsm.v
theories/ModelRoundedBuild.v
theories/SpecRoundedBuild.v
theories/ProofRoundedBuild.v
theories/ProofRoundedBuild2.v
theories/ProofRoundedBuild3.v
theories/ProofRoundedOsm.v
theories/PropsRoundedBuild.v
theories/SpecRoundedGen.v
theories/ProofRoundedGen.v
theories/PropsRoundedGen.v
theories/ProofRoundedAny.v
theories/ModelRoundedExplorator.v
theories/SpecRoundedExplorator.v
theories/ProofRoundedExplorator.v
theories/ProofRoundedExploratorCosts.v
theories/PropsRoundedExplorator.v
theories/ProofRoundedEnds.v
theories/ProofRoundedExploreEnds.v
theories/PropsRoundedEnds.v
theories/ProofRoundedWorks.v
theories/ProofRoundedExploreWorks.v
theories/PropsRoundedAnswers.v
theories/SpecRoundedFound.v
theories/ProofRoundedFound.v
theories/PropsRoundedFound.v
theories/ModelRoundedBalancing.v
theories/SpecRoundedBalancing.v
theories/ProofRoundedBalancing.v
theories/PropsRoundedBalancing.v
theories/ModelRoundedStats.v
theories/SpecRoundedStats.v
theories/ProofRoundedStats.v
theories/PropsRoundedStats.v
theories/SpecRoundedAgain.v
theories/ProofRoundedAgain.v
theories/PropsRoundedAgain.v
theories/PropsRoundedUnits.v
