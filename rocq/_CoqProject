-Q theories Verif
theories/Base.v
theories/BaseFacts.v
theories/MathModel.v
theories/Spec.v
theories/MathFacts.v
theories/MathTotal.v
theories/PropsMath.v
theories/Structure.v
theories/StructureFacts.v
theories/PropsStructure.v
theories/Params.v
theories/Features.v
theories/Elements.v
theories/System.v
theories/Library.v
theories/Example.v
theories/SysSpec.v
theories/CtxFacts.v
theories/ReadTools.v
theories/InvestFacts.v
theories/OnOffFacts.v
theories/OnOffLaws.v
theories/OnOffAdmits.v
theories/FlowFacts.v
theories/NavFacts.v
theories/ExamplePoints.v
theories/CompFacts.v
theories/SegFacts.v
theories/BusFacts.v
theories/FlowAdmits.v
theories/PropsFlow.v
theories/PropsOnOff.v
theories/PropsComp.v
theories/ShareFacts.v
theories/EffectFacts.v
theories/EffectLaws.v
theories/PropsEffects.v
theories/Series.v
theories/PropsSeries.v
theories/PropsLife.v
theories/Config.v
theories/PropsConfig.v
theories/Register.v
theories/PropsRegister.v
theories/Tree.v
theories/PropsTree.v
theories/Values.v
theories/PropsValues.v
theories/Results.v
theories/ResultFacts.v
theories/PropsResults.v
theories/Segmented.v
theories/PropsRepeat.v
theories/SegmentedFacts.v
theories/PropsSegmented.v
theories/Skeleton.v
theories/PropsCombined.v
theories/PropsTrace.v
theories/Aggregation.v
theories/PropsAggregation.v
theories/ClosedFacts.v
theories/PropsClosed.v
theories/AggSpec.v
theories/AggFacts.v
theories/PropsAggModel.v
theories/SharedDicts.v
theories/PropsShared.v
theories/TimeAxis.v
theories/PropsTimeAxis.v
theories/AdmitSpec.v
theories/AdmitFacts.v
theories/InvestAdmits.v
theories/SegAdmits.v
theories/AdmitNav.v
theories/PropsAdmits.v
theories/PropsOptional.v
theories/GlueFacts.v
theories/ShareAdmits.v
theories/EffectAdmits.v
theories/CompAdmits.v
theories/PlanSpec.v
theories/SegWitness.v
theories/PlanPieces.v
theories/PlanComp.v
theories/PlanOwn.v
theories/PlanEffects.v
theories/PlanSys.v
theories/PlanSound.v
theories/PlanSame.v
theories/PlanCheck.v
theories/PropsPlan.v
theories/PropsAdmitSeg.v
theories/BinFacts.v
theories/TieSpec.v
theories/AggBack.v
theories/PropsAggExact.v
theories/PropsSegLaws.v
theories/PropsSegRuns.v
theories/Tables.v
theories/PropsTables.v
theories/MainResults.v
theories/MainFacts.v
theories/PropsMain.v
theories/Network.v
theories/PropsNetwork.v
theories/OrderFacts.v
theories/OrderBuild.v
theories/PropsOrder.v
theories/NameSpec.v
theories/NameFacts.v
theories/TotalFacts.v
theories/TotalFeatures.v
theories/TotalInvest.v
theories/TotalOnOff.v
theories/TotalShares.v
theories/TotalEffects.v
theories/TotalFlows.v
theories/TotalComps.v
theories/ValidSpec.v
theories/TotalSystem.v
theories/ValidCheck.v
theories/PropsTotal.v
theories/SegTotal.v
theories/PropsSegTotal.v
theories/PropsRelax.v
theories/LenFacts.v
theories/TotalAgg.v
theories/PropsAggAccept.v
theories/Collect.v
theories/DataSpec.v
theories/CollectFacts.v
theories/CollectValid.v
theories/CollectNames.v
theories/CollectTotal.v
theories/PropsCollect.v
theories/Plotting.v
theories/PropsPlots.v
theories/PropsIdle.v
theories/PropsSameData.v
theories/PropsWindow.v
theories/Infos.v
theories/InfoFacts.v
theories/PropsInfos.v
theories/PropsRename.v
theories/Files.v
theories/FilesFacts.v
theories/PropsFiles.v
theories/PropsParts.v
theories/SolverLog.v
theories/PropsSolverLog.v
theories/PropsUnits.v
theories/PropsMix.v
theories/Compact.v
theories/PropsCompact.v
theories/PropsSegWorse.v
theories/PlotOps.v
theories/PropsPlotOps.v
theories/PropsPrices.v
theories/PropsSegBest.v
theories/Solving.v
theories/PropsSolving.v
theories/Attain.v
theories/PropsOptimum.v
theories/PropsBest.v
theories/Draw.v
theories/PropsDraw.v
theories/PropsBetween.v
theories/LogOut.v
theories/PropsLogOut.v
theories/PropsEnergy.v
theories/PropsFiner.v
theories/ClusterReport.v
theories/PropsClusterReport.v
theories/PropsCoarser.v
theories/Checks.v
theories/PropsChecks.v
theories/PropsNames.v
theories/ElementSize.v
theories/PropsElementSize.v
theories/SolveLog.v
theories/PropsSolveLog.v
theories/FlowInit.v
theories/PropsFlowInit.v
