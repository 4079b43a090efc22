-Q theories Verif
theories/Base.v
theories/TunerModel.v
theories/TunerFloatModel.v
theories/SpecTuner.v
theories/TunerObs.v
theories/TunerProofs.v
theories/TunerRunProofs.v
theories/TunerFloatProofs.v
theories/SolveModel.v
theories/SolveObs.v
theories/SolveProofs.v
theories/PropTuner.v
theories/FitModel.v
theories/SpecFit.v
theories/FitProofs.v
theories/FitEventProofs.v
theories/FitRunProofs.v
theories/FitMainProofs.v
theories/FitTimeProofs.v
theories/FitTraceProofs.v
theories/PropFit.v
theories/Lp.v
theories/LpProofs.v
theories/SpecDual.v
theories/DualProofs.v
theories/BdrModel.v
theories/SpecBdr.v
theories/BdrProofs.v
theories/BdrLpProofs.v
theories/BdrPricingProofs.v
theories/BdrSubmipProofs.v
theories/BdrRuleProofs.v
theories/FitHoareProofs.v
theories/FitInvProofs.v
theories/BdrFitModel.v
theories/BdrRunProofs.v
theories/BdrCertProofs.v
theories/LpCheck.v
theories/BdrWitness.v
theories/PropBdr.v
theories/PropBdrRun.v
theories/TreeModel.v
theories/SpecTree.v
theories/TreeGeoProofs.v
theories/TreePathProofs.v
theories/TreeLpBuild.v
theories/TreeBuildProofs.v
theories/TreeGenProofs.v
theories/TreeInvProofs.v
theories/TreeOpProofs.v
theories/TreeCutProofs.v
theories/TreeFormProofs.v
theories/SpecTreeRun.v
theories/TreeRunProofs.v
theories/TreeMasterProofs.v
theories/PropTree.v
theories/PropTreeMaster.v
theories/SpecTreeLp.v
theories/TreeLpProofs.v
theories/TreeReachProofs.v
theories/TreeSolProofs.v
theories/TreeCheck.v
theories/PropTreeLp.v
theories/SpecTreePrice.v
theories/TreePricingModel.v
theories/TreePriceProofs.v
theories/TreeHeurProofs.v
theories/PropTreePrice.v
theories/TreeSymProofs.v
theories/TreeSubmipProofs.v
theories/TreeDecodeProofs.v
theories/TreeMipProofs.v
theories/LpBrute.v
theories/SpecTreeMip.v
theories/TreeColsProofs.v
theories/TreeFedProofs.v
theories/PropTreeMip.v
theories/TreeCertProofs.v
theories/PropTreeCert.v
theories/TreeFitModel.v
theories/SpecTreeFit.v
theories/TreeInitProofs.v
theories/PropTreeFit.v
theories/ExpModel.v
theories/SpecExp.v
theories/ExpSplitProofs.v
theories/ExpCartProofs.v
theories/ExpReduceProofs.v
theories/ExpPathProofs.v
theories/PropExp.v
theories/ExpRowProofs.v
theories/ExpQuadProofs.v
theories/ExpPreprocessProofs.v
theories/SpecRows.v
theories/TreeAggrProofs.v
theories/RowsProofs.v
theories/PropExpRows.v
theories/PropRows.v
theories/SpecTreeTrain.v
theories/TreeBudgetProofs.v
theories/TreeTrainProofs.v
theories/TreeTrainInvProofs.v
theories/TreeTrainCertProofs.v
theories/TreeHonestProofs.v
theories/PropTreeTrain.v
theories/SpecTreeResult.v
theories/TreeResultProofs.v
theories/TreeOutcomeProofs.v
theories/PropTreeResult.v
theories/SpecPrep.v
theories/PrepMergeProofs.v
theories/PrepNodesProofs.v
theories/PrepPathsProofs.v
theories/PrepProofs.v
theories/PrepTrainProofs.v
theories/PrepCartProofs.v
theories/ExpCheck.v
theories/PropPrep.v
theories/ExpMainModel.v
theories/SpecSingle.v
theories/SingleProofs.v
theories/SpecMain.v
theories/MainProofs.v
theories/MainColumnProofs.v
theories/PropMain.v
theories/PropSingle.v
theories/SpareModel.v
theories/PropSpare.v
theories/SpecCut.v
theories/PropCut.v
theories/SpecQuad.v
theories/PropQuad.v
theories/SpecReport.v
theories/TimelineProofs.v
theories/CutCountProofs.v
theories/CutPaceProofs.v
theories/PropTimes.v
theories/PropReport.v
theories/ScriptModel.v
theories/SpecScript.v
theories/PropScript.v
theories/PropData.v
theories/PropFile.v
theories/ParamsModel.v
theories/SpecParams.v
theories/ParamsProofs.v
theories/PropParams.v
theories/ReuseModel.v
theories/ReuseProofs.v
theories/PropReuse.v
theories/LifeModel.v
theories/SpecLife.v
theories/LifeProofs.v
theories/PropLife.v
theories/TreeRefitProofs.v
theories/PropTreeRefit.v
theories/CutTimeModel.v
theories/SpecCutTime.v
theories/CutTimeProofs.v
theories/PropCutTime.v
theories/SpecTuned.v
theories/TunedProofs.v
theories/PropTuned.v
theories/TreeSettleProofs.v
theories/PropSettle.v
theories/SpecTwin.v
theories/RelProofs.v
theories/TwinProofs.v
theories/PropTwin.v
theories/SpecMore.v
theories/MoreProofs.v
theories/PropMore.v
theories/MoreRuleProofs.v
theories/PropMoreRules.v
theories/PropMoreNeeded.v
theories/PropSettleNeeded.v
theories/RuleBoundProofs.v
theories/PropRuleBound.v
theories/PropRuleBoundNeeded.v
theories/SpecRival.v
theories/PropRival.v
theories/SpecRuleRows.v
theories/RuleRowsProofs.v
theories/PropRuleRows.v
theories/SpecSubset.v
theories/PropSubset.v
theories/PropMerged.v
