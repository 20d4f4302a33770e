-Q theories Verif
theories/Ariths.v
theories/Base.v
theories/Envs.v
theories/ModelAlias.v
theories/ModelBoot.v
theories/ModelCache.v
theories/ModelCalls.v
theories/ModelCurves.v
theories/ModelData.v
theories/ModelDummy.v
theories/ModelFrames.v
theories/ModelIO.v
theories/ModelKdeHeap.v
theories/ModelKeywords.v
theories/ModelMono.v
theories/ModelMultinest.v
theories/ModelNames.v
theories/ModelNan.v
theories/ModelNanData.v
theories/ModelParallel.v
theories/ModelPlotKeywords.v
theories/ModelPlots.v
theories/ModelReal.v
theories/ModelRound.v
theories/ModelRun.v
theories/ModelStats.v
theories/ModelStatsFile.v
theories/ModelTableKeywords.v
theories/ModelText.v
theories/ModelUnits.v
theories/ModelWidth.v
theories/ModelWrite.v
theories/ProofBase.v
theories/ProofBirth.v
theories/ProofBoot.v
theories/ProofBounds.v
theories/ProofComb.v
theories/ProofDead.v
theories/ProofDet.v
theories/ProofDict.v
theories/ProofDummy.v
theories/ProofDummy2.v
theories/ProofDynesty.v
theories/ProofFrames.v
theories/ProofIO.v
theories/ProofInterp.v
theories/ProofJoin.v
theories/ProofLimit.v
theories/ProofLow.v
theories/ProofMonad.v
theories/ProofMono.v
theories/ProofMulti.v
theories/ProofNames.v
theories/ProofNanData.v
theories/ProofNinit.v
theories/ProofParallel.v
theories/ProofProcess.v
theories/ProofReal.v
theories/ProofRound.v
theories/ProofRun.v
theories/ProofRuns.v
theories/ProofStarts.v
theories/ProofStats.v
theories/ProofStatsFile.v
theories/ProofThreads.v
theories/ProofThreads2.v
theories/ProofTies.v
theories/ProofUnits.v
theories/ProofWrite.v
theories/PropAlias.v
theories/PropBirth.v
theories/PropBoot.v
theories/PropBounds.v
theories/PropCache.v
theories/PropCalls.v
theories/PropChance.v
theories/PropCheck.v
theories/PropCombine.v
theories/PropCurves.v
theories/PropCurves2.v
theories/PropDummy.v
theories/PropErrRuns.v
theories/PropErrTable.v
theories/PropErrors.v
theories/PropErrors2.v
theories/PropEstimators.v
theories/PropFrames.v
theories/PropGainTable.v
theories/PropGroups.v
theories/PropIO.v
theories/PropIO2.v
theories/PropInputs.v
theories/PropJoin.v
theories/PropKde.v
theories/PropKde2.v
theories/PropKdeHeap.v
theories/PropKeywords.v
theories/PropLimit.v
theories/PropMono.v
theories/PropMultinest.v
theories/PropNames.v
theories/PropNames2.v
theories/PropNan.v
theories/PropNanData.v
theories/PropNest.v
theories/PropPaper.v
theories/PropParallel.v
theories/PropPlotKeywords.v
theories/PropPlots.v
theories/PropPlots2.v
theories/PropPlots3.v
theories/PropProcess.v
theories/PropRound.v
theories/PropSamplers.v
theories/PropShrink.v
theories/PropSpread.v
theories/PropStarts.v
theories/PropStatsFile.v
theories/PropStatsFile2.v
theories/PropStatsFile3.v
theories/PropSummary.v
theories/PropTableKeywords.v
theories/PropTables.v
theories/PropTables2.v
theories/PropText.v
theories/PropThreads.v
theories/PropThreads2.v
theories/PropUnits.v
theories/PropVolume.v
theories/PropWeights.v
theories/PropWidth.v
theories/PropWrite.v
theories/Spec.v
theories/SpecReal.v
theories/SpecRun.v
