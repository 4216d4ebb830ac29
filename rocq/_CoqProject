-Q theories Verif
theories/Num.v
theories/NpList.v
theories/NpListFacts.v
theories/Exn.v
theories/Mpi.v
theories/ModelMpiUtils.v
theories/ModelCatalog.v
theories/ModelIO.v
theories/ModelInputCont.v
theories/ModelFitQueue.v
theories/SpecCatalog.v
theories/ProofBalance.v
theories/ProofGroup.v
theories/ProofCatalog.v
theories/ProofIO.v
theories/ProofIO2.v
theories/Examples1.v
theories/ProofDistribution.v
theories/PropDistribution.v
theories/ModelSubsample.v
theories/SpecSubsample.v
theories/ProofMpi.v
theories/ProofSubsample.v
theories/ProofSubsample2.v
theories/PropSubsample.v
theories/ModelInterp.v
theories/SpecInterp.v
theories/ProofInterp.v
theories/ProofSpline.v
theories/ProofSplineNak.v
theories/PropInterp.v
theories/Dict.v
theories/ModelSpectrum.v
theories/ModelMasks.v
theories/SpecSpectrum.v
theories/ProofSpectrum1.v
theories/ProofSpectrum2.v
theories/ProofMasks.v
theories/PropSpectrum.v
theories/SpecMasks.v
theories/ProofMasks2.v
theories/SpecDrop.v
theories/ProofDrop.v
theories/ProofMasks3.v
theories/PropMasks.v
theories/ModelFitArgs.v
theories/SpecWeights.v
theories/ProofWeights.v
theories/SpecCoadd.v
theories/ProofCoadd.v
theories/ProofCoadd2.v
theories/ProofCoadd3.v
theories/ProofWeights2.v
theories/PropWeights.v
theories/ModelDelta.v
theories/SpecDelta.v
theories/ProofDelta1.v
theories/ProofDelta2.v
theories/ProofDelta3.v
theories/ProofDelta4.v
theories/PropDelta.v
theories/ModelBlinding.v
theories/SpecFit.v
theories/ProofFit.v
theories/PropFit.v
theories/ModelExposures.v
theories/SpecExposures.v
theories/ProofExposures.v
theories/ProofExposures2.v
theories/ProofExposures3.v
theories/PropExposures.v
theories/ModelSmooth.v
theories/SpecSmooth.v
theories/ProofSmooth.v
theories/PropSmooth.v
theories/ModelStack.v
theories/SpecStack.v
theories/ProofStack.v
theories/PropStack.v
theories/ProofMpi2.v
theories/ModelVarFit.v
theories/SpecVarFit.v
theories/ProofVarFit.v
theories/ProofVarFit2.v
theories/ProofVarKeep.v
theories/ProofVarFit3.v
theories/ProofVarFit4.v
theories/PropVarFit.v
theories/ModelContinuum.v
theories/SpecContinuum.v
theories/ProofContinuum.v
theories/PropContinuum.v
theories/ModelFitter.v
theories/SpecMeanCont.v
theories/ProofMeanCont.v
theories/ProofConverge.v
theories/PropMeanCont.v
theories/SpecMpi.v
theories/ProofLock.v
theories/ProofSafe.v
theories/ProofFitter.v
theories/SpecFinal.v
theories/ProofFinal.v
theories/PropFitter.v
theories/ModelPipeline.v
theories/ProofCat.v
theories/ProofPipeline.v
theories/SpecPipeline.v
theories/ProofPipeline2.v
theories/PropPipeline.v
theories/ModelCalib.v
theories/SpecCalib.v
theories/ProofCalib.v
theories/ProofCalib2.v
theories/ProofCalib3.v
theories/ProofCalib4.v
theories/ProofCalib5.v
theories/ProofCalib6.v
theories/PropCalib.v
theories/SpecUpdate.v
theories/ProofUpdate.v
theories/ProofUpdate2.v
theories/ProofUpdate3.v
theories/PropUpdate.v
theories/ModelCost.v
theories/SpecCost.v
theories/ProofCost.v
theories/ProofCost2.v
theories/ProofCost3.v
theories/PropCost.v
theories/ModelDla.v
theories/ProofDla.v
theories/PropDla.v
theories/ModelChi2.v
theories/SpecChi2.v
theories/ProofChi2.v
theories/PropChi2.v
theories/SpecReso.v
theories/ProofReso.v
theories/PropReso.v
theories/SpecSnr.v
theories/ProofSnr.v
theories/PropSnr.v
theories/ModelMeanReso.v
theories/SpecMeanReso.v
theories/ProofMeanReso.v
theories/PropMeanReso.v
theories/ModelFft.v
theories/SpecFft.v
theories/ProofFft.v
theories/PropFft.v
theories/SpecSelect.v
theories/ProofSelect.v
theories/PropSelect.v
theories/ModelTables.v
theories/SpecTables.v
theories/ProofTables.v
theories/PropTables.v
theories/ModelAttributes.v
theories/SpecAttributes.v
theories/ProofAttributes.v
theories/PropAttributes.v
theories/SpecRanks.v
theories/ProofRanks.v
theories/ProofRanks2.v
theories/ProofRanks3.v
theories/ProofRanks4.v
theories/ProofRanks5.v
theories/ProofRanks6.v
theories/PropRanks.v
theories/SpecComplete.v
theories/ProofComplete.v
theories/PropComplete.v
theories/SpecPixels.v
theories/ProofPixels1.v
theories/ProofPixels2.v
theories/ProofPixels3.v
theories/ProofPixels4.v
theories/ProofPixels5.v
theories/ProofPixels7.v
theories/ProofPixels6.v
theories/ProofPixels8.v
theories/ProofPixels9.v
theories/SpecSource.v
theories/ProofSource1.v
theories/ProofSource2.v
theories/ProofSource3.v
theories/ProofSource4.v
theories/ProofSource5.v
theories/PropPixels.v
theories/PropSource.v
theories/ProofRunWeights.v
theories/ProofRunWeights2.v
theories/PropRunWeights.v
theories/ProofWeightTables.v
theories/ProofWeightTables2.v
theories/PropWeightTables.v
theories/ModelChi2Run.v
theories/SpecChi2Run.v
theories/ProofChi2Run.v
theories/ProofChi2Run2.v
theories/ProofChi2Run3.v
theories/PropChi2Run.v
theories/SpecContTables.v
theories/ProofContTables.v
theories/ProofContTables2.v
theories/PropContTables.v
theories/SpecMemory.v
theories/ProofMemory.v
theories/ProofMemory2.v
theories/ProofMemory3.v
theories/ProofMemory4.v
theories/ProofMemory5.v
theories/PropMemory.v
theories/SpecCoefs.v
theories/ProofCoefs.v
theories/ProofCoefs2.v
theories/PropCoefs.v
theories/SpecNumQso.v
theories/ProofNumQso.v
theories/PropNumQso.v
theories/SpecSnrCut.v
theories/ProofSnrCut.v
theories/ProofSnrCut2.v
theories/PropSnrCut.v
