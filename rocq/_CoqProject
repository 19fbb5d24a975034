-Q theories Verif
theories/Base.v
theories/Num.v
theories/Argsort.v
theories/MMpi.v
theories/PMpi.v
theories/TMpi.v
theories/MPool.v
theories/PPool.v
theories/PPool2.v
theories/PPool3.v
theories/PPool4.v
theories/SPool.v
theories/PPool5.v
theories/PPool6.v
theories/TPool.v
theories/MTools.v
theories/STools.v
theories/PTools.v
theories/TTools.v
theories/MTruth.v
theories/TTruth.v
theories/MConv.v
theories/SConv.v
theories/PConv.v
theories/TConv.v
theories/MPreproc.v
theories/PPreproc.v
theories/TPreproc.v
theories/MSvm.v
theories/SSvm.v
theories/PSvm.v
theories/TSvm.v
theories/MGpr.v
theories/SGpr.v
theories/PGpr.v
theories/PGpr2.v
theories/PGpr3.v
theories/PGpr4.v
theories/TGpr.v
theories/TGpr2.v
theories/TGpr3.v
theories/TGpr4.v
theories/MPredict.v
theories/TPredict.v
theories/MCopy.v
theories/TCopy.v
theories/TPredict2.v
theories/TTotal.v
theories/MHyper.v
theories/SHyper.v
theories/PHyper.v
theories/THyper.v
theories/MKernel.v
theories/SKernel.v
theories/PKernel.v
theories/TKernel.v
theories/MAcqFunc.v
theories/SAcqFunc.v
theories/TAcqFunc.v
theories/MRun.v
theories/SRun.v
theories/PRun.v
theories/PInit.v
theories/TInit.v
theories/TRun.v
theories/TFit.v
theories/TOptions.v
theories/MRunData.v
theories/TRunData.v
theories/MMc.v
theories/TMc.v
theories/MNs.v
theories/TNs.v
theories/MIo.v
theories/TIo.v
theories/MProgress.v
theories/TProgress.v
theories/MProposal.v
theories/TProposal.v
theories/MBatch.v
theories/TBatch.v
theories/MNora.v
theories/PNora.v
theories/PNora2.v
theories/TNora.v
theories/MLinAlg.v
theories/SLinAlg.v
theories/PLinAlg.v
theories/PGp.v
theories/PGp2.v
theories/TLinAlg.v
theories/PPsd.v
theories/PPsd2.v
theories/PPsd3.v
theories/MWhite.v
theories/TPsd.v
theories/MGrad.v
theories/PGrad.v
theories/TGrad.v
theories/MNsPrec.v
theories/TNsPrec.v
theories/MColl.v
theories/PColl.v
theories/TColl.v
theories/MPar.v
theories/TPar.v
theories/MNoraPar.v
theories/TNoraPar.v
theories/MRefit.v
theories/TRefit.v
theories/MWhiten.v
theories/SWhiten.v
theories/PWhiten.v
theories/TWhiten.v
theories/TBatchIn.v
theories/MObjective.v
theories/TObjective.v
theories/MNonlinear.v
theories/TNonlinear.v
theories/MAcqHyper.v
theories/TAcqHyper.v
theories/SDet.v
theories/PDet.v
theories/MKl.v
theories/PKl.v
theories/TKl.v
theories/TDiag.v
theories/MReuse.v
theories/MReweight.v
theories/TReuse.v
theories/MTrust.v
theories/TTrust.v
theories/MCredible.v
theories/SCredible.v
theories/PCredible.v
theories/TCredible.v
theories/MBuild.v
theories/TBuild.v
theories/TBuildRun.v
theories/MCobaya.v
theories/TCobaya.v
theories/MSlices.v
theories/TSlices.v
theories/MPlots.v
theories/TPlots.v
theories/MSeed.v
theories/TSeed.v
theories/MResume.v
theories/TResume.v
theories/MFloat.v
theories/PFloat.v
theories/TFloat.v
theories/MUnits.v
theories/SUnits.v
theories/PUnits.v
theories/PUnits2.v
theories/PUnits3.v
theories/TUnits.v
theories/TUnits2.v
theories/SUnitsRun.v
theories/PUnitsRun.v
theories/TUnitsRun.v
theories/MLml.v
theories/POrder.v
theories/POrder2.v
theories/POrder3.v
theories/SOrder.v
theories/POrder4.v
theories/POrder5.v
theories/POrder6.v
theories/SLml.v
theories/TOrder.v
theories/TOrder2.v
theories/PLaws.v
theories/SLaws.v
theories/PLaws2.v
theories/TLaws.v
theories/PLaws3.v
theories/TLaws2.v
theories/MLie.v
theories/TLie.v
theories/MReport.v
theories/TReport.v
theories/MDiagCb.v
theories/TDiagCb.v
theories/TEvals.v
theories/MRef.v
theories/TRef.v
theories/TReturns.v
theories/MParams.v
theories/TParams.v
theories/MOwn.v
theories/TOwn.v
theories/MKernObj.v
theories/TKernObj.v
theories/MFloatY.v
theories/TFloatY.v
theories/MFloatN.v
theories/TFloatN.v
theories/MKlMc.v
theories/TKlMc.v
theories/MNpErr.v
theories/TNpErr.v
theories/MRepro.v
theories/TRepro.v
theories/SDirect.v
theories/PDirect.v
theories/TDirect.v
theories/SAxes.v
theories/PAxes.v
theories/PAxesDet.v
theories/TAxes.v
theories/TAxesKl.v
theories/TAxesNum.v
theories/MCritSave.v
theories/TCritSave.v
theories/MNsRun.v
theories/TNsRun.v
theories/MCopySeed.v
theories/TCopySeed.v
theories/MNsNames.v
theories/TNsNames.v
theories/MFloatC.v
theories/TFloatC.v
theories/MCbSample.v
theories/TCbSample.v
theories/MNsFile.v
theories/TNsFile.v
theories/MMeanCov.v
theories/TMeanCov.v
theories/MRunFns.v
theories/TRunFns.v
theories/MAcqEvals.v
theories/TAcqEvals.v
theories/MPlotConv.v
theories/TPlotConv.v
theories/MPlotRun.v
theories/TPlotRun.v
theories/MCorner.v
theories/TCorner.v
theories/MTruthGet.v
theories/TTruthGet.v
theories/MKlMcmc.v
theories/TKlMcmc.v
theories/MShareConv.v
theories/TShareConv.v
theories/MNoraDir.v
theories/TNoraDir.v
theories/MResumeIt.v
theories/TResumeIt.v
