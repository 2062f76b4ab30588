-Q theories Verif
theories/Arith.v
theories/Vec.v
theories/Broadcast.v
theories/PBroadcast.v
theories/ModelCalc.v
theories/ModelEll.v
theories/ModelStable.v
theories/ModelCut.v
theories/ModelInt.v
theories/ModelSpaces.v
theories/ModelLdlt.v
theories/ModelLmi.v
theories/SpecFloating.v
theories/SpecFloatSigns.v
theories/PFloat.v
theories/PFloatEll.v
theories/PFloatSign.v
theories/PFloatCalc.v
theories/PFloatErr.v
theories/PFloatPar.v
theories/PFloatCut.v
theories/PFloatCut2.v
theories/PFloatAcc.v
theories/PFloatStable.v
theories/PFloatStable2.v
theories/PFloatStable3.v
theories/PFloatZero.v
theories/PFloatAcc2.v
theories/PFloatAcc3.v
theories/PFloatAcc4.v
theories/PFloatAcc5.v
theories/PFloatPar3.v
theories/PFloatPar4.v
theories/PFloatSigns.v
theories/PFloatBs.v
theories/PFloatEx.v
theories/PFloatEx2.v
theories/PFloatPar2.v
theories/PFloatEx3.v
theories/PFloatSigns2.v
theories/PMisfitEx.v
theories/PropMisfit.v
theories/PropFloat.v
theories/FloatTests.v
theories/Spec.v
theories/PSum.v
theories/ModelHeap.v
theories/SpecDrivers.v
theories/PDrivers.v
theories/PDrivers2.v
theories/PBsInt.v
theories/PBigInt.v
theories/SpecReplay.v
theories/PReplay.v
theories/PHeap.v
theories/SpecHeap.v
theories/Toy.v
theories/ToyReplay.v
theories/PropReplay.v
theories/SpecDet.v
theories/PDet.v
theories/PVolume.v
theories/PVolume2.v
theories/PDet2.v
theories/PMinVol.v
theories/PMinVol2.v
theories/PMinVolEx.v
theories/PropVolume.v
theories/PDriversP.v
theories/PHeap2.v
theories/ModelHeapQ.v
theories/PHeapQ.v
theories/PHeapQEx.v
theories/PropHeap.v
theories/PropDrivers.v
theories/PropBigInt.v
theories/SpecCut.v
theories/PAlg.v
theories/PVol.v
theories/PCalc.v
theories/PCalc2.v
theories/PCalc3.v
theories/PCalc4.v
theories/PCalcEx.v
theories/PropCalc.v
theories/PVec.v
theories/PGeo.v
theories/PCalc5.v
theories/SpecEll.v
theories/PEll.v
theories/PEll2.v
theories/PEll3.v
theories/PEllEx.v
theories/PropEll.v
theories/SpecSearch.v
theories/PTarget.v
theories/PSearch.v
theories/PSearchEx.v
theories/PropSearch.v
theories/SpecStable.v
theories/PStable.v
theories/PStable2.v
theories/PStableLen.v
theories/SpecMisfit.v
theories/PMisfit.v
theories/PStable3.v
theories/PStable4.v
theories/PStable5.v
theories/PSearchStable.v
theories/PStableEx.v
theories/PropStable.v
theories/PLdlt.v
theories/PLdlt2.v
theories/SpecLdlt.v
theories/PLdlt3.v
theories/PLdlt4.v
theories/PLdlt5.v
theories/PLdltEx.v
theories/PropLdlt.v
theories/PLmi.v
theories/PLmi2.v
theories/PLmi3.v
theories/PropLmi.v
theories/ModelSkel.v
theories/SpecSkel.v
theories/PSkel.v
theories/ModelSpectral.v
theories/SpecSpectral.v
theories/PSpectral.v
theories/ModelCG.v
theories/SpecCG.v
theories/PCG.v
theories/PCG2.v
theories/PMiscEx.v
theories/PropMisc.v
theories/ModelProfit.v
theories/SpecProfit.v
theories/PProfit.v
theories/PProfit2.v
theories/PProfit5.v
theories/PProfit3.v
theories/PProfitEx.v
theories/PropProfit.v
theories/ModelLowpass.v
theories/SpecLowpass.v
theories/PLowpass.v
theories/PLowpass2.v
theories/PLowpassEx.v
theories/PLowpass3.v
theories/PLowpassBeyond.v
theories/PLowpassEmpty.v
theories/PropLowpass.v
theories/SpecConverge.v
theories/PConv.v
theories/PConv2.v
theories/PConv3.v
theories/PLowpass4.v
theories/PLmi4.v
theories/PProfit4.v
theories/PConvEx.v
theories/PropConverge.v
theories/PProfit4Ex.v
theories/ModelFactor.v
theories/PFourier.v
theories/PFactor.v
theories/PFactor2.v
theories/PFactor3.v
theories/PFactorEx.v
theories/PLogSeries.v
theories/PFactor4.v
theories/PFactor4Ex.v
theories/PropFactor.v
theories/PropConverge2.v
theories/PAdaptor.v
theories/PAdaptorEx.v
theories/PropAdaptor.v
theories/ModelPower.v
theories/SpecPower.v
theories/PPower.v
theories/PPower2.v
theories/PPower3.v
theories/PPower4.v
theories/PPowerEx.v
theories/PropPower.v
theories/ModelDraft.v
theories/SpecDraft.v
theories/PDraft.v
theories/PDraftEx.v
theories/ModelDraftCalc.v
theories/SpecDraftCalc.v
theories/PDraftCalc.v
theories/PropDraftCalc.v
theories/PropDraft.v
theories/PFloatLdlt.v
theories/PFloatLdlt2.v
theories/PFloatLdlt3.v
theories/SpecFloatLdlt.v
theories/PFloatLdlt4.v
theories/PFloatLdlt5.v
theories/PFloatLmi.v
theories/PFloatLdltEx.v
theories/PropFloatLdlt.v
theories/PropFloatSigns.v
theories/PFloatCG.v
theories/PropFloatCG.v
theories/PropFloatPar.v
