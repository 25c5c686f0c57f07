-Q theories Verif

theories/Num.v
theories/Py.v
theories/MCompounding.v
theories/MPlans.v
theories/MInterpolation.v
theories/Spec.v
theories/LBase.v
theories/LCompounding.v
theories/PCompounding.v
theories/LPlans.v
theories/PPlans.v
theories/LSort.v
theories/SInterpolation.v
theories/LInterpolation.v
theories/LInterpolation2.v
theories/PInterpolation.v
theories/MDates.v
theories/MCurve.v
theories/MRateCurve.v
theories/SDates.v
theories/LDates.v
theories/PDates.v
theories/SCurve.v
theories/LCurve.v
theories/LCurve2.v
theories/PCurve.v
theories/LDateCurve.v
theories/PDateCurve.v
theories/LFuel.v
theories/SRateCurve.v
theories/LRateCurve.v
theories/LRateCurve2.v
theories/LRateCurve3.v
theories/LRateCurve4.v
theories/PRateCurve.v
theories/PRateCurve2.v
theories/LCredit.v
theories/PCredit.v
theories/LCivil.v
theories/SCast.v
theories/LCast.v
theories/PCast.v
theories/MFx.v
theories/SFx.v
theories/LFx.v
theories/PFx.v
theories/MTable.v
theories/STable.v
theories/LTable.v
theories/PTable.v
theories/LDateCurve2.v
theories/PDateCurve2.v
theories/MOption.v
theories/SOption.v
theories/LOption.v
theories/POption.v
theories/MCashflow.v
theories/SCashflow.v
theories/LCashflow.v
theories/PCashflow.v
theories/PCashflow2.v
theories/MBracket.v
theories/SBracket.v
theories/LBracket.v
theories/PBracket.v
theories/MPricer.v
theories/SPricer.v
theories/LPricer.v
theories/PPricer.v
theories/LPricer2.v
theories/PPricer2.v
theories/LPricer3.v
theories/PPricer3.v
theories/LMore.v
theories/PMore.v
theories/PMarginal.v
theories/SYield.v
theories/LYield.v
theories/LFair.v
theories/LAccrued.v
theories/PYield.v
theories/PFair.v
theories/PSetRate.v
theories/PAccrued.v
theories/SFit.v
theories/LFit.v
theories/PFit.v
theories/MProducts.v
theories/SProducts.v
theories/PProducts.v
theories/MDetails.v
theories/SDetails.v
theories/LDetails.v
theories/PDetails.v
theories/PDetails2.v
theories/MNested.v
theories/SNested.v
theories/LNested.v
theories/PNested.v
theories/LRepeated.v
theories/PRepeated.v
theories/SBootstrap.v
theories/LBootstrap.v
theories/PBootstrap.v
theories/PFitFail.v
theories/PBootstrapReturn.v
theories/LFitForward.v
theories/PFitForward.v
theories/PBootstrapForward.v
theories/PBootstrapSingle.v
theories/MKwargs.v
theories/LKwargs.v
theories/PKwargs.v
theories/LArith.v
theories/PArith.v
theories/MPlot.v
theories/PPlot.v
theories/PParity.v
theories/PParYield.v
theories/LCast2.v
theories/PCast2.v
theories/PCash.v
theories/MFloat.v
theories/SFloat.v
theories/LFloat.v
theories/PFloat.v
theories/PFloat2.v
theories/PBuckets.v
theories/PAtPar.v
theories/PDuration.v
theories/PVol.v
theories/SRound.v
theories/LRound.v
theories/LRound2.v
theories/PRound.v
theories/PRound2.v
theories/LRound3.v
theories/PRound3.v
theories/LRound4.v
theories/PRound4.v
theories/PForward.v
theories/MListArgs.v
theories/PListArgs.v
theories/LRound5.v
theories/PRound5.v
theories/PRound6.v
theories/PRound7.v
theories/SRound2.v
theories/LRound6.v
theories/PRound8.v
theories/MPlans2.v
theories/PPlans2.v
theories/SArbitrage.v
theories/LArbitrage.v
theories/PArbitrage.v
theories/PSeasoned.v
theories/SNormal.v
theories/LEnclose.v
theories/LSeries.v
theories/LNormal.v
theories/LGauss.v
theories/PNormal.v
theories/LExpect.v
theories/PExpect.v
theories/LGreeks.v
theories/PGreeks.v
theories/PStrikes.v
theories/LRound7.v
theories/PRound9.v
theories/LRound8.v
theories/LRound9.v
theories/PRound10.v
theories/LBump.v
theories/PBump.v
theories/PBinary.v
theories/PArith2.v
theories/PBuckets2.v
theories/LLip.v
theories/PImplied.v
theories/PCaps.v
theories/PNoModel.v
theories/PCapDelta.v
theories/PVega.v
theories/LCast3.v
theories/PShort.v
theories/SRound3.v
theories/LLibm.v
theories/LRound10.v
theories/PRound11.v
theories/LRound11.v
theories/LRound12.v
theories/PRound12.v
theories/PRound13.v
