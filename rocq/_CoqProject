-Q theories Verif
theories/Num.v
theories/XReal.v
theories/XRealLemmas.v
theories/MApi.v
theories/ApiFacts.v
theories/MLinalg.v
theories/MAssertions.v
theories/MAngles.v
theories/MKepler.v
theories/MStumpff.v
theories/MElements.v
theories/MVallado.v
theories/MGauss.v
theories/Spec.v
theories/VecFacts.v
theories/UniversalKepler.v
theories/LambertUV.v
theories/SpecLambert.v
theories/LambertRev.v
theories/StumpffXR.v
theories/VecXR.v
theories/AnglesXR.v
theories/Loops.v
theories/CallXR.v
theories/ValladoGen.v
theories/ValladoXR.v
theories/PropertiesAngles.v
theories/PropertiesMotion.v
theories/PropertiesInput.v
theories/PropertiesRegistry.v
theories/MIzzo.v
theories/MBattin.v
theories/MScipy.v
theories/MArora.v
theories/MDelatorre.v
theories/MGooding.v
theories/MJiang.v
theories/MPan.v
theories/MDer.v
theories/MThorne.v
theories/MAvanzini.v
theories/MComplex.v
theories/MMcelreath.v
theories/MNegrete.v
theories/MInit.v
theories/FloatNum.v
theories/FloatExec.v
theories/FloatRunsZeroRev.v
theories/FloatRunsMultiRev.v
theories/Godal.v
theories/GodalXR.v
theories/GodalIzzo.v
theories/GodalMore.v
theories/GodalPan.v
theories/OrbitXR.v
theories/PropertiesOrbit.v
theories/PropertiesUnique.v
theories/PropertiesGauss.v
theories/SpecElements.v
theories/ElementsXR.v
theories/PropertiesElements.v
theories/AvanziniXR.v
theories/KeplerXR.v
theories/PropertiesKepler.v
theories/PropertiesAvanzini.v
theories/PropertiesFlags.v
theories/PropertiesBudget.v
theories/PropertiesDegenerate.v
theories/PropertiesBudgetF64.v
theories/DelatorreXR.v
theories/RDerive.v
theories/StumpffSmooth.v
theories/ZMono.v
theories/PropertiesDelatorre.v
theories/LambertZ.v
theories/Hyp2F1.v
theories/IzzoXR.v
theories/PropertiesIzzo.v
theories/PropertiesDerivIzzo.v
theories/AroraW.v
theories/KeplerUnique.v
theories/LambertUnique.v
theories/LambertExist.v
theories/RotXR.v
theories/PropertiesRotation.v
theories/PropertiesArora.v
theories/PropertiesTransfer.v
theories/PropertiesStumpff.v
theories/PropertiesBarker.v
theories/PropertiesBattin.v
theories/MReport.v
theories/PropertiesReport.v
theories/ScaleXR.v
theories/UnitsOne.v
theories/UnitsTwo.v
theories/UnitsThree.v
theories/UnitsFour.v
theories/BracketXR.v
theories/PropertiesBracket.v
theories/JiangXR.v
theories/JiangRun.v
theories/JiangMono.v
theories/JiangLoop.v
theories/PropertiesJiang.v
theories/ThorneXR.v
theories/ThorneRun.v
theories/PropertiesThorne.v
theories/SpecSeries.v
theories/PropertiesReversion.v
theories/AsinSeries.v
theories/PropertiesThorneSeries.v
theories/GoodingXR.v
theories/PropertiesGooding.v
theories/PropertiesUnits.v
theories/PropertiesUnitsF64.v
theories/DerXR.v
theories/MinTime.v
theories/XParam.v
theories/PropertiesDer.v
theories/PropertiesMultiRev.v
theories/PropertiesDerMin.v
theories/ComplexXR.v
theories/PropertiesNegrete.v
theories/PropertiesNegreteF64.v
theories/McelreathXR.v
theories/McelreathDeriv.v
theories/PropertiesMcelreath.v
theories/PropertiesMcelreathDeriv.v
theories/PropertiesInfeasible.v
theories/PropertiesMcelreathRev.v
theories/PropertiesPaths.v
theories/PropertiesInfeasibleF64.v
theories/PropertiesExceptions.v
theories/PropertiesTermination.v
theories/PropertiesTerminationXR.v
theories/PropertiesTerminationVallado.v
theories/PropertiesExceptionsXR.v
theories/KeplerTime.v
theories/PanTime.v
theories/PropertiesPan.v
theories/PropertiesAvanziniTime.v
theories/PropertiesBattinDir.v
theories/PropertiesTransferMore.v
theories/PropertiesRotAvanzini.v
theories/MirrorXR.v
theories/PropertiesMirror.v
theories/PropertiesMirrorSense.v
theories/PropertiesMirrorAll.v
theories/PropertiesAroraDeriv.v
theories/PropertiesLaguerre.v
theories/ReverseXR.v
theories/PropertiesReverse.v
theories/PropertiesReverseAll.v
theories/PropertiesBudgetMore.v
theories/SpecSteps.v
theories/PropertiesSteps.v
theories/PropertiesDerFallback.v
theories/MonoX.v
theories/PropertiesStart.v
theories/PropertiesAroraLong.v
theories/PropertiesStartMce.v
theories/PropertiesContour.v
theories/PropertiesPanBracket.v
theories/PropertiesAux.v
theories/PropertiesDerBracket.v
theories/PropertiesThorneBracket.v
theories/RoundTripXR.v
theories/ElementsExist.v
theories/PropertiesRoundTrip.v
theories/PropertiesKeplerTime.v
theories/PropertiesReverseMore.v
theories/PropertiesNegretePaths.v
theories/PropertiesReversePan.v
theories/PropertiesLonger.v
theories/PropertiesEnergy.v
theories/PropertiesConic.v
theories/PropertiesConicJiang.v
