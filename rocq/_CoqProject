-Q theories Verif
theories/Outcome.v
theories/Float64.v
theories/Float64Facts.v
theories/EpochModel.v
theories/EpochSpec.v
theories/EpochCalendarProofs.v
theories/EpochProofs.v
theories/EpochFloatProofs.v
theories/EpochStringProofs.v
theories/EpochPropProofs.v
theories/PropEpoch.v
theories/StateMonad.v
theories/LegModel.v
theories/LegSpec.v
theories/LegProofs.v
theories/HfModel.v
theories/HfSpec.v
theories/HfProofs.v
theories/HfHistProofs.v
theories/LegPropProofs.v
theories/SetterSpec.v
theories/SetterProofs.v
theories/PropLeg.v
theories/TcModel.v
theories/TcSpec.v
theories/TcProofs.v
theories/HistModel.v
theories/HistSpec.v
theories/HistProofs.v
theories/PropHist.v
theories/StarkModel.v
theories/StarkSpec.v
theories/StarkProofs.v
theories/CacheModel.v
theories/CacheSpec.v
theories/CacheProofs.v
theories/PropStark.v
theories/FloatBounds.v
theories/PiBounds.v
theories/JplModel.v
theories/JplSpec.v
theories/JplProofs.v
theories/JplElemProofs.v
theories/PlanetModel.v
theories/PlanetSpec.v
theories/PlanetProofs.v
theories/VsopModel.v
theories/VsopSpec.v
theories/VsopProofs.v
theories/PropPlanet.v
theories/SerialModel.v
theories/SerialProofs.v
theories/PropSerial.v
theories/MgaModel.v
theories/MgaSpec.v
theories/MgaProofs.v
theories/PropMga.v
theories/RealLib.v
theories/KepModel.v
theories/KepSpec.v
theories/KepProofs.v
theories/AnomProofs.v
theories/PropKep.v
theories/Vec3.v
theories/TwoBodyModel.v
theories/TwoBodySpec.v
theories/FlowProofs.v
theories/LagProofs.v
theories/FlowMain.v
theories/BracketProofs.v
theories/TwoBodyProofs.v
theories/PropTwoBody.v
theories/StmProofs.v
theories/StmMain.v
theories/StmGen.v
theories/ReynoldsModel.v
theories/ReynoldsCols.v
theories/ReynoldsProofs.v
theories/ReynoldsMain.v
theories/InvExists.v
theories/PropStm.v
theories/PartialReal.v
theories/FlybyModel.v
theories/FlybySpec.v
theories/FlybyProofs.v
theories/PropFlyby.v
theories/FlybyFloatModel.v
theories/FlybyFloatProofs.v
theories/PropFlybyFloat.v
theories/DynModel.v
theories/DynSpec.v
theories/DynProofs.v
theories/DynExample.v
theories/PropDyn.v
theories/ElemModel.v
theories/ElemSpec.v
theories/ElemProofs.v
theories/ElemPar.v
theories/ElemEq.v
theories/ElemConv.v
theories/PropElem.v
theories/KeplerianModel.v
theories/KeplerianProofs.v
theories/KeplerianMain.v
theories/PropKeplerian.v
theories/KplaModel.v
theories/KplaSpec.v
theories/KplaProofs.v
theories/PropKpla.v
theories/LambertModel.v
theories/LambertReal.v
theories/LambertProofs.v
theories/LambertSpec.v
theories/LambertGeo.v
theories/LambertTime.v
theories/LambertVec.v
theories/LambertSeries.v
theories/LambertTof.v
theories/LambertDer.v
theories/LambertMono.v
theories/LambertMain.v
theories/LambertCoincident.v
theories/PropLambert.v
theories/LambertRevs.v
theories/LambertRevsSpec.v
theories/LambertComplete.v
theories/LambertCount.v
theories/PropLambertRevs.v
theories/SfModel.v
theories/SfFlow.v
theories/SfSpec.v
theories/SfProofs.v
theories/SfMain.v
theories/SfGrad.v
theories/SfLin.v
theories/SfJac.v
theories/PropSf.v
theories/DirectModel.v
theories/DirectSpec.v
theories/SparseLib.v
theories/DirectProofs.v
theories/DirectPl.v
theories/DirectMain.v
theories/PropDirect.v
theories/MgaFitModel.v
theories/MgaFitSpec.v
theories/MgaFitProofs.v
theories/MgaFitMain.v
theories/MgaTotal.v
theories/PropMgaFit.v
theories/OdeLib.v
theories/OdeSd.v
theories/OdeNear.v
theories/HfGradModel.v
theories/HfGradSpec.v
theories/HfGradFlow.v
theories/HfGradAlg.v
theories/HfGradLin.v
theories/HfGradChain.v
theories/HfGradAll.v
theories/HfGradMain.v
theories/HfGradMis.v
theories/HfGradExample.v
theories/HfCut.v
theories/PropHfGrad.v
theories/PyPlanetModel.v
theories/PyPlanetSpec.v
theories/PyPlanetProofs.v
theories/P2kModel.v
theories/P2kSpec.v
theories/P2kProofs.v
theories/PropPyPlanet.v
theories/ConstModel.v
theories/ConstSpec.v
theories/ConstProofs.v
theories/PropConst.v
theories/PlotModel.v
theories/PlotSpec.v
theories/PlotProofs.v
theories/PlotLambert.v
theories/PlotLegModel.v
theories/PlotLegSpec.v
theories/PlotLegProofs.v
theories/PlotHistProofs.v
theories/PropPlot.v
theories/PyEphModel.v
theories/PyEphSpec.v
theories/PyEphProofs.v
theories/PropPyEph.v
theories/PyEpochModel.v
theories/PyEpochSpec.v
theories/PyEpochProofs.v
theories/PyEpochFacts.v
theories/PropPyEpoch.v
theories/PyMatModel.v
theories/PyMatSpec.v
theories/PyMatProofs.v
theories/PyMatLegs.v
theories/HfNear.v
theories/HfExists.v
theories/HfCoast.v
theories/HfCoastMain.v
theories/HfCoastPy.v
theories/PropPyMat.v
theories/PyCopyModel.v
theories/PyCopySpec.v
theories/PyCopyProofs.v
theories/PropPyCopy.v
theories/InexactSpec.v
theories/InexactProofs.v
theories/PropInexact.v
theories/LambertConv.v
theories/LambertHalley.v
theories/LambertNear.v
theories/LambertConvMain.v
theories/PropLambertConv.v
theories/LambertLong.v
theories/PropLambertLong.v
theories/LambertShort.v
theories/PropLambertShort.v
theories/LambertNormal.v
theories/PropLambertNormal.v
theories/JplRealModel.v
theories/JplRealSpec.v
theories/JplRealProofs.v
theories/JplRealElem.v
theories/JplThird.v
theories/GymModel.v
theories/GymProofs.v
theories/PropGym.v
theories/FloatVecModel.v
theories/TextModel.v
theories/TextObjModel.v
theories/TextSpec.v
theories/TextProofs.v
theories/TextObjProofs.v
theories/TextMain.v
theories/PropText.v
theories/FloatErrSpec.v
theories/FloatErr.v
theories/FloatErrMain.v
theories/FloatErrWit.v
theories/PropFloatErr.v
theories/SolarModel.v
theories/SolarSpec.v
theories/SolarProofs.v
theories/PropSolar.v
theories/NaifModel.v
theories/NaifSpec.v
theories/NaifProofs.v
theories/PropNaif.v
theories/TrajPlotModel.v
theories/TrajPlotSpec.v
theories/TrajPlotProofs.v
theories/TrajPlotMain.v
theories/PropTrajPlot.v
theories/VsopPlanetModel.v
theories/VsopPlanetSpec.v
theories/VsopPlanetProofs.v
theories/PropVsopPlanet.v
theories/MgaRangeSpec.v
theories/MgaRange.v
theories/MgaNan.v
theories/MgaMiss.v
theories/PropMgaRange.v
theories/ReportSpec.v
theories/ReportModel.v
theories/ReportProofs.v
theories/PropReport.v
theories/PyMgaModel.v
theories/PyMgaSpec.v
theories/PyMgaProofs.v
theories/PyMgaMain.v
theories/PropPyMga.v
theories/DirectStateModel.v
theories/DirectStateProofs.v
theories/PropDirectState.v
theories/PlanetPeriodSpec.v
theories/PlanetPeriodProofs.v
theories/PropPlanetPeriod.v
theories/FieldSpec.v
theories/FieldProofs.v
theories/FieldDateProofs.v
theories/PropField.v
theories/JplErrSpec.v
theories/JplErrProofs.v
theories/JplErrMain.v
theories/PropJplErr.v
theories/JplBodyProofs.v
theories/TleEpochProofs.v
