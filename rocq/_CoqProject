-Q theories Verif
theories/Num.v
theories/Py.v
theories/LegNumpy.v
theories/Ext.v
theories/Basis.v
theories/Constants.v
theories/AdvectionPhysics.v
theories/EulerPhysics.v
theories/PyStr.v
theories/Sensor.v
theories/Enhance.v
theories/Limiting.v
theories/IC.v
theories/Solution.v
theories/Solver.v
theories/RKCoeffs.v
theories/RK.v
theories/IO.v
theories/Deck.v
theories/Main.v
theories/Standins.v
theories/FloatInst.v
theories/Lib.v
theories/RealLib.v
theories/ProofsStr.v
theories/SpecTime.v
theories/ProofsTime.v
theories/ProofsTime2.v
theories/ProofsOptions.v
theories/PropertiesTime.v
theories/SpecDG.v
theories/SpecPoly.v
theories/ProofsPoly.v
theories/ProofsLeg.v
theories/ProofsGauss.v
theories/ExtReal.v
theories/ProofsDG.v
theories/ProofsDG2.v
theories/ProofsRaise.v
theories/ProofsBasis.v
theories/ProofsWf.v
theories/ProofsCons.v
theories/ProofsSol.v
theories/ProofsRel.v
theories/ProofsShift.v
theories/ProofsShiftBits.v
theories/ProofsAdv.v
theories/ProofsIC.v
theories/ProofsRun.v
theories/SpecLimit.v
theories/ProofsLim.v
theories/ProofsAHR.v
theories/ProofsLimRun.v
theories/ProofsLimShift.v
theories/ProofsStageLimit.v
theories/ProofsSensor.v
theories/ProofsMain.v
theories/ProofsIC2.v
theories/SpecUniform.v
theories/ProofsUniform.v
theories/PropertiesUniform.v
theories/SpecText.v
theories/SpecDeck.v
theories/SpecFloatText.v
theories/ProofsText.v
theories/ProofsDeck.v
theories/FloatText.v
theories/ProofsFloatText.v
theories/SpecIO.v
theories/SpecEnh.v
theories/ProofsEnh.v
theories/ProofsDescartes.v
theories/ProofsEnh2.v
theories/PropertiesEnh.v
theories/ProofsIO.v
theories/PropertiesIO.v
theories/SpecRK.v
theories/ProofsRK.v
theories/ProofsRKLin.v
theories/ProofsRKOrder.v
theories/ProofsRKTables.v
theories/ProofsRKInt.v
theories/SpecEuler.v
theories/ProofsRiemann.v
theories/ProofsGodunov.v
theories/ProofsFloatGodunov.v
theories/PropertiesRiemann.v
theories/Witness.v
theories/PropertiesLimit.v
theories/PropertiesBasis.v
theories/PropertiesRun.v
theories/PropertiesDG.v
theories/PropertiesMain.v
theories/PropertiesIC.v
theories/PropertiesRK.v
theories/ProofsTime3.v
theories/PropertiesOutput.v
theories/Analysis.v
theories/SpecAnalysis.v
theories/ProofsDet.v
theories/ProofsAnalysis.v
theories/ProofsAnalysis2.v
theories/ProofsAnalysis3.v
theories/ProofsAnalysis4.v
theories/ProofsAnalysis5.v
theories/SpecCfl.v
theories/ProofsCfl.v
theories/ProofsCflLimit.v
theories/PropertiesCfl.v
theories/PropertiesAnalysis.v
theories/SpecMonotone.v
theories/ProofsMonotone.v
theories/PropertiesMonotone.v
theories/SpecTrace.v
theories/SpecClip.v
theories/ProofsTrace.v
theories/SpecContact.v
theories/ProofsSteady.v
theories/ProofsContact.v
theories/ProofsEntropy.v
theories/ProofsEntropy2.v
theories/PropertiesContact.v
theories/SpecConverge.v
theories/ProofsConverge.v
theories/ProofsConverge2.v
theories/PropertiesConverge.v
theories/TestsUnit.v
theories/Scripts.v
theories/SpecScripts.v
theories/ProofsScripts.v
theories/ProofsScripts2.v
theories/ProofsScripts3.v
theories/WitnessText.v
theories/PropertiesScripts.v
theories/SpecSuper.v
theories/ProofsSuper.v
theories/PropertiesSuper.v
theories/SpecUnits.v
theories/ProofsUnits.v
theories/ProofsUnitsGodunov.v
theories/ProofsRelTime.v
theories/ProofsUnitsRun.v
theories/PropertiesUnits.v
theories/ProofsMirrorQuad.v
theories/SpecMirror.v
theories/ProofsMirror.v
theories/ProofsRelTrace.v
theories/ProofsMirrorRun.v
theories/ProofsSensorMirror.v
theories/ProofsHrMirror.v
theories/SpecMirrorLim.v
theories/ProofsMirrorLim.v
theories/ProofsSteadyLim.v
theories/PropertiesMirror.v
theories/SpecL2.v
theories/ProofsL2.v
theories/ProofsL2Run.v
theories/PropertiesL2.v
theories/SpecOrder.v
theories/ProofsRadau.v
theories/ProofsOrder.v
theories/ProofsOrderRun.v
theories/ProofsOrderIC.v
theories/PropertiesOrder.v
theories/ProofsWave.v
theories/ProofsWaveRun.v
theories/ProofsWaveIC.v
theories/PropertiesWave.v
theories/ProofsFloatAdd.v
theories/ProofsClock.v
theories/PropertiesClock.v
theories/Launch.v
theories/SpecLaunch.v
theories/ProofsLaunch.v
theories/ProofsStudy.v
theories/PropertiesLaunch.v
theories/SpecIC.v
theories/ProofsICPhysics.v
theories/PropertiesICPhysics.v
theories/ProofsBits.v
theories/PropertiesBits.v
theories/AnalysisEig.v
theories/AnalysisPlot.v
theories/SpecRKPlot.v
theories/ProofsRKPlot.v
theories/PropertiesRKPlot.v
theories/ProofsEig.v
theories/ProofsEnhWeights.v
theories/ProofsGrow.v
theories/SpecGrow.v
theories/ProofsGrowRun.v
theories/PropertiesGrow.v
theories/SpecEig.v
theories/ProofsDgPlot.v
theories/ProofsDgPlot2.v
theories/PropertiesEig.v
theories/PropertiesMirrorLim.v
theories/SpecLevel.v
theories/ProofsLevel.v
theories/ProofsLevelFloat.v
theories/PropertiesLevel.v
theories/SpecSign.v
theories/ProofsOdd.v
theories/ProofsOddFloat.v
theories/PropertiesSign.v
theories/ProofsNan.v
theories/ProofsNanSpread.v
theories/PropertiesNan.v
theories/SpecInfluence.v
theories/ProofsInfluence.v
theories/PropertiesInfluence.v
theories/SpecReach.v
theories/ProofsReach.v
theories/PropertiesReach.v
theories/SpecRestart.v
theories/ProofsRestart.v
theories/PropertiesRestart.v
