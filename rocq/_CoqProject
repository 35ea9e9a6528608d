-Q theories Verif
theories/Base.v
theories/Scalar.v
theories/ScalarR.v
theories/ScalarF.v
theories/Dense.v
theories/Norms.v
theories/Newton.v
theories/IdaState.v
theories/IdaNls.v
theories/IdaCore.v
theories/IdaRoots.v
theories/IdaSolve.v
theories/IdaIo.v
theories/Samples.v
theories/ModelTests.v
theories/BaseFacts.v
theories/RSum.v
theories/DenseSpec.v
theories/DenseFacts.v
theories/DenseR.v
theories/DenseSolveR.v
theories/PropDense.v
theories/NewtonSpec.v
theories/NewtonFacts.v
theories/NormsR.v
theories/NewtonR.v
theories/PropNewton.v
theories/PropNorms.v
theories/IdaFacts.v
theories/IdaLoops.v
theories/IdaStep.v
theories/IdaSpec.v
theories/IdaShell.v
theories/IdaReach.v
theories/IdaInv.v
theories/IdaCount.v
theories/IdaLife.v
theories/IdaTrace.v
theories/VecR.v
theories/IdaAccept.v
theories/IdaStepR.v
theories/IdaSafe.v
theories/NewtonSafe.v
theories/IdaInterp.v
theories/IdaCall.v
theories/IdaCallR.v
theories/Script.v
theories/Witness.v
theories/PropIdaLife.v
theories/PropSafe.v
theories/PropSolve.v
theories/ExampleR.v
theories/PropStepR.v
theories/PropStop.v
theories/PropSamples.v
theories/IdaJac.v
theories/PropNls.v
theories/PolyR.v
theories/PolyTop.v
theories/HistSpec.v
theories/IdaHist.v
theories/IdaHistLife.v
theories/IdaNoFail.v
theories/InterpR.v
theories/IdaRow0.v
theories/PropHist.v
theories/PropSelect.v
theories/PropFail.v
theories/PropHistBad.v
theories/IdaDky.v
theories/PropDky.v
theories/RootFacts.v
theories/RootWalk.v
theories/PropRoots.v
theories/PropRootsBad.v
theories/PropReturn.v
theories/ExampleRoot.v
theories/FloatBad.v
theories/PropWeights.v
theories/PropRetry.v
theories/IdaLinear.v
theories/PropConserve.v
theories/IdaExact.v
theories/PropExact.v
theories/PropFirst.v
theories/PropLinear.v
theories/PropTol.v
theories/PropRootLife.v
theories/Units.v
theories/UnitsRel.v
theories/UnitsSim.v
theories/UnitsDense.v
theories/PropUnits.v
theories/PropJac.v
theories/IdaRows.v
theories/PropRows.v
theories/RoundR.v
theories/DenseRnd.v
theories/PropRound.v
theories/NormsRnd.v
theories/PropNormsRnd.v
theories/IdaStepRnd.v
theories/PropTimesRnd.v
theories/IdaKern.v
theories/IdaRuns.v
theories/IdaLives.v
theories/PropOutputs.v
theories/PropGrid.v
theories/InterpRnd.v
theories/PropInterpRnd.v
theories/RootRnd.v
theories/RootSearchRnd.v
theories/PropRootsRnd.v
theories/PropRootsHang.v
theories/ReturnAny.v
theories/PropReturnRnd.v
theories/PropForwardRnd.v
theories/PropOnward.v
theories/PropRootOrder.v
