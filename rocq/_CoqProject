-Q theories Verif
theories/Base.v
theories/Num.v
theories/NumR.v
theories/NumF64.v
theories/NumInt.v
theories/NumSgn.v
theories/HeapModel.v
theories/HeapSpec.v
theories/HeapSift.v
theories/HeapProofs.v
theories/HeapRefine.v
theories/PropHeap.v
theories/MeshModel.v
theories/MeshSpec.v
theories/MeshProofs.v
theories/MeshGeom.v
theories/PropMesh.v
theories/MeshTopo.v
theories/FmmModel.v
theories/FmmSpec.v
theories/FmmProofs.v
theories/FmmFacts.v
theories/FmmSame.v
theories/FmmReal.v
theories/FmmLabel.v
theories/FmmQuad.v
theories/FmmAxis.v
theories/LevelSetModel.v
theories/BoundaryModel.v
theories/BoundaryFrame.v
theories/BoundarySpec.v
theories/BoundaryProofs.v
theories/BoundaryLinks.v
theories/LevelSetSpec.v
theories/LevelSetCalls.v
theories/LevelSetParams.v
theories/LevelSetNew.v
theories/StartSpec.v
theories/LevelSetTarget.v
theories/LevelSetSpecR.v
theories/BoundarySpecR.v
theories/LevelSetBand.v
theories/LevelSetOps.v
theories/LevelSetInit.v
theories/LevelSetGrad.v
theories/LevelSetVel.v
theories/LevelSetHist.v
theories/BoundaryReal.v
theories/LevelSetReal.v
theories/LevelSetVelR.v
theories/FmmSign.v
theories/SignCases.v
theories/LevelSetSign.v
theories/PropFmm.v
theories/PropLevelSet.v
theories/PropVel.v
theories/PropBoundary.v
theories/BoundaryGraph.v
theories/BoundaryRun.v
theories/BoundaryLocal.v
theories/BoundaryClosed.v
theories/BoundaryCases.v
theories/PropClosed.v
theories/AreaSort.v
theories/AreaRule.v
theories/AreaCut.v
theories/AreaCases.v
theories/PropArea.v
theories/OptModel.v
theories/OptSpec.v
theories/OptFrame.v
theories/OptReal.v
theories/OptGrad.v
theories/OptSolve.v
theories/OptConstr.v
theories/OptRounds.v
theories/OptTotal.v
theories/OptMain.v
theories/OptCases.v
theories/OptSides.v
theories/OptRetry.v
theories/PropOpt.v
theories/Cycle.v
theories/CycleCase.v
theories/PropCycle.v
theories/SensModel.v
theories/NormSpec.v
theories/NormProofs.v
theories/NormReal.v
theories/NormMain.v
theories/SensProofs.v
theories/SensReal.v
theories/NormCases.v
theories/PropSens.v
theories/Twin.v
theories/TwinLs.v
theories/TwinSpec.v
theories/TwinRun.v
theories/TwinCase.v
theories/PropTwin.v
theories/DemoModel.v
theories/DemoSpec.v
theories/DemoSens.v
theories/DemoLength.v
theories/DemoLoop.v
theories/DemoBrolly.v
theories/DemoTurn.v
theories/DemoArea.v
theories/DemoCase.v
theories/DemoMatch.v
theories/DemoGrad.v
theories/DemoSafe.v
theories/DemoShape.v
theories/DemoGood.v
theories/DemoKeep.v
theories/DemoMid.v
theories/PropTurn.v
theories/DemoRecord.v
theories/DemoSamples.v
theories/PropRecord.v
theories/DemoSetup.v
theories/DemoSetupSpec.v
theories/DemoFiles.v
theories/DemoArgs.v
theories/DemoStart.v
theories/DemoShapes.v
theories/DemoTargets.v
theories/PolySpec.v
theories/Polygon.v
theories/PolyField.v
theories/PolyCases.v
theories/PropPolygon.v
theories/DemoAgain.v
theories/PropSetup.v
theories/DemoRun.v
theories/DemoTurns.v
theories/DemoTrials.v
theories/DemoFacts.v
theories/PropDemo.v
theories/PropLoop.v
theories/IOModel.v
theories/IOText.v
theories/IODigits.v
theories/IOBin.v
theories/IORead.v
theories/IOFiles.v
theories/IOSpec.v
theories/IOContents.v
theories/IOCases.v
theories/PropIO.v
theories/RngModel.v
theories/RngProofs.v
theories/PropRng.v
theories/UnitsSpec.v
theories/Units.v
theories/PropUnits.v
theories/AreaOrderSpec.v
theories/AreaOrder.v
theories/PropAreaOrder.v
theories/SafeSpec.v
theories/SolveSafe.v
theories/PropSafe.v
theories/ComplementSpec.v
theories/Complement.v
theories/ComplementStep.v
theories/ComplementBoundary.v
theories/ComplementCase.v
theories/PropComplement.v
theories/ContourSpec.v
theories/Contour.v
theories/PropContour.v
theories/DrawnSpec.v
theories/Drawn.v
theories/PropDrawn.v
theories/SymmetrySpec.v
theories/Symmetry.v
theories/Perimeter.v
theories/PropSymmetry.v
theories/ShiftSpec.v
theories/Shift.v
theories/PropShift.v
theories/OrderSpec.v
theories/Order.v
theories/PropOrder.v
theories/SeparateSpec.v
theories/Separate.v
theories/PropSeparate.v
theories/ExtremeSpec.v
theories/Extreme.v
theories/PropExtreme.v
theories/ReuseSpec.v
theories/Reuse.v
theories/PropReuse.v
