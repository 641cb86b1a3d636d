-Q theories Verif
theories/Boundary.v
theories/BoundaryProofs.v
theories/BoundarySpec.v
theories/Coils.v
theories/Control.v
theories/ControlEq.v
theories/ControlProofs.v
theories/ControlSpec.v
theories/Critical.v
theories/CriticalProofs.v
theories/CriticalProofs2.v
theories/CriticalProofs3.v
theories/CriticalSpec.v
theories/Diagnostics.v
theories/DiagnosticsProofs.v
theories/DiagnosticsSpec.v
theories/DivGeo.v
theories/EllipticProofs.v
theories/EllipticSpec.v
theories/Equality.v
theories/EqualityProofs.v
theories/EqualitySpec.v
theories/Equilibrium.v
theories/EquilibriumProofs.v
theories/EquilibriumProofs2.v
theories/EquilibriumProofs3.v
theories/EquilibriumSpec.v
theories/FieldStrength.v
theories/FieldTracer.v
theories/FieldTracerProofs.v
theories/FieldTracerSpec.v
theories/Fitting.v
theories/FittingProofs.v
theories/FittingSpec.v
theories/FluxQueries.v
theories/ForceTable.v
theories/FourthBound.v
theories/FourthProofs.v
theories/GS4Proofs.v
theories/GSConsistency.v
theories/GSSpec.v
theories/GaugeProofs.v
theories/GaugeProofs2.v
theories/GaugeProofs3.v
theories/GaugeProofs4.v
theories/GaugeProofs5.v
theories/GaugeSpec.v
theories/Gauss.v
theories/Geqdsk.v
theories/GeqdskExamples.v
theories/GeqdskFit.v
theories/GeqdskProofs.v
theories/GeqdskSpec.v
theories/GradShafranov.v
theories/GradShafranovProofs.v
theories/GreensFloat.v
theories/GreensProofs.v
theories/GreensProofs2.v
theories/GreensProofs3.v
theories/GreensProofs4.v
theories/Jtor.v
theories/JtorProofs.v
theories/JtorSpec.v
theories/Linalg.v
theories/Machine.v
theories/MachineForces.v
theories/MachineProofs.v
theories/MachineSpec.v
theories/Machines.v
theories/MachinesProofs.v
theories/MachinesSpec.v
theories/MeasureSum.v
theories/Measurements.v
theories/MeasurementsProofs.v
theories/Measures.v
theories/MovingProofs.v
theories/MovingSpec.v
theories/MultiHeap.v
theories/Multigrid.v
theories/MultigridGS.v
theories/MultigridProofs.v
theories/Num.v
theories/Numpy.v
theories/Optimise.v
theories/OptimiseProofs.v
theories/Optimiser.v
theories/OptimiserProofs.v
theories/Picard.v
theories/PicardProofs.v
theories/PolySpec.v
theories/Polygons.v
theories/PolygonsProofs.v
theories/Populate.v
theories/PrintCurrents.v
theories/ProfileCall.v
theories/PropBoundary.v
theories/PropConstrained.v
theories/PropControl.v
theories/PropControl2.v
theories/PropControl3.v
theories/PropControlEq.v
theories/PropControlMirror.v
theories/PropControlRepeat.v
theories/PropControlRun.v
theories/PropControlScale.v
theories/PropCritical.v
theories/PropDiagnostics.v
theories/PropDiagnosticsMore.v
theories/PropDimension.v
theories/PropDivGeo.v
theories/PropEquality.v
theories/PropEquilibrium.v
theories/PropEquilibrium2.v
theories/PropEquilibrium3.v
theories/PropFieldTracer.v
theories/PropFitOffset.v
theories/PropFitResiduals.v
theories/PropFitting.v
theories/PropFixedPoint.v
theories/PropForceTable.v
theories/PropFourth.v
theories/PropFourthError.v
theories/PropFourthFree.v
theories/PropFourthSign.v
theories/PropFourthSimilar.v
theories/PropFourthTrue.v
theories/PropFrozen.v
theories/PropGS.v
theories/PropGS4Error.v
theories/PropGauge.v
theories/PropGeqdsk.v
theories/PropGeqdskFit.v
theories/PropGeqdskSolve.v
theories/PropGreens.v
theories/PropGreensAxis.v
theories/PropHagenow.v
theories/PropHagenow4.v
theories/PropHagenowMirror.v
theories/PropJtor.v
theories/PropJtor2.v
theories/PropMachine.v
theories/PropMachine2.v
theories/PropMachines.v
theories/PropMachinesMade.v
theories/PropMachinesMore.v
theories/PropMachinesTurns.v
theories/PropMachinesWalls.v
theories/PropMeasureSum.v
theories/PropMeasurements.v
theories/PropMeasures.v
theories/PropMultiHeap.v
theories/PropMultigrid.v
theories/PropMutate.v
theories/PropOptimiser.v
theories/PropPicard.v
theories/PropPicardControl.v
theories/PropPicardLimit.v
theories/PropPicardMirror.v
theories/PropPolygons.v
theories/PropPolygons2.v
theories/PropPopulate.v
theories/PropPressure.v
theories/PropPrintCurrents.v
theories/PropProfileCall.v
theories/PropRepeat.v
theories/PropRepeatJacobi.v
theories/PropReturned.v
theories/PropRomb.v
theories/PropRombError.v
theories/PropSafety.v
theories/PropSafetyMore.v
theories/PropSafetyRays.v
theories/PropSensorEq.v
theories/PropSensors.v
theories/PropSerial.v
theories/PropSerial2.v
theories/PropSerialSolve.v
theories/PropShape.v
theories/PropSimilar.v
theories/PropSolveError.v
theories/PropSolveFlux.v
theories/PropSolveState.v
theories/PropStart.v
theories/PropTrueFlux.v
theories/PropUserSolver.v
theories/PropVcycleSolve.v
theories/PropVessel.v
theories/Py.v
theories/QuadSpec.v
theories/Quadrature.v
theories/QuadratureProofs.v
theories/Romb.v
theories/RombExact.v
theories/RombProofs.v
theories/Safety.v
theories/SafetyProofs.v
theories/SafetySpec.v
theories/SensorEq.v
theories/Sensors.v
theories/SensorsProofs.v
theories/Serial.v
theories/SerialProofs.v
theories/SerialSpec.v
theories/Shape.v
theories/ShapeProofs.v
theories/ShapeSpec.v
theories/Vessel.v
