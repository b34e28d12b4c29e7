-Q theories Verif
theories/Arith.v
theories/Par.v
theories/ParProofs.v
theories/GridModel.v
theories/BoundaryModel.v
theories/BoundarySpec.v
theories/BoundaryProofs.v
theories/GridProofs.v
theories/Thm_Grid.v
theories/Thm_Boundary.v
theories/HydroState.v
theories/RiemannModel.v
theories/HydroPoint.v
theories/HydroKernels.v
theories/CellKernels.v
theories/HydroField.v
theories/HydroExec.v
theories/HydroSpec.v
theories/HydroProofs2.v
theories/HydroStep2.v
theories/HydroSafe2.v
theories/HydroProofs3.v
theories/HydroStep3.v
theories/HydroSafe3.v
theories/HydroSums.v
theories/HydroConserve.v
theories/HydroFluxes.v
theories/HydroVersions.v
theories/HydroUniform.v
theories/Thm_Hydro.v
theories/Physics.v
theories/PointProofs.v
theories/ReduceModel.v
theories/DtProofs.v
theories/Thm_Point.v
theories/RiemannProofs.v
theories/HllcProofs.v
theories/ApproxProofs.v
theories/RiemannSelect.v
theories/RiemannMirror.v
theories/Thm_Riemann.v
theories/SymmetrySpec.v
theories/HydroSymmetry.v
theories/HydroReflect.v
theories/HydroRuns.v
theories/Thm_Symmetry.v
theories/LoopModel.v
theories/LoopSpec.v
theories/LoopProofs.v
theories/LoopHydro.v
theories/Float64.v
theories/Thm_Loop.v
theories/SpmdModel.v
theories/SpmdSpec.v
theories/SpmdProofs.v
theories/MpiModel.v
theories/MpiSpec.v
theories/MpiTopo.v
theories/MpiCopy.v
theories/MpiExchange.v
theories/MpiFill.v
theories/MpiRun.v
theories/MpiDt.v
theories/MpiLive.v
theories/GeomModel.v
theories/GeomProofs.v
theories/MpiFloat.v
theories/Thm_Mpi.v
theories/ConfigModel.v
theories/ConfigSpec.v
theories/ConfigProofs.v
theories/ConfigValues.v
theories/Thm_Config.v
theories/MhdState.v
theories/MhdRiemann.v
theories/MhdPoint.v
theories/MhdKernels2.v
theories/Atomic.v
theories/MhdSpec.v
theories/MhdExec.v
theories/MhdField2.v
theories/MhdProofs2.v
theories/MhdAtomic2.v
theories/MhdStep2.v
theories/MhdLow2.v
theories/MhdConserve2.v
theories/MhdPhysics.v
theories/MhdFlux.v
theories/MhdLoop2.v
theories/MhdRun2.v
theories/SpecF.v
theories/Thm_Mhd2.v
theories/MhdFanSpec.v
theories/MhdFan.v
theories/MhdFan2.v
theories/MhdFan3.v
theories/MhdFan4.v
theories/Thm_MhdRiemann.v
theories/MhdPoint3.v
theories/MhdKernels3.v
theories/MhdField3.v
theories/MhdProofs3.v
theories/MhdStore3.v
theories/MhdAtomic3.v
theories/MhdStep3.v
theories/MhdLow3.v
theories/MhdSpec3.v
theories/MhdConserve3.v
theories/MhdLoop3.v
theories/MhdRun3.v
theories/MhdVariant3.v
theories/Thm_Mhd3.v
theories/MoodPoly.v
theories/MoodMonomials.v
theories/MoodExact.v
theories/MoodRank.v
theories/MoodRecon.v
theories/Thm_MoodPoly.v
theories/MoodKernels.v
theories/MoodProofs.v
theories/MoodStage.v
theories/MoodSpec.v
theories/MoodRun.v
theories/MoodConserve.v
theories/MoodSafeSpec.v
theories/MoodSafe.v
theories/MoodUniform.v
theories/MoodWitness.v
theories/Thm_MoodKernels.v
theories/SdmGeom.v
theories/SdmSpec.v
theories/SdmLagrange.v
theories/SdmExact.v
theories/SdmPoints.v
theories/TaskModel.v
theories/TaskKernels.v
theories/EulerModel.v
theories/SdmKernels.v
theories/SdmDofs.v
theories/SdmProofs.v
theories/SdmRunSpec.v
theories/SdmRun.v
theories/SdmConsSpec.v
theories/SdmUniform.v
theories/SdmConserve.v
theories/EulerSpec.v
theories/SdmFlux.v
theories/EulerProofs.v
theories/SdmDt.v
theories/SdmDtProofs.v
theories/SdmSafeSpec.v
theories/SdmSafe.v
theories/Thm_Sdm.v
theories/MhdInit.v
theories/MhdInitProofs.v
theories/MhdInitSpec.v
theories/MhdInitDiv.v
theories/MhdInitPressure.v
theories/Thm_MhdInit.v
theories/IoModel.v
theories/IoSpec.v
theories/IoProofs.v
theories/IoFile.v
theories/IoMpi.v
theories/IoUpscale.v
theories/IoRound.v
theories/IoFieldSpec.v
theories/IoDiv.v
theories/IoOrder.v
theories/Thm_Io.v
theories/VtkModel.v
theories/VtkSpec.v
theories/VtkProofs.v
theories/Thm_Vtk.v
theories/RestartModel.v
theories/RestartProofs.v
theories/RestartWitness.v
theories/Thm_Restart.v
theories/HydroInit.v
theories/HydroInitSpec.v
theories/HydroInitProofs.v
theories/HydroInitState.v
theories/HydroInitWrong.v
theories/HydroInitNan.v
theories/Thm_HydroInit.v
theories/FlowSpec.v
theories/FlowExact.v
theories/FlowProblems.v
theories/FlowDisk.v
theories/Thm_Flow.v
theories/QuadrantSpec.v
theories/Thm_Quadrant.v
theories/ShockSpec.v
theories/ApproxFan.v
theories/Thm_Approx.v
theories/SdmPos.v
theories/SdmPosSpec.v
theories/SdmPosProofs.v
theories/SdmPosRun.v
theories/Thm_Positivity.v
theories/SdmLim.v
theories/SdmLimRun.v
theories/SdmLimSpec.v
theories/SdmLimProofs.v
theories/Thm_Limiter.v
theories/SdmVisc.v
theories/SdmViscProofs.v
theories/Thm_Viscous.v
theories/SdmInit.v
theories/SdmInitSpec.v
theories/SdmInitProofs.v
theories/Thm_SdmInit.v
theories/SdmBc.v
theories/SdmBcSpec.v
theories/SdmBcProofs.v
theories/Thm_SdmBc.v
theories/RestartMhd.v
theories/RestartMhdProofs.v
theories/RestartMhdWitness.v
theories/Thm_RestartMhd.v
theories/MpiMhd.v
theories/MpiMhdProofs.v
theories/Thm_MpiMhd.v
theories/RestartRound.v
theories/RestartRoundWitness.v
theories/RestartRoundWitnessMhd.v
theories/Thm_RestartRound.v
theories/NetcdfModel.v
theories/NetcdfProofs.v
theories/Thm_Netcdf.v
theories/MoodInit.v
theories/MoodInitSpec.v
theories/MoodInitProofs.v
theories/Thm_MoodInit.v
theories/SdmVtk.v
theories/SdmVtkSpec.v
theories/SdmVtkProofs.v
theories/Thm_SdmVtk.v
theories/SdmError.v
theories/Thm_SdmError.v
theories/XdmfModel.v
theories/Thm_Xdmf.v
theories/MoodWedge.v
theories/Thm_MoodWedge.v
theories/FactoryModel.v
theories/Thm_Factory.v
theories/TimerModel.v
theories/Thm_Timer.v
theories/FlowSoft.v
theories/Thm_FlowSoft.v
theories/TopoModel.v
theories/Thm_Topo.v
