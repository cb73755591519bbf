-Q theories Verif

theories/Num.v
theories/Py.v
theories/CCDModel.v
theories/TrapsModel.v
theories/ManagerModel.v
theories/ROEModel.v
theories/ClockModel.v
theories/MainModel.v
theories/FloatNum.v
theories/Tests.v
theories/RFacts.v
theories/CCDFacts.v
theories/TrapsFacts.v
theories/Spec.v
theories/WmFacts.v
theories/ArrayFacts.v
theories/CutFacts.v
theories/InstantFacts.v
theories/CaptureFacts.v
theories/WatermarkFacts.v
theories/InstantSpecFacts.v
theories/SpecROE.v
theories/ROEClockFacts.v
theories/ROEMatrixFacts.v
theories/ROEExpressFacts.v
theories/ROEKindFacts.v
theories/SpecImage.v
theories/ClockFacts.v
theories/MainFacts.v
theories/ShapeFacts.v
theories/ColumnFacts.v
theories/SpecReadout.v
theories/SpecColumn.v
theories/ReadoutFacts.v
theories/ReadoutImage.v
theories/ReadoutForced.v
theories/ReadoutFull.v
theories/ReadoutInjection.v
theories/ReadoutSpecFacts.v
theories/ReadoutColumnFacts.v
theories/MainReadoutFacts.v
theories/MainColumnFacts.v
theories/ReadoutExamples.v
theories/ForceFacts.v
theories/ImageFacts.v
theories/BalanceFacts.v
theories/SpecTime.v
theories/TimeFacts.v
theories/TimeInstantFacts.v
theories/SpecSlow.v
theories/SlowFacts.v
theories/SlowSpecFacts.v
theories/SlowNegativeFacts.v
theories/SpecBalance.v
theories/StoredFacts.v
theories/NotchFacts.v
theories/SpecManagers.v
theories/ManagerSetFacts.v
theories/RemoveFacts.v
theories/SpecHST.v
theories/HSTFacts.v
theories/Properties_CCD.v
theories/Properties_Traps.v
theories/Properties_Watermarks.v
theories/Properties_Instant.v
theories/Properties_ROE.v
theories/Properties_Image.v
theories/Properties_Readout.v
theories/Properties_Managers.v
theories/Properties_Main.v
theories/Properties_Time.v
theories/SlowExamples.v
theories/OverfullExample.v
theories/Properties_Slow.v
theories/SmallFacts.v
theories/Properties_Small.v
theories/EllipticityModel.v
theories/ContinuumModel.v
theories/SpecContinuum.v
theories/EllipticityFacts.v
theories/GaussFacts.v
theories/ContinuumFacts.v
theories/LogNormalFacts.v
theories/SolverFacts.v
theories/Properties_Continuum.v
theories/SpecObjects.v
theories/ReachFacts.v
theories/NegativeFacts.v
theories/NegativeExample.v
theories/Properties_Misuse.v
theories/SpecExpress.v
theories/ExpressFacts.v
theories/ExpressExample.v
theories/MixtureFacts.v
theories/PartsFacts.v
theories/Properties_Express.v
theories/DensityFacts.v
theories/Properties_Densities.v
theories/SpecHistory.v
theories/HistoryFacts.v
theories/HistorySpecFacts.v
theories/Properties_Histories.v
theories/SpecRecovery.v
theories/OrderFacts.v
theories/TameFacts.v
theories/RecoverFacts.v
theories/DepthFacts.v
theories/RecoverImageFacts.v
theories/DivergeExample.v
theories/Properties_Recovery.v
theories/SpecPumping.v
theories/PumpFacts.v
theories/PumpSpecFacts.v
theories/PumpPairFacts.v
theories/Properties_Pumping.v
theories/CallModel.v
theories/SpecCalls.v
theories/CallFacts.v
theories/CallExamples.v
theories/Properties_Calls.v
theories/RoundFacts.v
theories/SpecUnits.v
theories/UnitFacts.v
theories/UnitClockFacts.v
theories/Properties_Units.v
theories/GroupSim.v
theories/SpecGroups.v
theories/SpeciesFacts.v
theories/GroupFacts.v
theories/Properties_Groups.v
theories/HomFacts.v
theories/MemoryExample.v
theories/SpecMemory.v
theories/MemoryFacts.v
theories/Properties_Memory.v
theories/SignedModel.v
theories/SpecSigned.v
theories/SignedFacts.v
theories/SignedPumpFacts.v
theories/Properties_Signed.v
theories/AliasModel.v
theories/AliasFacts.v
theories/Properties_Alias.v
theories/CCDOddFacts.v
theories/Properties_Wells.v
theories/DoubleNum.v
theories/SpecDouble.v
theories/DoubleCalls.v
theories/DoubleFacts.v
theories/NanFacts.v
theories/DoubleMemory.v
theories/Properties_Double.v
theories/HeaderModel.v
theories/SpecHeader.v
theories/HeaderFacts.v
theories/Properties_Header.v
theories/CountModel.v
theories/SpecCount.v
theories/CountFacts.v
theories/Properties_Count.v
theories/SpecBound.v
theories/BoundFacts.v
theories/Properties_Bound.v
theories/SpecTrail.v
theories/TrailFacts.v
theories/Properties_Trail.v
theories/SpecIdle.v
theories/IdleFacts.v
theories/Properties_Idle.v
theories/SpecZeroCapture.v
theories/ZeroCaptureFacts.v
theories/ZeroCaptureExample.v
theories/Properties_ZeroCapture.v
theories/SpecBlind.v
theories/BlindFacts.v
theories/BlindExample.v
theories/Properties_Blind.v
theories/SpecWork.v
theories/WorkFacts.v
theories/Properties_Work.v
theories/SpecWindow.v
theories/WindowFacts.v
theories/WindowMainFacts.v
theories/OffsetFacts.v
theories/OffsetExample.v
theories/Properties_Window.v
theories/HomInstantFacts.v
theories/SpecShared.v
theories/SharedFacts.v
theories/SharedExample.v
theories/Properties_Shared.v
theories/SpecPhases.v
theories/PhaseOrderFacts.v
theories/LiftFacts.v
theories/GridFacts.v
theories/Properties_Phases.v
theories/SteadyFacts.v
theories/ExpressOrderFacts.v
theories/SpecExpressOrder.v
theories/ExpressGridFacts.v
theories/Properties_ExpressOrder.v
theories/SpecInjectionOrder.v
theories/InjectionGridFacts.v
theories/Properties_InjectionOrder.v
theories/MaskFacts.v
theories/SpecWindowOrder.v
theories/WindowGridFacts.v
theories/Properties_WindowOrder.v
theories/AboveFacts.v
theories/SpecAbove.v
theories/AboveGridFacts.v
theories/Properties_AboveOrder.v
theories/ContractFacts.v
theories/InverseFacts.v
theories/Properties_Inverse.v
theories/SpecHold.v
theories/HistoryBoundFacts.v
theories/Properties_HistoryBound.v
theories/SpecFlatten.v
theories/TimesOrderFacts.v
theories/TimesGridFacts.v
theories/OrderlyFacts.v
theories/Properties_TimesOrder.v
theories/Properties_SerialTime.v
theories/Properties_Limits.v
theories/SpecFirst.v
theories/FirstFacts.v
theories/Properties_First.v
theories/SpecOwnPixel.v
theories/OwnPixelFacts.v
theories/Properties_OwnPixel.v
theories/SpecPatient.v
theories/SlowOrderFacts.v
theories/SlowGridFacts.v
theories/Properties_Patient.v
theories/SpecMild.v
theories/MildFacts.v
theories/Properties_Mild.v
theories/SpecCalibration.v
theories/CalibrationFacts.v
theories/CalibrationImageFacts.v
theories/Properties_Calibration.v
theories/SpecInjected.v
theories/InjectedFacts.v
theories/InjectedSpecFacts.v
theories/InjectedGridFacts.v
theories/InjectedExample.v
theories/Properties_Injected.v
theories/SpecMeet.v
theories/MeetFacts.v
theories/MeetSimFacts.v
theories/MeetKindFacts.v
theories/MeetGroupFacts.v
theories/MeetGridFacts.v
theories/Properties_Meet.v
theories/SpecEven.v
theories/MeetBalanceFacts.v
theories/Properties_Even.v
theories/SpecHSTImage.v
theories/Properties_Hst.v
theories/SpecTop.v
theories/TopFacts.v
theories/TopGridFacts.v
theories/TopExample.v
theories/Properties_Top.v
theories/SpecSharp.v
theories/SharpFacts.v
theories/SharpGridFacts.v
theories/SpecHSTFrame.v
theories/HSTFrameFacts.v
theories/Properties_Sharp.v
theories/Properties_Frame.v
theories/TestsRoe.v
theories/TestsMain.v
theories/TestsTraps.v
theories/Properties_Grouping.v
theories/EndsModel.v
theories/SpecEnds.v
theories/EndsFacts.v
theories/Properties_Ends.v
theories/EndsSerialFacts.v
theories/SpecSlowCalibration.v
theories/SlowNearbyFacts.v
theories/SlowNearbyImageFacts.v
theories/Properties_SlowCalibration.v
theories/TimesNearbyFacts.v
theories/NarrowFacts.v
theories/InstantTimesFacts.v
theories/Properties_Narrow.v
theories/SqueezeFacts.v
theories/SpecLinear.v
theories/ScaleFacts.v
theories/ScaleGridFacts.v
theories/LinearExample.v
theories/Properties_Linear.v
theories/EfficiencyFacts.v
theories/Properties_Efficiency.v
theories/SpecInTurn.v
theories/InTurnFacts.v
theories/Properties_InTurn.v
theories/FirstCorrectionFacts.v
theories/Properties_FirstCorrection.v
theories/SpecReturn.v
theories/FirstReturnFacts.v
theories/Properties_Return.v
theories/Properties_Setters.v
theories/ShieldFacts.v
theories/Properties_Shield.v
theories/ShieldAboveFacts.v
theories/Properties_ShieldAbove.v
