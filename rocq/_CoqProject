-Q theories Verif
theories/Base.v
theories/BaseProofs.v
theories/EventModel.v
theories/EventSpec.v
theories/EventProofs.v
theories/InputModel.v
theories/InputSpec.v
theories/InputProofs.v
theories/HostModel.v
theories/HostSpec.v
theories/HostProofs.v
theories/HostRaceProofs.v
theories/StepModel.v
theories/StepSpec.v
theories/StepBufferProofs.v
theories/StepSignalsProofs.v
theories/PropertiesIO.v
theories/PropertiesStep.v
theories/Num.v
theories/NumSF.v
theories/NumR.v
theories/MotionModel.v
theories/CtrlModel.v
theories/CtrlSpec.v
theories/CtrlProofs.v
theories/CtrlQueueProofs.v
theories/CtrlStopProofs.v
theories/CtrlIdleProofs.v
theories/CtrlRSpec.v
theories/CtrlTrackProofs.v
theories/CtrlTimeProofs.v
theories/ProfileSpec.v
theories/ProfileProofs.v
theories/PlanProofs.v
theories/JoinProofs.v
theories/GeomSpec.v
theories/GeomProofs.v
theories/PropertiesMotion.v
theories/PropertiesProfile.v
theories/GcodeModel.v
theories/GcodeSpec.v
theories/GBlockProofs.v
theories/GSplitProofs.v
theories/GParseProofs.v
theories/GHeadProofs.v
theories/GStageProofs.v
theories/GMeaningProofs.v
theories/GcodeRSpec.v
theories/GArcProofs.v
theories/GPathProofs.v
theories/GTotalProofs.v
theories/GText.v
theories/GWitness.v
theories/GLineProofs.v
theories/GExamples.v
theories/GHostProofs.v
theories/PropertiesGcode.v
theories/HomingModel.v
theories/HomingSpec.v
theories/HomingProofs.v
theories/HomingRestProofs.v
theories/SystemModel.v
theories/SystemSpec.v
theories/SystemProofs.v
theories/HomingWitness.v
theories/NamesModel.v
theories/PropertiesHoming.v
theories/RunSpec.v
theories/StopSpec.v
theories/RunLegProofs.v
theories/RunTickProofs.v
theories/RunPlanProofs.v
theories/StopPlanProofs.v
theories/StopQueueProofs.v
theories/StopTickProofs.v
theories/StopProofs.v
theories/StopRunProofs.v
theories/StopRoomProofs.v
theories/RunStartProofs.v
theories/RunProofs.v
theories/RunBriefProofs.v
theories/PropertiesRun.v
theories/ProgramSpec.v
theories/ProgramProofs.v
theories/ProgramExample.v
theories/ReferenceSpec.v
theories/ReferenceProofs.v
theories/ReferenceExample.v
theories/PropertiesProgram.v
theories/RingProofs.v
theories/FloatSpec.v
theories/FloatProofs.v
theories/FloatClockProofs.v
theories/FloatTrackProofs.v
theories/FloatErrProofs.v
theories/FloatRampProofs.v
theories/FloatCalcProofs.v
theories/FloatPhaseProofs.v
theories/FloatPlanProofs.v
theories/FloatMoveProofs.v
theories/FloatRunSpec.v
theories/FloatRunProofs.v
theories/FloatStartProofs.v
theories/FloatJobProofs.v
theories/FloatLimitProofs.v
theories/FloatArcSpec.v
theories/FloatArcProofs.v
theories/PropertiesArc.v
theories/FloatProgSpec.v
theories/FloatReadProofs.v
theories/FloatTextProofs.v
theories/PropertiesFloat.v
theories/PropertiesText.v
theories/FlowModel.v
theories/FlowSpec.v
theories/FlowProofs.v
theories/FlowDenseProofs.v
theories/FlowWitness.v
theories/PropertiesFlow.v
theories/SafetySpec.v
theories/SafetyProofs.v
theories/SafetyWitness.v
theories/PropertiesSafety.v
theories/StopWitness.v
theories/PropertiesStop.v
theories/PropertiesPause.v
theories/PaceCountProofs.v
theories/PaceSpec.v
theories/PaceSpeedProofs.v
theories/PaceFlowProofs.v
theories/PaceProofs.v
theories/PaceExample.v
theories/PropertiesPace.v
theories/FloatFlowSpec.v
theories/FloatFlowProofs.v
theories/FloatBendSpec.v
theories/FloatBendProofs.v
theories/FloatWayProofs.v
theories/FloatOffsetProofs.v
theories/FloatPassProofs.v
theories/GcodeStopSpec.v
theories/GStopProofs.v
theories/GStopWitness.v
theories/PropertiesWords.v
theories/AxisAccelSpec.v
theories/AxisAccelProofs.v
theories/PropertiesAccel.v
theories/RestSpec.v
theories/RestProofs.v
theories/FlushWitness.v
theories/RestJobProofs.v
theories/PropertiesRest.v
theories/FloatRadiusSpec.v
theories/FloatRadiusProofs.v
theories/FloatRadiusWitness.v
theories/PropertiesRadius.v
theories/MemorySpec.v
theories/MemoryProofs.v
theories/MemoryWitness.v
theories/PropertiesMemory.v
theories/FloatHomeSpec.v
theories/FloatHomeProofs.v
theories/PropertiesErrand.v
theories/FloatAskProofs.v
theories/PropertiesAsked.v
theories/OverrideSpec.v
theories/OverrideProofs.v
theories/PropertiesOverride.v
theories/PointModel.v
theories/PointProofs.v
theories/PropertiesPoint.v
theories/RangeSpec.v
theories/RangeProofs.v
theories/PropertiesRange.v
theories/GapSpec.v
theories/GapProofs.v
theories/GapPulseProofs.v
theories/GapFlowProofs.v
theories/GapCallProofs.v
theories/PropertiesGap.v
theories/PropertiesStream.v
theories/PropertiesBend.v
