-Q theories Verif
theories/Base.v
theories/TimeModel.v
theories/TimeSpec.v
theories/TimeProofs.v
theories/TimeProps.v
theories/BlockModel.v
theories/BlockSpec.v
theories/BlockProofs.v
theories/BlockProps.v
theories/GraphModel.v
theories/GraphSpec.v
theories/GraphBase.v
theories/GraphPath.v
theories/GraphInv.v
theories/GraphShape.v
theories/GraphSums.v
theories/GraphRefs.v
theories/GraphClean.v
theories/GraphStep.v
theories/GraphProps.v
theories/OrderModel.v
theories/OrderSpec.v
theories/OrderProofs.v
theories/OrderProps.v
theories/AllocModel.v
theories/RenderModel.v
theories/RenderSpec.v
theories/AllocProofs.v
theories/PlaceProofs.v
theories/PlanProofs.v
theories/RenderProofs.v
theories/AllocSpec.v
theories/AllocHistory.v
theories/SessionModel.v
theories/SessionProofs.v
theories/RenderMain.v
theories/PlanTotal.v
theories/AllocProps.v
theories/FeedbackModel.v
theories/RenderProps.v
theories/GraphGrow.v
theories/RuntimeModel.v
theories/RuntimeEvolve.v
theories/RuntimeSpec.v
theories/RuntimeSafe.v
theories/RuntimeLink.v
theories/RuntimeProps.v
theories/SchedModel.v
theories/SchedSpec.v
theories/SchedProofs.v
theories/SchedFate.v
theories/SchedProps.v
theories/FreedModel.v
theories/FreedProps.v
theories/PreciseModel.v
theories/PreciseSpec.v
theories/PreciseProofs.v
theories/PreciseProps.v
theories/FloatBase.v
theories/SmoothModel.v
theories/SmoothSpec.v
theories/SmoothProofs.v
theories/SmoothProps.v
theories/ArModel.v
theories/ArSpec.v
theories/ArProps.v
theories/FloatMore.v
theories/EnvModel.v
theories/EnvSpec.v
theories/EnvProofs.v
theories/EnvProps.v
theories/SegModel.v
theories/SegSpec.v
theories/SegProofs.v
theories/SegProps.v
theories/DelayModel.v
theories/DelaySpec.v
theories/DelayProofs.v
theories/DelayProps.v
theories/AllpassModel.v
theories/AllpassSpec.v
theories/AllpassProofs.v
theories/AllpassProps.v
theories/RngModel.v
theories/RngProofs.v
theories/RngProps.v
theories/NoiseModel.v
theories/NoiseSpec.v
theories/NoiseProofs.v
theories/NoiseMore.v
theories/NoiseProps.v
theories/OscModel.v
theories/OscSpec.v
theories/OscProofs.v
theories/OscProps.v
theories/UtilModel.v
theories/UtilProps.v
theories/BufferModel.v
theories/BufferSpec.v
theories/BufferProofs.v
theories/BufferProps.v
theories/MathModel.v
theories/MathSpec.v
theories/MathProofs.v
theories/MathProps.v
theories/WrapModel.v
theories/WrapSpec.v
theories/WrapProofs.v
theories/WrapProps.v
theories/HandleModel.v
theories/HandleSpec.v
theories/HandleProofs.v
theories/HandleWire.v
theories/HandleConst.v
theories/HandleProps.v
theories/LogModel.v
theories/LogSpec.v
theories/LogProofs.v
theories/LogProps.v
theories/DeviceModel.v
theories/DeviceSpec.v
theories/DeviceProofs.v
theories/DeviceProps.v
theories/SvfModel.v
theories/SvfSpec.v
theories/SvfProofs.v
theories/SvfProps.v
theories/PolyModel.v
theories/PolySpec.v
theories/PolyProofs.v
theories/PolyWave.v
theories/PolyProps.v
theories/InspectModel.v
theories/InspectSpec.v
theories/InspectProofs.v
theories/InspectProps.v
theories/SvfRespSpec.v
theories/SvfRespProofs.v
theories/SvfRespProps.v
theories/FracModel.v
theories/FracSpec.v
theories/FracProofs.v
theories/FracProps.v
theories/EnvJumpSpec.v
theories/EnvJumpProofs.v
theories/EnvJumpProps.v
theories/NoiseShapeSpec.v
theories/NoiseShapeProofs.v
theories/NoiseShapeProps.v
theories/PlayModel.v
theories/PlaySpec.v
theories/PlayProofs.v
theories/PlayProps.v
theories/EnvTimeSpec.v
theories/EnvTimeProofs.v
theories/EnvTimeProps.v
theories/ClockModel.v
theories/ClockSpec.v
theories/ClockProofs.v
theories/ClockProps.v
theories/ReverbModel.v
theories/ReverbSpec.v
theories/ReverbProofs.v
theories/ReverbBounds.v
theories/ReverbGain.v
theories/ReverbProps.v
theories/SplitModel.v
theories/SplitSpec.v
theories/SplitProofs.v
theories/SplitProps.v
theories/RawModel.v
theories/RawSpec.v
theories/RawProofs.v
theories/RawProps.v
theories/WaveModel.v
theories/WaveSpec.v
theories/WaveProofs.v
theories/WaveFloat.v
theories/WaveProps.v
theories/PanModel.v
theories/PanSpec.v
theories/PanProofs.v
theories/PanProps.v
theories/SchedAny.v
theories/SchedAnyProps.v
theories/TimedModel.v
theories/TimedSpec.v
theories/TimedProofs.v
theories/TimedProps.v
theories/SoundSpec.v
theories/SoundProofs.v
theories/SoundProps.v
theories/NestModel.v
theories/NestSpec.v
theories/NestProofs.v
theories/NestProps.v
theories/SvfFloatSpec.v
theories/SvfFloatProofs.v
theories/SvfFloatProps.v
theories/ExactSpec.v
theories/CommitExact.v
theories/CommitProps.v
theories/OrderExact.v
theories/OrderExactProps.v
theories/OutModel.v
theories/OutSpec.v
theories/OutProofs.v
theories/OutProps.v
theories/LockModel.v
theories/LockSpec.v
theories/LockProps.v
theories/NameModel.v
theories/NameSpec.v
theories/NameProps.v
theories/PoleModel.v
theories/PoleSpec.v
theories/PoleProofs.v
theories/PoleProps.v
theories/SineModel.v
theories/SineSpec.v
theories/SineProofs.v
theories/SineProps.v
theories/LerpModel.v
theories/LerpSpec.v
theories/LerpProofs.v
theories/LerpProps.v
theories/DcModel.v
theories/DcSpec.v
theories/DcProofs.v
theories/DcProps.v
theories/SaveModel.v
theories/SaveProofs.v
theories/SaveProps.v
theories/CornerSpec.v
theories/CornerProofs.v
theories/CornerWave.v
theories/CornerProps.v
theories/ProcModel.v
theories/ProcSpec.v
theories/ProcProofs.v
theories/ProcProps.v
theories/MacroModel.v
theories/MacroSpec.v
theories/MacroProofs.v
theories/MacroProps.v
theories/HandleFeedback.v
theories/FormulaSpec.v
theories/FormulaProofs.v
theories/FormulaProps.v
theories/MixSpec.v
theories/MixProofs.v
theories/MixProps.v
theories/PoleFloatSpec.v
theories/PoleFloatProofs.v
theories/PoleFloatProps.v
theories/DcFloatProofs.v
theories/DcFloatProps.v
theories/FrameSpec.v
theories/FrameProofs.v
theories/FrameProps.v
theories/SvfErrSpec.v
theories/SvfErrProofs.v
theories/SvfErrProps.v
theories/PlaySectProofs.v
theories/PlaySectProps.v
theories/SegTimeSpec.v
theories/SegTimeProofs.v
theories/SegTimeProps.v
theories/HandleChanProps.v
theories/PolyFloatSpec.v
theories/PolyFloatProofs.v
theories/PolyFloatProps.v
theories/PolyNearSpec.v
theories/PolyNearProofs.v
theories/PolyNearProps.v
theories/SinTabModel.v
theories/SinTabSpec.v
theories/SinTabProofs.v
theories/SinTabProps.v
theories/RampSpec.v
theories/RampProofs.v
theories/RampProps.v
theories/SineNearSpec.v
theories/SineNearProofs.v
theories/SineNearProps.v
theories/PolyTriSpec.v
theories/PolyTriProofs.v
theories/PolyTriProps.v
theories/PolyTrapSpec.v
theories/PolyTrapProofs.v
theories/PolyTrapProps.v
theories/PolyVarSpec.v
theories/PolyVarProofs.v
theories/PolyVarProps.v
theories/PolySkewSpec.v
theories/PolySkewProofs.v
theories/PolySkewProps.v
theories/PolyRectSpec.v
theories/PolyRectProofs.v
theories/PolyRectProps.v
theories/PolyPulseSpec.v
theories/PolyPulseProofs.v
theories/PolyPulseProps.v
theories/ClearProofs.v
theories/ClearProps.v
theories/ClearModel.v
theories/UnsetProps.v
theories/WholeProps.v
theories/PairProps.v
