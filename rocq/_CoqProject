-Q theories Verif
theories/EngineModel.v
theories/EngineSpec.v
theories/EngineClear.v
theories/EngineEval.v
theories/EngineSet.v
theories/EngineInv.v
theories/EngineOps.v
theories/EngineRead.v
theories/EngineEffect.v
theories/EngineObs.v
theories/EngineHist.v
theories/EngineThms.v
theories/EngineDemo.v
theories/EngineRefute.v
theories/EngineProps.v
theories/GraphModel.v
theories/GraphSpec.v
theories/GraphThms.v
theories/GraphDemo.v
theories/GraphProps.v
theories/Check.v
theories/RevModel.v
theories/RevSpec.v
theories/RevThms.v
theories/RevDemo.v
theories/RevProps.v
theories/SliceThms.v
theories/SliceProps.v
theories/ArrModel.v
theories/Curve.v
theories/ArrThms.v
theories/AdSpec.v
theories/AdThms.v
theories/ElemModel.v
theories/ElemSpec.v
theories/ElemThms.v
theories/ElemProps.v
theories/ReorderModel.v
theories/ReorderSpec.v
theories/ReorderThms.v
theories/ReorderCache.v
theories/ReorderProps.v
theories/IndexThms.v
theories/NpModel.v
theories/NpSpec.v
theories/NpThms.v
theories/AdHist.v
theories/NpDemo.v
theories/AdProps.v
theories/ReorderOps.v
theories/ViewSpec.v
theories/ViewThms.v
theories/IndexDemo.v
theories/IndexProps.v
theories/RedModel.v
theories/RedSpec.v
theories/RedThms.v
theories/RedThms2.v
theories/ExtThms.v
theories/RedOps.v
theories/RedFine.v
theories/RedProps.v
theories/ConcModel.v
theories/ConcSpec.v
theories/ConcThms.v
theories/ConcJac.v
theories/ConcMemo.v
theories/ConcProps.v
theories/DotModel.v
theories/DotSpec.v
theories/DotThms.v
theories/DotThms2.v
theories/TensorThms.v
theories/DotOps.v
theories/DotProps.v
theories/LinModel.v
theories/LinSpec.v
theories/LinThms.v
theories/LinJac.v
theories/LinOps.v
theories/LinProps.v
theories/DogModel.v
theories/DogSpec.v
theories/DogThms.v
theories/DogStops.v
theories/DogExact.v
theories/DogGeo.v
theories/DogGeoThms.v
theories/DogLive.v
theories/DogBest.v
theories/Dog64.v
theories/DogPlane.v
theories/DogDemo.v
theories/DogProps.v
theories/TimerModel.v
theories/TimerSpec.v
theories/TimerThms.v
theories/TimerProps.v
theories/BridgeModel.v
theories/BridgeSpec.v
theories/BridgeThms.v
theories/BridgeDemo.v
theories/BridgeProps.v
theories/BindModel.v
theories/BindSpec.v
theories/BindThms.v
theories/BindDemo.v
theories/BindProps.v
theories/CopyModel.v
theories/CopySpec.v
theories/CopyThms.v
theories/CopyInv.v
theories/CopyHist.v
theories/CopyDemo.v
theories/CopyProps.v
theories/RedunModel.v
theories/RedunSpec.v
theories/RedunThms.v
theories/RedunTerm.v
theories/RedunDr.v
theories/RedunDemo.v
theories/RedunProps.v
theories/StackModel.v
theories/StackSpec.v
theories/StackThms.v
theories/StackDemo.v
theories/StackProps.v
theories/LamModel.v
theories/LamSpec.v
theories/LamGraph.v
theories/LamThms.v
theories/LamHist.v
theories/LamMake.v
theories/LamDemo.v
theories/LamProps.v
theories/RepModel.v
theories/RepSpec.v
theories/RepThms.v
theories/RepSum.v
theories/RepGraph.v
theories/RepDemo.v
theories/RepOpsSpec.v
theories/RepOps.v
theories/RepProps.v
theories/SvdModel.v
theories/SvdSpec.v
theories/SvdThms.v
theories/SvdArr.v
theories/SvdDemo.v
theories/SvdProps.v
theories/PinvModel.v
theories/PinvSpec.v
theories/PinvThms.v
theories/PinvArr.v
theories/PinvJac.v
theories/PinvDemo.v
theories/PinvProps.v
theories/InterpModel.v
theories/InterpSpec.v
theories/InterpThms.v
theories/InterpDemo.v
theories/InterpProps.v
theories/StepModel.v
theories/StepSpec.v
theories/StepThms.v
theories/StepDemo.v
theories/StepProps.v
theories/ForgetModel.v
theories/ForgetSpec.v
theories/ForgetThms.v
theories/ForgetDemo.v
theories/ForgetProps.v
theories/ProtoModel.v
theories/ProtoSpec.v
theories/ProtoThms.v
theories/ProtoProps.v
theories/HelpModel.v
theories/HelpSpec.v
theories/HelpThms.v
theories/HelpProps.v
theories/MomModel.v
theories/MomSpec.v
theories/MomThms.v
theories/MomProps.v
theories/GroupModel.v
theories/GroupSpec.v
theories/GroupThms.v
theories/GroupDemo.v
theories/GroupProps.v
theories/BlockModel.v
theories/BlockSpec.v
theories/BlockThms.v
theories/BlockDemo.v
theories/BlockProps.v
theories/LayModel.v
theories/LaySpec.v
theories/LayThms.v
theories/LayProps.v
theories/NanModel.v
theories/NanSpec.v
theories/NanThms.v
theories/NanProps.v
theories/MemModel.v
theories/MemSpec.v
theories/MemThms.v
theories/MemProps.v
theories/FmtModel.v
theories/FmtSpec.v
theories/FmtThms.v
theories/FmtDemo.v
theories/FmtProps.v
theories/CostModel.v
theories/CostSpec.v
theories/CostThms.v
theories/CostDemo.v
theories/CostProps.v
theories/NestModel.v
theories/NestSpec.v
theories/NestThms.v
theories/NestDemo.v
theories/NestProps.v
theories/RoundModel.v
theories/RoundSpec.v
theories/RoundThms.v
theories/RoundDemo.v
theories/RoundProps.v
theories/MinModel.v
theories/MinSpec.v
theories/MinThms.v
theories/MinDemo.v
theories/MinProps.v
theories/LsqSpec.v
theories/LsqThms.v
theories/LsqRun.v
theories/LsqDemo.v
theories/LsqProps.v
theories/SlotModel.v
theories/SlotSpec.v
theories/SlotThms.v
theories/SlotDemo.v
theories/SlotProps.v
theories/DetsModel.v
theories/DetsThms.v
theories/DetsProps.v
theories/SmoothSpec.v
theories/SmoothThms.v
theories/SmoothRun.v
theories/SmoothDemo.v
theories/SmoothProps.v
theories/ReportModel.v
theories/ReportSpec.v
theories/ReportThms.v
theories/ReportDemo.v
theories/ReportProps.v
theories/GnModel.v
theories/GnSpec.v
theories/GnThms.v
theories/GnDemo.v
theories/GnProps.v
theories/CallModel.v
theories/CallSpec.v
theories/CallThms.v
theories/CallDemo.v
theories/CallProps.v
theories/MixModel.v
theories/MixSpec.v
theories/MixThms.v
theories/MixRules.v
theories/MixProps.v
theories/StoreModel.v
theories/StoreSpec.v
theories/StoreThms.v
theories/StoreProps.v
theories/QuestModel.v
theories/QuestSpec.v
theories/QuestThms.v
theories/QuestPos.v
theories/QuestProps.v
theories/MethModel.v
theories/MethSpec.v
theories/MethThms.v
theories/MethProps.v
theories/SeveralModel.v
theories/SeveralSpec.v
theories/SeveralThms.v
theories/SeveralSteps.v
theories/SeveralFine.v
theories/SeveralExt.v
theories/SeveralProps.v
theories/OwnModel.v
theories/OwnSpec.v
theories/OwnThms.v
theories/OwnProps.v
theories/BlendModel.v
theories/BlendSpec.v
theories/BlendThms.v
theories/BlendProps.v
theories/SessModel.v
theories/SessSpec.v
theories/SessThms.v
theories/SessProps.v
