-Q theories Verif
theories/AgreeDemo.v
theories/AgreeProofs.v
theories/AgreeProofs2.v
theories/AgreeSpec.v
theories/AnyArithProofs.v
theories/AnyArithSpec.v
theories/CoMHeight.v
theories/CoMHeightProofs.v
theories/CoMHeightSpec.v
theories/ControlProofs.v
theories/ControlSpec.v
theories/Controllers.v
theories/CtrlDoubles.v
theories/CtrlDoublesProofs.v
theories/CtrlDoublesSpec.v
theories/CutDoubles.v
theories/DCM.v
theories/DCMProofs.v
theories/DCMProofs2.v
theories/DCMProofs3.v
theories/DCMProofs4.v
theories/DCMProofs5.v
theories/DCMProofs6.v
theories/DCMSpec.v
theories/DcmTimes.v
theories/DcmTimesExact.v
theories/DcmTimesProofs.v
theories/DcmTimesSpec.v
theories/DcmWeights.v
theories/DcmWeightsProofs.v
theories/DcmWeightsProofs2.v
theories/DcmWeightsProofs3.v
theories/DcmWeightsSpec.v
theories/Doubles.v
theories/DoublesExec.v
theories/DoublesGen.v
theories/DoublesProofs.v
theories/DoublesProofs2.v
theories/DoublesProofs3.v
theories/DoublesProofs4.v
theories/DoublesProofs5.v
theories/DoublesProofs6.v
theories/DoublesSpec.v
theories/EllDoubles.v
theories/EllDoublesProofs.v
theories/EllDoublesProofs2.v
theories/EllDoublesSpec.v
theories/Ellipse.v
theories/EllipseProofs.v
theories/EllipseSpec.v
theories/EndToEndDemo.v
theories/EndToEndProofs.v
theories/EndToEndProofs2.v
theories/EndToEndProofs3.v
theories/EndToEndProofs4.v
theories/EndToEndSpec.v
theories/EvalTac.v
theories/FeetPose.v
theories/FeetPoseProofs.v
theories/FeetPoseSpec.v
theories/FeetProofs.v
theories/FeetProofs2.v
theories/FeetProofs3.v
theories/FeetSpec.v
theories/FeetSpline.v
theories/FeetSplineProofs.v
theories/FeetSplineSpec.v
theories/FeetTimes.v
theories/FeetTimesExact.v
theories/FeetTimesProofs.v
theories/FeetTimesProofs2.v
theories/FeetTimesProofs3.v
theories/FeetTimesSpec.v
theories/FeetTraj.v
theories/FootPrint.v
theories/FootPrintProofs.v
theories/FootPrintSpec.v
theories/FootProofs.v
theories/FootSpec.v
theories/GenPhases.v
theories/GenProofs.v
theories/GenProofs2.v
theories/GenProofs3.v
theories/GenProofs4.v
theories/GenSpec.v
theories/GenThreads.v
theories/Generator.v
theories/GeneratorProofs.v
theories/GeneratorSpec.v
theories/IntDoubles.v
theories/IntDoublesProofs.v
theories/IntDoublesSpec.v
theories/LeastCostProofs.v
theories/LeastCostProofs2.v
theories/LeastCostProofs3.v
theories/LeastCostSpec.v
theories/NavDoublesProofs.v
theories/NavDoublesSpec.v
theories/Navigation.v
theories/NavigationProofs.v
theories/NavigationSpec.v
theories/Optimization.v
theories/PersonDoubles.v
theories/PersonDoublesProofs.v
theories/PersonDoublesProofs2.v
theories/PersonDoublesSpec.v
theories/PersonFollowing.v
theories/PersonProofs.v
theories/PersonSpec.v
theories/Planner.v
theories/PlannerConfigSpec.v
theories/PlannerDemo.v
theories/PlannerProofs.v
theories/PlannerProofs2.v
theories/PlannerProofs3.v
theories/PlannerProofs4.v
theories/PlannerProofs5.v
theories/PlannerProofs6.v
theories/PlannerProofs7.v
theories/PlannerSearch.v
theories/PlannerSpec.v
theories/Prelude.v
theories/ProjDoubles.v
theories/ProjDoublesProofs.v
theories/ProjDoublesProofs2.v
theories/ProjDoublesProofs3.v
theories/ProjDoublesProofs4.v
theories/ProjDoublesSpec.v
theories/ProjDoublesSpec2.v
theories/Properties_Agree.v
theories/Properties_CoMHeight.v
theories/Properties_Controllers.v
theories/Properties_CtrlDoubles.v
theories/Properties_CutDoubles.v
theories/Properties_DCM.v
theories/Properties_DcmTimes.v
theories/Properties_DcmWeights.v
theories/Properties_Doubles.v
theories/Properties_EllDoubles.v
theories/Properties_Ellipse.v
theories/Properties_EndToEnd.v
theories/Properties_Exact.v
theories/Properties_Exact2.v
theories/Properties_Exact3.v
theories/Properties_Feet.v
theories/Properties_FeetPose.v
theories/Properties_FeetSpline.v
theories/Properties_FeetTimes.v
theories/Properties_Foot.v
theories/Properties_FootPrint.v
theories/Properties_Generator.v
theories/Properties_IntDoubles.v
theories/Properties_LeastCost.v
theories/Properties_NavDoubles.v
theories/Properties_Navigation.v
theories/Properties_PersonDoubles.v
theories/Properties_PersonFollowing.v
theories/Properties_Planner.v
theories/Properties_ProjDoubles.v
theories/Properties_ProjDoubles2.v
theories/Properties_Room.v
theories/Properties_RoomLoop.v
theories/Properties_Rounded.v
theories/Properties_SamePhases.v
theories/Properties_Seam.v
theories/Properties_Shared.v
theories/Properties_StepDoubles.v
theories/Properties_Threads.v
theories/Properties_TimedLoop.v
theories/Properties_TimedPlan.v
theories/Properties_TimedRest.v
theories/Properties_TrackDoubles.v
theories/Properties_UniDoubles.v
theories/Properties_Whole.v
theories/Properties_ZMP.v
theories/Properties_ZMP2.v
theories/Properties_ZmpTimes.v
theories/RoomLoopProofs.v
theories/RoomProofs.v
theories/RoomSpec.v
theories/RoundedGen.v
theories/RoundedGenProofs.v
theories/RoundedGenProofs2.v
theories/RoundedGenProofs3.v
theories/RoundedGenProofs4.v
theories/RoundedGenSpec.v
theories/Rounding.v
theories/SamePhasesProofs.v
theories/SamePhasesSpec.v
theories/SeamProofs.v
theories/SeamSpec.v
theories/Shared.v
theories/SharedProofs.v
theories/SharedSpec.v
theories/StepDoubles.v
theories/StepDoublesProofs.v
theories/StepDoublesProofs2.v
theories/StepDoublesProofs3.v
theories/StepDoublesProofs4.v
theories/StepDoublesProofs5.v
theories/StepDoublesSpec.v
theories/Threads.v
theories/ThreadsProofs.v
theories/ThreadsSpec.v
theories/TimedLoop.v
theories/TimedLoopProofs.v
theories/TimedLoopSpec.v
theories/TimedPlan.v
theories/TimedPlanProofs.v
theories/TimedPlanProofs2.v
theories/TimedPlanProofs3.v
theories/TimedPlanProofs4.v
theories/TimedPlanProofs5.v
theories/TimedPlanSpec.v
theories/TimedRestProofs.v
theories/TrackDoubles.v
theories/TrackDoublesProofs.v
theories/TrackDoublesSpec.v
theories/UniDoubles.v
theories/UniDoublesProofs.v
theories/UniDoublesProofs2.v
theories/UniDoublesSpec.v
theories/UnicycleFoot.v
theories/ZMP.v
theories/ZMPFloat.v
theories/ZMPProofs.v
theories/ZMPProofs2.v
theories/ZMPProofs3.v
theories/ZMPProofs4.v
theories/ZMPProofs5.v
theories/ZMPSpec.v
theories/ZmpTimes.v
theories/ZmpTimesExact.v
theories/ZmpTimesProofs.v
theories/ZmpTimesProofs2.v
theories/ZmpTimesProofs3.v
theories/ZmpTimesSpec.v
