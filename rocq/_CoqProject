-Q theories Verif
theories/Kdl.v
theories/KdlFacts.v
theories/Screw.v
theories/ScrewFacts.v
theories/Trig.v
theories/TrigFacts.v
theories/Subproblems.v
theories/SubproblemFacts.v
theories/SubproblemFacts2.v
theories/SubproblemFacts3.v
theories/SubproblemFacts4.v
theories/SubproblemFacts5.v
theories/SubproblemSpec2.v
theories/SubproblemFacts6.v
theories/SubproblemExamples.v
theories/Selector.v
theories/SelectorFacts.v
theories/IkProblem.v
theories/IkSpec.v
theories/IkProblemFacts.v
theories/IkProblemFacts2.v
theories/IkProblemFacts3.v
theories/KdlRot.v
theories/KdlRotFacts.v
theories/KinRep.v
theories/KinRepSpec.v
theories/KinRepFacts.v
theories/KinRepFacts2.v
theories/KinRepFacts3.v
theories/TinyMath.v
theories/TinyMathFacts.v
theories/Vocab.v
theories/Bcc.v
theories/BccSpec.v
theories/BccFacts.v
theories/BccAll.v
theories/BccFacts2.v
theories/BccFacts3.v
theories/BccFacts4.v
theories/BccFacts5.v
theories/BccFacts6.v
theories/BccFacts7.v
theories/BccFacts8.v
theories/BccFacts9.v
theories/BccExamples.v
theories/BccExamples2.v
theories/Rpc.v
theories/RpcSpec.v
theories/RpcFacts.v
theories/Builder.v
theories/BuilderSpec.v
theories/BuilderFacts.v
theories/BuilderFacts2.v
theories/BuilderExamples.v
theories/BuilderExamples2.v
theories/BuilderFacts3.v
theories/KdlSolver.v
theories/KdlSolverFacts.v
theories/KdlSolverExamples.v
theories/TrajGen.v
theories/TrajGenFacts.v
theories/Asibot.v
theories/AsibotSpec.v
theories/AsibotFacts.v
theories/AsibotFacts2.v
theories/AsibotFacts3.v
theories/AsibotFacts4.v
theories/AsibotExamples.v
theories/AsibotFacts5.v
theories/AsibotFacts6.v
theories/BccSpec2.v
theories/BccModes.v
theories/KdlTraj.v
theories/LineSpec.v
theories/LineFacts.v
theories/LineFacts2.v
theories/LineFacts3.v
theories/BccKdl.v
theories/BccLineSpec.v
theories/BccLineFacts.v
theories/BccLineFacts2.v
theories/BccLineFacts3.v
theories/BccLineFacts4.v
theories/BccLineExamples.v
theories/BccLineExamples2.v
theories/Properties_Screw.v
theories/Properties_Subproblems.v
theories/Properties_Selector.v
theories/Properties_Ik.v
theories/Properties_Kin.v
theories/Properties_Bcc.v
theories/Properties_Rpc.v
theories/Properties_Builder.v
theories/IkPoseSpec.v
theories/IkPoseFacts.v
theories/IkPoseFacts2.v
theories/IkPoseFacts3.v
theories/IkPoseFacts4.v
theories/BuilderRun.v
theories/BuilderRunFacts.v
theories/IkPoseArms.v
theories/IkPoseExamples.v
theories/Properties_Pose.v
theories/SlideSpec.v
theories/SlideFacts.v
theories/SlideFacts2.v
theories/SlideFacts3.v
theories/SlideFacts4.v
theories/SlideArms.v
theories/SlideExamples.v
theories/Properties_Slide.v
theories/SolverLoopSpec.v
theories/SolverLoopFacts.v
theories/SolverLoopExamples.v
theories/FkSt.v
theories/FkStSpec.v
theories/FkStFacts.v
theories/Properties_Loop.v
theories/Properties_Solver.v
theories/Properties_Traj.v
theories/Properties_Asibot.v
theories/Properties_Modes.v
theories/Ft.v
theories/FtSpec.v
theories/FtFacts.v
theories/Properties_Ft.v
theories/Stream.v
theories/StreamSpec.v
theories/StreamFacts.v
theories/StreamFacts2.v
theories/StreamFacts3.v
theories/StreamFacts4.v
theories/StreamFacts5.v
theories/StreamFacts6.v
theories/StreamFacts7.v
theories/Properties_Stream.v
theories/Keyboard.v
theories/KeyboardSpec.v
theories/KeyboardFacts.v
theories/KeyboardFacts2.v
theories/KeyboardFacts3.v
theories/KeyboardFacts4.v
theories/KeyboardFacts5.v
theories/KeyboardFacts6.v
theories/KeyboardFacts7.v
theories/KeyboardFacts8.v
theories/Properties_Keyboard.v
theories/Config.v
theories/ConfigSpec.v
theories/ConfigFacts.v
theories/Tree.v
theories/TreeSpec.v
theories/TreeFacts.v
theories/TreeFacts2.v
theories/TreeFacts3.v
theories/TreeFacts4.v
theories/TreeFacts5.v
theories/Properties_Config.v
theories/Properties_Tree.v
theories/Haar.v
theories/HaarSpec.v
theories/HaarFacts.v
theories/Properties_Haar.v
theories/BccCmdSpec.v
theories/BccCmdFacts.v
theories/BccCmdFacts2.v
theories/BccCmdFacts3.v
theories/BccCmdFacts4.v
theories/BccCmdExamples.v
theories/Properties_Line.v
theories/Properties_Cmd.v
theories/Sys.v
theories/SysSpec.v
theories/SysFacts.v
theories/SysFacts2.v
theories/SysFacts3.v
theories/SysFacts4.v
theories/SysFacts5.v
theories/SysExamples.v
theories/SysExamples2.v
theories/SysExamples3.v
theories/Net.v
theories/NetSpec.v
theories/NetFacts.v
theories/NetFacts2.v
theories/NetExamples.v
theories/Cuboid.v
theories/CuboidSpec.v
theories/CuboidFacts.v
theories/CuboidFacts2.v
theories/CuboidExamples.v
theories/IkRangeSpec.v
theories/IkRangeFacts.v
theories/IkRangeFacts2.v
theories/TrackSpec.v
theories/TrackFacts.v
theories/TrackExamples.v
theories/Follow.v
theories/FollowSpec.v
theories/FollowFacts.v
theories/FollowFacts2.v
theories/FollowFacts3.v
theories/FollowFacts4.v
theories/FollowExamples.v
theories/FollowFacts5.v
theories/Dyn.v
theories/DynSpec.v
theories/DynFacts.v
theories/DynFacts2.v
theories/DynFacts3.v
theories/DynFacts4.v
theories/DynFacts5.v
theories/DynFacts6.v
theories/DynFacts7.v
theories/DynFacts8.v
theories/DynExamples.v
theories/TreeDyn.v
theories/TreeDynSpec.v
theories/TreeDynFacts.v
theories/TreeDynFacts2.v
theories/TreeDynFacts3.v
theories/TreeDynExamples.v
theories/Properties_Sys.v
theories/Properties_Track.v
theories/Properties_Net.v
theories/Properties_Cuboid.v
theories/Properties_Range.v
theories/Properties_Follow.v
theories/Properties_Dyn.v
theories/Properties_TreeDyn.v
theories/ToolRace.v
theories/ToolRaceSpec.v
theories/ToolRaceFacts.v
theories/ToolRaceFacts2.v
theories/ToolRaceFacts3.v
theories/ToolRaceExamples.v
theories/AsibotRace.v
theories/AsibotRaceSpec.v
theories/AsibotRaceFacts.v
theories/AsibotRaceExamples.v
theories/Properties_ToolRace.v
theories/KeyRace.v
theories/KeyRaceSpec.v
theories/KeyRaceFacts.v
theories/KeyRaceFacts2.v
theories/KeyRaceFacts3.v
theories/KeyRaceExamples.v
theories/Properties_KeyRace.v
theories/BccRaceSpec.v
theories/BccRaceFacts.v
theories/BccRaceExamples.v
theories/Properties_BccRace.v
theories/Csv.v
theories/CsvSpec.v
theories/CsvFacts.v
theories/CsvFacts2.v
theories/CsvFacts3.v
theories/CsvFacts4.v
theories/CsvFacts5.v
theories/CsvExamples.v
theories/Properties_Csv.v
theories/Feed.v
theories/FeedSpec.v
theories/FeedFacts.v
theories/FeedExamples.v
theories/Properties_Feed.v
theories/Loose.v
theories/LooseSpec.v
theories/LooseFacts.v
theories/LooseExamples.v
theories/Properties_Loose.v
theories/F64.v
theories/F64Facts.v
theories/Rounded.v
theories/RoundedSpec.v
theories/RoundedFacts.v
theories/RoundedFacts2.v
theories/RoundedExamples.v
theories/Properties_Rounded.v
theories/AsibotF64.v
theories/AsibotF64Spec.v
theories/AsibotF64Facts.v
theories/AsibotF64Facts2.v
theories/AsibotF64Examples.v
theories/Properties_AsibotF64.v
theories/F64More.v
theories/SelectorF64.v
theories/SelectorF64Spec.v
theories/SelectorF64Facts.v
theories/SelectorF64Examples.v
theories/Properties_SelectorF64.v
theories/NearPlaneFacts.v
theories/Properties_NearPlane.v
theories/JointMoveF64.v
theories/JointMoveF64Facts.v
theories/JointMoveF64Examples.v
theories/Properties_JointMoveF64.v
theories/NearestFacts.v
theories/Properties_Nearest.v
theories/RecognisedFacts.v
theories/Properties_Recognised.v
theories/NearestTwoFacts.v
theories/Properties_NearestTwo.v
theories/CycleF64.v
theories/CycleF64Spec.v
theories/CycleF64Facts.v
theories/CycleF64Examples.v
theories/CycleF64Facts2.v
theories/CycleF64Facts3.v
theories/Properties_CycleF64.v
