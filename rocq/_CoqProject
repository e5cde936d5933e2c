-Q theories Verif
theories/Base.v
theories/Flags_Model.v
theories/Flags_Proofs.v
theories/Flags_Props.v
theories/Stack_Model.v
theories/Stack_Proofs.v
theories/Stack_Props.v
theories/Solver_Model.v
theories/Solver_Spec.v
theories/Solver_Proofs.v
theories/Solver_Proofs2.v
theories/Solver_Props.v
theories/Bound_Model.v
theories/Bound_Props.v
theories/Task_Model.v
theories/Task_Proofs.v
theories/Task_Props.v
theories/Gain_Model.v
theories/Gain_Props.v
theories/Feature_Model.v
theories/Feature_Proofs.v
theories/Feature_Props.v
theories/Float_Facts.v
theories/Device_Model.v
theories/Device_Proofs.v
theories/Device_Props.v
theories/Device_Float.v
theories/SMap.v
theories/Sched_Model.v
theories/Sched_Props.v
theories/Mailbox_Model.v
theories/Mailbox_Props.v
theories/Pool_Model.v
theories/Pool_Props.v
theories/Variadic_Model.v
theories/Variadic_Proofs.v
theories/Variadic_Props.v
theories/Operator_Model.v
theories/Operator_Props.v
theories/Filter_Model.v
theories/Filter_Fir_Props.v
theories/Filter_Causal_Props.v
theories/Filter_Signal_Props.v
theories/Geom_Model.v
theories/Geom_Facts.v
theories/Geom_Rot.v
theories/Geom_Props.v
theories/OpPoint_Model.v
theories/OpPoint_Props.v
theories/Tools_Model.v
theories/Tools_Props.v
theories/Tools_Float_Model.v
theories/Tools_Float_Props.v
theories/Tools2_Props.v
theories/Admit_Model.v
theories/Admit_Props.v
theories/Robot_Model.v
theories/Robot_Props.v
theories/RobotWorld_Props.v
theories/RobotBase_Model.v
theories/RobotBase_Props.v
theories/Mimic_Model.v
theories/Mimic_Props.v
theories/Madgwick_Model.v
theories/Madgwick_Props.v
theories/Mx_Abel.v
theories/Kalman_Model.v
theories/Kalman_Props.v
theories/Pinv_Model.v
theories/Pinv_Props.v
theories/Traj_Model.v
theories/Traj_Props.v
theories/Reader_Model.v
theories/Reader_Props.v
theories/Watch_Model.v
theories/Watch_Props.v
theories/Calendar_Model.v
theories/Calendar_Props.v
theories/Loop_Model.v
theories/Loop_Props.v
theories/Rodr_Facts.v
theories/Rel_Facts.v
theories/Point6d_Model.v
theories/Point6d_Props.v
theories/Log6_Facts.v
theories/Pose_Model.v
theories/Pose_Props.v
theories/Rel6_Model.v
theories/Rel6_Props.v
theories/Line_Model.v
theories/Line_Props.v
theories/TrajText_Model.v
theories/TrajText_Props.v
theories/MatUtil_Model.v
theories/MatUtil_Props.v
theories/Loader_Model.v
theories/Loader_Props.v
theories/Stream_Model.v
theories/Stream_Props.v
theories/Meta_Model.v
theories/Meta_Props.v
theories/Deps_Model.v
theories/Deps_Proofs.v
theories/Deps_Props.v
theories/FreeFly_Model.v
theories/FreeFly_Facts.v
theories/FreeFly_Props.v
theories/Closed_Solver.v
theories/Closed_Model.v
theories/Closed_Lists.v
theories/Closed_Facts.v
theories/Closed_Svd.v
theories/Closed_Props.v
theories/Clock_Model.v
theories/Clock_Props.v
theories/Exc_Model.v
theories/Exc_Props.v
theories/EulerV_Model.v
theories/EulerV_Props.v
theories/PyFeat_Model.v
theories/PyFeat_Props.v
theories/Viewer_Model.v
theories/Viewer_Props.v
theories/PdLoop_Model.v
theories/PdLoop_Props.v
theories/MetaRel_Model.v
theories/MetaRel_Props.v
theories/TrajSig_Model.v
theories/TrajSig_Props.v
theories/HistDump_Model.v
theories/HistDump_Props.v
theories/VLog_Model.v
theories/VLog_Props.v
theories/CalLive_Model.v
theories/CalLive_Props.v
theories/RefName_Model.v
theories/RefName_Props.v
theories/StackText_Model.v
theories/StackText_Props.v
theories/WatchText_Model.v
theories/WatchText_Props.v
theories/FiltDiff_Model.v
theories/FiltDiff_Props.v
theories/DerivV_Model.v
theories/DerivV_Props.v
theories/SmoothDef_Props.v
theories/OpPointE_Model.v
theories/OpPointE_Props.v
theories/DerivLoop_Props.v
theories/Const_Model.v
theories/Const_Props.v
theories/MetaCom_Model.v
theories/MetaCom_Props.v
theories/VQuat_Model.v
theories/VQuat_Props.v
theories/DevTick_Model.v
theories/DevTick_Props.v
theories/OpGraph_Model.v
theories/OpGraph_Props.v
theories/CalDeco_Model.v
theories/CalDeco_Props.v
theories/LoopNext_Model.v
theories/LoopNext_Props.v
theories/ShowText_Model.v
theories/ShowText_Props.v
theories/Debug_Model.v
theories/Debug_Props.v
theories/FlagCmd_Model.v
theories/FlagCmd_Props.v
theories/StackCmd_Model.v
theories/StackCmd_Props.v
theories/EventText_Model.v
theories/EventText_Props.v
theories/ForceText_Model.v
theories/ForceText_Props.v
theories/TrajShow_Model.v
theories/TrajShow_Props.v
theories/RobotText_Model.v
theories/RobotText_Props.v
theories/GainText_Model.v
theories/GainText_Props.v
