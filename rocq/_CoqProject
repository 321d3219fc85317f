-Q theories Verif
theories/C_Approx.v
theories/C_Artifact.v
theories/C_Axes.v
theories/C_Best.v
theories/C_Build.v
theories/C_Callbacks.v
theories/C_Cond.v
theories/C_Config.v
theories/C_Create.v
theories/C_CustomDraw.v
theories/C_Delete.v
theories/C_Deriv.v
theories/C_Disk.v
theories/C_Draw.v
theories/C_Drift.v
theories/C_Dynsim.v
theories/C_Eager.v
theories/C_Ee.v
theories/C_EvalXy.v
theories/C_Factory.v
theories/C_Fall.v
theories/C_Filter.v
theories/C_Flags.v
theories/C_Fwd.v
theories/C_Gen.v
theories/C_Gym.v
theories/C_Hdf5.v
theories/C_History.v
theories/C_Hz.v
theories/C_Inject.v
theories/C_Joint.v
theories/C_Kin.v
theories/C_Knee.v
theories/C_Layout.v
theories/C_Load.v
theories/C_Log.v
theories/C_Lookup.v
theories/C_Loop.v
theories/C_Mass.v
theories/C_Math.v
theories/C_Mesh.v
theories/C_Morph.v
theories/C_Net.v
theories/C_Norm.v
theories/C_Pd.v
theories/C_Predict.v
theories/C_Queue.v
theories/C_Rand.v
theories/C_Random.v
theories/C_Render.v
theories/C_Ring.v
theories/C_Rnea.v
theories/C_Rot.v
theories/C_Scale.v
theories/C_Scan.v
theories/C_Scene.v
theories/C_SceneArgs.v
theories/C_Sens.v
theories/C_Setup.v
theories/C_Skip.v
theories/C_Soft.v
theories/C_Solid.v
theories/C_Spring.v
theories/C_Startup.v
theories/C_State.v
theories/C_Step.v
theories/C_Strap.v
theories/C_Stream.v
theories/C_Suntay.v
theories/C_Target.v
theories/C_Torch.v
theories/C_TrainFn.v
theories/C_TrainStep.v
theories/C_Union.v
theories/C_Util.v
theories/C_Work.v
theories/C_Xml.v
theories/C_Xs.v
theories/M_Artifact.v
theories/M_Build.v
theories/M_Callbacks.v
theories/M_Compose.v
theories/M_Config.v
theories/M_Create.v
theories/M_Custom.v
theories/M_CustomDraw.v
theories/M_Disk.v
theories/M_Draw.v
theories/M_Dyn.v
theories/M_Ee.v
theories/M_EvalXy.v
theories/M_Factory.v
theories/M_Filter.v
theories/M_Flags.v
theories/M_Gen.v
theories/M_Geom.v
theories/M_Gym.v
theories/M_Hdf5.v
theories/M_History.v
theories/M_Joint.v
theories/M_Kin.v
theories/M_Log.v
theories/M_Math.v
theories/M_Morph.v
theories/M_Net.v
theories/M_Norm.v
theories/M_Pd.v
theories/M_Predict.v
theories/M_Rand.v
theories/M_Random.v
theories/M_Rcmg.v
theories/M_Registry.v
theories/M_Render.v
theories/M_Ring.v
theories/M_Scale.v
theories/M_SceneArgs.v
theories/M_Sens.v
theories/M_Setup.v
theories/M_Startup.v
theories/M_Suntay.v
theories/M_Sys.v
theories/M_Target.v
theories/M_Torch.v
theories/M_Train.v
theories/M_TrainFn.v
theories/M_TrainStep.v
theories/M_Util.v
theories/M_Xml.v
theories/P_Artifact.v
theories/P_Build.v
theories/P_Delete.v
theories/P_Delete2.v
theories/P_Deriv.v
theories/P_Dfs.v
theories/P_Dyn.v
theories/P_Geom.v
theories/P_Hide.v
theories/P_History.v
theories/P_Inject.v
theories/P_Interp.v
theories/P_Joint.v
theories/P_Kin.v
theories/P_Layout.v
theories/P_Mass.v
theories/P_Mat.v
theories/P_Math.v
theories/P_Morph.v
theories/P_Morph2.v
theories/P_Morph3.v
theories/P_Motion.v
theories/P_Pd.v
theories/P_Random.v
theories/P_Rcmg.v
theories/P_Reroot.v
theories/P_Rnea.v
theories/P_Rot.v
theories/P_Run.v
theories/P_Scan.v
theories/P_Spd.v
theories/P_Step.v
theories/P_Stream.v
theories/P_Sys.v
theories/P_Tree.v
theories/P_Trig.v
theories/P_Update.v
theories/P_Xml.v
theories/P_XmlLoad.v
theories/P_XmlTree.v
theories/Prelude.v
theories/S_Artifact.v
theories/S_Axes.v
theories/S_Build.v
theories/S_Callbacks.v
theories/S_Deriv.v
theories/S_Disk.v
theories/S_Draw.v
theories/S_Drift.v
theories/S_Dyn.v
theories/S_Fall.v
theories/S_Flags.v
theories/S_Gym.v
theories/S_Kin.v
theories/S_Layout.v
theories/S_Log.v
theories/S_Morph.v
theories/S_Morph2.v
theories/S_Net.v
theories/S_Norm.v
theories/S_Predict.v
theories/S_Random.v
theories/S_Render.v
theories/S_Scale.v
theories/S_Setup.v
theories/S_Solid.v
theories/S_Strap.v
theories/S_Stream.v
theories/S_Sys.v
theories/S_TrainFn.v
theories/S_TrainStep.v
theories/S_Work.v
theories/S_Xml.v
theories/X_Demo.v
theories/X_Layout.v
theories/X_Toy.v
