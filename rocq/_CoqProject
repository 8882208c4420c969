-Q theories Verif
theories/Base.v
theories/Model_Banner.v
theories/Model_Checkpoint.v
theories/Model_Close.v
theories/Model_Convert.v
theories/Model_Ewald.v
theories/Model_Examples.v
theories/Model_Feed.v
theories/Model_Frame.v
theories/Model_Grand.v
theories/Model_GrandP.v
theories/Model_Graphics.v
theories/Model_Index.v
theories/Model_Inputs.v
theories/Model_L.v
theories/Model_Lamb.v
theories/Model_Layout.v
theories/Model_Minf.v
theories/Model_MinfP.v
theories/Model_Mob.v
theories/Model_Nearfield.v
theories/Model_Output.v
theories/Model_Pack.v
theories/Model_Place.v
theories/Model_PlaceP.v
theories/Model_Polygon.v
theories/Model_Progress.v
theories/Model_R2B.v
theories/Model_Reflect.v
theories/Model_Report.v
theories/Model_ReportP.v
theories/Model_Repulsion.v
theories/Model_Scalars.v
theories/Model_Separation.v
theories/Model_Settings.v
theories/Model_Setups.v
theories/Model_Shear.v
theories/Model_Sim.v
theories/Model_Startup.v
theories/Model_Step.v
theories/Model_Subtract.v
theories/Model_Table.v
theories/Model_Test.v
theories/Model_Video.v
theories/Proof_Alone.v
theories/Proof_Alone2.v
theories/Proof_Apart.v
theories/Proof_Axi1.v
theories/Proof_Axi2.v
theories/Proof_Axi3.v
theories/Proof_Banner1.v
theories/Proof_Banner2.v
theories/Proof_Banner3.v
theories/Proof_Banner4.v
theories/Proof_Calc.v
theories/Proof_Checkpoint.v
theories/Proof_Checkpoint2.v
theories/Proof_Close.v
theories/Proof_Close2.v
theories/Proof_Convert.v
theories/Proof_Diag.v
theories/Proof_Drag.v
theories/Proof_Drift1.v
theories/Proof_Drift2.v
theories/Proof_Ewald1.v
theories/Proof_Ewald2.v
theories/Proof_Ewald3.v
theories/Proof_Ewald4.v
theories/Proof_Ewald5.v
theories/Proof_Ewald6.v
theories/Proof_Ewald7.v
theories/Proof_Exact1.v
theories/Proof_Exact2.v
theories/Proof_Exact3.v
theories/Proof_Exact4.v
theories/Proof_Examples.v
theories/Proof_Fall.v
theories/Proof_Finish.v
theories/Proof_Fold.v
theories/Proof_Frame.v
theories/Proof_Frame2.v
theories/Proof_Frame3.v
theories/Proof_Frame4.v
theories/Proof_Frame5.v
theories/Proof_GrandP.v
theories/Proof_Graphics.v
theories/Proof_Inputs3.v
theories/Proof_Interp.v
theories/Proof_L.v
theories/Proof_Lamb.v
theories/Proof_Lamb2.v
theories/Proof_Layout.v
theories/Proof_Linear.v
theories/Proof_Linear2.v
theories/Proof_Minf.v
theories/Proof_Minf2.v
theories/Proof_Minf3.v
theories/Proof_Minf4.v
theories/Proof_MinfP1.v
theories/Proof_MinfP10.v
theories/Proof_MinfP2.v
theories/Proof_MinfP3.v
theories/Proof_MinfP4.v
theories/Proof_MinfP5.v
theories/Proof_MinfP6.v
theories/Proof_MinfP7.v
theories/Proof_MinfP8.v
theories/Proof_MinfP9.v
theories/Proof_Mob.v
theories/Proof_Mob2.v
theories/Proof_Moments.v
theories/Proof_Nearfield1.v
theories/Proof_Nearfield10.v
theories/Proof_Nearfield11.v
theories/Proof_Nearfield2.v
theories/Proof_Nearfield3.v
theories/Proof_Nearfield4.v
theories/Proof_Nearfield5.v
theories/Proof_Nearfield6.v
theories/Proof_Nearfield7.v
theories/Proof_Nearfield8.v
theories/Proof_Nearfield9.v
theories/Proof_Once.v
theories/Proof_Output.v
theories/Proof_Output2.v
theories/Proof_Output3.v
theories/Proof_Pack.v
theories/Proof_Pair.v
theories/Proof_Pair2.v
theories/Proof_Periodic.v
theories/Proof_Periodic2.v
theories/Proof_Place.v
theories/Proof_PlaceP.v
theories/Proof_PlaceP2.v
theories/Proof_Polygon.v
theories/Proof_Posdef.v
theories/Proof_Posdef2.v
theories/Proof_Ppt.v
theories/Proof_Progress.v
theories/Proof_Push1.v
theories/Proof_Push2.v
theories/Proof_Push3.v
theories/Proof_R2B.v
theories/Proof_R2B2.v
theories/Proof_R2B3.v
theories/Proof_R2B4.v
theories/Proof_Recur1.v
theories/Proof_Recur2.v
theories/Proof_Recur3.v
theories/Proof_Reflect.v
theories/Proof_Reflect2.v
theories/Proof_Reflect3.v
theories/Proof_Reflect4.v
theories/Proof_Renumber1.v
theories/Proof_Renumber2.v
theories/Proof_Renumber3.v
theories/Proof_Renumber4.v
theories/Proof_Renumber5.v
theories/Proof_Renumber6.v
theories/Proof_Report.v
theories/Proof_Repulsion.v
theories/Proof_Rescale1.v
theories/Proof_Rescale2.v
theories/Proof_Resume.v
theories/Proof_Rotate1.v
theories/Proof_Rotate2.v
theories/Proof_Rotate3.v
theories/Proof_Rotate4.v
theories/Proof_Rotate5.v
theories/Proof_Rotate6.v
theories/Proof_Rotate7.v
theories/Proof_Rotate8.v
theories/Proof_Rotate9.v
theories/Proof_Run.v
theories/Proof_Run2.v
theories/Proof_Run4.v
theories/Proof_Runs.v
theories/Proof_Runs2.v
theories/Proof_Runs3.v
theories/Proof_Runs4.v
theories/Proof_Scalars.v
theories/Proof_Scheme.v
theories/Proof_Scheme2.v
theories/Proof_Scheme3.v
theories/Proof_Series1.v
theories/Proof_Series2.v
theories/Proof_Series3.v
theories/Proof_Setups.v
theories/Proof_Setups2.v
theories/Proof_Shape.v
theories/Proof_Shear.v
theories/Proof_Shear2.v
theories/Proof_Sim.v
theories/Proof_Sim2.v
theories/Proof_Startup.v
theories/Proof_Step.v
theories/Proof_Step2.v
theories/Proof_Step3.v
theories/Proof_Subtract1.v
theories/Proof_Subtract2.v
theories/Proof_Subtract3.v
theories/Proof_Subtract4.v
theories/Proof_Subtract5.v
theories/Proof_Subtract6.v
theories/Proof_Subtract7.v
theories/Proof_Table.v
theories/Proof_Table2.v
theories/Proof_Tensors.v
theories/Proof_Test.v
theories/Proof_Test2.v
theories/Proof_Tow1.v
theories/Proof_Tow2.v
theories/Proof_Tow4.v
theories/Proof_Translate.v
theories/Proof_Translate2.v
theories/Proof_Translate3.v
theories/Proof_Translate4.v
theories/Proof_Turn1.v
theories/Proof_Turn2.v
theories/Proof_Turn3.v
theories/Proof_Turn4.v
theories/Proof_Turn5.v
theories/Proof_Turn6.v
theories/Proof_Two1.v
theories/Proof_Two2.v
theories/Proof_Two3.v
theories/Proof_Two4.v
theories/Proof_Two5.v
theories/Proof_Two6.v
theories/Proof_Units1.v
theories/Proof_Units2.v
theories/Proof_Units3.v
theories/Proof_Video.v
theories/Proof_Video2.v
theories/Proof_Video3.v
theories/Proof_Wide1.v
theories/Proof_Wide2.v
theories/Proof_Wide3.v
theories/Proof_Wide4.v
theories/Proof_Work.v
theories/Proof_Work2.v
theories/Proof_Work3.v
theories/Prop_Alone.v
theories/Prop_Alone2.v
theories/Prop_Apart.v
theories/Prop_Banner.v
theories/Prop_Checkpoint.v
theories/Prop_Close.v
theories/Prop_Convert.v
theories/Prop_Drag.v
theories/Prop_Drift.v
theories/Prop_Ewald.v
theories/Prop_Exact.v
theories/Prop_Examples.v
theories/Prop_Fall.v
theories/Prop_Feed.v
theories/Prop_Finish.v
theories/Prop_Frame.v
theories/Prop_Grand.v
theories/Prop_Graphics.v
theories/Prop_Index.v
theories/Prop_Lamb.v
theories/Prop_Layout.v
theories/Prop_Linear.v
theories/Prop_Minf.v
theories/Prop_Minf2.v
theories/Prop_MinfP.v
theories/Prop_Mob.v
theories/Prop_Moments.v
theories/Prop_Nearfield.v
theories/Prop_Once.v
theories/Prop_Output.v
theories/Prop_Pack.v
theories/Prop_Pair.v
theories/Prop_Place.v
theories/Prop_PlaceP.v
theories/Prop_Polygon.v
theories/Prop_Posdef.v
theories/Prop_Prescribed.v
theories/Prop_Progress.v
theories/Prop_Progress2.v
theories/Prop_Push.v
theories/Prop_R2B.v
theories/Prop_Recur.v
theories/Prop_Reflect.v
theories/Prop_Renumber.v
theories/Prop_Renumber4.v
theories/Prop_Report.v
theories/Prop_ReportP.v
theories/Prop_Repulsion.v
theories/Prop_Rescale.v
theories/Prop_Rotate.v
theories/Prop_Run.v
theories/Prop_Run4.v
theories/Prop_Runs.v
theories/Prop_Scalars.v
theories/Prop_Scalars2.v
theories/Prop_Scheme.v
theories/Prop_Separation.v
theories/Prop_Series.v
theories/Prop_Settings.v
theories/Prop_Setups.v
theories/Prop_Shear.v
theories/Prop_Sim.v
theories/Prop_Startup.v
theories/Prop_Step.v
theories/Prop_Subtract.v
theories/Prop_Table.v
theories/Prop_Tow.v
theories/Prop_Tow2.v
theories/Prop_Translate.v
theories/Prop_Turn.v
theories/Prop_Turn4.v
theories/Prop_Two.v
theories/Prop_Units.v
theories/Prop_Video.v
theories/Prop_Wide.v
theories/Prop_Work.v
theories/Py.v
theories/Spec_Alone.v
theories/Spec_Apart.v
theories/Spec_Banner.v
theories/Spec_Calc.v
theories/Spec_Checkpoint.v
theories/Spec_Close.v
theories/Spec_Convert.v
theories/Spec_Drag.v
theories/Spec_Drift.v
theories/Spec_Ewald.v
theories/Spec_Exact.v
theories/Spec_Examples.v
theories/Spec_Fall.v
theories/Spec_Finish.v
theories/Spec_Frame.v
theories/Spec_Index.v
theories/Spec_Inputs.v
theories/Spec_L.v
theories/Spec_Layout.v
theories/Spec_Linear.v
theories/Spec_Minf.v
theories/Spec_MinfP.v
theories/Spec_Moments.v
theories/Spec_Nearfield.v
theories/Spec_Once.v
theories/Spec_Output.v
theories/Spec_Pack.v
theories/Spec_Pair.v
theories/Spec_Place.v
theories/Spec_PlaceP.v
theories/Spec_Polygon.v
theories/Spec_Posdef.v
theories/Spec_Progress.v
theories/Spec_Push.v
theories/Spec_R2B.v
theories/Spec_Recur.v
theories/Spec_Reflect.v
theories/Spec_Renumber.v
theories/Spec_Renumber4.v
theories/Spec_Report.v
theories/Spec_Repulsion.v
theories/Spec_Rescale.v
theories/Spec_Rotate.v
theories/Spec_Run.v
theories/Spec_Run4.v
theories/Spec_Runs.v
theories/Spec_Scalars.v
theories/Spec_Scheme.v
theories/Spec_Series.v
theories/Spec_Setups.v
theories/Spec_Shear.v
theories/Spec_Sim.v
theories/Spec_Startup.v
theories/Spec_Step.v
theories/Spec_Subtract.v
theories/Spec_Tow.v
theories/Spec_Tow4.v
theories/Spec_Translate.v
theories/Spec_Turn.v
theories/Spec_Turn4.v
theories/Spec_Two.v
theories/Spec_Units.v
theories/Spec_Video.v
theories/Spec_Wide.v
theories/Spec_Work.v
