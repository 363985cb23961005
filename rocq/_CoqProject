-Q theories Verif
theories/Num.v
theories/Base.v
theories/Model_Arr.v
theories/Model_SC.v
theories/Model_Err.v
theories/Lemmas.v
theories/Proofs_Reg.v
theories/Proofs_Support.v
theories/Proofs_Update.v
theories/Proofs_Setpoint.v
theories/Spec.v
theories/Proofs_CM.v
theories/Proofs_CM2.v
theories/Proofs_Loop.v
theories/Proofs_Loop2.v
theories/Examples.v
theories/Properties_Reg.v
theories/Properties_Setpoint.v
theories/Properties_Setpoint2.v
theories/Properties_Setpoint3.v
theories/Properties_Setpoint4.v
theories/Proofs_Field.v
theories/Properties_Field.v
theories/Properties_Update.v
theories/Properties_Comp.v
theories/Properties_Random.v
theories/Proofs_Err.v
theories/Properties_Errors.v
theories/Properties_Circ.v
theories/Properties_Align.v
theories/Properties_Support.v
theories/Proofs_Interp.v
theories/Properties_Interp.v
theories/Properties_Interp2.v
theories/Properties_Zero.v
theories/Model_Beam.v
theories/Model_Lattice.v
theories/Proofs_Beam.v
theories/Properties_Lattice.v
theories/Properties_Model.v
theories/Proofs_Mat.v
theories/Properties_Beam.v
theories/Properties_Beam2.v
theories/Model_Pinv.v
theories/Properties_Pinv.v
theories/Model_Orbit.v
theories/Properties_Orbit.v
theories/Properties_Thread.v
theories/Model_Scan.v
theories/Properties_Rf.v
theories/Properties_Tune.v
theories/Model_Stats.v
theories/Properties_Stats.v
theories/Model_Bba.v
theories/Properties_Bba.v
theories/Properties_Bba2.v
theories/Properties_Bba3.v
theories/Model_Loco.v
theories/Proofs_Back.v
theories/Properties_Loco.v
theories/Properties_Loco2.v
theories/Model_Resp.v
theories/Properties_Resp.v
theories/Model_Aper.v
theories/Properties_Aper.v
theories/Model_Inject.v
theories/Properties_Inject.v
theories/Model_Ramp.v
theories/Properties_Ramp.v
theories/Model_Wrap.v
theories/Properties_Wrap.v
theories/Model_OrbBba.v
theories/Properties_OrbBba.v
theories/Properties_Linear.v
theories/Proofs_Penrose.v
theories/Model_Matlab.v
theories/Properties_Matlab.v
theories/Properties_Mult.v
theories/Proofs_Campaign.v
theories/Properties_Campaign.v
theories/Model_Verify.v
theories/Properties_Verify.v
theories/Properties_Tight.v
theories/Properties_Resp2.v
theories/Properties_Tight2.v
theories/Properties_Tight3.v
theories/Properties_Tight4.v
theories/Properties_Tight5.v
theories/Properties_Tight6.v
theories/Properties_Tight7.v
theories/Properties_Tight8.v
theories/Model_Read.v
theories/Properties_Read.v
theories/Model_Circular.v
theories/Properties_Circular.v
theories/Properties_Frame.v
theories/Properties_Tight9.v
theories/Model_Plot.v
theories/Model_Log.v
theories/Model_Figure.v
theories/Properties_Plot.v
theories/Properties_Phase.v
theories/Properties_Log.v
theories/Properties_Figure.v
theories/Properties_Tight10.v
theories/Model_LocoDisp.v
theories/Properties_LocoDisp.v
theories/Properties_Beat.v
theories/Properties_Split.v
theories/Properties_Fresh.v
theories/Properties_Progress.v
theories/Properties_Stop.v
theories/Properties_Tight11.v
theories/Properties_Step.v
theories/Model_BbaPlot.v
theories/Properties_BbaPlot.v
theories/Model_ScanPlot.v
theories/Properties_ScanPlot.v
theories/Model_Auto.v
theories/Properties_Auto.v
theories/Properties_BbaPhase.v
theories/Model_BeamPlot.v
theories/Properties_BeamPlot.v
theories/Model_InjectPlot.v
theories/Properties_InjectPlot.v
theories/Model_View.v
theories/Properties_View.v
theories/Model_Marks.v
theories/Properties_Marks.v
theories/Model_Cod.v
theories/Properties_Cod.v
theories/Model_PhaseFig.v
theories/Properties_PhaseFig.v
theories/Model_PlotFlag.v
theories/Properties_PlotFlag.v
theories/Properties_Wiggle.v
