-Q theories Verif
theories/Base.v
theories/Lib.v
theories/StimM.v
theories/SetupM.v
theories/NoiseM.v
theories/SpecNoise.v
theories/NoiseP.v
theories/Props_Noise.v
theories/ProbM.v
theories/ProbP.v
theories/Props_Prob.v
theories/SpecNoise2.v
theories/NoiseP2.v
theories/Props_Noise2.v
theories/SpecSetup.v
theories/SetupP.v
theories/Props_Setup.v
theories/MatM.v
theories/MatP.v
theories/DetM.v
theories/SpecDet.v
theories/DetP.v
theories/DetCountP.v
theories/DetLinP.v
theories/DetDetP.v
theories/DetHistP.v
theories/DetPairP.v
theories/DetTopP.v
theories/Props_Det.v
theories/LayoutM.v
theories/SpecLayout.v
theories/LayoutP.v
theories/LayoutP2.v
theories/Props_Layout.v
theories/GenM.v
theories/SpecGen.v
theories/GenP.v
theories/GeomP.v
theories/RotP.v
theories/RotP2.v
theories/UnrotP.v
theories/Props_Gen.v
theories/BlockM.v
theories/SpecTrack.v
theories/TrackP.v
theories/ActP.v
theories/RoundP.v
theories/CssP.v
theories/CssP2.v
theories/PipeP.v
theories/RoundTopP.v
theories/XzzxP.v
theories/GoogleP.v
theories/OneP.v
theories/LiftP.v
theories/SpecFix.v
theories/FixP.v
theories/Props_Round.v
theories/ExpM.v
theories/ExpDetP.v
theories/ApartP.v
theories/SpecExp.v
theories/ExpP.v
theories/ExpP2.v
theories/ExpP3.v
theories/ExpP4.v
theories/ExpP5.v
theories/ExpP6.v
theories/ExpP7.v
theories/ExpP8.v
theories/ExpP9.v
theories/ExpP10.v
theories/ExpP11.v
theories/ExpP12.v
theories/ExpP13.v
theories/Props_Exp.v
theories/Props_Init.v
theories/LogM.v
theories/SpecLog.v
theories/SpecSign.v
theories/SpecSpan.v
theories/SpecLogical.v
theories/LogP.v
theories/LogP2.v
theories/LogP3.v
theories/LogP4.v
theories/LogP5.v
theories/LogP6.v
theories/LogP7.v
theories/LogP8.v
theories/LogP9.v
theories/LogP10.v
theories/LogP11.v
theories/LogP12.v
theories/LogP13.v
theories/RepP.v
theories/RepP2.v
theories/RepP3.v
theories/RepP4.v
theories/RepP5.v
theories/RepP6.v
theories/RepP7.v
theories/SignP.v
theories/SignP2.v
theories/SignP3.v
theories/SpanP.v
theories/SpanP2.v
theories/LogicalP.v
theories/RepP8.v
theories/MergeM.v
theories/SpecMerge.v
theories/MergeP.v
theories/MergeP2.v
theories/MergeP3.v
theories/MergeP4.v
theories/MergeP5.v
theories/MergeP6.v
theories/MergeP7.v
theories/Props_Merge.v
theories/CnotP.v
theories/CnotP2.v
theories/CnotP3.v
theories/CnotP4.v
theories/CnotP5.v
theories/CnotP6.v
theories/CnotP7.v
theories/CnotP8.v
theories/CnotP9.v
theories/CnotP10.v
theories/SpecCnot.v
theories/CnotP11.v
theories/CnotP12.v
theories/Props_Log.v
theories/Props_Sign.v
theories/Props_Span.v
theories/Props_Logical.v
theories/Props_Rep.v
theories/Props_Cnot.v
theories/SpecOk.v
theories/OkP.v
theories/OkP2.v
theories/OkP3.v
theories/OkP4.v
theories/OkP5.v
theories/Props_Ok.v
theories/SpecFault.v
theories/FaultP.v
theories/FaultP2.v
theories/FaultP3.v
theories/FaultP4.v
theories/FaultP5.v
theories/FaultP6.v
theories/FaultP7.v
theories/FaultP8.v
theories/FaultP9.v
theories/FaultP10.v
theories/FaultP11.v
theories/FaultP12.v
theories/FaultDecP.v
theories/Props_Fault.v
theories/SetOkP.v
theories/SetOkP2.v
theories/SetOkP3.v
theories/SetOkP4.v
theories/SetOkP5.v
theories/SetOkP6.v
theories/Props_SetTrans.v
theories/CoordM.v
theories/SpecCoord.v
theories/CoordP.v
theories/CoordP2.v
theories/CoordP3.v
theories/CoordP4.v
theories/Props_Coord.v
theories/OkRepP.v
theories/OkRepP2.v
theories/OkRepP3.v
theories/Props_OkRep.v
theories/SpecOkCnot.v
theories/OkMergeP.v
theories/OkMergeP2.v
theories/OkMergeP3.v
theories/OkMergeP4.v
theories/OkMergeP5.v
theories/Props_OkCnot.v
theories/SpecFresh.v
theories/FreshP.v
theories/Props_Fresh.v
theories/SpecTime.v
theories/TimeP.v
theories/TimeP2.v
theories/TimeP3.v
theories/TimeP4.v
theories/Props_Time.v
theories/SpecNumber.v
theories/NumberP.v
theories/NumberP2.v
theories/NumberP3.v
theories/Props_Number.v
theories/SpecIdeal.v
theories/IdealP.v
theories/IdealP2.v
theories/Props_Ideal.v
theories/SpecBlank.v
theories/BlankP.v
theories/Props_Blank.v
theories/SpecStart.v
theories/StartP.v
theories/Props_Start.v
