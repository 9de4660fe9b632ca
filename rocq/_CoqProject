-Q theories Verif
theories/Base.v
theories/NumR.v
theories/NumF.v
theories/L_Search.v
theories/L_SearchR.v
theories/M_Interp.v
theories/S_Interp.v
theories/L_Interp.v
theories/L_Interp2.v
theories/L_InterpF.v
theories/Properties_Interp.v
theories/M_Tab1D.v
theories/S_Tab1D.v
theories/L_Tab1D.v
theories/L_Tab1DR.v
theories/L_Tab1DI.v
theories/L_OrderF.v
theories/L_Tab1DP.v
theories/L_Linearize.v
theories/L_Linearize2.v
theories/L_Tab1DF.v
theories/M_Span.v
theories/L_Span.v
theories/L_Span2.v
theories/S_TabCtor.v
theories/L_TabCtor.v
theories/Properties_Tab1D.v
theories/M_Func.v
theories/L_Func.v
theories/Properties_Func.v
theories/M_Rng.v
theories/L_Rng.v
theories/Properties_Rng.v
theories/M_Packet.v
theories/L_Packet.v
theories/M_Kin.v
theories/Properties_Packet.v
theories/S_Kin.v
theories/L_Kin.v
theories/L_Kin2.v
theories/L_Kin3.v
theories/L_KinE.v
theories/L_KinF.v
theories/Properties_Kin.v
theories/M_Grid.v
theories/L_Grid.v
theories/L_Xs.v
theories/L_Xs2.v
theories/L_GridF.v
theories/S_Grid.v
theories/L_Xs3.v
theories/Properties_Grid.v
theories/M_PC.v
theories/L_PC.v
theories/S_PC.v
theories/L_PCR.v
theories/M_Legendre.v
theories/S_Legendre.v
theories/L_Legendre.v
theories/L_Angle.v
theories/L_PCF.v
theories/Properties_Angle.v
theories/M_OutE.v
theories/S_OutE.v
theories/L_OutE.v
theories/L_OutE2.v
theories/L_OutE3.v
theories/L_OutE4.v
theories/Properties_OutE.v
theories/M_Spectra.v
theories/S_Spectra.v
theories/L_Spectra.v
theories/L_Spectra2.v
theories/L_Spectra3.v
theories/L_Spectra4.v
theories/L_Spectra5.v
theories/L_Spectra6.v
theories/L_SpectraF.v
theories/Properties_Spectra.v
theories/M_Ace.v
theories/M_Neutron.v
theories/S_Neutron.v
theories/L_Neutron.v
theories/L_Ace.v
theories/L_Neutron2.v
theories/L_Urr.v
theories/L_Neutron3.v
theories/L_Neutron4.v
theories/L_NeutronEx.v
theories/L_Neutron5.v
theories/Properties_Neutron.v
theories/M_Ident.v
theories/L_Ident.v
theories/L_Ident2.v
theories/S_Ident.v
theories/L_Ident3.v
theories/Properties_Ident.v
theories/M_Library.v
theories/S_Library.v
theories/L_Library.v
theories/L_Library2.v
theories/L_Library3.v
theories/Properties_Library.v
theories/M_AceBin.v
theories/S_AceBin.v
theories/L_AceBin.v
theories/L_AceBin2.v
theories/L_AceBin3.v
theories/Properties_AceBin.v
theories/M_Thermal.v
theories/S_Thermal.v
theories/L_Thermal.v
theories/L_Thermal2.v
theories/L_Thermal3.v
theories/S_ThermalFile.v
theories/L_ThermalFile.v
theories/Properties_ThermalFile.v
theories/S_Urr.v
theories/L_Urr2.v
theories/Properties_Urr.v
theories/L_Tight.v
theories/L_Tight2.v
theories/L_Tight3.v
theories/L_Tight4.v
theories/Properties_Pinned.v
theories/L_ThermalF.v
theories/L_ThermalEx.v
theories/Properties_Thermal.v
theories/M_Laws.v
theories/S_Laws.v
theories/L_Laws.v
theories/L_Laws2.v
theories/L_Laws3.v
theories/L_Laws4.v
theories/L_LawsEx.v
theories/L_Laws5.v
theories/L_LawsF.v
theories/S_PickF.v
theories/L_SafeT.v
theories/L_PickF.v
theories/Properties_PickF.v
theories/Properties_Laws.v
theories/M_Doppler.v
theories/S_Doppler.v
theories/L_Doppler.v
theories/L_DopplerF.v
theories/Properties_Doppler.v
theories/S_Principal.v
theories/L_Principal.v
theories/Properties_Principal.v
theories/M_LegTable.v
theories/L_LegTable.v
theories/L_LegTableF.v
theories/Properties_LegTable.v
theories/L_OutE5.v
theories/Properties_Joint.v
theories/M_AceText.v
theories/S_AceText.v
theories/L_AceText.v
theories/L_AceText2.v
theories/L_AceText3.v
theories/Properties_AceText.v
theories/M_GridUrr.v
theories/Properties_GridUrr.v
theories/M_Xsdir.v
theories/S_Xsdir.v
theories/L_Xsdir.v
theories/L_Xsdir2.v
theories/L_Xsdir3.v
theories/L_Xsdir4.v
theories/L_Xsdir5.v
theories/Properties_Xsdir.v
theories/S_Prob.v
theories/L_Prob.v
theories/L_ProbEv.v
theories/L_Prob2.v
theories/L_Gauss.v
theories/L_ProbMw.v
theories/L_ProbWatt.v
theories/Properties_Prob.v
theories/L_ProbLaw.v
theories/L_LegBound.v
theories/L_ProbAngle.v
theories/L_ProbTab.v
theories/Properties_Prob2.v
theories/L_ProbLoop.v
theories/L_ProbSvt.v
theories/L_ProbSvt2.v
theories/L_ProbSvt3.v
theories/L_ProbSvt4.v
theories/L_ProbSvt5.v
theories/S_ProbSvt.v
theories/L_ProbSvt6.v
theories/L_ProbSvt7.v
theories/Properties_Prob3.v
theories/L_ProbDbrc.v
theories/L_ProbDbrc2.v
theories/L_ProbDbrc3.v
theories/L_ProbDbrc4.v
theories/L_ProbDbrc5.v
theories/L_ProbDbrc6.v
theories/Properties_Prob4.v
theories/S_Replay.v
theories/L_Replay.v
theories/L_Replay2.v
theories/Properties_Replay.v
theories/S_Mix.v
theories/L_ProbComp.v
theories/L_ProbComp2.v
theories/L_ProbComp3.v
theories/Properties_Prob5.v
theories/S_ElasticLaw.v
theories/L_ProbElastic.v
theories/Properties_Prob6.v
theories/L_ProbNB.v
theories/L_ProbNB2.v
theories/L_ProbNB3.v
theories/L_ProbNB4.v
theories/S_NBody.v
theories/Properties_Prob7.v
theories/S_ThermalLaw.v
theories/L_ProbPick.v
theories/L_ProbTherm.v
theories/L_ProbTherm2.v
theories/L_ProbTherm3.v
theories/L_ProbTherm4.v
theories/S_JointLaw.v
theories/L_ProbJoint.v
theories/L_ProbJoint2.v
theories/L_ProbJoint3.v
theories/L_ProbJoint4.v
theories/L_ProbJoint5.v
theories/L_ProbJoint6.v
theories/L_ProbJoint7.v
theories/Properties_Prob8.v
theories/Properties_Prob9.v
theories/S_Mean.v
theories/L_LegMoment.v
theories/L_ProbMean.v
theories/L_ProbMoment.v
theories/Properties_Moments.v
theories/L_Kin4.v
theories/S_Sound.v
theories/L_Sound.v
theories/L_Sound2.v
theories/L_SoundF.v
theories/Properties_Sound.v
theories/S_LinF.v
theories/L_LinF.v
theories/L_XsF.v
theories/L_PktF.v
theories/L_PktFEx.v
theories/Properties_LinF.v
theories/S_File.v
theories/L_File.v
theories/L_FileEx.v
theories/S_Use.v
theories/L_Use.v
theories/L_UseEx.v
theories/Properties_File.v
theories/S_Derive.v
theories/L_Derive.v
theories/L_Derive2.v
theories/Properties_Derive.v
theories/S_Format.v
theories/L_Format.v
theories/L_Format2.v
theories/L_FormatEx.v
theories/Properties_Format.v
theories/S_ThermalWhole.v
theories/L_ThermalWhole.v
theories/Properties_ThermalWhole.v
theories/L_CosF.v
theories/L_CosF2.v
theories/S_CosF.v
theories/L_CosF3.v
theories/L_CosF4.v
theories/Properties_CosF.v
theories/S_CosG.v
theories/L_CosG.v
theories/L_CosE.v
theories/Properties_CosG.v
theories/S_BinsF.v
theories/L_BinsF.v
theories/Properties_BinsF.v
theories/L_NbF.v
theories/Properties_NbF.v
theories/L_EnF.v
theories/Properties_EnF.v
