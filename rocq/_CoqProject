-Q theories Verif

theories/CSem.v
theories/CSemP.v
theories/Num.v
theories/NumP.v
theories/NumF.v
theories/FoldP.v
theories/M_Stat.v
theories/S_Stat.v
theories/P_Kbn.v
theories/NumX.v
theories/P_MeanVar.v
theories/P_Mad.v
theories/P_Vnorm.v
theories/P_Corr.v
theories/P_CorrF.v
theories/P_Soft.v
theories/P_SumF.v
theories/P_StatR.v
theories/C_Stat.v
theories/M_Signal.v
theories/S_Signal.v
theories/P_Fill.v
theories/P_Relay.v
theories/P_Unwrap.v
theories/P_Sos.v
theories/P_Interp.v
theories/P_SignalR.v
theories/C_Signal.v
theories/M_Select.v
theories/S_Select.v
theories/P_Select.v
theories/C_Select.v
theories/M_Obj.v
theories/S_Obj.v
theories/P_Obj.v
theories/C_Obj.v
theories/M_Int.v
theories/S_Int.v
theories/P_Int.v
theories/C_Int.v
theories/M_Means.v
theories/S_Means.v
theories/P_Means.v
theories/P_MeansX.v
theories/P_Pmean.v
theories/P_MeansR.v
theories/P_PmeanS.v
theories/C_Means.v
theories/M_Elem.v
theories/S_Elem.v
theories/P_Step.v
theories/P_Elem.v
theories/P_Next.v
theories/P_Ramp.v
theories/P_ElemF.v
theories/C_Elem.v
theories/M_Geom.v
theories/S_Geom.v
theories/P_Geom.v
theories/P_GeomR.v
theories/P_RelF.v
theories/P_TriF.v
theories/P_GeomF.v
theories/C_Geom.v
theories/M_Gen.v
theories/S_Gen.v
theories/S_GenNames.v
theories/M_Entry.v
theories/P_Gen.v
theories/P_GenNames.v
theories/P_GenLoop.v
theories/P_GenTypes.v
theories/P_GenInst.v
theories/C_Gen.v
theories/M_Wrap.v
theories/S_Wrap.v
theories/P_Wrap.v
theories/C_Wrap.v
theories/M_Init.v
theories/M_Uwrap.v
theories/S_Py.v
theories/P_Py.v
theories/C_Py.v
theories/M_Gendot.v
theories/S_Gendot.v
theories/P_Gendot.v
theories/C_Gendot.v
theories/M_Log1p.v
theories/S_Log1p.v
theories/P_Log1p.v
theories/P_Log1pF.v
theories/M_Special.v
theories/S_Special.v
theories/P_LogFact.v
theories/P_Expint.v
theories/P_Debye.v
theories/P_DebyeT.v
theories/P_Debye1.v
theories/P_SpecialF.v
theories/P_DebyeQ.v
theories/P_DebyeF.v
theories/P_ExpintF.v
theories/P_LogFactF.v
theories/S_Log1pE.v
theories/P_Log1pE.v
theories/P_Log1pS.v
theories/C_Log1p.v
theories/C_Special.v
theories/S_Gamma.v
theories/P_Gamma.v
theories/S_Layout.v
theories/P_Layout.v
theories/C_Layout.v
theories/M_Erfcx.v
theories/S_Erf.v
theories/S_ErfF.v
theories/P_Erf.v
theories/P_ErfcxT.v
theories/P_ErfcxR.v
theories/P_Erfcx.v
theories/P_ErfcxD.v
theories/P_ErfcxF.v
theories/P_NormalCdf.v
theories/C_Erfcx.v
theories/C_ErfcxF.v
theories/P_ZStrict.v
theories/P_LanczosC.v
theories/P_Lanczos.v
theories/P_LnBox.v
theories/P_LoggammaC.v
theories/P_Loggamma.v
theories/P_LoggammaM.v
theories/S_Logbeta.v
theories/P_LoggammaF.v
theories/P_LogbetaG.v
theories/C_Loggamma.v
theories/M_Template.v
theories/S_Template.v
theories/P_Template.v
theories/C_Template.v
theories/M_Types.v
theories/S_Types.v
theories/P_Types.v
theories/C_Types.v
theories/M_Ref.v
theories/S_Ref.v
theories/P_Ref.v
theories/P_RefS.v
theories/C_Ref.v
theories/M_Cxx.v
theories/S_Cxx.v
theories/P_Cxx.v
theories/P_CxxDoc.v
theories/C_Cxx.v
theories/S_Line.v
theories/P_LineF.v
theories/C_Line.v
theories/S_StepF.v
theories/P_StepF.v
theories/C_StepF.v
theories/S_RampF.v
theories/P_RampF.v
theories/C_RampF.v
theories/S_LogiF.v
theories/P_LogiF.v
theories/C_LogiF.v
theories/S_TemplateE.v
theories/P_TemplateE.v
theories/C_TemplateE.v
theories/S_VarioF.v
theories/P_VarioF.v
theories/C_VarioF.v
theories/P_SwishF.v
theories/C_SwishF.v
theories/P_HmeanF.v
theories/C_HmeanF.v
