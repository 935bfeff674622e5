-Q theories Verif
theories/M_Py.v
theories/P_Py.v
theories/M_Data.v
theories/Spec.v
theories/P_Data.v
theories/P_Filter.v
theories/P_Reach.v
theories/P_DataThms.v
theories/P_Feature.v
theories/T_Data.v
theories/T_Filter.v
theories/M_Score.v
theories/P_Score.v
theories/T_Score.v
theories/M_Float.v
theories/P_Float.v
theories/T_Float.v
theories/M_Heap.v
theories/P_Heap.v
theories/T_Heap.v
theories/P_RSum.v
theories/M_Sigmoid.v
theories/P_Exp.v
theories/T_Sigmoid.v
theories/M_MF.v
theories/P_MF.v
theories/T_MF.v
theories/T_MF2.v
theories/T_MFInit.v
theories/T_Implicit.v
theories/M_Rec.v
theories/P_Rec.v
theories/T_Rec.v
theories/M_MFRec.v
theories/T_MFRec.v
theories/M_PLSA.v
theories/P_PLSA.v
theories/P_PLSA2.v
theories/T_PLSA.v
theories/T_PLSA2.v
theories/M_Split.v
theories/P_Split.v
theories/T_Split.v
theories/M_Metrics.v
theories/T_Metrics.v
theories/T_Metrics2.v
theories/M_Load.v
theories/T_Load.v
theories/M_Scripts.v
theories/P_Scripts.v
theories/P_Scripts2.v
theories/T_Scripts.v
theories/M_Json.v
theories/T_Json.v
theories/M_Convert.v
theories/P_Convert.v
theories/T_Convert.v
theories/T_Data2.v
theories/T_MF3.v
theories/T_PLSA3.v
theories/T_MFRec2.v
theories/T_Rename.v
theories/T_Hist.v
theories/M_Datasets.v
theories/T_Datasets.v
theories/T_Query.v
theories/T_Float2.v
theories/M_FloatBins.v
theories/T_FloatBins.v
theories/T_FloatPLSA.v
theories/M_Opt.v
theories/T_Opt.v
theories/T_Average.v
theories/P_Converge.v
theories/T_Converge.v
theories/M_Text.v
theories/T_Text.v
theories/T_Chain.v
theories/T_Shift.v
theories/T_MFSym.v
theories/T_Convex.v
theories/T_Topics.v
theories/T_Stats.v
theories/M_Exp.v
theories/T_Leak.v
theories/T_Eval.v
theories/M_Task.v
theories/T_Task.v
theories/T_Task2.v
theories/M_Auc.v
theories/T_Auc.v
theories/M_FloatOps.v
theories/P_Fl.v
theories/T_FloatSig.v
theories/T_FloatMet.v
theories/T_Eval2.v
theories/T_Auc2.v
theories/M_FloatSplit.v
theories/T_FloatSplit.v
theories/M_FloatHist.v
theories/T_FloatHist.v
theories/T_GammaPrior.v
theories/M_FloatVar.v
theories/T_FloatVar.v
theories/P_Lip.v
theories/T_Exist.v
theories/M_View.v
theories/T_View.v
theories/T_Scale.v
theories/P_Critical.v
theories/T_Critical.v
theories/M_FloatTopic.v
theories/P_FloatTopic.v
theories/P_FloatRel.v
theories/T_FloatTopic.v
theories/T_FloatTopic2.v
theories/M_FloatMF.v
theories/P_FloatAe.v
theories/P_FloatMF.v
theories/T_FloatMF.v
theories/T_FloatMF2.v
theories/T_FloatMF3.v
theories/M_NanScore.v
theories/T_NanScore.v
theories/T_Replicate.v
theories/M_Alias.v
theories/T_Alias.v
theories/M_FloatImp.v
theories/T_FloatImp.v
theories/T_FloatLoss.v
theories/T_Bias.v
theories/T_Factors.v
theories/T_Path.v
theories/T_FloatStd.v
theories/T_FloatVar2.v
theories/M_Args.v
theories/P_Args.v
theories/T_Args.v
theories/T_Args2.v
theories/M_Main.v
theories/T_Main.v
theories/T_Args3.v
theories/M_JsonText.v
theories/T_JsonText.v
theories/M_Tree.v
theories/T_Tree.v
theories/M_CvTree.v
theories/T_CvTree.v
theories/T_FloatTopic3.v
theories/M_StatTree.v
theories/T_StatTree.v
theories/T_NanScore2.v
theories/M_HoTree.v
theories/T_HoTree.v
theories/M_InfoTree.v
theories/T_InfoTree.v
theories/T_InfoTree2.v
theories/T_InfoTree3.v
theories/T_InfoTree4.v
theories/T_InfoTree5.v
theories/T_InfoTree6.v
theories/T_InfoTree7.v
theories/T_Main2.v
theories/T_InfoTree8.v
theories/T_InfoTree9.v
