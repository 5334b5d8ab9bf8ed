-Q theories Verif
theories/Base.v
theories/BaseFacts.v
theories/M_Data.v
theories/S_Data.v
theories/P_Data.v
theories/T_Data.v
theories/M_CV.v
theories/S_CV.v
theories/P_CV.v
theories/T_CV.v
theories/RBase.v
theories/RFacts.v
theories/M_Logit.v
theories/S_Logit.v
theories/P_Logit.v
theories/P_Logit2.v
theories/P_Logit3.v
theories/P_Logit4.v
theories/T_Logit.v
theories/M_Mono.v
theories/S_Mono.v
theories/P_Mono1.v
theories/P_Mono2.v
theories/P_Mono3.v
theories/P_Mono4.v
theories/P_Mono5.v
theories/P_Mono6.v
theories/P_Mono7.v
theories/P_Mono8.v
theories/T_Mono.v
theories/M_Lik.v
theories/S_Lik.v
theories/P_Lik1.v
theories/P_Lik2.v
theories/P_Lik3.v
theories/P_Lik4.v
theories/P_Lik5.v
theories/P_Lik6.v
theories/T_Lik.v
theories/M_Est.v
theories/S_Est.v
theories/P_Est1.v
theories/P_Est2.v
theories/P_Est3.v
theories/P_Est4.v
theories/P_Est5.v
theories/P_Est6.v
theories/S_Eap.v
theories/T_Est.v
theories/M_Scale.v
theories/S_Scale.v
theories/P_Scale1.v
theories/P_Scale2.v
theories/P_Scale3.v
theories/P_Scale4.v
theories/T_Scale.v
theories/M_Spline.v
theories/S_Spline.v
theories/P_Spline1.v
theories/P_Spline2.v
theories/P_Spline3.v
theories/P_Spline4.v
theories/T_Spline.v
theories/M_Stat.v
theories/S_Stat.v
theories/P_Stat1.v
theories/P_Stat2.v
theories/P_Stat3.v
theories/P_Stat4.v
theories/P_Stat5.v
theories/P_Stat6.v
theories/P_Stat7.v
theories/P_Stat8.v
theories/T_Stat.v
theories/M_Grid.v
theories/S_Grid.v
theories/P_Grid1.v
theories/P_Grid2.v
theories/P_Grid3.v
theories/P_Grid4.v
theories/P_Grid5.v
theories/P_Grid6.v
theories/P_Grid7.v
theories/T_Grid.v
theories/M_Eval.v
theories/S_Eval.v
theories/P_Eval1.v
theories/P_Eval2.v
theories/P_Eval3.v
theories/P_Eval4.v
theories/P_Eval5.v
theories/P_Eval6.v
theories/P_Eval7.v
theories/P_Eval8.v
theories/P_Eval9.v
theories/T_Eval.v
theories/M_Mix.v
theories/S_Mix.v
theories/P_Mix1.v
theories/P_Mix2.v
theories/P_Mix3.v
theories/P_Mix4.v
theories/P_Mix5.v
theories/P_Mix6.v
theories/P_Mix7.v
theories/T_Mix.v
theories/M_Train.v
theories/S_Train.v
theories/P_Train1.v
theories/P_Train2.v
theories/P_Train3.v
theories/P_Train4.v
theories/P_Train5.v
theories/P_Train6.v
theories/T_Train.v
theories/M_Enc.v
theories/S_Enc.v
theories/P_Enc1.v
theories/P_Enc2.v
theories/P_Enc3.v
theories/T_Enc.v
theories/M_State.v
theories/S_State.v
theories/P_State1.v
theories/P_State2.v
theories/P_State3.v
theories/T_State.v
theories/M_Score.v
theories/S_Score.v
theories/P_Score1.v
theories/P_Score2.v
theories/P_Score3.v
theories/P_Score4.v
theories/T_Score.v
theories/M_BSpl.v
theories/S_BSpl.v
theories/P_BSpl1.v
theories/P_BSpl2.v
theories/P_BSpl3.v
theories/P_BSpl4.v
theories/P_BSpl5.v
theories/T_BSpl.v
theories/M_Pop.v
theories/S_Pop.v
theories/P_Pop1.v
theories/P_Pop2.v
theories/P_Pop3.v
theories/P_Pop4.v
theories/P_Pop5.v
theories/P_Pop6.v
theories/P_Pop7.v
theories/P_Pop8.v
theories/T_Pop.v
theories/M_Plot.v
theories/S_Plot.v
theories/P_Plot1.v
theories/P_Plot2.v
theories/P_Plot3.v
theories/P_Plot4.v
theories/P_Plot5.v
theories/P_Plot6.v
theories/P_Plot7.v
theories/P_Plot8.v
theories/T_Plot.v
theories/M_Info.v
theories/S_Info.v
theories/P_Info1.v
theories/P_Info2.v
theories/P_Info3.v
theories/P_Info4.v
theories/P_Info5.v
theories/T_Info.v
theories/P_Row.v
theories/M_Link.v
theories/S_Link.v
theories/P_Link.v
theories/T_Link.v
theories/M_Load.v
theories/T_Load.v
theories/M_BGrad.v
theories/S_BGrad.v
theories/P_BGrad1.v
theories/P_BGrad2.v
theories/T_BGrad.v
theories/S_Nest.v
theories/P_Nest1.v
theories/P_Nest2.v
theories/P_Nest3.v
theories/T_Nest.v
theories/M_Start.v
theories/S_Start.v
theories/T_Start.v
theories/S_Opt.v
theories/M_Opt.v
theories/P_Opt1.v
theories/P_Opt2.v
theories/P_Opt3.v
theories/P_Opt4.v
theories/P_Opt5.v
theories/T_Opt.v
theories/S_Max.v
theories/P_Max1.v
theories/P_Max2.v
theories/P_Max3.v
theories/P_Max4.v
theories/P_Max5.v
theories/P_Max6.v
theories/P_Max7.v
theories/T_Max.v
theories/S_Suff.v
theories/P_Suff1.v
theories/P_Suff2.v
theories/P_Suff3.v
theories/T_Suff.v
theories/S_Scoreq.v
theories/P_Scoreq.v
theories/T_Scoreq.v
theories/M_Jml.v
theories/S_Item.v
theories/P_Item1.v
theories/P_Item2.v
theories/P_Item3.v
theories/T_Item.v
theories/S_Mass.v
theories/P_Mass.v
theories/T_Mass.v
theories/S_Sym.v
theories/P_Sym1.v
theories/P_Sym2.v
theories/P_Sym3.v
theories/P_Sym4.v
theories/T_Sym.v
theories/M_Multi.v
theories/S_Multi.v
theories/P_Multi.v
theories/T_Multi.v
theories/M_SplineT.v
theories/S_SplineT.v
theories/P_SplineT.v
theories/T_SplineT.v
theories/M_Quad.v
theories/S_Quad.v
theories/P_Quad1.v
theories/P_Quad2.v
theories/P_Quad3.v
theories/T_Quad.v
theories/M_Adam.v
theories/S_Twin.v
theories/P_Twin1.v
theories/P_Twin2.v
theories/P_Twin3.v
theories/P_Twin4.v
theories/P_Twin5.v
theories/P_Twin6.v
theories/P_Twin7.v
theories/T_Twin.v
theories/S_Unit.v
theories/P_Unit1.v
theories/P_Unit2.v
theories/P_Unit3.v
theories/P_Unit4.v
theories/P_Unit5.v
theories/P_Unit6.v
theories/P_Unit7.v
theories/T_Unit.v
theories/S_Iw.v
theories/P_Iw1.v
theories/P_Iw2.v
theories/P_Iw3.v
theories/P_Iw4.v
theories/T_Iw.v
theories/S_Bit.v
theories/P_Bit1.v
theories/P_Bit2.v
theories/P_Bit3.v
theories/T_Bit.v
theories/S_Ex.v
theories/P_Ex1.v
theories/P_Ex2.v
theories/P_Ex3.v
theories/P_Ex4.v
theories/P_Ex5.v
theories/P_Ex6.v
theories/T_Ex.v
theories/S_True.v
theories/P_True1.v
theories/P_True2.v
theories/P_True3.v
theories/P_True4.v
theories/T_True.v
theories/S_Cons.v
theories/P_Cons1.v
theories/P_Cons2.v
theories/P_Cons3.v
theories/T_Cons.v
theories/S_More.v
theories/P_More1.v
theories/P_More2.v
theories/P_More3.v
theories/T_More.v
theories/M_Single.v
theories/P_Single1.v
theories/P_Single2.v
theories/P_Single3.v
theories/P_Single4.v
theories/T_Single.v
theories/M_Under.v
theories/P_Under1.v
theories/P_Under2.v
theories/P_Under3.v
theories/T_Under.v
theories/M_BitPop.v
theories/S_BitPop.v
theories/P_BitPop1.v
theories/P_BitPop2.v
theories/P_BitPop3.v
theories/T_BitPop.v
theories/S_Mid.v
theories/P_Mid.v
theories/T_Mid.v
theories/P_Imv.v
theories/T_Imv.v
theories/T_Out.v
theories/S_Rate.v
theories/P_Rate.v
theories/T_Rate.v
theories/S_Fit.v
theories/P_Fit.v
theories/P_Fit2.v
theories/T_Fit.v
theories/S_Shrink.v
theories/T_Shrink.v
theories/M_Heat.v
theories/T_Heat.v
theories/S_Rao.v
theories/P_Rao.v
theories/T_Rao.v
theories/S_Pred.v
theories/P_Pred.v
theories/T_Pred.v
theories/M_Pval.v
theories/S_Pval.v
theories/P_Pval.v
theories/P_Pval2.v
theories/T_Pval.v
theories/S_Merge.v
theories/P_Merge.v
theories/T_Merge.v
theories/M_Colour.v
theories/S_Colour.v
theories/P_Colour.v
theories/T_Colour.v
theories/S_Abler.v
theories/P_Abler.v
theories/P_Abler2.v
theories/T_Abler.v
theories/M_Hist.v
theories/S_Hist.v
theories/P_Hist.v
theories/T_Hist.v
theories/S_Given.v
theories/P_Given.v
theories/T_Given.v
theories/S_Rev.v
theories/P_Rev.v
theories/T_Rev.v
theories/M_Make.v
theories/S_Make.v
theories/P_Make.v
theories/T_Make.v
theories/S_Miss.v
theories/P_Miss.v
theories/T_Miss.v
theories/S_Short.v
theories/P_Short.v
theories/T_Short.v
theories/M_Flex.v
theories/S_Flex.v
theories/P_Flex.v
theories/T_Flex.v
theories/M_Tab.v
theories/P_Tab.v
theories/T_Tab.v
theories/T_MissF.v
theories/M_Nl.v
theories/S_Nl.v
theories/P_Nl.v
theories/T_Nl.v
theories/S_Betw.v
theories/T_Betw.v
theories/T_Resp.v
theories/S_Joint.v
theories/P_Joint.v
theories/T_Joint.v
theories/S_Cmp.v
theories/P_Cmp.v
theories/T_Cmp.v
theories/S_Cmp2.v
theories/P_Cmp2.v
theories/T_Cmp2.v
theories/T_Best.v
theories/T_Able2.v
