-Q theories Verif
theories/PyList.v
theories/ListUtil.v
theories/Storage_Model.v
theories/Storage_Spec.v
theories/Storage_Proof.v
theories/Storage_Props.v
theories/RBase.v
theories/BBStat_Types.v
theories/BBStat_Model.v
theories/BBStat_Spec.v
theories/BBStat_Proof.v
theories/BBStatFull_Proof.v
theories/BBCov_Model.v
theories/BBCov_Spec.v
theories/BBCov_Proof.v
theories/BBStat_Props.v
theories/Order.v
theories/PyDict.v
theories/Names_Model.v
theories/Num.v
theories/Writer_Model.v
theories/Writer_Spec.v
theories/Writer_Frame.v
theories/Writer_Layout.v
theories/Writer_Meta.v
theories/Writer_Inv.v
theories/Writer_State.v
theories/Writer_Arr.v
theories/Writer_Tensor.v
theories/Writer_Hist.v
theories/Writer_Denote.v
theories/Writer_Master.v
theories/Writer_Effects.v
theories/Writer_Props.v
theories/Writer_Accept.v
theories/Yields_Model.v
theories/Yields_Spec.v
theories/Yields_Proof.v
theories/Yields_Smooth.v
theories/Yields_Equiv.v
theories/Yields_Props.v
theories/Freeze_Model.v
theories/Freeze_Spec.v
theories/Freeze_Proof.v
theories/Scan_Model.v
theories/Scan_Spiral.v
theories/Scan_Proof.v
theories/Scan_Props.v
theories/Ext_Model.v
theories/Ext_Spec.v
theories/Ext_Proof.v
theories/Ext_Props.v
theories/Nll_Model.v
theories/Init_Model.v
theories/Nll_Spec.v
theories/Nll_Proof.v
theories/Init_Proof.v
theories/Nll_Mask.v
theories/Nll_Props.v
theories/Fit_Model.v
theories/Fit_Spec.v
theories/Fit_Proof.v
theories/Fit_Props.v
theories/Session_Model.v
theories/Session_Spec.v
theories/Session_Proof.v
theories/Session_Props.v
theories/Mat_Model.v
theories/Mat_Proof.v
theories/Linear_Model.v
theories/Linear_Spec.v
theories/Linear_Proof.v
theories/Linear_Quad.v
theories/Linear_Prob.v
theories/Linear_Reg.v
theories/Linear_Props.v
theories/Impacts_Model.v
theories/Impacts_Spec.v
theories/Impacts_Solve.v
theories/Impacts_Proof.v
theories/Impacts_Trad.v
theories/Impacts_Global.v
theories/Envelope_Model.v
theories/Envelope_Spec.v
theories/Envelope_Proof.v
theories/Envelope_Gauss.v
theories/Envelope_Sources.v
theories/Impacts_Labels.v
theories/Impacts_Props.v
theories/Shape.v
theories/Param_Model.v
theories/Param_Spec.v
theories/Param_Comp.v
theories/Param_Mix.v
theories/Param_Axis.v
theories/Param_Sat.v
theories/Param_Region.v
theories/Param_Abcd.v
theories/Param_Smooth.v
theories/Param_SmoothModel.v
theories/Param_Names.v
theories/Param_Setup.v
theories/Param_Props.v
theories/Map_Model.v
theories/Map_Spec.v
theories/Map_Collect.v
theories/Map_Perm.v
theories/Map_Rules.v
theories/Map_Term.v
theories/Map_Merge.v
theories/Map_Select.v
theories/Map_Cells.v
theories/Map_Project.v
theories/Map_Proof.v
theories/Map_Comb.v
theories/Map_Angular.v
theories/Map_Data.v
theories/Map_Props.v
theories/Svd_Model.v
theories/Svd_Proof.v
theories/Svd_Props.v
theories/Parse_Model.v
theories/Parse_Spec.v
theories/Parse_Proof.v
theories/Parse_Round.v
theories/Parse_Props.v
theories/Limit_Model.v
theories/Limit_Spec.v
theories/Limit_Proof.v
theories/Limit_Root.v
theories/Limit_Props.v
theories/Ws_Model.v
theories/Ws_Spec.v
theories/Ws_Proof.v
theories/Ws_Props.v
theories/Multi_Model.v
theories/Multi_Spec.v
theories/Multi_Geom.v
theories/Multi_Slices.v
theories/Multi_Loop.v
theories/Multi_Batch.v
theories/Multi_Hist.v
theories/Multi_Proof.v
theories/Multi_Props.v
theories/Pseudo_Model.v
theories/Pseudo_Spec.v
theories/Pseudo_Proof.v
theories/Pseudo_Props.v
theories/Card_Model.v
theories/Card_Spec.v
theories/Card_Parse.v
theories/Card_Convert.v
theories/Card_Proof.v
theories/Card_Effects.v
theories/Card_Text.v
theories/Card_Props.v
theories/Merge_Model.v
theories/Merge_Spec.v
theories/Merge_Lib.v
theories/Merge_Proof.v
theories/Merge_Effects.v
theories/Merge_Yields.v
theories/Merge_Accept.v
theories/Merge_Props.v
theories/Read_Model.v
theories/Read_Spec.v
theories/Read_Proof.v
theories/Read_Print.v
theories/Read_Cov.v
theories/Read_Props.v
theories/BBGamma_Model.v
theories/BBGamma_Spec.v
theories/BBGamma_Proof.v
theories/BBGamma_Props.v
theories/Var_Model.v
theories/Var_Spec.v
theories/Var_Proof.v
theories/Var_Props.v
theories/Gof_Model.v
theories/Gof_Spec.v
theories/Gof_Proof.v
theories/Gof_Props.v
theories/Contour_Model.v
theories/Contour_Spec.v
theories/Contour_Proof.v
theories/Contour_Props.v
theories/DataCov_Model.v
theories/DataCov_Spec.v
theories/DataCov_Proof.v
theories/DataCov_Props.v
theories/BetaVar_Model.v
theories/BetaVar_Spec.v
theories/BetaVar_Proof.v
theories/BetaVar_Props.v
theories/Bundle_Model.v
theories/Bundle_Spec.v
theories/Bundle_Proof.v
theories/Bundle_Props.v
theories/LCurve_Model.v
theories/LCurve_Spec.v
theories/LCurve_Proof.v
theories/LCurve_Props.v
theories/OldFile_Model.v
theories/OldFile_Spec.v
theories/OldFile_Proof.v
theories/OldFile_Props.v
theories/Debug_Model.v
theories/Debug_Spec.v
theories/Debug_Proof.v
theories/Debug_Props.v
theories/Pulls_Model.v
theories/Pulls_Spec.v
theories/Pulls_Proof.v
theories/Pulls_Order.v
theories/Pulls_Props.v
theories/Coo_Model.v
theories/Coo_Spec.v
theories/Coo_Proof.v
theories/Coo_Props.v
theories/Req_Model.v
theories/Req_Spec.v
theories/Req_Proof.v
theories/Req_Whole.v
theories/Req_Props.v
theories/Hplot_Model.v
theories/Hplot_Spec.v
theories/Hplot_Proof.v
theories/Hplot_Props.v
theories/Splot_Model.v
theories/Splot_Spec.v
theories/Splot_Proof.v
theories/Splot_Props.v
theories/Iplot_Model.v
theories/Iplot_Spec.v
theories/Iplot_Proof.v
theories/Iplot_Props.v
theories/Cplot_Model.v
theories/Cplot_Spec.v
theories/Cplot_Proof.v
theories/Cplot_Props.v
theories/Uplot_Model.v
theories/Uplot_Spec.v
theories/Uplot_Proof.v
theories/Uplot_Props.v
theories/Clone_Model.v
theories/Clone_Spec.v
theories/Clone_Proof.v
theories/Clone_Props.v
theories/Setup_Model.v
theories/Setup_Spec.v
theories/Setup_Proof.v
theories/Setup_Props.v
theories/Pcmd_Model.v
theories/Pcmd_Spec.v
theories/Pcmd_Proof.v
theories/Pcmd_Props.v
theories/Cont2_Model.v
theories/Cont2_Spec.v
theories/Cont2_Proof.v
theories/Cont2_Props.v
theories/Cg_Model.v
theories/Cg_Spec.v
theories/Cg_Proof.v
theories/Cg_Props.v
theories/Asel_Model.v
theories/Asel_Spec.v
theories/Asel_Proof.v
theories/Asel_Props.v
theories/Rfile_Model.v
theories/Rfile_Spec.v
theories/Rfile_Proof.v
theories/Rfile_Props.v
theories/Diag_Model.v
theories/Diag_Spec.v
theories/Diag_Proof.v
theories/Diag_Props.v
theories/Bdiag_Model.v
theories/Bdiag_Spec.v
theories/Bdiag_Proof.v
theories/Bdiag_Props.v
theories/Curv_Model.v
theories/Curv_Spec.v
theories/Curv_Proof.v
theories/Curv_Props.v
theories/Clip_Model.v
theories/Clip_Spec.v
theories/Clip_Proof.v
theories/Clip_Props.v
theories/Bfull_Model.v
theories/Bfull_Spec.v
theories/Bfull_Proof.v
theories/Bfull_Props.v
theories/Pernorm_Model.v
theories/Pernorm_Spec.v
theories/Pernorm_Proof.v
theories/Pernorm_Props.v
