-Q theories Verif
theories/Base.v
theories/Base_Proofs.v
theories/Acc_Model.v
theories/Acc_Props.v
theories/Acc_Spec.v
theories/Acs_Model.v
theories/Acs_Props.v
theories/Aln_Model.v
theories/Aln_Proofs.v
theories/Aln_Props.v
theories/Aln_Spec.v
theories/Anm_Model.v
theories/Anm_Props.v
theories/Anm_Spec.v
theories/Ari_Model.v
theories/Ari_Props.v
theories/Ari_Spec.v
theories/Arr_Model.v
theories/Arr_Proofs.v
theories/Arr_Props.v
theories/Arr_Spec.v
theories/Ars_Model.v
theories/Ars_Props.v
theories/Ars_Spec.v
theories/Cch2_Proofs.v
theories/Cch_Model.v
theories/Cch_Proofs.v
theories/Cch_Props.v
theories/Cch_Spec.v
theories/Cfg2_Proofs.v
theories/Cfg2_Props.v
theories/Cfg2_Spec.v
theories/Cfg_Model.v
theories/Cfg_Proofs.v
theories/Cfg_Props.v
theories/Cfg_Spec.v
theories/Cfo_Model.v
theories/Cfo_Props.v
theories/Cfo_Spec.v
theories/Clr_Model.v
theories/Clr_Proofs.v
theories/Clr_Props.v
theories/Clr_Spec.v
theories/Con2_Props.v
theories/Con_Model.v
theories/Con_Proofs.v
theories/Con_Props.v
theories/Con_Spec.v
theories/Cvg2_Proofs.v
theories/Cvg3_Proofs.v
theories/Cvg4_Proofs.v
theories/Cvg_Model.v
theories/Cvg_Proofs.v
theories/Cvg_Props.v
theories/Cvg_Spec.v
theories/Dlc_Model.v
theories/Dlc_Props.v
theories/Dlc_Spec.v
theories/Dmf_Model.v
theories/Dmf_Props.v
theories/Dmf_Spec.v
theories/Dmp_Model.v
theories/Dmp_Proofs.v
theories/Dmp_Props.v
theories/Dmp_Spec.v
theories/Dns_Props.v
theories/Dns_Spec.v
theories/E2e_Model.v
theories/E2e_Proofs.v
theories/E2e_Props.v
theories/E2e_Spec.v
theories/Edge2_Props.v
theories/Edge3_Props.v
theories/Edge4_Props.v
theories/Edge5_Props.v
theories/Edge6_Props.v
theories/Edge_Props.v
theories/Ei2_Proofs.v
theories/Ei3_Proofs.v
theories/Ei_Proofs.v
theories/Evf_Model.v
theories/Evf_Proofs.v
theories/Evf_Props.v
theories/Evf_Spec.v
theories/Evp_Model.v
theories/Evp_Props.v
theories/Evp_Spec.v
theories/Exa10_Proofs.v
theories/Exa10_Props.v
theories/Exa10_Spec.v
theories/Exa11_Props.v
theories/Exa12_Props.v
theories/Exa13_Proofs.v
theories/Exa13_Props.v
theories/Exa13_Spec.v
theories/Exa14_Props.v
theories/Exa15_Props.v
theories/Exa15_Spec.v
theories/Exa16_Props.v
theories/Exa17_Props.v
theories/Exa17_Spec.v
theories/Exa18_Props.v
theories/Exa19_Props.v
theories/Exa2_Props.v
theories/Exa2_Spec.v
theories/Exa3_Props.v
theories/Exa4_Props.v
theories/Exa5_Props.v
theories/Exa6_Props.v
theories/Exa7_Props.v
theories/Exa8_Props.v
theories/Exa9_Props.v
theories/Exa_Props.v
theories/Exa_Spec.v
theories/Exp_Model.v
theories/Exp_Proofs.v
theories/Exp_Props.v
theories/Exp_Spec.v
theories/Fit2_Proofs.v
theories/Fit2_Props.v
theories/Fit2_Spec.v
theories/Fit3_Proofs.v
theories/Fit4_Proofs.v
theories/Fit5_Proofs.v
theories/Fit6_Proofs.v
theories/Fit_Model.v
theories/Fit_Proofs.v
theories/Fit_Props.v
theories/Fit_Spec.v
theories/Flt2_Proofs.v
theories/Flt_Model.v
theories/Flt_Proofs.v
theories/Flt_Props.v
theories/Flt_Spec.v
theories/Fnl_Model.v
theories/Fnl_Props.v
theories/Fnl_Spec.v
theories/Fol_Model.v
theories/Fol_Props.v
theories/Fol_Spec.v
theories/Fts_Model.v
theories/Fts_Proofs.v
theories/Fts_Props.v
theories/Fts_Spec.v
theories/GF_Model.v
theories/GF_Proofs.v
theories/GF_Props.v
theories/Hds_Model.v
theories/Hds_Props.v
theories/Hds_Spec.v
theories/Hem2_Proofs.v
theories/Hem_Model.v
theories/Hem_Proofs.v
theories/Hem_Props.v
theories/Hem_Spec.v
theories/Hmn_Model.v
theories/Hmn_Props.v
theories/Hmn_Spec.v
theories/Ibn_Model.v
theories/Ibn_Proofs.v
theories/Ibn_Props.v
theories/Ibn_Spec.v
theories/Idf_Props.v
theories/Idf_Spec.v
theories/Ids_Model.v
theories/Ids_Props.v
theories/Ids_Spec.v
theories/Imp_Model.v
theories/Imp_Proofs.v
theories/Imp_Props.v
theories/Imp_Spec.v
theories/Imr_Model.v
theories/Imr_Props.v
theories/Ini_Model.v
theories/Ini_Proofs.v
theories/Ini_Props.v
theories/Ini_Spec.v
theories/Int2_Proofs.v
theories/Int3_Proofs.v
theories/Int_Model.v
theories/Int_Proofs.v
theories/Int_Props.v
theories/Int_Spec.v
theories/Itp_Model.v
theories/Itp_Props.v
theories/Itp_Spec.v
theories/Jac2_Proofs.v
theories/Jac_Model.v
theories/Jac_Proofs.v
theories/Jac_Props.v
theories/Jac_Spec.v
theories/Kwd2_Proofs.v
theories/Kwd_Model.v
theories/Kwd_Proofs.v
theories/Kwd_Props.v
theories/Kwd_Spec.v
theories/Ldr_Model.v
theories/Ldr_Props.v
theories/Ldr_Spec.v
theories/Leg_Proofs.v
theories/Lin_Props.v
theories/Lis_Model.v
theories/Lis_Props.v
theories/Lis_Spec.v
theories/Lof_Model.v
theories/Lof_Proofs.v
theories/Lof_Props.v
theories/Lof_Spec.v
theories/Log2_Proofs.v
theories/Log_Model.v
theories/Log_Proofs.v
theories/Log_Props.v
theories/Log_Spec.v
theories/Lru_Model.v
theories/Lru_Proofs.v
theories/Lru_Props.v
theories/Lru_Spec.v
theories/Mdf_Model.v
theories/Mdf_Props.v
theories/Met2_Proofs.v
theories/Met2_Props.v
theories/Met3_Proofs.v
theories/Met_Model.v
theories/Met_Proofs.v
theories/Met_Props.v
theories/Met_Spec.v
theories/Mf_Model.v
theories/Mf_Proofs.v
theories/Mf_Props.v
theories/Mf_Spec.v
theories/Mfo_Model.v
theories/Mfo_Proofs.v
theories/Mfo_Props.v
theories/Mfo_Spec.v
theories/Mfs_Model.v
theories/Mfs_Props.v
theories/Mky_Model.v
theories/Mky_Props.v
theories/Mky_Spec.v
theories/Ncv_Model.v
theories/Ncv_Props.v
theories/Ncv_Spec.v
theories/Nfr_Props.v
theories/Nfr_Spec.v
theories/Nid_Model.v
theories/Nid_Props.v
theories/Nrg2_Proofs.v
theories/Nrg3_Proofs.v
theories/Nrg_Proofs.v
theories/Nrg_Props.v
theories/Nrg_Spec.v
theories/Nse_Props.v
theories/Nse_Spec.v
theories/Ord_Model.v
theories/Ord_Proofs.v
theories/Ord_Props.v
theories/Ord_Spec.v
theories/Pag_Model.v
theories/Pag_Proofs.v
theories/Pag_Props.v
theories/Pag_Spec.v
theories/Par2_Proofs.v
theories/Par_Model.v
theories/Par_Proofs.v
theories/Par_Props.v
theories/Par_Spec.v
theories/Perm_Tac.v
theories/Pip2_Proofs.v
theories/Pip3_Proofs.v
theories/Pip4_Proofs.v
theories/Pip5_Proofs.v
theories/Pip_Model.v
theories/Pip_Proofs.v
theories/Pip_Props.v
theories/Pip_Spec.v
theories/Pol_Model.v
theories/Pol_Proofs.v
theories/Pol_Props.v
theories/Pol_Spec.v
theories/Pos_Model.v
theories/Pos_Props.v
theories/Pos_Spec.v
theories/Ppr_Model.v
theories/Ppr_Props.v
theories/Ppr_Spec.v
theories/Prc_Model.v
theories/Prc_Proofs.v
theories/Prc_Props.v
theories/Prc_Spec.v
theories/Prg_Model.v
theories/Prg_Props.v
theories/Prg_Spec.v
theories/RTE2_Proofs.v
theories/RTE3_Proofs.v
theories/RTE_Proofs.v
theories/RTE_Props.v
theories/RTE_Spec.v
theories/RT_Model.v
theories/RT_Proofs.v
theories/RT_Props.v
theories/RT_Spec.v
theories/Rdr_Model.v
theories/Rdr_Proofs.v
theories/Rdr_Props.v
theories/Rdr_Spec.v
theories/Res2_Proofs.v
theories/Res_Model.v
theories/Res_Proofs.v
theories/Res_Props.v
theories/Res_Spec.v
theories/Rin_Model.v
theories/Rin_Props.v
theories/Rin_Spec.v
theories/Rmd_Model.v
theories/Rmd_Props.v
theories/Rmd_Spec.v
theories/Rot2_Proofs.v
theories/Rot_Proofs.v
theories/Rot_Props.v
theories/Rot_Spec.v
theories/Rsl_Model.v
theories/Rsl_Props.v
theories/Rtv_Props.v
theories/Rtv_Spec.v
theories/Run_Model.v
theories/Run_Proofs.v
theories/Run_Props.v
theories/Sca2_Proofs.v
theories/Sca3_Proofs.v
theories/Sca_Model.v
theories/Sca_Proofs.v
theories/Sca_Props.v
theories/Sca_Spec.v
theories/Sel_Model.v
theories/Sel_Props.v
theories/Sel_Spec.v
theories/Ses_Model.v
theories/Ses_Proofs.v
theories/Ses_Props.v
theories/Ses_Spec.v
theories/Shp_Model.v
theories/Shp_Proofs.v
theories/Shp_Props.v
theories/Shp_Spec.v
theories/Sid_Model.v
theories/Sid_Props.v
theories/Sig_Model.v
theories/Sig_Props.v
theories/Slc_Model.v
theories/Slc_Props.v
theories/Sld_Model.v
theories/Sld_Props.v
theories/Sld_Spec.v
theories/Str_Model.v
theories/Str_Proofs.v
theories/Tab_Model.v
theories/Tab_Props.v
theories/Tab_Spec.v
theories/Thr_Model.v
theories/Thr_Proofs.v
theories/Thr_Props.v
theories/Thr_Spec.v
theories/Wnm_Model.v
theories/Wnm_Props.v
theories/Wnm_Spec.v
