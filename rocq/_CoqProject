-Q theories Verif
theories/RVec.v
theories/Poly_Model.v
theories/Poly_Spec.v
theories/Poly_Proofs.v
theories/Poly_Props.v
theories/RBool.v
theories/MinQ_Model.v
theories/MinQ_Spec.v
theories/MinQ_Proofs.v
theories/MinQ_Props.v
theories/ProjGrad_Model.v
theories/ProjGrad_Spec.v
theories/ProjGrad_Proofs.v
theories/ProjGrad_Props.v
theories/CG_Model.v
theories/CG_Proofs.v
theories/Ortho.v
theories/CG_Spec.v
theories/CG_Props.v
theories/Hess_Model.v
theories/Hess_Spec.v
theories/Hess_Proofs.v
theories/Hess_Props.v
theories/QB.v
theories/Book_Model.v
theories/Book_Spec.v
theories/Book_Proofs.v
theories/Book_Wit.v
theories/Book_Props.v
theories/Main_Model.v
theories/Main_Spec.v
theories/Main_Proofs.v
theories/Main_Proofs2.v
theories/Main_Proofs3.v
theories/Main_More.v
theories/Main_Wit.v
theories/Main_Props.v
theories/Opt_Model.v
theories/Opt_Spec.v
theories/Opt_Proofs.v
theories/Drv_Model.v
theories/Drv_Spec.v
theories/Drv_Proofs.v
theories/Opt_Wit.v
theories/Opt_Props.v
theories/Drv_Wit.v
theories/Drv_Props.v
theories/Pre_Model.v
theories/Pre_Spec.v
theories/Pre_Proofs.v
theories/Pre_Wit.v
theories/Pre_Props.v
theories/Tri.v
theories/Int_Model.v
theories/Int_Spec.v
theories/Int_Proofs.v
theories/Int_Wit.v
theories/Int_Props.v
theories/MS_Model.v
theories/MS_Spec.v
theories/MS_Proofs.v
theories/MS_Wit.v
theories/MS_Props.v
theories/BC_Model.v
theories/BC_Proofs.v
theories/BC_Spec.v
theories/BC_More.v
theories/Chol.v
theories/BC_Wit.v
theories/BC_Props.v
theories/TR_Model.v
theories/Msg_Model.v
theories/Msg_Spec.v
theories/TR_Spec.v
theories/TR_Proofs.v
theories/TR_Wit.v
theories/TR_Props.v
theories/BL_Model.v
theories/BL_Spec.v
theories/BL_Proofs.v
theories/BL_Wit.v
theories/BL_Props.v
theories/Mult_Model.v
theories/Mult_Spec.v
theories/Mult_Proofs.v
theories/Mult_Wit.v
theories/Mult_Props.v
theories/New_Model.v
theories/New_Spec.v
theories/New_Proofs.v
theories/New_Wit.v
theories/New_Props.v
theories/Run_Model.v
theories/Run_Spec.v
theories/Run_Proofs.v
theories/Run_Props.v
theories/Hess_More.v
theories/Book_More.v
theories/Sol_Model.v
theories/Sol_Spec.v
theories/Sol_Proofs.v
theories/Sol_Wit.v
theories/Sol_Props.v
theories/Shape_Model.v
theories/Shape_Spec.v
theories/Shape_Proofs.v
theories/Shape_Props.v
theories/Set_Spec.v
theories/Set_Proofs.v
theories/Set_Wit.v
theories/Set_Props.v
theories/Opt_Fail.v
theories/Ver_Spec.v
theories/Ver_Proofs.v
theories/Ver_Wit.v
theories/Ver_Props.v
theories/Acc_Model.v
theories/Acc_Spec.v
theories/Acc_Proofs.v
theories/Acc_Wit.v
theories/Acc_Props.v
theories/LDL_Model.v
theories/LDL_Spec.v
theories/LDL_Proofs.v
theories/LDL_Blocks.v
theories/LDL_Wit.v
theories/LDL_Props.v
theories/CG_More.v
theories/Step_Spec.v
theories/Step_Proofs.v
theories/Step_More.v
theories/Step_Wit.v
theories/Step_Props.v
theories/MS_More.v
theories/Sol_More.v
theories/Usr_Model.v
theories/Usr_Spec.v
theories/Usr_Proofs.v
theories/Sta_Model.v
theories/Sta_Proofs.v
theories/Sta_Props.v
theories/Usr_Wit.v
theories/Usr_Props.v
theories/Out_Model.v
theories/Out_Spec.v
theories/Out_Proofs.v
theories/Out_More.v
theories/Out_Wit.v
theories/Out_Props.v
theories/Hom_Model.v
theories/Hom_Proofs.v
theories/Hom_Spec.v
theories/Hom_More.v
theories/Hom_Len.v
theories/Hom_Next.v
theories/Hom_One.v
theories/Hom_Gap.v
theories/Hom_Fin.v
theories/Hom_Wit.v
theories/Hom_Props.v
theories/Null_Model.v
theories/Null_Spec.v
theories/Null_Proofs.v
theories/Null_Wit.v
theories/Null_Props.v
theories/Lib_Model.v
theories/Lib_Wit.v
theories/Lib_Spec.v
theories/Lib_Five.v
theories/Hom_Val.v
theories/Lib_Proofs.v
theories/Lib_More.v
theories/Lib_Fin.v
theories/Msg_Proofs.v
theories/Lib_Props.v
theories/Slk_Model.v
theories/Slk_Spec.v
theories/Slk_BC.v
theories/Slk_Proofs.v
theories/Slk_Wit.v
theories/Slk_RunSpec.v
theories/Slk_Run.v
theories/Slk_RunWit.v
theories/Slk_Props.v
theories/Fst_Spec.v
theories/Fst_Proofs.v
theories/Fst_Wit.v
theories/Fst_Props.v
theories/Con_Spec.v
theories/Con_Proofs.v
theories/Con_Call.v
theories/Con_Wit.v
theories/Con_Props.v
theories/MinS_Model.v
theories/MinS_Spec.v
theories/MinS_Proofs.v
theories/MinS_Sub.v
theories/MinS_Main.v
theories/MinS_Wit.v
theories/MinS_Props.v
theories/Free_Model.v
theories/Free_Spec.v
theories/Free_Proofs.v
theories/Free_Wit.v
theories/Free_Props.v
theories/MinS_Steps.v
theories/Rep_Model.v
theories/Rep_Spec.v
theories/Rep_Proofs.v
theories/Rep_Wit.v
theories/Rep_Props.v
theories/Bis_Model.v
theories/Bis_Spec.v
theories/Bis_Proofs.v
theories/Bis_Len.v
theories/Bis_Num.v
theories/Bis_Conv.v
theories/Bis_Fin.v
theories/Bis_Wit.v
theories/Bis_Props.v
theories/MinP_Spec.v
theories/MinP_Proofs.v
theories/MinP_Main.v
theories/Ini_Model.v
theories/Ini_Proofs.v
theories/Ini_Wit.v
theories/Ini_Props.v
theories/Cut_Model.v
theories/Cut_Spec.v
theories/Cut_Proofs.v
theories/Cut_Wit.v
theories/Cut_Props.v
theories/Tst_Model.v
theories/Tst_Spec.v
theories/Tst_Proofs.v
theories/Tst_Props.v
theories/BLP_Spec.v
theories/BLP_Proofs.v
theories/BLP_Wit.v
theories/BLP_Props.v
theories/Nrm_Model.v
theories/Nrm_Spec.v
theories/Nrm_Proofs.v
theories/Nrm_Props.v
theories/Rst_Model.v
theories/Rst_Spec.v
theories/Rst_Proofs.v
theories/Rst_Props.v
theories/Kkt_Spec.v
theories/Kkt_Proofs.v
theories/Kkt_Wit.v
theories/Kkt_Props.v
theories/CG_Cauchy.v
theories/Cau_Spec.v
theories/Cau_Proofs.v
theories/Cau_Wit.v
theories/Cau_Props.v
theories/Poi_Proofs.v
theories/Poi_Wit.v
theories/Poi_Props.v
theories/Hess_Form.v
theories/Pen_Spec.v
theories/Pen_Proofs.v
theories/Pen_Props.v
theories/Fai_Spec.v
theories/Fai_Proofs.v
theories/Fai_Wit.v
theories/Fai_Props.v
theories/TRS_Proofs.v
theories/TRS_Wit.v
theories/TRS_Wit2.v
theories/Frb_Proofs.v
theories/Frb_Wit.v
