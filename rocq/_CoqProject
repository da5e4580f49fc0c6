-Q theories Verif
theories/Base.v
theories/CMergeBK_Model.v
theories/CMergeBK_Spec.v
theories/CMergeBK_Proofs.v
theories/CMergeBK_Hist.v
theories/CMergeBK_Combine.v
theories/CMergeBK_Props.v
theories/MultiMap.v
theories/CMgr_Model.v
theories/CMgr_Spec.v
theories/CMgr_Proofs.v
theories/CMgr_Iter.v
theories/CMgr_Process.v
theories/CMgr_Props.v
theories/Util.v
theories/CMatchBK_Model.v
theories/CMatchBK_Spec.v
theories/CMatchBK_Proofs.v
theories/CMComb_Model.v
theories/CMComb_Spec.v
theories/CMComb_Proofs.v
theories/CMatch_Model.v
theories/CMatch_Spec.v
theories/CMatch_Proofs.v
theories/CMatch_Process.v
theories/CMatch_Props.v
theories/AlgoArray_Model.v
theories/AlgoArray_Props.v
theories/QcUtil.v
theories/Solver_Model.v
theories/Solver_Spec.v
theories/Solver_Proofs.v
theories/Solver_Charge.v
theories/Solver_Min.v
theories/Solver_Sched.v
theories/Solver_Props.v
theories/SortUtil.v
theories/Triplet_Model.v
theories/Triplet_Spec.v
theories/Triplet_Proofs.v
theories/Triplet_Props.v
theories/DBScan_Model.v
theories/DBScan_Spec.v
theories/DBScan_Proofs.v
theories/DBScan_Props.v
theories/SortedObj_Model.v
theories/SortedObj_Spec.v
theories/SortedObj_Proofs.v
theories/SortedObj_Props.v
theories/CandHit_Model.v
theories/CandHit_Spec.v
theories/CandHit_Proofs.v
theories/CandHit_Props.v
theories/GaussElim_Model.v
theories/GaussElim_Spec.v
theories/GaussElim_Proofs.v
theories/GaussElim_Props.v
theories/RFF_Model.v
theories/RFF_Spec.v
theories/RFF_Proofs.v
theories/RFF_Props.v
theories/MCBT_Model.v
theories/MCBT_Spec.v
theories/MCBT_Proofs.v
theories/MCBT_Match.v
theories/MCBT_Props.v
theories/KD_Model.v
theories/KD_Spec.v
theories/KD_Proofs.v
theories/KD_Props.v
theories/CDB_Model.v
theories/CDB_Spec.v
theories/CDB_Proofs.v
theories/CDB_Props.v
theories/TCand_Model.v
theories/TCand_Spec.v
theories/TCand_Proofs.v
theories/TCand_Props.v
theories/GFC_Model.v
theories/GFC_Spec.v
theories/GFC_Proofs.v
theories/GFC_Props.v
theories/TBK_Model.v
theories/TBK_Spec.v
theories/TBK_Props.v
theories/PT_Model.v
theories/PT_Spec.v
theories/PT_Proofs.v
theories/PT_Ids.v
theories/PT_Merge.v
theories/PT_Extend.v
theories/PT_Props.v
theories/PT_Connect.v
theories/PTC_Props.v
theories/SPS_Model.v
theories/SPS_Spec.v
theories/SPS_System.v
theories/SPS_Nei.v
theories/SPS_Props.v
theories/LF_Model.v
theories/LF_Spec.v
theories/LF_Proofs.v
theories/LF_Props.v
theories/WT_Model.v
theories/WT_Spec.v
theories/WT_Morph.v
theories/WT_Props.v
theories/WT_Smooth.v
theories/WT_Peaks.v
theories/WT_Rms.v
theories/CHD_Model.v
theories/CHD_Spec.v
theories/CHD_Proofs.v
theories/CHD_Props.v
theories/CHM_Model.v
theories/CHM_Spec.v
theories/CHM_Proofs.v
theories/CHM_Props.v
theories/HULL_Model.v
theories/HULL_Spec.v
theories/HULL_Proofs.v
theories/HULL_Half.v
theories/HULL_Whole.v
theories/HULL_Hull.v
theories/HULL_Props.v
theories/HULL_Area.v
theories/HULL_Near.v
theories/HULL_Ext.v
theories/MST_Model.v
theories/MST_Spec.v
theories/MST_Proofs.v
theories/MST_Loop.v
theories/MST_Props.v
theories/MST_Walk.v
theories/MST_Path.v
theories/GHF_Model.v
theories/GHF_Spec.v
theories/GHF_Long.v
theories/GHF_Windows.v
theories/GHF_Any.v
theories/GHF_Sched.v
theories/GHF_Props.v
theories/TJ_Model.v
theories/TJ_Spec.v
theories/TJ_Proofs.v
theories/TJ_Ops.v
theories/TJ_Split.v
theories/TJ_Merge.v
theories/TJ_More.v
theories/TJ_Props.v
theories/BC_Model.v
theories/BC_Spec.v
theories/BC_Cells.v
theories/BC_Grow.v
theories/BC_Prune.v
theories/BC_Find.v
theories/BC_Comp.v
theories/BC_Image.v
theories/BC_Blur.v
theories/BC_Conv.v
theories/BC_Props.v
theories/MCA_Model.v
theories/MCA_Spec.v
theories/MCA_Proofs.v
theories/MCA_Props.v
theories/TV_Model.v
theories/TV_Spec.v
theories/TV_Kill.v
theories/TV_High.v
theories/TV_Ops.v
theories/TV_Kill2.v
theories/TV_Ops2.v
theories/TV_Merge.v
theories/TV_FModel.v
theories/TV_Find.v
theories/TV_Spec3.v
theories/TV_Find3.v
theories/TV_Store3.v
theories/TV_Chk.v
theories/TV_Wit.v
theories/TV_Props.v
theories/TV_Props2.v
theories/TV_Props3.v
theories/TV_Find2.v
theories/TV_Props4.v
theories/CCB_Model.v
theories/CCB_Spec.v
theories/CCB_Store.v
theories/CCB_Ops.v
theories/CCB_Split.v
theories/CCB_Merge.v
theories/CCB_Over.v
theories/CCB_Hist.v
theories/CCB_Check.v
theories/CCB_Remove.v
theories/CCB_Out.v
theories/CCB_Crawl.v
theories/CCB_Props.v
theories/EMS_Model.v
theories/EMS_Map.v
theories/EMS_Spec.v
theories/EMS_Assoc.v
theories/EMS_Find.v
theories/EMS_Planes.v
theories/EMS_Order.v
theories/EMS_Iso.v
theories/EMS_Perm.v
theories/EMS_Orient.v
theories/EMS_Final.v
theories/EMS_Hits.v
theories/EMS_Start.v
theories/EMS_Points.v
theories/EMS_Out.v
theories/EMS_Small.v
theories/EMS_Props.v
theories/EMS_Props2.v
theories/DB2_Model.v
theories/DB2_Spec.v
theories/DB2_FN.v
theories/DB2_Paper.v
theories/DB2_Sim.v
theories/DB2_Node.v
theories/DB2_Out.v
theories/DB2_Props.v
theories/SPA_Model.v
theories/SPA_Spec.v
theories/SPA_Compat.v
theories/SPA_Fit.v
theories/SPA_Runs.v
theories/SPA_Order.v
theories/SPA_Hits.v
theories/SPA_Geom.v
theories/SPA_Loop.v
theories/SPA_Ids.v
theories/SPA_Make.v
theories/SPA_Out.v
theories/SPA_Filter.v
theories/SPA_Merge.v
theories/SPA_Reach.v
theories/SPA_Complete.v
theories/SPA_Wit.v
theories/SPA_Props.v
theories/SPA_Props2.v
theories/STI_Model.v
theories/STI_Spec.v
theories/STI_Find.v
theories/STI_Walk.v
theories/STI_All.v
theories/STI_Uniq.v
theories/STI_Line.v
theories/STI_Line2.v
theories/STI_Line3.v
theories/STI_Props.v
theories/LM_Model.v
theories/LM_Spec.v
theories/LM_Proofs.v
theories/LM_Props.v
theories/SCF_Model.v
theories/SCF_Spec.v
theories/SCF_Proofs.v
theories/SCF_Props.v
theories/SCF_Out.v
theories/GNO_Model.v
theories/GNO_Spec.v
theories/GNO_Proofs.v
theories/GNO_Props.v
theories/GNO_Out.v
theories/GNO_Calo.v
theories/GNO_Res.v
theories/GNO_Rev.v
theories/SEG_Model.v
theories/SEG_Spec.v
theories/SEG_Simple.v
theories/SEG_Split.v
theories/SEG_Run.v
theories/SEG_Tag.v
theories/SEG_Dense.v
theories/SEG_Whole.v
theories/SEG_Props.v
theories/SEG_Prod.v
theories/SEG_Exact.v
theories/POL_Model.v
theories/POL_Spec.v
theories/POL_Area.v
theories/POL_Cross.v
theories/POL_Props.v
theories/POL_Inside.v
theories/POL_Cases.v
theories/TCA_Model.v
theories/TCA_Spec.v
theories/TCA_Props.v