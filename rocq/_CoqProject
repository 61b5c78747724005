-Q theories Verif
theories/Base.v
theories/Bytes_Model.v
theories/Bytes_Proofs.v
theories/Hiid_Model.v
theories/Hiid_Spec.v
theories/Hiid_Proofs.v
theories/Hiid_Thms.v
theories/Rqid_Model.v
theories/Rqid_Spec.v
theories/Rqid_Proofs.v
theories/Rqid_Thms.v
theories/Subs_Model.v
theories/Subs_Proofs.v
theories/Subs_Thms.v
theories/Wpq_Model.v
theories/Wpq_Spec.v
theories/Wpq_Proofs.v
theories/Wpq_Thms.v
theories/Disp_Model.v
theories/Disp_Spec.v
theories/Disp_Proofs.v
theories/Disp_Thms.v
theories/Pack_Model.v
theories/Pack_Spec.v
theories/Pack_Proofs.v
theories/Pack_Thms.v
theories/Ser_Model.v
theories/Ser_Spec.v
theories/Ser_Proofs.v
theories/Ser_Thms.v
theories/Ref_Model.v
theories/Ref_Spec.v
theories/Ref_Proofs.v
theories/Ref_Proofs2.v
theories/Ref_Proofs3.v
theories/Ref_Thms.v
theories/Time_Model.v
theories/Time_Spec.v
theories/Time_Proofs.v
theories/Time_Thms.v
theories/Bset_Model.v
theories/Bset_Spec.v
theories/Bset_Proofs.v
theories/Bset_Thms.v
theories/Boio_Model.v
theories/Boio_Spec.v
theories/Boio_Proofs.v
theories/Boio_Thms.v
theories/Dlist_Model.v
theories/Dlist_Spec.v
theories/Dlist_Proofs.v
theories/Dlist_Thms.v
theories/Rec_Model.v
theories/Rec_Spec.v
theories/Rec_Proofs.v
theories/Rec_Thms.v
theories/Narr_Model.v
theories/Narr_Spec.v
theories/Narr_Proofs.v
theories/Narr_Thms.v
theories/Forest_Model.v
theories/Forest_Spec.v
theories/Forest_Proofs.v
theories/Forest_Thms.v
theories/Poll_Model.v
theories/Poll_Spec.v
theories/Poll_Proofs.v
theories/Poll_Thms.v
theories/Pool_Model.v
theories/Pool_Spec.v
theories/Pool_Proofs.v
theories/Pool_Thms.v
theories/Mtree_Model.v
theories/Mtree_Spec.v
theories/Mtree_Proofs.v
theories/Mtree_Inv.v
theories/Mtree_Live.v
theories/Mtree_Prog.v
theories/Mtree_Thms.v
theories/Vset_Model.v
theories/Vset_Spec.v
theories/Vset_Proofs.v
theories/Vset_Thms.v
theories/Flt_Model.v
theories/Dom_Model.v
theories/Dom_Spec.v
theories/Flt_Proofs.v
theories/Dom_Proofs.v
theories/Dom_Thms.v
theories/Cell_Model.v
theories/Cell_Spec.v
theories/Cell_Proofs.v
theories/Cell_Qc.v
theories/Cell_Hist.v
theories/Cell_Thms.v
theories/Cell_More.v
theories/Ncache_Model.v
theories/Ncache_Spec.v
theories/Ncache_Proofs.v
theories/Ncache_Thms.v
theories/Upk_Model.v
theories/Upk_Thms.v
theories/Vel_Model.v
theories/Vel_Spec.v
theories/Vel_Proofs.v
theories/Vel_Arith.v
theories/Vel_Sums.v
theories/Vel_Thms.v
theories/Fun_Model.v
theories/Fun_Spec.v
theories/Fun_Proofs.v
theories/Fun_Pert.v
theories/Fun_Flags.v
theories/Fun_Node.v
theories/Fun_Thms.v
theories/Polc_Model.v
theories/Polc_Spec.v
theories/Polc_Alg.v
theories/Polc_Proofs.v
theories/Polc_Solve.v
theories/Polc_Thms.v
theories/Slv_Model.v
theories/Slv_Spec.v
theories/Slv_Proofs.v
theories/Slv_Map.v
theories/Slv_Stage.v
theories/Slv_Super.v
theories/Slv_Alloc.v
theories/Slv_Thms.v
theories/Swk_Model.v
theories/Swk_Spec.v
theories/Swk_Proofs.v
theories/Swk_Thms.v
theories/Ceq_Model.v
theories/Ceq_Spec.v
theories/Ceq_Proofs.v
theories/Ceq_Loop.v
theories/Ceq_Thms.v
theories/Leq_Model.v
theories/Leq_Spec.v
theories/Leq_Proofs.v
theories/Leq_Thms.v
theories/Tpc_Model.v
theories/Tpc_Spec.v
theories/Tpc_Proofs.v
theories/Tpc_Tiles.v
theories/Tpc_Order.v
theories/Tpc_Values.v
theories/Tpc_Thms.v
theories/Tpc_More.v
theories/Mmul_Model.v
theories/Mmul_Spec.v
theories/Mmul_Proofs.v
theories/Mmul_Step.v
theories/Mmul_Thms.v
theories/Tns_Model.v
theories/Tns_Spec.v
theories/Tns_Proofs.v
theories/Tns_Slice.v
theories/Tns_Thms.v
theories/Ptab_Model.v
theories/Ptab_Spec.v
theories/Ptab_Proofs.v
theories/Ptab_Table.v
theories/Ptab_Thms.v
theories/Ptab_Ex_Thms.v
theories/Flg_Model.v
theories/Flg_Spec.v
theories/Flg_Proofs.v
theories/Flg_Thms.v
theories/Red_Model.v
theories/Red_Spec.v
theories/Red_Proofs.v
theories/Red_Slices.v
theories/Red_Init.v
theories/Red_Thms.v
theories/Red_Flags.v
theories/Red_Flags_Thms.v
theories/Nam_Model.v
theories/Nam_Spec.v
theories/Nam_Proofs.v
theories/Nam_Parse.v
theories/Nam_Print.v
theories/Nam_Reg.v
theories/Nam_Lit.v
theories/Nam_Thms.v
theories/Vis_Model.v
theories/Vis_Spec.v
theories/Vis_Proofs.v
theories/Vis_Sink.v
theories/Vis_Thms.v
theories/Vis_Sink_Thms.v
theories/Mux_Model.v
theories/Mux_Spec.v
theories/Mux_Proofs.v
theories/Mux_Feed.v
theories/Mux_Data.v
theories/Mux_Thms.v
theories/Mtq_Model.v
theories/Mtq_Spec.v
theories/Mtq_Proofs.v
theories/Mtq_Traces.v
theories/Mtq_Block.v
theories/Mtq_Live.v
theories/Mtq_Thms.v
theories/Tfn_Model.v
theories/Tfn_Spec.v
theories/Tfn_Proofs.v
theories/Tfn_Perts.v
theories/Tfn_Table.v
theories/Tfn_Thms.v
theories/Rid_Model.v
theories/Rid_Spec.v
theories/Rid_Proofs.v
theories/Rid_Proofs2.v
theories/Rid_Proofs3.v
theories/Rid_Thms.v
theories/Rsq_Model.v
theories/Rsq_Spec.v
theories/Rsq_Proofs.v
theories/Rsq_Thms.v
theories/Chk_Model.v
theories/Chk_Spec.v
theories/Chk_Thms.v
theories/Axm_Model.v
theories/Axm_Spec.v
theories/Axm_Proofs.v
theories/Axm_Thms.v
theories/Inv_Model.v
theories/Inv_Spec.v
theories/Inv_Proofs.v
theories/Inv_Thms.v
theories/Dsc_Model.v
theories/Dsc_Spec.v
theories/Dsc_Proofs.v
theories/Dsc_Thms.v
theories/Mrs_Model.v
theories/Mrs_Spec.v
theories/Mrs_Proofs.v
theories/Mrs_Thms.v
theories/Hst_Model.v
theories/Hst_Spec.v
theories/Hst_Proofs.v
theories/Hst_Thms.v
theories/Wsm_Model.v
theories/Wsm_Spec.v
theories/Wsm_Proofs.v
theories/Wsm_Thms.v
