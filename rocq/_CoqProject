-Q theories Verif
theories/Base.v
theories/Qaux.v
theories/Spec.v
theories/Generic_model.v
theories/Generic_proofs.v
theories/Generic_props.v
theories/Solver_model.v
theories/Solver_proofs.v
theories/Solver_props.v
theories/Corr_model.v
theories/Corr_spec.v
theories/Corr_proofs.v
theories/Corr_merge.v
theories/Corr_more.v
theories/Corr_props.v
theories/TrackObs_model.v
theories/TrackObs_spec.v
theories/TrackObs_proofs.v
theories/TrackObs_more.v
theories/TrackObs_filter.v
theories/TrackObs_props.v
theories/Graph_spec.v
theories/NetGroup_spec.v
theories/NetGroup_model.v
theories/NetGroup_proofs.v
theories/NetGroup_more.v
theories/NetGroup_props.v
theories/Sort.v
theories/Obs_spec.v
theories/Obs_model.v
theories/Obs_words.v
theories/Obs_proofs.v
theories/Obs_align.v
theories/Obs_more.v
theories/Obs_pairs.v
theories/Obs_props.v
theories/Net_model.v
theories/Net_spec.v
theories/Net_sort.v
theories/Net_dfs.v
theories/Net_links.v
theories/Net_reach.v
theories/Net_relax.v
theories/Net_props.v
theories/NetSeg_model.v
theories/NetSeg_spec.v
theories/NetSeg_proofs.v
theories/NetSeg_rel.v
theories/NetSeg_order.v
theories/NetSeg_tag.v
theories/NetSeg_dead.v
theories/NetSeg_props.v
theories/NetEvt_model.v
theories/NetEvt_spec.v
theories/NetEvt_proofs.v
theories/NetEvt_more.v
theories/NetEvt_sel.v
theories/NetEvt_props.v
theories/NetCmp_model.v
theories/NetCmp_spec.v
theories/NetCmp_proofs.v
theories/NetCmp_props.v
theories/Split_model.v
theories/Split_spec.v
theories/Split_proofs.v
theories/Split_more.v
theories/Split_net.v
theories/Split_props.v
theories/Split_wf.v
theories/Grp_model.v
theories/Grp_spec.v
theories/Grp_proofs.v
theories/Grp_more.v
theories/Grp_targets.v
theories/Grp_tracks.v
theories/Grp_props.v
theories/Poly_model.v
theories/Poly_spec.v
theories/Poly_wind.v
theories/Poly_area.v
theories/Poly_convex.v
theories/Poly_pairs.v
theories/Poly_mesh.v
theories/PolyIdx_model.v
theories/PolyIdx_proofs.v
theories/PolyVis_model.v
theories/PolyVis_spec.v
theories/PolyVis_proofs.v
theories/Poly_props.v
theories/Grid_model.v
theories/Grid_spec.v
theories/Grid_proofs.v
theories/Grid_path.v
theories/Grid_props.v
theories/Adv_model.v
theories/Adv_spec.v
theories/Adv_proofs.v
theories/Adv_more.v
theories/Adv_time.v
theories/Adv_interp.v
theories/Adv_fil.v
theories/Adv_props.v
theories/AdvTime_props.v
theories/Pix_model.v
theories/Pix_spec.v
theories/Pix_proofs.v
theories/Pix_count.v
theories/Pix_stat.v
theories/Pix_props.v
theories/Atl_model.v
theories/Atl_spec.v
theories/Atl_proofs.v
theories/Atl_more.v
theories/Atl_props.v
theories/Eid_model.v
theories/Eid_spec.v
theories/Eid_proofs.v
theories/Eid_run.v
theories/Eid_amp.v
theories/Eid_group.v
theories/Eid_win.v
theories/Eid_levels.v
theories/Eid_props.v
theories/Setup_model.v
theories/Setup_props.v
theories/Ctr_model.v
theories/Ctr_spec.v
theories/Ctr_proofs.v
theories/Ctr_near.v
theories/Ctr_props.v
theories/Seam_model.v
theories/Seam_spec.v
theories/Seam_proofs.v
theories/Seam_props.v
theories/NetFix_model.v
theories/NetFix_spec.v
theories/NetFix_proofs.v
theories/NetFix_close.v
theories/NetFix_swap.v
theories/NetFix_swaps.v
theories/NetFix_check.v
theories/NetFix_props.v
theories/Sel_model.v
theories/Sel_spec.v
theories/Sel_proofs.v
theories/Sel_poly.v
theories/Sel_hist.v
theories/Sel_props.v
theories/Sel_poly_props.v
theories/Sel_hist_props.v
theories/Filt_spec.v
theories/Filt_model.v
theories/Filt_proofs.v
theories/Filt_mean.v
theories/Filt_more.v
theories/Filt_props.v
theories/Kern_model.v
theories/Kern_props.v
theories/Store_model.v
theories/Store_props.v
theories/NetTab_model.v
theories/NetTab_proofs.v
theories/NetTab_props.v
theories/NetTab_cache.v
theories/NetTab_hist.v
theories/NetTab_map.v
theories/Subset_model.v
theories/Subset_props.v
theories/Uavg_model.v
theories/Uavg_props.v
theories/Match_model.v
theories/Match_props.v
theories/File_model.v
theories/File_props.v
theories/Fields_model.v
theories/Fields_props.v
theories/Coh_model.v
theories/Coh_props.v
theories/Virt_model.v
theories/Virt_props.v
theories/Chel_model.v
theories/Chel_props.v
theories/Cmd_model.v
theories/Cmd_props.v
theories/Circ_model.v
theories/Circ_proofs.v
theories/Circ_props.v
theories/Resamp_model.v
theories/Resamp_proofs.v
theories/Resamp_props.v
theories/Sph_model.v
theories/Sph_proofs.v
theories/Sph_props.v
theories/Pcirc_model.v
theories/Pcirc_props.v
theories/Hull_model.v
theories/Hull_props.v
theories/Kwgt_model.v
theories/Kwgt_props.v
theories/Ell_model.v
theories/Ell_props.v
theories/Iter_model.v
theories/Iter_props.v
theories/Ovl_model.v
theories/Ovl_props.v
theories/Az_model.v
theories/Az_props.v
theories/Fdif_model.v
theories/Fdif_props.v
theories/Fname_model.v
theories/Fname_props.v
theories/Regrid_model.v
theories/Regrid_props.v
theories/Ident_model.v
theories/Ident_proofs.v
theories/Ident_props.v
theories/Time_model.v
theories/Time_props.v
theories/Fdate_model.v
theories/Fdate_props.v
theories/Ncmp_model.v
theories/Ncmp_proofs.v
theories/Ncmp_props.v
theories/Smooth_model.v
theories/Smooth_props.v
theories/Rel_model.v
theories/Rel_props.v
theories/First_props.v
theories/Anim_model.v
theories/Anim_props.v
theories/View_model.v
theories/View_props.v
theories/Qcmp_model.v
theories/Qcmp_props.v
theories/Lowf_model.v
theories/Lowf_props.v
theories/Pipe_model.v
theories/Pipe_props.v
theories/Psd_model.v
theories/Psd_props.v
theories/Corf_model.v
theories/Corf_props.v
theories/Idcmd_model.v
theories/Idcmd_props.v
theories/Resf_model.v
theories/Resf_props.v
theories/Tconf_model.v
theories/Tconf_props.v
theories/Tline_model.v
theories/Tline_props.v
theories/Mergec_model.v
theories/Mergec_props.v
theories/Names_model.v
theories/Names_props.v
theories/Summ_model.v
theories/Summ_props.v
theories/Objs_model.v
theories/Objs_props.v
theories/Band_model.v
theories/Band_props.v
theories/Atlas_model.v
theories/Atlas_props.v
theories/Ncw_model.v
theories/Ncw_props.v
theories/Cpy_model.v
theories/Cpy_props.v
theories/Ncr_model.v
theories/Ncr_props.v
