-Q theories Verif
theories/Base.v
theories/Integer.v
theories/Integer_proofs.v
theories/P_Integer.v
theories/Containers.v
theories/Containers_spec.v
theories/Containers_proofs.v
theories/P_Containers.v
theories/Streams.v
theories/Streams_spec.v
theories/Streams_proofs.v
theories/P_Streams.v
theories/Serialize.v
theories/Serialize_spec.v
theories/Serialize_proofs.v
theories/P_Serialize.v
theories/SortSearch.v
theories/SortSearch_spec.v
theories/SortSearch_proofs.v
theories/P_SortSearch.v
theories/Scan.v
theories/Scan_spec.v
theories/Scan_proofs.v
theories/Lookback.v
theories/Lookback_proofs.v
theories/P_Scan.v
theories/Patch.v
theories/Patch_spec.v
theories/Patch_proofs.v
theories/PatchTree.v
theories/PatchTree_spec.v
theories/PatchTree_proofs.v
theories/P_Patch.v
theories/Sched.v
theories/Sched_spec.v
theories/Sched_change_proofs.v
theories/Sched_proofs.v
theories/Sched_step_proofs.v
theories/Sched_merge_proofs.v
theories/Sched_main_proofs.v
theories/Sched_hist_proofs.v
theories/P_Sched.v
theories/Events.v
theories/Events_spec.v
theories/Events_proofs.v
theories/P_Events.v
theories/Bits.v
theories/Morton.v
theories/Morton_spec.v
theories/Morton_proofs.v
theories/P_Morton.v
theories/Hilbert.v
theories/Hilbert_proofs.v
theories/P_Hilbert.v
theories/Bitonic.v
theories/Bitonic_net.v
theories/Bitonic_sorted.v
theories/Bitonic_proofs.v
theories/P_Bitonic.v
theories/Karras.v
theories/Karras_spec.v
theories/Karras_abs.v
theories/Karras_proofs.v
theories/P_Karras.v
theories/Traverse.v
theories/Traverse_spec.v
theories/Traverse_proofs.v
theories/P_Traverse.v
theories/Par.v
theories/Reduction.v
theories/Reduction_spec.v
theories/Reduction_proofs.v
theories/Reduction_lists.v
theories/P_Reduction.v
theories/F64.v
theories/LoadBalance.v
theories/LoadBalance_spec.v
theories/LoadBalance_proofs.v
theories/LoadBalance_quality.v
theories/P_LoadBalance.v
theories/BVH.v
theories/BVH_spec.v
theories/BVH_sort.v
theories/BVH_prop.v
theories/BVH_proofs.v
theories/BVH_main.v
theories/P_BVH.v
theories/DeviceBuffer.v
theories/DeviceBuffer_spec.v
theories/DeviceBuffer_proofs.v
theories/DeviceBuffer_main.v
theories/P_DeviceBuffer.v
theories/Layer.v
theories/Layer_spec.v
theories/Layer_proofs.v
theories/Layer_fields.v
theories/Layer_main.v
theories/Layer_extra.v
theories/P_Layer.v
theories/Domain.v
theories/Domain_spec.v
theories/Domain_cell.v
theories/Domain_f64.v
theories/Domain_u64.v
theories/Domain_grid.v
theories/Domain_exact.v
theories/Domain_main.v
theories/P_Domain.v
theories/PatchData.v
theories/PatchData_spec.v
theories/PatchData_layer.v
theories/PatchData_proofs.v
theories/PatchData_inst.v
theories/PatchData_refine.v
theories/P_PatchData.v
theories/SerialTree.v
theories/SerialTree_spec.v
theories/SerialTree_proofs.v
theories/SerialTree_build.v
theories/SerialTree_search.v
theories/SerialTree_leafs.v
theories/SerialTree_field.v
theories/SerialTree_main.v
theories/P_SerialTree.v
theories/SparseXchg.v
theories/SparseXchg_spec.v
theories/SparseXchg_table.v
theories/SparseXchg_proofs.v
theories/SparseXchg_main.v
theories/P_SparseXchg.v
theories/DDComm.v
theories/DDComm_spec.v
theories/DDComm_prep.v
theories/DDComm_group.v
theories/DDComm_ser.v
theories/DDComm_main.v
theories/DDComm_xchg.v
theories/DDComm_final.v
theories/P_DDComm.v
theories/DDSer.v
theories/DDSer_spec.v
theories/DDSer_proofs.v
theories/LayerSer.v
theories/LayerSer_spec.v
theories/LayerSer_proofs.v
theories/P_DDSer.v
theories/Reattr.v
theories/Reattr_spec.v
theories/Reattr_local.v
theories/Reattr_extract.v
theories/Reattr_main.v
theories/Reattr_final.v
theories/P_Reattr.v
theories/Dtt.v
theories/Dtt_spec.v
theories/Dtt_tree.v
theories/Dtt_ref.v
theories/Dtt_segs.v
theories/Dtt_scan.v
theories/Dtt_scan2.v
theories/Dtt_select.v
theories/Dtt_select2.v
theories/Dtt_mono.v
theories/Dtt_sep.v
theories/Dtt_reorder.v
theories/Dtt_main.v
theories/Dtt_main2.v
theories/P_Dtt.v
theories/Fmm_tensors.v
theories/Fmm_ops.v
theories/Fmm_spec.v
theories/Fmm_orders.v
theories/Fmm_proofs1.v
theories/Fmm_proofs2.v
theories/Fmm_proofs3.v
theories/Fmm_green.v
theories/Fmm_store.v
theories/Fmm_reps.v
theories/P_Fmm.v
theories/Interleave.v
theories/Sgfmm.v
theories/Sgfmm_passes.v
theories/Sgfmm_util.v
theories/Sgfmm_tree.v
theories/Sgfmm_down.v
theories/Sgfmm_field.v
theories/Sgfmm_inv.v
theories/Sgfmm_part.v
theories/Sgfmm_spec.v
theories/Sgfmm_main.v
theories/Sgfmm_mom.v
theories/P_Sgfmm.v
theories/Sgmm.v
theories/Sgmm_spec.v
theories/Sgmm_proofs.v
theories/Sgmm_main.v
theories/Sgmm_direct.v
theories/P_Sgmm.v
theories/Ncache.v
theories/Ncache_spec.v
theories/Ncache_field.v
theories/Ncache_walk.v
theories/Ncache_own.v
theories/Ncache_main.v
theories/P_Ncache.v
theories/Sphd.v
theories/Sphd_spec.v
theories/Sphd_proofs.v
theories/P_Sphd.v
theories/Pwpoly.v
theories/Sphker.v
theories/Sphker_check.v
theories/Sphker_d1.v
theories/Sphker_d2.v
theories/Sphker_d3.v
theories/Sphker_d4.v
theories/Sphker_proofs.v
theories/P_Sphker.v
theories/Hiter.v
theories/Hiter_spec.v
theories/Hiter_proofs.v
theories/Hiter_loop.v
theories/Hiter_lim.v
theories/P_Hiter.v
theories/Riemann.v
theories/Riemann_spec.v
theories/Riemann_proofs.v
theories/Riemann_pos.v
theories/Riemann_dust.v
theories/Riemann_hllc.v
theories/P_Riemann.v
theories/Godunov.v
theories/Godunov_spec.v
theories/Godunov_graph.v
theories/Godunov_pure.v
theories/Godunov_cons.v
theories/Godunov_cover.v
theories/Godunov_pos.v
theories/Godunov_ex.v
theories/P_Godunov.v
theories/Godunov_lin_spec.v
theories/Godunov_lin.v
theories/P_GodunovLin.v
theories/ObjCache.v
theories/ObjCache_spec.v
theories/ObjCache_proofs.v
theories/P_ObjCache.v
theories/Sink.v
theories/Sink_spec.v
theories/Sink_proofs.v
theories/Sink_accr.v
theories/Sink_forces.v
theories/Sink_cons.v
theories/Sink_step.v
theories/Sink_more.v
theories/P_Sink.v
theories/SerialTree_cover.v
theories/SphGhost.v
theories/SphGhost_spec.v
theories/SphGhost_geo.v
theories/SphGhost_main.v
theories/SphGhost_img.v
theories/P_SphGhost.v
theories/SphWrap.v
theories/SphWrap_spec.v
theories/SphWrap_proofs.v
theories/P_SphWrap.v
theories/Amr.v
theories/Amr_spec.v
theories/Amr_proofs.v
theories/Amr_lists.v
theories/Amr_geo.v
theories/Amr_order.v
theories/P_Amr.v
theories/TwoOne.v
theories/TwoOne_spec.v
theories/TwoOne_proofs.v
theories/TwoOne_der.v
theories/P_TwoOne.v
theories/EvolveUntil.v
theories/EvolveUntil_spec.v
theories/EvolveUntil_proofs.v
theories/EvolveUntil_ends.v
theories/P_EvolveUntil.v
