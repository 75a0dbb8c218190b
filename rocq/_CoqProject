-Q theories Verif
theories/Base.v
theories/Big_model.v
theories/Big_set.v
theories/Big_spec.v
theories/Big_inv.v
theories/Big_lookup.v
theories/Big_links.v
theories/Big_field.v
theories/Big_create.v
theories/Big_delete.v
theories/Big_resize.v
theories/Big_preext.v
theories/Big_stack.v
theories/Big_split.v
theories/Big_range.v
theories/Big_common.v
theories/Big_adopt.v
theories/Big_hist.v
theories/Big_more.v
theories/Big_props.v
theories/Cache_model.v
theories/Cache_spec.v
theories/Cache_proof.v
theories/Cache_lru.v
theories/Cache_props.v
theories/Bits.v
theories/Insert_model.v
theories/Insert_spec.v
theories/Insert_proof.v
theories/Insert_props.v
theories/Addrlist_model.v
theories/Addrlist_props.v
theories/Memtable_model.v
theories/Memtable_props.v
theories/Allocsites_model.v
theories/Allocsites_props.v
theories/Type_model.v
theories/Type_spec.v
theories/Type_proof.v
theories/Type_walk.v
theories/Type_props.v
theories/Walk_model.v
theories/Walk_spec.v
theories/Walk_proof.v
theories/Walk_props.v
theories/Bfs_model.v
theories/Bfs_spec.v
theories/Bfs_proof.v
theories/Bfs_props.v
theories/Map_model.v
theories/Map_spec.v
theories/Map_seq.v
theories/Map_aug.v
theories/Map_state.v
theories/Map_unmap.v
theories/Map_loop.v
theories/Map_map.v
theories/Map_brk.v
theories/Scan_model.v
theories/Scan_spec.v
theories/Scan_seq.v
theories/Scan_new.v
theories/Scan_absent.v
theories/Scan_loop.v
theories/Scan_done.v
theories/Map_hist.v
theories/Map_props.v
theories/Map_ex.v
theories/Map_refute.v
theories/Remap_model.v
theories/Remap_props.v
theories/Remap_refute.v
theories/Remap_move.v
theories/Brk_model.v
theories/Brk_spec.v
theories/Brk_props.v
theories/Brk_refute.v
theories/Heap_model.v
theories/Heap_spec.v
theories/Heap_proof.v
theories/Heap_calls.v
theories/Heap_props.v
theories/Heap_refute.v
theories/Life_model.v
theories/Life_spec.v
theories/Life_proof.v
theories/Life_props.v
theories/Life_rcspec.v
theories/Life_rc.v
theories/Life_rcprops.v
theories/Copy_model.v
theories/Copy_spec.v
theories/Copy_props.v
theories/Alloca_model.v
theories/Alloca_spec.v
theories/Alloca_proof.v
theories/Alloca_cover.v
theories/Alloca_calls.v
theories/Alloca_steps.v
theories/Alloca_leave.v
theories/Alloca_props.v
theories/Frame_model.v
theories/Frame_spec.v
theories/Frame_props.v
theories/Auxv_model.v
theories/Auxv_spec.v
theories/Auxv_props.v
theories/Static_model.v
theories/Static_spec.v
theories/Static_props.v
theories/Packed_model.v
theories/Packed_spec.v
theories/Packed_proof.v
theories/Packed_props.v
theories/Metavec_model.v
theories/Metavec_props.v
theories/Linear_model.v
theories/Linear_props.v
theories/Intern_model.v
theories/Intern_proof.v
theories/Intern_props.v
theories/Small_model.v
theories/Small_proof.v
theories/Small_props.v
theories/File_model.v
theories/File_spec.v
theories/File_proof.v
theories/File_load.v
theories/File_main.v
theories/File_more.v
theories/File_unload.v
theories/File_hist.v
theories/File_props.v
theories/File_refute.v
theories/Scan_props.v
theories/Scan_refute.v
theories/Exe_model.v
theories/Exe_spec.v
theories/Exe_props.v
theories/Wrap_model.v
theories/Wrap_spec.v
theories/Wrap_proof.v
theories/Wrap_props.v
theories/Trap_model.v
theories/Trap_spec.v
theories/Trap_proof.v
theories/Trap_props.v
theories/Trap_refute.v
theories/Meta_model.v
theories/Meta_spec.v
theories/Meta_proof.v
theories/Meta_props.v
theories/Tname_model.v
theories/Tname_spec.v
theories/Tname_proof.v
theories/Tname_props.v
theories/Detour_model.v
theories/Detour_spec.v
theories/Detour_proof.v
theories/Detour_list.v
theories/Detour_props.v
theories/Detour_refute.v
theories/Gather_model.v
theories/Gather_spec.v
theories/Gather_awk.v
theories/Gather_merge.v
theories/Gather_props.v
theories/Gather_refute.v
theories/Unw_model.v
theories/Unw_spec.v
theories/Unw_proof.v
theories/Unw_props.v
theories/Query_model.v
theories/Query_spec.v
theories/Query_props.v
theories/Query_ex.v
theories/Query_refute.v
theories/Pheap_model.v
theories/Pheap_spec.v
theories/Pheap_props.v
theories/Rtu_model.v
theories/Rtu_spec.v
theories/Rtu_proof.v
theories/Rtu_props.v
theories/Start_model.v
theories/Start_spec.v
theories/Start_props.v
theories/Sig_model.v
theories/Sig_spec.v
theories/Sig_props.v
theories/Retype_model.v
theories/Retype_spec.v
theories/Retype_proof.v
theories/Retype_props.v
theories/Retype_refute.v
theories/Conc_model.v
theories/Conc_spec.v
theories/Conc_proof.v
theories/Conc_code.v
theories/Conc_more.v
theories/Conc_props.v
theories/Conc_refute.v
theories/Hconc_gen.v
theories/Hconc_model.v
theories/Hconc_spec.v
theories/Hconc_proof.v
theories/Hconc_props.v
theories/Hconc_refute.v
theories/Early_model.v
theories/Early_props.v
theories/Early_refute.v
theories/Lock_model.v
theories/Lock_proof.v
theories/Lock_props.v
theories/Err_model.v
theories/Err_props.v
theories/Pconc_model.v
theories/Pconc_spec.v
theories/Pconc_props.v
theories/Esym_model.v
theories/Esym_props.v
theories/Cconc_model.v
theories/Cconc_props.v
theories/Infer_model.v
theories/Infer_spec.v
theories/Infer_proof.v
theories/Infer_props.v
theories/Infer_refute.v
theories/Sname_model.v
theories/Sname_props.v
theories/Mona_model.v
theories/Mona_props.v
theories/Trapw_model.v
theories/Trapw_spec.v
theories/Trapw_proof.v
theories/Trapw_props.v
theories/Cwrap_model.v
theories/Cwrap_spec.v
theories/Cwrap_proof.v
theories/Cwrap_props.v
