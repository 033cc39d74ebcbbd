-Q theories Verif
theories/Abi_model.v
theories/Abi_proof.v
theories/Abi_props.v
theories/Abi_spec.v
theories/Amd_check.v
theories/Amd_dec_proof.v
theories/Amd_enc_proof.v
theories/Amd_main_proof.v
theories/Amd_model.v
theories/Amd_proof.v
theories/Amd_props.v
theories/Amd_spec.v
theories/Amd_top_proof.v
theories/Arena_model.v
theories/Arena_proof.v
theories/Arena_props.v
theories/Arena_spec.v
theories/Arm_bits_proof.v
theories/Arm_dec_proof.v
theories/Arm_fmov_proof.v
theories/Arm_int_proof.v
theories/Arm_mem_proof.v
theories/Arm_model.v
theories/Arm_proof.v
theories/Arm_props.v
theories/Arm_spec.v
theories/Await_model.v
theories/Await_proof.v
theories/Await_props.v
theories/Await_spec.v
theories/Base.v
theories/Base64_model.v
theories/Base64_proof.v
theories/Base64_props.v
theories/Base64_spec.v
theories/Base_lemmas.v
theories/Bcrypt_model.v
theories/Bcrypt_proof.v
theories/Bcrypt_props.v
theories/Bcrypt_spec.v
theories/Bitmap_model.v
theories/Bitmap_proof.v
theories/Bitmap_props.v
theories/Bitmap_spec.v
theories/Blowfish_model.v
theories/Blowfish_proof.v
theories/Blowfish_props.v
theories/Blowfish_spec.v
theories/Blowfish_tables.v
theories/Box_model.v
theories/Box_proof.v
theories/Box_props.v
theories/Box_spec.v
theories/Bufio_end_proof.v
theories/Bufio_line_proof.v
theories/Bufio_model.v
theories/Bufio_proof.v
theories/Bufio_props.v
theories/Bufio_spec.v
theories/Bufwriter_model.v
theories/Bufwriter_proof.v
theories/Bufwriter_props.v
theories/Bufwriter_spec.v
theories/Cfg_build_proof.v
theories/Cfg_graph_proof.v
theories/Cfg_loops_proof.v
theories/Cfg_merge_proof.v
theories/Cfg_model.v
theories/Cfg_proof.v
theories/Cfg_props.v
theories/Cfg_sim_proof.v
theories/Cfg_spec.v
theories/Cfg_split_proof.v
theories/Chan_hist_proof.v
theories/Chan_model.v
theories/Chan_op_proof.v
theories/Chan_proof.v
theories/Chan_props.v
theories/Chan_queue_proof.v
theories/Chan_spec.v
theories/Chan_step_proof.v
theories/Chunked_model.v
theories/Chunked_proof.v
theories/Chunked_props.v
theories/Chunked_spec.v
theories/Defer_model.v
theories/Defer_proof.v
theories/Defer_props.v
theories/Defer_spec.v
theories/Dom_model.v
theories/Dom_proof.v
theories/Dom_props.v
theories/Dom_spec.v
theories/Fixalloc_model.v
theories/Fixalloc_proof.v
theories/Fixalloc_props.v
theories/Fixalloc_spec.v
theories/Fmt_model.v
theories/Fmt_proof.v
theories/Fmt_props.v
theories/Fmt_spec.v
theories/Fold_model.v
theories/Fold_proof.v
theories/Fold_props.v
theories/Fold_spec.v
theories/Forin_model.v
theories/Forin_proof.v
theories/Forin_props.v
theories/Forin_spec.v
theories/Gcbits_model.v
theories/Gcbits_proof.v
theories/Gcbits_props.v
theories/Gcbits_spec.v
theories/Gcconc_model.v
theories/Gcconc_proof.v
theories/Gcconc_props.v
theories/Gcconc_spec.v
theories/Gcmark_arena_proof.v
theories/Gcmark_model.v
theories/Gcmark_proof.v
theories/Gcmark_props.v
theories/Gcmark_run_proof.v
theories/Gcmark_spec.v
theories/Gcmark_world_proof.v
theories/Hash_model.v
theories/Hash_proof.v
theories/Heapbits_model.v
theories/Heapbits_proof.v
theories/Heapbits_props.v
theories/Heapbits_spec.v
theories/Hex_model.v
theories/Hex_proof.v
theories/Hex_props.v
theories/Hex_spec.v
theories/Httpmsg_model.v
theories/Httpmsg_proof.v
theories/Httpmsg_props.v
theories/Httpmsg_read_proof.v
theories/Httpmsg_spec.v
theories/Httpserve_model.v
theories/Httpserve_proof.v
theories/Httpserve_props.v
theories/Httpserve_spec.v
theories/Iobuf_model.v
theories/Iobuf_proof.v
theories/Iobuf_props.v
theories/Iobuf_spec.v
theories/Jreader_model.v
theories/Jreader_proof.v
theories/Jreader_props.v
theories/Json_model.v
theories/Json_number_proof.v
theories/Json_props.v
theories/Json_spec.v
theories/Json_string_proof.v
theories/Json_type.v
theories/Json_utf8_proof.v
theories/Json_value_proof.v
theories/Jsonint_model.v
theories/Jsonint_proof.v
theories/Jsonint_props.v
theories/Jumps_model.v
theories/Jumps_proof.v
theories/Jumps_props.v
theories/Jumps_spec.v
theories/Layout_gc_proof.v
theories/Layout_model.v
theories/Layout_proof.v
theories/Layout_props.v
theories/Layout_spec.v
theories/Lin_model.v
theories/Lin_proof.v
theories/Lin_props.v
theories/Lin_sim.v
theories/Lin_spec.v
theories/Linkco_model.v
theories/Linkco_pool_proof.v
theories/Linkco_proof.v
theories/Linkco_props.v
theories/Linkco_run_proof.v
theories/Linkco_spec.v
theories/Live_model.v
theories/Live_proof.v
theories/Live_props.v
theories/Live_spec.v
theories/Map_model.v
theories/Map_proof.v
theories/Map_props.v
theories/Map_spec.v
theories/Match_model.v
theories/Match_proof.v
theories/Match_props.v
theories/Match_spec.v
theories/Mem_model.v
theories/Mem_proof.v
theories/Mem_props.v
theories/Mem_spec.v
theories/Mutex_model.v
theories/Mutex_proof.v
theories/Mutex_props.v
theories/Mutex_queue_proof.v
theories/Mutex_spec.v
theories/Mutex_step_proof.v
theories/Mutex_wait_proof.v
theories/Pages_chunk_proof.v
theories/Pages_heap_proof.v
theories/Pages_model.v
theories/Pages_proof.v
theories/Pages_props.v
theories/Pages_runs_proof.v
theories/Pages_spec.v
theories/Path_model.v
theories/Path_proof.v
theories/Path_props.v
theories/Path_spec.v
theories/Peep_arm.v
theories/Peep_model.v
theories/Peep_proof.v
theories/Peep_props.v
theories/Peep_spec.v
theories/Pmove_edge_proof.v
theories/Pmove_model.v
theories/Pmove_proof.v
theories/Pmove_props.v
theories/Pmove_spec.v
theories/Pratt_comp_proof.v
theories/Pratt_eqs.v
theories/Pratt_fuel_proof.v
theories/Pratt_model.v
theories/Pratt_proof.v
theories/Pratt_props.v
theories/Pratt_safe_proof.v
theories/Pratt_spec.v
theories/Regalloc_end_proof.v
theories/Regalloc_model.v
theories/Regalloc_proof.v
theories/Regalloc_props.v
theories/Regalloc_spec.v
theories/Regalloc_step_proof.v
theories/Regalloc_walk_proof.v
theories/Rlist_model.v
theories/Rlist_proof.v
theories/Rlist_props.v
theories/Rlist_run_proof.v
theories/Rlist_spec.v
theories/Rv_dec16_proof.v
theories/Rv_dec_proof.v
theories/Rv_end_proof.v
theories/Rv_model.v
theories/Rv_proof.v
theories/Rv_props.v
theories/Rv_run_proof.v
theories/Rv_seq_proof.v
theories/Rv_spec.v
theories/Rvlink_data_proof.v
theories/Rvlink_model.v
theories/Rvlink_names_proof.v
theories/Rvlink_proof.v
theories/Rvlink_props.v
theories/Rvlink_reloc_proof.v
theories/Rvlink_spec.v
theories/Scanf_back_proof.v
theories/Scanf_model.v
theories/Scanf_proof.v
theories/Scanf_props.v
theories/Scanf_spec.v
theories/Scanner_chars_proof.v
theories/Scanner_lex_proof.v
theories/Scanner_loop_proof.v
theories/Scanner_model.v
theories/Scanner_proof.v
theories/Scanner_props.v
theories/Scanner_spec.v
theories/Sched_deps.v
theories/Sched_model.v
theories/Sched_proof.v
theories/Sched_props.v
theories/Sched_sound.v
theories/Sched_spec.v
theories/Select_model.v
theories/Select_proof.v
theories/Select_props.v
theories/Select_spec.v
theories/Sellock_model.v
theories/Sellock_proof.v
theories/Sellock_props.v
theories/Sellock_spec.v
theories/Set_model.v
theories/Set_proof.v
theories/Set_props.v
theories/Set_spec.v
theories/Sha_model.v
theories/Sha_proof.v
theories/Sha_props.v
theories/Sha_spec.v
theories/Sizeclass_model.v
theories/Sizeclass_proof.v
theories/Sizeclass_props.v
theories/Sort_model.v
theories/Sort_proof.v
theories/Sort_props.v
theories/Sort_spec.v
theories/Spans_alloc_proof.v
theories/Spans_cycle_proof.v
theories/Spans_malloc_proof.v
theories/Spans_mark_proof.v
theories/Spans_model.v
theories/Spans_proof.v
theories/Spans_props.v
theories/Spans_range_proof.v
theories/Spans_spec.v
theories/Spans_sweep_proof.v
theories/Spans_world_proof.v
theories/Ssa_graph_proof.v
theories/Ssa_model.v
theories/Ssa_place_proof.v
theories/Ssa_proof.v
theories/Ssa_props.v
theories/Ssa_rename_proof.v
theories/Ssa_spec.v
theories/Ssa_tree_proof.v
theories/Strings_model.v
theories/Strings_proof.v
theories/Strings_props.v
theories/Strings_spec.v
theories/Strorder_model.v
theories/Strorder_proof.v
theories/Strorder_props.v
theories/Strorder_spec.v
theories/Strpool_model.v
theories/Strpool_proof.v
theories/Strpool_props.v
theories/Types_hash.v
theories/Types_model.v
theories/Types_proof.v
theories/Types_props.v
theories/Types_spec.v
theories/Uleb_model.v
theories/Uleb_proof.v
theories/Uleb_props.v
theories/Uleb_spec.v
theories/Url_model.v
theories/Url_proof.v
theories/Url_props.v
theories/Url_spec.v
theories/Vec_model.v
theories/Vec_proof.v
theories/Vec_props.v
theories/Vec_spec.v
theories/Zlist.v
