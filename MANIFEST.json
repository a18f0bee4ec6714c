{
 "claims": [
  {
   "property": "C01",
   "status": "proved",
   "theorems": [
    "C01_relabel_bijection"
   ],
   "note": ""
  },
  {
   "property": "C02",
   "status": "proved",
   "theorems": [
    "C02_load_then_export",
    "C02_callers_edges_are_renamed"
   ],
   "note": ""
  },
  {
   "property": "C03",
   "status": "proved",
   "theorems": [
    "C03_vertex_property_map"
   ],
   "note": ""
  },
  {
   "property": "C04",
   "status": "proved",
   "theorems": [
    "C04_active_set"
   ],
   "note": ""
  },
  {
   "property": "C05",
   "status": "proved",
   "theorems": [
    "C05_one_superstep",
    "C05_every_superstep"
   ],
   "note": ""
  },
  {
   "property": "C06",
   "status": "proved",
   "theorems": [
    "C06_exactly_N",
    "C06_until_nothing_changes",
    "C06_stops"
   ],
   "note": ""
  },
  {
   "property": "C07",
   "status": "proved",
   "theorems": [
    "C07_histories_do_what_they_mean",
    "C07_same_graph",
    "C07_same_run"
   ],
   "note": ""
  },
  {
   "property": "C08",
   "status": "proved",
   "theorems": [
    "C08_next_active_set"
   ],
   "note": ""
  },
  {
   "property": "C09",
   "status": "proved",
   "theorems": [
    "C09_send_result_is_ignored"
   ],
   "note": ""
  },
  {
   "property": "C10",
   "status": "proved",
   "theorems": [
    "C10_fresh_graph"
   ],
   "note": ""
  },
  {
   "property": "C11",
   "status": "proved",
   "theorems": [
    "C11_all_vertices"
   ],
   "note": ""
  },
  {
   "property": "C12",
   "status": "proved",
   "theorems": [
    "C12_every_iteration"
   ],
   "note": ""
  },
  {
   "property": "C13",
   "status": "proved",
   "theorems": [
    "C13_apply_to_all_vertices"
   ],
   "note": ""
  },
  {
   "property": "C14",
   "status": "proved",
   "theorems": [
    "C14_reduce_all_vertices",
    "C14_neutral_initial_values",
    "C14_initial_value_once_per_rank"
   ],
   "note": ""
  },
  {
   "property": "C15",
   "status": "proved",
   "theorems": [
    "C15_apply_to_all_edges"
   ],
   "note": ""
  },
  {
   "property": "C16",
   "status": "proved",
   "theorems": [
    "C16_both_directions"
   ],
   "note": ""
  },
  {
   "property": "C17",
   "status": "proved",
   "theorems": [
    "C17_disciplined_sharing_safe",
    "C17_sharing_twice_breaks_source",
    "C17_sharing_with_itself",
    "C17_source_must_not_share",
    "C17_source_must_outlive_uses",
    "C17_reload_leaks"
   ],
   "note": ""
  },
  {
   "property": "C18",
   "status": "proved",
   "theorems": [
    "C18_round_trip",
    "C18_other_configuration_exits"
   ],
   "note": ""
  },
  {
   "property": "C19",
   "status": "proved",
   "theorems": [
    "C19_save_vertices"
   ],
   "note": ""
  },
  {
   "property": "C20",
   "status": "proved",
   "theorems": [
    "C20_segments_partition"
   ],
   "note": ""
  },
  {
   "property": "C21",
   "status": "proved",
   "theorems": [
    "C21_segment_history"
   ],
   "note": ""
  },
  {
   "property": "C22",
   "status": "proved",
   "theorems": [
    "C22_transfer",
    "C22_serializable_any_threads_refuted"
   ],
   "note": ""
  },
  {
   "property": "C23",
   "status": "proved",
   "theorems": [
    "C23_merge",
    "C23_any_order"
   ],
   "note": ""
  },
  {
   "property": "C24",
   "status": "proved",
   "theorems": [
    "C24_decode_interleavings",
    "C24_merge_interleavings"
   ],
   "note": ""
  },
  {
   "property": "C25",
   "status": "proved",
   "theorems": [
    "C25_ingest",
    "C25_ingest_distinct",
    "C25_export_many_segments_refuted"
   ],
   "note": ""
  },
  {
   "property": "C26",
   "status": "proved",
   "theorems": [
    "C26_getNNZ"
   ],
   "note": ""
  },
  {
   "property": "C27",
   "status": "proved",
   "theorems": [
    "C27_tiles_partition",
    "C27_tile_owners"
   ],
   "note": ""
  },
  {
   "property": "C28",
   "status": "proved",
   "theorems": [
    "C28_tile_entries"
   ],
   "note": ""
  },
  {
   "property": "C29",
   "status": "proved",
   "theorems": [
    "C29_thread_rows"
   ],
   "note": ""
  },
  {
   "property": "C30",
   "status": "proved",
   "theorems": [
    "C30_multiply",
    "C30_multiply_with_property"
   ],
   "note": ""
  },
  {
   "property": "C31",
   "status": "proved",
   "theorems": [
    "C31_multiply_look_ahead",
    "C31_apply_look_ahead",
    "C31_reads_past_end_refuted"
   ],
   "note": ""
  },
  {
   "property": "C32",
   "status": "proved",
   "theorems": [
    "C32_archive_round_trip",
    "C32_archive_any_tile"
   ],
   "note": ""
  },
  {
   "property": "C33",
   "status": "proved",
   "theorems": [
    "C33_reported_count",
    "C33_exact_mod_2_32",
    "C33_exact_refuted"
   ],
   "note": ""
  },
  {
   "property": "C34",
   "status": "proved",
   "theorems": [
    "C34_rank_assignment"
   ],
   "note": ""
  },
  {
   "property": "C35",
   "status": "proved",
   "theorems": [
    "C35_exchanges_never_deadlock",
    "C35_exchanges_complete"
   ],
   "note": ""
  },
  {
   "property": "C36",
   "status": "proved",
   "theorems": [
    "C36_remove_selfedges"
   ],
   "note": ""
  },
  {
   "property": "C37",
   "status": "proved",
   "theorems": [
    "C37_remove_duplicate_edges",
    "C37_kept_weight_not_determined"
   ],
   "note": ""
  },
  {
   "property": "C38",
   "status": "proved",
   "theorems": [
    "C38_create_bidirectional"
   ],
   "note": ""
  },
  {
   "property": "C39",
   "status": "proved",
   "theorems": [
    "C39_convert_to_dag"
   ],
   "note": ""
  },
  {
   "property": "C40",
   "status": "proved",
   "theorems": [
    "C40_shuffle_edges",
    "C40_no_slot_written_twice"
   ],
   "note": ""
  },
  {
   "property": "C41",
   "status": "proved",
   "theorems": [
    "C41_filter_edges"
   ],
   "note": ""
  },
  {
   "property": "C42",
   "status": "proved",
   "theorems": [
    "C42_random_edge_weights",
    "C42_upper_bound_reached"
   ],
   "note": ""
  },
  {
   "property": "C43",
   "status": "proved",
   "theorems": [
    "C43_randomize_edgelist_square"
   ],
   "note": ""
  },
  {
   "property": "C44",
   "status": "proved",
   "theorems": [
    "C44_remove_empty_columns"
   ],
   "note": ""
  },
  {
   "property": "C45",
   "status": "proved",
   "theorems": [
    "C45_filter_edges_by_row"
   ],
   "note": ""
  },
  {
   "property": "C46",
   "status": "proved",
   "theorems": [
    "C46_binary_round_trip",
    "C46_no_edge_lost",
    "C46_load_reads_what_is_there"
   ],
   "note": ""
  },
  {
   "property": "C47",
   "status": "proved",
   "theorems": [
    "C47_text_round_trip",
    "C47_text_round_trip_unsigned",
    "C47_unended_last_line_with_header",
    "C47_unended_inner_line_lost",
    "C47_unended_last_line_overflows"
   ],
   "note": ""
  },
  {
   "property": "C48",
   "status": "proved",
   "theorems": [
    "C48_header_exact",
    "C48_safe_iff_counts_right"
   ],
   "note": ""
  },
  {
   "property": "C49",
   "status": "proved",
   "theorems": [
    "C49_left_border",
    "C49_right_border"
   ],
   "note": ""
  },
  {
   "property": "C50",
   "status": "proved",
   "theorems": [
    "C50_l_binary_search",
    "C50_l_binary_search_exact",
    "C50_in_bounds_and_correct_refuted"
   ],
   "note": ""
  },
  {
   "property": "C51",
   "status": "proved",
   "theorems": [
    "C51_l_linear_search",
    "C51_empty_oob"
   ],
   "note": ""
  },
  {
   "property": "C52",
   "status": "proved",
   "theorems": [
    "C52_bfs_finds_hop_distances"
   ],
   "note": ""
  },
  {
   "property": "C53",
   "status": "proved",
   "theorems": [
    "C53_sssp_finds_distances",
    "C53_bounded_weights_fit",
    "C53_sssp_always_ends"
   ],
   "note": ""
  },
  {
   "property": "C54",
   "status": "proved",
   "theorems": [
    "C54_sssp_sums_wrap",
    "C54_sssp_distances_modulo",
    "C54_sssp_sums_wrap_always"
   ],
   "note": ""
  },
  {
   "property": "C55",
   "status": "proved",
   "theorems": [
    "C55_topsort_levels",
    "C55_topsort_orders_acyclic"
   ],
   "note": ""
  },
  {
   "property": "C56",
   "status": "proved",
   "theorems": [
    "C56_triangles_counted",
    "C56_any_graph",
    "C56_closed_are_triangles",
    "C56_overflow_refuted"
   ],
   "note": ""
  },
  {
   "property": "C57",
   "status": "proved",
   "theorems": [
    "C57_pagerank_steps",
    "C57_exact_step",
    "C57_pagerank_converges"
   ],
   "note": ""
  },
  {
   "property": "C58",
   "status": "proved",
   "theorems": [
    "C58_delta_stepping_finds_distances",
    "C58_bounded_weights_fit",
    "C58_bucket_overflow_refuted",
    "C58_any_weights",
    "C58_negative_weights_refuted"
   ],
   "note": ""
  },
  {
   "property": "C59",
   "status": "proved",
   "theorems": [
    "C59_degrees_counted",
    "C59_indegrees_counted"
   ],
   "note": ""
  },
  {
   "property": "C60",
   "status": "proved",
   "theorems": [
    "C60_conversion",
    "C60_refused_options",
    "C60_too_few_vertices",
    "C60_unit_weights_are_not_created",
    "C60_weights_kept"
   ],
   "note": ""
  },
  {
   "property": "C61",
   "status": "proved",
   "theorems": [
    "C61_coo",
    "C61_csr",
    "C61_dcsr",
    "C61_coosimd32",
    "C61_hybrid",
    "C61_hybrid_without_entries_refuted",
    "C61_dcsr_reads_past_the_end",
    "C61_coosimd32_groups"
   ],
   "note": ""
  },
  {
   "property": "C62",
   "status": "proved",
   "theorems": [
    "C62_rerun",
    "C62_old_messages_refuted"
   ],
   "note": ""
  },
  {
   "property": "C63",
   "status": "proved",
   "theorems": [
    "C63_any_reduction",
    "C63_one_outcome_if_order_is_irrelevant",
    "C63_choosing_operation"
   ],
   "note": ""
  },
  {
   "property": "C64",
   "status": "proved",
   "theorems": [
    "C64_different_words_safe",
    "C64_same_word_may_lose",
    "C64_topsort_loop_refuted"
   ],
   "note": ""
  },
  {
   "property": "C65",
   "status": "proved",
   "theorems": [
    "C65_other_weight_types_never_finish",
    "C65_other_weight_types_write_no_edges"
   ],
   "note": ""
  },
  {
   "property": "C66",
   "status": "proved",
   "theorems": [
    "C66_coo",
    "C66_coo_single_entry_refuted",
    "C66_csr",
    "C66_dcsr",
    "C66_coosimd32",
    "C66_hybrid",
    "C66_coo_with_property",
    "C66_coo_with_property_no_entries_refuted"
   ],
   "note": ""
  },
  {
   "property": "C67",
   "status": "proved",
   "theorems": [
    "C67_csr",
    "C67_coo",
    "C67_coo_no_entries",
    "C67_coosimd32",
    "C67_dcsr_refuted",
    "C67_dcsr_all_rows_refuted",
    "C67_dcsr_no_entries",
    "C67_hybrid"
   ],
   "note": ""
  },
  {
   "property": "C68",
   "status": "proved",
   "theorems": [
    "C68_incremental_solves",
    "C68_solutions_close"
   ],
   "note": ""
  },
  {
   "property": "C69",
   "status": "proved",
   "theorems": [
    "C69_sgd_descends",
    "C69_step_is_gradient"
   ],
   "note": ""
  },
  {
   "property": "C70",
   "status": "proved",
   "theorems": [
    "C70_lda_rounds",
    "C70_lda_stops",
    "C70_counts",
    "C70_unset_memory"
   ],
   "note": ""
  },
  {
   "property": "C71",
   "status": "proved",
   "theorems": [
    "C71_vector_archive",
    "C71_segment_continues",
    "C71_segment_sends",
    "C71_after_receive_refuted"
   ],
   "note": ""
  },
  {
   "property": "C72",
   "status": "proved",
   "theorems": [
    "C72_randomize_edge_direction",
    "C72_get_dimensions"
   ],
   "note": ""
  },
  {
   "property": "C73",
   "status": "proved",
   "theorems": [
    "C73_edge_list_memory",
    "C73_in_place"
   ],
   "note": ""
  },
  {
   "property": "C74",
   "status": "proved",
   "theorems": [
    "C74_tile_memory",
    "C74_loaded_tiles_refuted",
    "C74_leaks_refuted"
   ],
   "note": ""
  },
  {
   "property": "C75",
   "status": "proved",
   "theorems": [
    "C75_vector_memory",
    "C75_no_bad_free"
   ],
   "note": ""
  },
  {
   "property": "C76",
   "status": "proved",
   "theorems": [
    "C76_graph_memory",
    "C76_load_twice_refuted"
   ],
   "note": ""
  },
  {
   "property": "C77",
   "status": "proved",
   "theorems": [
    "C77_schedules_end",
    "C77_reduction",
    "C77_shared_word_refuted",
    "C77_apply_segment",
    "C77_intersect_segment",
    "C77_apply_all",
    "C77_apply_reduce",
    "C77_set_all",
    "C77_compress_plain",
    "C77_compress_archived",
    "C77_decompress_archived",
    "C77_union",
    "C77_build_tile",
    "C77_apply_edges",
    "C77_edge_tags",
    "C77_rewrite_edges",
    "C77_shuffle",
    "C77_coo_tile",
    "C77_csr_tile",
    "C77_dcsr_tile",
    "C77_coosimd32_tile",
    "C77_hybrid_tile"
   ],
   "note": ""
  },
  {
   "property": "C78",
   "status": "proved",
   "theorems": [
    "C78_relabel",
    "C78_boundaries",
    "C78_boundaries_sharp",
    "C78_tile_numbers",
    "C78_partitions",
    "C78_partition_search",
    "C78_parts",
    "C78_words",
    "C78_words_sharp",
    "C78_tile_edges",
    "C78_tile_columns",
    "C78_reported_edges",
    "C78_messages",
    "C78_bidirectional"
   ],
   "note": ""
  },
  {
   "property": "C79",
   "status": "proved",
   "theorems": [
    "C79_float32",
    "C79_step",
    "C79_pagerank_rounded",
    "C79_pagerank_float32",
    "C79_same_ranks_refuted"
   ],
   "note": ""
  },
  {
   "property": "C80",
   "status": "proved",
   "theorems": [
    "C80_fixed_order",
    "C80_one_meaning",
    "C80_order_uses_all",
    "C80_repeatable",
    "C80_reset_repeats",
    "C80_runs_repeat",
    "C80_other_ranks_refuted"
   ],
   "note": ""
  },
  {
   "property": "C81",
   "status": "proved",
   "theorems": [
    "C81_one_order",
    "C81_stops",
    "C81_float32_monotone",
    "C81_stops_float32"
   ],
   "note": ""
  },
  {
   "property": "C82",
   "status": "proved",
   "theorems": [
    "C82_float64",
    "C82_increment_rounded",
    "C82_increment_float64",
    "C82_equation_refuted"
   ],
   "note": ""
  },
  {
   "property": "C83",
   "status": "proved",
   "theorems": [
    "C83_interrupted_write",
    "C83_cut_header_stops",
    "C83_cut_after_header",
    "C83_cut_without_header_is_silent",
    "C83_torn_edge_overflows",
    "C83_text_weight_kept_refuted",
    "C83_text_cuts",
    "C83_text_cut_header_stops",
    "C83_text_header_cuts",
    "C83_text_cut_with_header",
    "C83_text_cut_after_header",
    "C83_text_cut_without_header_is_silent",
    "C83_text_torn_line_overflows",
    "C83_text_number_weights",
    "C83_text_float_weights",
    "C83_text_float_files",
    "C83_text_double_files"
   ],
   "note": ""
  },
  {
   "property": "C84",
   "status": "proved",
   "theorems": [
    "C84_text_float",
    "C84_text_double",
    "C84_binary"
   ],
   "note": ""
  },
  {
   "property": "C85",
   "status": "proved",
   "theorems": [
    "C85_no_graph_from_part_of_a_save",
    "C85_damaged_file_is_refused",
    "C85_files_of_two_saves_mix",
    "C85_one_save_refuted"
   ],
   "note": ""
  },
  {
   "property": "C86",
   "status": "proved",
   "theorems": [
    "C86_tile",
    "C86_any_tile",
    "C86_csr",
    "C86_coo",
    "C86_coosimd32",
    "C86_dcsr",
    "C86_hybrid",
    "C86_vector"
   ],
   "note": ""
  },
  {
   "property": "C87",
   "status": "proved",
   "theorems": [
    "C87_bfs",
    "C87_sssp",
    "C87_deltastepping",
    "C87_deltastepping_not_square",
    "C87_topsort",
    "C87_triangles"
   ],
   "note": ""
  },
  {
   "property": "C88",
   "status": "proved",
   "theorems": [
    "C88_pagerank",
    "C88_incremental"
   ],
   "note": ""
  },
  {
   "property": "C89",
   "status": "proved",
   "theorems": [
    "C89_command_line",
    "C89_help",
    "C89_other_names_read_past_the_table",
    "C89_p_reads_null",
    "C89_other_values_are_ignored",
    "C89_left_out",
    "C89_leading_zero_refuted"
   ],
   "note": ""
  },
  {
   "property": "C90",
   "status": "proved",
   "theorems": [
    "C90_usage",
    "C90_arguments",
    "C90_bfs_source",
    "C90_sssp_source",
    "C90_deltastepping_source",
    "C90_no_number_refuted"
   ],
   "note": ""
  },
  {
   "property": "C91",
   "status": "proved",
   "theorems": [
    "C91_refused",
    "C91_taken_for_1"
   ],
   "note": ""
  },
  {
   "property": "C92",
   "status": "proved",
   "theorems": [
    "C92_refused",
    "C92_taken_for_1",
    "C92_loaded",
    "C92_counted_from_0"
   ],
   "note": ""
  },
  {
   "property": "C93",
   "status": "proved",
   "theorems": [
    "C93_bfs",
    "C93_sssp",
    "C93_topsort",
    "C93_triangles",
    "C93_pagerank",
    "C93_incremental_pagerank",
    "C93_deltastepping",
    "C93_counted_from_0"
   ],
   "note": ""
  },
  {
   "property": "C94",
   "status": "proved",
   "theorems": [
    "C94_sgd",
    "C94_lda",
    "C94_lda_refused",
    "C94_lda_taken_for_1",
    "C94_arguments",
    "C94_numbers"
   ],
   "note": ""
  }
 ]
}