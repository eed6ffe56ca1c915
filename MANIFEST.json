{
 "claims": [
  {
   "property": "C01",
   "status": "proved",
   "theorems": [
    "C01_setIntersect_exact",
    "C01_setIntersect_set_exact",
    "C01_symmetricDiff_exact",
    "C01_symmetricDiff_set_exact",
    "C01_setXOR_exact"
   ],
   "note": ""
  },
  {
   "property": "C02",
   "status": "proved",
   "theorems": [
    "C02_setUnion_exact_but_empty_on_equal",
    "C02_setUnion_is_union_refuted"
   ],
   "note": ""
  },
  {
   "property": "C03",
   "status": "proved",
   "theorems": [
    "C03_intersect_adjacent_pairs"
   ],
   "note": ""
  },
  {
   "property": "C04",
   "status": "proved",
   "theorems": [
    "C04_getSubsets_facets",
    "C04_getSubsets_set_facets",
    "C04_getSubsets_dim_exact"
   ],
   "note": ""
  },
  {
   "property": "C05",
   "status": "proved",
   "theorems": [
    "C05_separatePartitions_exact"
   ],
   "note": ""
  },
  {
   "property": "C06",
   "status": "proved",
   "theorems": [
    "C06_separatePartitionsRad_strict_ball",
    "C06_computeMaxRadius_is_max",
    "C06_farthest_point_dropped_at_max_radius"
   ],
   "note": ""
  },
  {
   "property": "C07",
   "status": "proved",
   "theorems": [
    "C07_mapPartitionIndexing_changes_nothing"
   ],
   "note": ""
  },
  {
   "property": "C08",
   "status": "proved",
   "theorems": [
    "C08_distance_matrix_and_weights"
   ],
   "note": ""
  },
  {
   "property": "C09",
   "status": "proved",
   "theorems": [
    "C09_array_list_is_vietoris_rips"
   ],
   "note": ""
  },
  {
   "property": "C10",
   "status": "proved",
   "theorems": [
    "C10_array_list_face_closed_weights_are_diameters"
   ],
   "note": ""
  },
  {
   "property": "C11",
   "status": "proved",
   "theorems": [
    "C11_getAllEdges_lists_the_complex",
    "C11_getAllEdges_is_a_filtered_complex"
   ],
   "note": ""
  },
  {
   "property": "C12",
   "status": "proved",
   "theorems": [
    "C12_expandDimensions_idempotent_monotone",
    "C12_negative_dimensions"
   ],
   "note": ""
  },
  {
   "property": "C13",
   "status": "proved",
   "theorems": [
    "C13_tree_is_strict_vietoris_rips"
   ],
   "note": ""
  },
  {
   "property": "C14",
   "status": "proved",
   "theorems": [
    "C14_complexes_agree_away_from_epsilon"
   ],
   "note": ""
  },
  {
   "property": "C15",
   "status": "proved",
   "theorems": [
    "C15_array_list_counts",
    "C15_tree_counts"
   ],
   "note": ""
  },
  {
   "property": "C16",
   "status": "proved",
   "theorems": [
    "C16_strict_rips_or_out_of_range",
    "C16_counters",
    "C16_getWeight",
    "C16_getAllEdges",
    "C16_find",
    "C16_search"
   ],
   "note": ""
  },
  {
   "property": "C17",
   "status": "proved",
   "theorems": [
    "C17_dim0_bars_count_components"
   ],
   "note": ""
  },
  {
   "property": "C18",
   "status": "proved",
   "theorems": [
    "C18_dim0_pivots_are_a_minimum_spanning_forest"
   ],
   "note": ""
  },
  {
   "property": "C19",
   "status": "proved",
   "theorems": [
    "C19_reduction_pairs_rows_and_columns_once",
    "C19_libstdcxx_always_ends",
    "C19_bars_are_born_before_they_die"
   ],
   "note": ""
  },
  {
   "property": "C20",
   "status": "proved",
   "theorems": [
    "C20_pairs_count_the_rank"
   ],
   "note": ""
  },
  {
   "property": "C21",
   "status": "proved",
   "theorems": [
    "C21_bars_are_not_persistent_homology_refuted",
    "C21_libstdcxx_loses_the_loop_of_a_square_refuted"
   ],
   "note": ""
  },
  {
   "property": "C22",
   "status": "proved",
   "theorems": [
    "C22_row_loop_defined_iff_no_row_after_the_last_pivot",
    "C22_run_undefined_iff",
    "C22_libstdcxx_reads_the_size"
   ],
   "note": ""
  },
  {
   "property": "C23",
   "status": "proved",
   "theorems": [
    "C23_bars_start_and_end_at_simplices",
    "C23_essential_classes_are_not_reported_refuted"
   ],
   "note": ""
  },
  {
   "property": "C24",
   "status": "proved",
   "theorems": [
    "C24_reduceBoundaryMatrix_rank_and_nullity",
    "C24_reduceBoundaryMatrix_empty"
   ],
   "note": ""
  },
  {
   "property": "C25",
   "status": "proved",
   "theorems": [
    "C25_getRankNull_finds_the_fresh_rows",
    "C25_getRankNull_empty"
   ],
   "note": ""
  },
  {
   "property": "C26",
   "status": "proved",
   "theorems": [
    "C26_nearest_is_minimal",
    "C26_nearest_undefined"
   ],
   "note": ""
  },
  {
   "property": "C27",
   "status": "proved",
   "theorems": [
    "C27_neighbourhood",
    "C27_sphere_points_can_be_missed"
   ],
   "note": ""
  },
  {
   "property": "C28",
   "status": "proved",
   "theorems": [
    "C28_dbscan",
    "C28_cluster_any_neighbours",
    "C28_epsilon_zero_leaves_unvisited"
   ],
   "note": ""
  },
  {
   "property": "C29",
   "status": "proved",
   "theorems": [
    "C29_labels",
    "C29_last_point_ignored"
   ],
   "note": ""
  },
  {
   "property": "C30",
   "status": "proved",
   "theorems": [
    "C30_csv_roundtrip",
    "C30_barcode_file_throws"
   ],
   "note": ""
  },
  {
   "property": "C31",
   "status": "proved",
   "theorems": [
    "C31_csv_lines",
    "C31_every_file",
    "C31_missing_file",
    "C31_one_character_rows_lost",
    "C31_empty_cell_throws"
   ],
   "note": ""
  },
  {
   "property": "C32",
   "status": "proved",
   "theorems": [
    "C32_mat_roundtrip",
    "C32_mat_any_matrix"
   ],
   "note": ""
  },
  {
   "property": "C33",
   "status": "proved",
   "theorems": [
    "C33_stream_rows",
    "C33_every_stream",
    "C33_long_line_is_cut"
   ],
   "note": ""
  },
  {
   "property": "C34",
   "status": "proved",
   "theorems": [
    "C34_parse_undefined_iff",
    "C34_parse_options",
    "C34_last_occurrence_wins_refuted"
   ],
   "note": ""
  },
  {
   "property": "C35",
   "status": "proved",
   "theorems": [
    "C35_setPipeline_follows_the_plan",
    "C35_setPipeline_twice",
    "C35_planned_pipelines_exist"
   ],
   "note": ""
  },
  {
   "property": "C36",
   "status": "proved",
   "theorems": [
    "C36_one_splitting",
    "C36_pipeline_runs_its_components",
    "C36_no_pipeline_option",
    "C36_parsed_options_configure_every_pipe"
   ],
   "note": ""
  },
  {
   "property": "C37",
   "status": "proved",
   "theorems": [
    "C37_newPipe_iff",
    "C37_newPreprocessor_iff"
   ],
   "note": ""
  },
  {
   "property": "C38",
   "status": "proved",
   "theorems": [
    "C38_streamed_vectors_are_nonempty",
    "C38_window_is_the_last_50_vectors",
    "C38_array_list_window_is_the_first_50_vectors"
   ],
   "note": ""
  },
  {
   "property": "C39",
   "status": "proved",
   "theorems": [
    "C39_short_stream",
    "C39_window_stays_the_first_200_vectors"
   ],
   "note": ""
  },
  {
   "property": "C40",
   "status": "proved",
   "theorems": [
    "C40_nearest_micro_cluster"
   ],
   "note": ""
  },
  {
   "property": "C41",
   "status": "proved",
   "theorems": [
    "C41_binary_search",
    "C41_not_a_number_never_ends"
   ],
   "note": ""
  },
  {
   "property": "C42",
   "status": "proved",
   "theorems": [
    "C42_collapse_leaves_a_graph",
    "C42_collapse_keeps_the_components_at_every_scale",
    "C42_collapse_creates_holes"
   ],
   "note": ""
  },
  {
   "property": "C43",
   "status": "proved",
   "theorems": [
    "C43_tree_collapse_does_nothing"
   ],
   "note": ""
  },
  {
   "property": "C44",
   "status": "proved",
   "theorems": [
    "C44_unconfigured_pipe_returns_its_input",
    "C44_component_runs_iff_configured",
    "C44_preprocessor_runs_iff_configured",
    "C44_parsed_options_configure_every_preprocessor"
   ],
   "note": ""
  },
  {
   "property": "C45",
   "status": "proved",
   "theorems": [
    "C45_run_analyses_the_rips_complex",
    "C45_dim0_bars_are_single_linkage_heights",
    "C45_run_defined_iff_some_pair_is_close"
   ],
   "note": ""
  },
  {
   "property": "C46",
   "status": "proved",
   "theorems": [
    "C46_vectors_distance_definedness",
    "C46_vectors_distance_value",
    "C46_vectors_distance_symmetric",
    "C46_vectors_distance_ignores_extra_coordinates",
    "C46_distance_of_numbers",
    "C46_nearestNeighbors_distances",
    "C46_sortBySecond_strict_weak_order"
   ],
   "note": ""
  },
  {
   "property": "C47",
   "status": "proved",
   "theorems": [
    "C47_separateBoundaryPartitions_exact"
   ],
   "note": ""
  },
  {
   "property": "C48",
   "status": "proved",
   "theorems": [
    "C48_find_is_membership",
    "C48_findWeight_is_the_diameter"
   ],
   "note": ""
  },
  {
   "property": "C49",
   "status": "proved",
   "theorems": [
    "C49_getDimEdges_filters_by_diameter"
   ],
   "note": ""
  },
  {
   "property": "C50",
   "status": "proved",
   "theorems": [
    "C50_tree_reuse_after_clear",
    "C50_clear_is_undefined_by_the_standard",
    "C50_clear_leaves_a_wrong_count"
   ],
   "note": ""
  },
  {
   "property": "C51",
   "status": "proved",
   "theorems": [
    "C51_first_getAllEdges_is_a_filtered_complex",
    "C51_first_getAllEdges_is_sorted",
    "C51_later_getAllEdges_is_unsorted_refuted"
   ],
   "note": ""
  },
  {
   "property": "C52",
   "status": "proved",
   "theorems": [
    "C52_tree_getDimEdges"
   ],
   "note": ""
  },
  {
   "property": "C53",
   "status": "proved",
   "theorems": [
    "C53_table_omits_edges_that_start_a_component"
   ],
   "note": ""
  },
  {
   "property": "C54",
   "status": "proved",
   "theorems": [
    "C54_isolated_points_are_undefined"
   ],
   "note": ""
  },
  {
   "property": "C55",
   "status": "proved",
   "theorems": [
    "C55_betti_curve"
   ],
   "note": ""
  },
  {
   "property": "C56",
   "status": "proved",
   "theorems": [
    "C56_no_bar_of_the_requested_dimension"
   ],
   "note": ""
  },
  {
   "property": "C57",
   "status": "proved",
   "theorems": [
    "C57_pivots_are_the_negative_simplices",
    "C57_run_defined_only_without_edges"
   ],
   "note": ""
  },
  {
   "property": "C58",
   "status": "proved",
   "theorems": [
    "C58_clearing_keeps_the_pivots",
    "C58_run_never_defined"
   ],
   "note": ""
  },
  {
   "property": "C59",
   "status": "proved",
   "theorems": [
    "C59_set_variant_ignores_large_rows",
    "C59_set_variant_complete_when_rows_are_few",
    "C59_set_variant_misses_pivots"
   ],
   "note": ""
  },
  {
   "property": "C60",
   "status": "proved",
   "theorems": [
    "C60_boundary_pipe_never_defined"
   ],
   "note": ""
  },
  {
   "property": "C61",
   "status": "proved",
   "theorems": [
    "C61_short_mat_file",
    "C61_every_mat_file"
   ],
   "note": ""
  },
  {
   "property": "C62",
   "status": "proved",
   "theorems": [
    "C62_written_csv_cannot_be_streamed"
   ],
   "note": ""
  },
  {
   "property": "C63",
   "status": "proved",
   "theorems": [
    "C63_centroids_are_means"
   ],
   "note": ""
  },
  {
   "property": "C64",
   "status": "proved",
   "theorems": [
    "C64_initial_centroids",
    "C64_run"
   ],
   "note": ""
  },
  {
   "property": "C65",
   "status": "proved",
   "theorems": [
    "C65_initial_nearest_neighbours",
    "C65_initial_weights"
   ],
   "note": ""
  },
  {
   "property": "C66",
   "status": "proved",
   "theorems": [
    "C66_micro_cluster_summary"
   ],
   "note": ""
  },
  {
   "property": "C67",
   "status": "proved",
   "theorems": [
    "C67_denstream",
    "C67_check_drops_exactly_the_light_groups",
    "C67_denstream_needs_1000_points"
   ],
   "note": ""
  },
  {
   "property": "C68",
   "status": "proved",
   "theorems": [
    "C68_noise_becomes_the_origin"
   ],
   "note": ""
  },
  {
   "property": "C69",
   "status": "proved",
   "theorems": [
    "C69_streaming_kmeans_never_returns",
    "C69_streaming_kmeans_undefined",
    "C69_not_configured"
   ],
   "note": ""
  },
  {
   "property": "C70",
   "status": "proved",
   "theorems": [
    "C70_run_analyses_the_flag_complex_of_the_edges_that_stay",
    "C70_dim0_bars_with_collapse_are_single_linkage_heights",
    "C70_run_with_collapse_defined_iff_some_pair_is_close",
    "C70_collapse_with_dimension_two_reports_no_holes"
   ],
   "note": ""
  },
  {
   "property": "C71",
   "status": "proved",
   "theorems": [
    "C71_incremental_reduction",
    "C71_twist_pivots",
    "C71_sets_pivots",
    "C71_twist_undefined",
    "C71_sets_run",
    "C71_dimension_zero"
   ],
   "note": ""
  },
  {
   "property": "C72",
   "status": "proved",
   "theorems": [
    "C72_plain_run_writes_single_linkage_bars",
    "C72_plain_run_ends",
    "C72_no_points_prints_usage",
    "C72_upscale_only_counts_labels"
   ],
   "note": ""
  },
  {
   "property": "C73",
   "status": "proved",
   "theorems": [
    "C73_reduced_mode_runs_every_group",
    "C73_reduced_mode_keeps_points",
    "C73_reduced_mode_undefined",
    "C73_centroid_bars_are_single_linkage_refuted"
   ],
   "note": ""
  },
  {
   "property": "C74",
   "status": "proved",
   "theorems": [
    "C74_dim0_lines_depend_on_distances_only",
    "C74_dim0_lines_do_not_depend_on_the_order"
   ],
   "note": ""
  },
  {
   "property": "C75",
   "status": "proved",
   "theorems": [
    "C75_threshold_only_cuts_bars",
    "C75_scale_changes_scale_deaths"
   ],
   "note": ""
  },
  {
   "property": "C76",
   "status": "proved",
   "theorems": [
    "C76_dim0_bars_are_stable",
    "C76_more_points_do_not_delay_deaths",
    "C76_repeated_points_are_the_bars_of_length_zero"
   ],
   "note": ""
  },
  {
   "property": "C77",
   "status": "proved",
   "theorems": [
    "C77_dim1_bars_depend_on_distances_only_if_distinct",
    "C77_dim1_bars_do_not_depend_on_the_order_refuted"
   ],
   "note": ""
  },
  {
   "property": "C78",
   "status": "proved",
   "theorems": [
    "C78_dim2_bars_do_not_depend_on_the_order_refuted",
    "C78_dim1_bars_are_stable_refuted"
   ],
   "note": ""
  },
  {
   "property": "C79",
   "status": "proved",
   "theorems": [
    "C79_deleted_points_stay_listed",
    "C79_what_a_deletion_does",
    "C79_deleting_the_first_point_refuted",
    "C79_deleting_the_only_point_refuted",
    "C79_insert_after_delete_refuted"
   ],
   "note": ""
  },
  {
   "property": "C80",
   "status": "proved",
   "theorems": [
    "C80_queries_do_not_see_the_complex",
    "C80_stream_evaluator_accepts_every_vector",
    "C80_insertIterative_only_asks_the_evaluator"
   ],
   "note": ""
  },
  {
   "property": "C81",
   "status": "proved",
   "theorems": [
    "C81_reduceComplex",
    "C81_getAllEdges_after",
    "C81_stays_a_complex_refuted",
    "C81_euler_characteristic_refuted"
   ],
   "note": ""
  },
  {
   "property": "C82",
   "status": "proved",
   "theorems": [
    "C82_run_without_collapse",
    "C82_dim0_bars_are_single_linkage_heights",
    "C82_run_defined",
    "C82_run_with_collapse",
    "C82_collapse_keeps_merge_heights_refuted",
    "C82_collapse_keeps_the_number_of_bars_refuted"
   ],
   "note": ""
  },
  {
   "property": "C83",
   "status": "proved",
   "theorems": [
    "C83_debug_output_keeps_the_result",
    "C83_files_written",
    "C83_debug_output_undoes_collapse",
    "C83_debug_output_never_changes_the_bars_refuted"
   ],
   "note": ""
  },
  {
   "property": "C84",
   "status": "proved",
   "theorems": [
    "C84_one_line_per_pipe",
    "C84_units",
    "C84_lines_of_a_default_run",
    "C84_lines_of_an_indexed_run"
   ],
   "note": ""
  },
  {
   "property": "C85",
   "status": "proved",
   "theorems": [
    "C85_upscale_prints_the_sizes_of_the_clusters",
    "C85_kmeans_run_writes_bars_of_centroids",
    "C85_reduced_mode_with_kmeans"
   ],
   "note": ""
  },
  {
   "property": "C86",
   "status": "proved",
   "theorems": [
    "C86_naive_window_mode",
    "C86_sliding_window_mode"
   ],
   "note": ""
  },
  {
   "property": "C87",
   "status": "proved",
   "theorems": [
    "C87_boundary_is_undefined",
    "C87_persistence_pipeline",
    "C87_persistence_on_indexed_tree",
    "C87_upscale_component_only_adds_statistics"
   ],
   "note": ""
  },
  {
   "property": "C88",
   "status": "proved",
   "theorems": [
    "C88_kMeans_returns_sums",
    "C88_kMeans_draws",
    "C88_kMeans_undefined",
    "C88_ballKmeans_empty"
   ],
   "note": ""
  },
  {
   "property": "C89",
   "status": "proved",
   "theorems": [
    "C89_streaming_has_no_result",
    "C89_denstream_needs_1000_points",
    "C89_denstream_run_writes_bars_of_means",
    "C89_denstream_on_noise_is_undefined",
    "C89_reduced_mode_with_denstream",
    "C89_upscale_mode_with_denstream"
   ],
   "note": ""
  },
  {
   "property": "C90",
   "status": "proved",
   "theorems": [
    "C90_distance_is_not_negative",
    "C90_distance_is_symmetric",
    "C90_distance_to_itself",
    "C90_distance_zero",
    "C90_distance_not_a_number",
    "C90_different_points_are_apart_refuted",
    "C90_finite_points_have_finite_distance_refuted",
    "C90_triangle_inequality_refuted"
   ],
   "note": ""
  },
  {
   "property": "C91",
   "status": "proved",
   "theorems": [
    "C91_places_compare_as_doubles",
    "C91_run_in_double_arithmetic"
   ],
   "note": ""
  },
  {
   "property": "C92",
   "status": "proved",
   "theorems": [
    "C92_printed_to_six_decimals",
    "C92_printing_keeps_the_order",
    "C92_same_text",
    "C92_distances_are_canonical",
    "C92_text_of_the_barcode_file",
    "C92_different_numbers_differ_in_text_refuted",
    "C92_positive_numbers_are_not_printed_as_zero_refuted"
   ],
   "note": ""
  },
  {
   "property": "C93",
   "status": "proved",
   "theorems": [
    "C93_reads_the_nearest_double",
    "C93_one_nearest_double",
    "C93_blanks_before_and_rest_behind",
    "C93_whole_numbers",
    "C93_no_number",
    "C93_infinity_and_nan",
    "C93_printed_number_reads_back",
    "C93_exact_numbers",
    "C93_reading_back_is_exact_refuted",
    "C93_csv_file_of_doubles",
    "C93_mat_file_of_doubles",
    "C93_barcode_file_cannot_be_read",
    "C93_stod_is_as_assumed"
   ],
   "note": ""
  },
  {
   "property": "C94",
   "status": "proved",
   "theorems": [
    "C94_from_text_to_text",
    "C94_number_out_of_range_throws"
   ],
   "note": ""
  },
  {
   "property": "C95",
   "status": "proved",
   "theorems": [
    "C95_text_of_any_doubles",
    "C95_one_coordinate_that_is_no_number",
    "C95_kmeans_from_text_to_text",
    "C95_as_many_clusters_as_points"
   ],
   "note": ""
  },
  {
   "property": "C96",
   "status": "proved",
   "theorems": [
    "C96_shuffled_lines_keep_dimension_0",
    "C96_shuffled_lines_keep_dimension_1_if_distances_differ",
    "C96_smaller_epsilon_only_removes_deaths",
    "C96_further_lines_do_not_delay_deaths",
    "C96_repeated_line_adds_a_death_zero",
    "C96_shuffled_columns_refuted",
    "C96_moved_points_refuted"
   ],
   "note": ""
  },
  {
   "property": "C97",
   "status": "proved",
   "theorems": [
    "C97_bars_are_the_pairs_of_the_boundary_matrices",
    "C97_bars_count_at_most_betti_numbers",
    "C97_loop_of_a_polygon_is_never_reported",
    "C97_loop_of_a_square_refuted"
   ],
   "note": ""
  },
  {
   "property": "C98",
   "status": "proved",
   "theorems": [
    "C98_array_list_undefined",
    "C98_array_list_contents",
    "C98_array_list_getDimEdges",
    "C98_tree_undefined",
    "C98_tree_contents",
    "C98_rips_of_the_matrix_in_force_refuted"
   ],
   "note": ""
  },
  {
   "property": "C99",
   "status": "proved",
   "theorems": [
    "C99_multiplicities",
    "C99_equal_arguments",
    "C99_order_of_elements",
    "C99_order_of_elements_refuted",
    "C99_arguments_exchanged",
    "C99_intersect_two_differences",
    "C99_setXOR_group",
    "C99_getSubsets_by_position"
   ],
   "note": ""
  },
  {
   "property": "C100",
   "status": "proved",
   "theorems": [
    "C100_replacing_a_point",
    "C100_indices_stay_right_refuted"
   ],
   "note": ""
  },
  {
   "property": "C101",
   "status": "proved",
   "theorems": [
    "C101_one_partition"
   ],
   "note": ""
  },
  {
   "property": "C102",
   "status": "proved",
   "theorems": [
    "C102_several_partitions",
    "C102_records_stay_right_refuted"
   ],
   "note": ""
  },
  {
   "property": "C103",
   "status": "proved",
   "theorems": [
    "C103_dimension_not_positive"
   ],
   "note": ""
  },
  {
   "property": "C104",
   "status": "proved",
   "theorems": [
    "C104_nearest",
    "C104_neighbourhood",
    "C104_tiny_radius_refuted",
    "C104_dbscan"
   ],
   "note": ""
  },
  {
   "property": "C105",
   "status": "proved",
   "theorems": [
    "C105_distance_error"
   ],
   "note": ""
  },
  {
   "property": "C106",
   "status": "proved",
   "theorems": [
    "C106_bars_against_true_distances",
    "C106_true_clusters_exist"
   ],
   "note": ""
  },
  {
   "property": "C107",
   "status": "proved",
   "theorems": [
    "C107_centroid_error"
   ],
   "note": ""
  },
  {
   "property": "C108",
   "status": "proved",
   "theorems": [
    "C108_log_and_files",
    "C108_lines_for_debugging"
   ],
   "note": ""
  },
  {
   "property": "C109",
   "status": "proved",
   "theorems": [
    "C109_partitions_of_doubles",
    "C109_partitions_after_kmeans"
   ],
   "note": ""
  },
  {
   "property": "C110",
   "status": "proved",
   "theorems": [
    "C110_every_window_file_is_the_first_window"
   ],
   "note": ""
  },
  {
   "property": "C111",
   "status": "proved",
   "theorems": [
    "C111_reduced_mode_from_text_to_text"
   ],
   "note": ""
  },
  {
   "property": "C112",
   "status": "proved",
   "theorems": [
    "C112_admission_in_double_arithmetic",
    "C112_rule_without_rounding",
    "C112_exact_rule_refuted"
   ],
   "note": ""
  },
  {
   "property": "C113",
   "status": "proved",
   "theorems": [
    "C113_sliding_window_from_text_to_text"
   ],
   "note": ""
  },
  {
   "property": "C114",
   "status": "proved",
   "theorems": [
    "C114_naive_window_from_text_to_text",
    "C114_persistence_from_text_to_text",
    "C114_persistence_on_indexed_tree_from_text_to_text",
    "C114_boundary_from_text_to_text",
    "C114_the_last_pipe_decides"
   ],
   "note": ""
  },
  {
   "property": "C115",
   "status": "proved",
   "theorems": [
    "C115_reduced_mode_on_array_lists",
    "C115_reduced_mode_on_indexed_trees",
    "C115_named_pipeline_on_array_lists",
    "C115_named_pipeline_on_indexed_trees"
   ],
   "note": ""
  },
  {
   "property": "C116",
   "status": "proved",
   "theorems": [
    "C116_files_of_the_pair_pipes",
    "C116_file_of_the_boundary_pipe",
    "C116_no_run_writes_a_pairing",
    "C116_without_output_the_run_is_the_same",
    "C116_files_of_a_pipeline"
   ],
   "note": ""
  },
  {
   "property": "C117",
   "status": "proved",
   "theorems": [
    "C117_every_group_adds_its_lines",
    "C117_the_running_pipes_exist",
    "C117_from_the_command_line",
    "C117_lines_on_array_lists"
   ],
   "note": ""
  }
 ]
}