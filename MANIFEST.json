{
 "claims": [
  {
   "property": "C01",
   "status": "proved",
   "theorems": [
    "C01_lookup_decodes",
    "C01_lookup_overflow_refuted",
    "C01_lookup_decodes_table"
   ],
   "note": ""
  },
  {
   "property": "C02",
   "status": "proved",
   "theorems": [
    "C02_min_dtype_holds",
    "C02_min_dtype_defined",
    "C02_min_dtype_minimal"
   ],
   "note": ""
  },
  {
   "property": "C03",
   "status": "proved",
   "theorems": [
    "C03_chain_links",
    "C03_chain_cycle"
   ],
   "note": ""
  },
  {
   "property": "C04",
   "status": "proved",
   "theorems": [
    "C04_frmt_num",
    "C04_frmt_bytes"
   ],
   "note": ""
  },
  {
   "property": "C05",
   "status": "proved",
   "theorems": [
    "C05_error_display"
   ],
   "note": ""
  },
  {
   "property": "C06",
   "status": "proved",
   "theorems": [
    "C06_eq_equivalence",
    "C06_reachable_plain",
    "C06_name_param_refuted"
   ],
   "note": ""
  },
  {
   "property": "C07",
   "status": "proved",
   "theorems": [
    "C07_reads_replay_history",
    "C07_errors",
    "C07_last_write_wins",
    "C07_attributes",
    "C07_dict",
    "C07_dict_weight_refuted"
   ],
   "note": ""
  },
  {
   "property": "C08",
   "status": "proved",
   "theorems": [
    "C08_copy_faithful"
   ],
   "note": ""
  },
  {
   "property": "C09",
   "status": "proved",
   "theorems": [
    "C09_transform_itransform_inverse"
   ],
   "note": ""
  },
  {
   "property": "C10",
   "status": "proved",
   "theorems": [
    "C10_itranslate_unique_split"
   ],
   "note": ""
  },
  {
   "property": "C11",
   "status": "proved",
   "theorems": [
    "C11_superindex_bijection"
   ],
   "note": ""
  },
  {
   "property": "C12",
   "status": "proved",
   "theorems": [
    "C12_reciprocal_vectors_dual",
    "C12_reciprocal_vectors_dim4",
    "C12_vectors3d",
    "C12_reciprocal_is_inverse",
    "C12_reciprocal_lattice"
   ],
   "note": ""
  },
  {
   "property": "C13",
   "status": "proved",
   "theorems": [
    "C13_is_reciprocal",
    "C13_offdiagonal_refuted"
   ],
   "note": ""
  },
  {
   "property": "C14",
   "status": "proved",
   "theorems": [
    "C14_neighbor_cells",
    "C14_skewed_refuted"
   ],
   "note": ""
  },
  {
   "property": "C15",
   "status": "proved",
   "theorems": [
    "C15_translate_group_action"
   ],
   "note": ""
  },
  {
   "property": "C16",
   "status": "proved",
   "theorems": [
    "C16_vindices_enumerates_the_grid",
    "C16_one_sided_limits_fit",
    "C16_wide_limits_wrap",
    "C16_bad_limits_raise",
    "C16_bad_axis_raises"
   ],
   "note": ""
  },
  {
   "property": "C17",
   "status": "proved",
   "theorems": [
    "C17_interweave_alternates",
    "C17_interweave_equal_lengths"
   ],
   "note": ""
  },
  {
   "property": "C18",
   "status": "proved",
   "theorems": [
    "C18_cell_volume"
   ],
   "note": ""
  },
  {
   "property": "C19",
   "status": "proved",
   "theorems": [
    "C19_self_query",
    "C19_neighbours_are_the_points_in_range"
   ],
   "note": ""
  },
  {
   "property": "C20",
   "status": "proved",
   "theorems": [
    "C20_rotations_are_proper",
    "C20_rotations_compose",
    "C20_rotate_preserves_inner_products",
    "C20_rotate2d_is_clockwise",
    "C20_rot_ignores_the_x_axis",
    "C20_rot_is_rx_refuted",
    "C20_rotate3d_in_steps"
   ],
   "note": ""
  },
  {
   "property": "C21",
   "status": "proved",
   "theorems": [
    "C21_compute_vectors_1d",
    "C21_compute_vectors_2d",
    "C21_compute_vectors_3d",
    "C21_inconsistent_angles"
   ],
   "note": ""
  },
  {
   "property": "C22",
   "status": "proved",
   "theorems": [
    "C22_cell_size_extent"
   ],
   "note": ""
  },
  {
   "property": "C23",
   "status": "proved",
   "theorems": [
    "C23_box_contains",
    "C23_tolerance_monotone",
    "C23_contained_within_limits",
    "C23_limits_attained"
   ],
   "note": ""
  },
  {
   "property": "C24",
   "status": "proved",
   "theorems": [
    "C24_circle_contains",
    "C24_donut_contains",
    "C24_contains_by_distance",
    "C24_contained_within_limits",
    "C24_limits_attained",
    "C24_donut_without_hole_is_circle"
   ],
   "note": ""
  },
  {
   "property": "C25",
   "status": "proved",
   "theorems": [
    "C25_calls_keep_lattice_in_step",
    "C25_add_after_analysis"
   ],
   "note": ""
  },
  {
   "property": "C26",
   "status": "proved",
   "theorems": [
    "C26_add_atom"
   ],
   "note": ""
  },
  {
   "property": "C27",
   "status": "proved",
   "theorems": [
    "C27_references",
    "C27_add_connection",
    "C27_unknown_name_is_ignored",
    "C27_foreign_atom",
    "C27_no_atoms",
    "C27_add_connections"
   ],
   "note": ""
  },
  {
   "property": "C28",
   "status": "proved",
   "theorems": [
    "C28_analyze_finds_configured_distances",
    "C28_analyze_outcome"
   ],
   "note": ""
  },
  {
   "property": "C29",
   "status": "proved",
   "theorems": [
    "C29_neighbors_translation_covariant"
   ],
   "note": ""
  },
  {
   "property": "C30",
   "status": "proved",
   "theorems": [
    "C30_check_points_box",
    "C30_check_points_relative"
   ],
   "note": ""
  },
  {
   "property": "C31",
   "status": "proved",
   "theorems": [
    "C31_indices_and_positions_aligned",
    "C31_filters_select",
    "C31_no_atoms"
   ],
   "note": ""
  },
  {
   "property": "C32",
   "status": "proved",
   "theorems": [
    "C32_cells_cover_the_box",
    "C32_no_wrap_near_the_origin",
    "C32_no_wrap_nonnegative",
    "C32_position_on_skewed_basis_refuted",
    "C32_negative_row_refuted",
    "C32_wide_box_refuted"
   ],
   "note": ""
  },
  {
   "property": "C33",
   "status": "proved",
   "theorems": [
    "C33_no_site_twice",
    "C33_built_sites_of_a_box",
    "C33_built_sites_of_a_shape"
   ],
   "note": ""
  },
  {
   "property": "C34",
   "status": "proved",
   "theorems": [
    "C34_computed_neighbors_are_the_connected_sites",
    "C34_too_few_refuted"
   ],
   "note": ""
  },
  {
   "property": "C35",
   "status": "proved",
   "theorems": [
    "C35_padding_entry",
    "C35_neighbors_survive",
    "C35_neighbors_vanish_refuted"
   ],
   "note": ""
  },
  {
   "property": "C36",
   "status": "proved",
   "theorems": [
    "C36_num_neighbors",
    "C36_wraps_refuted",
    "C36_distances"
   ],
   "note": ""
  },
  {
   "property": "C37",
   "status": "proved",
   "theorems": [
    "C37_round_trip",
    "C37_any_lattice",
    "C37_bad_dictionaries"
   ],
   "note": ""
  },
  {
   "property": "C38",
   "status": "proved",
   "theorems": [
    "C38_equal_iff_look_alike",
    "C38_equality",
    "C38_no_atoms"
   ],
   "note": ""
  },
  {
   "property": "C39",
   "status": "proved",
   "theorems": [
    "C39_set_neighbors",
    "C39_no_padding_refuted"
   ],
   "note": ""
  },
  {
   "property": "C40",
   "status": "proved",
   "theorems": [
    "C40_all_neighbors",
    "C40_by_distance",
    "C40_periodic_split",
    "C40_iter_neighbors",
    "C40_padding_query_refuted"
   ],
   "note": ""
  },
  {
   "property": "C41",
   "status": "proved",
   "theorems": [
    "C41_remove_induced",
    "C41_remove_out_of_range",
    "C41_duplicates_refuted"
   ],
   "note": ""
  },
  {
   "property": "C42",
   "status": "proved",
   "theorems": [
    "C42_sort_isomorphism",
    "C42_sort_axis"
   ],
   "note": ""
  },
  {
   "property": "C43",
   "status": "proved",
   "theorems": [
    "C43_sort_neighbors"
   ],
   "note": ""
  },
  {
   "property": "C44",
   "status": "proved",
   "theorems": [
    "C44_add_neighbor",
    "C44_full_row_dropped",
    "C44_unknown_distance_refuted",
    "C44_any_distance"
   ],
   "note": ""
  },
  {
   "property": "C45",
   "status": "proved",
   "theorems": [
    "C45_append_disjoint_union",
    "C45_periodic_survives_refuted",
    "C45_full_tables_refuted",
    "C45_argument_changed_refuted",
    "C45_argument_after",
    "C45_copy_drops_periodic_refuted"
   ],
   "note": ""
  },
  {
   "property": "C46",
   "status": "proved",
   "theorems": [
    "C46_set_periodic",
    "C46_remove_periodic",
    "C46_full_row_refuted",
    "C46_not_layered_refuted"
   ],
   "note": ""
  },
  {
   "property": "C47",
   "status": "proved",
   "theorems": [
    "C47_find_sites",
    "C47_find_outer_sites"
   ],
   "note": ""
  },
  {
   "property": "C48",
   "status": "proved",
   "theorems": [
    "C48_entries",
    "C48_masks",
    "C48_many_atoms_refuted"
   ],
   "note": ""
  },
  {
   "property": "C49",
   "status": "proved",
   "theorems": [
    "C49_csr_equals_coo"
   ],
   "note": ""
  },
  {
   "property": "C50",
   "status": "proved",
   "theorems": [
    "C50_current",
    "C50_after_set",
    "C50_cache_kept",
    "C50_stale_refuted"
   ],
   "note": ""
  },
  {
   "property": "C51",
   "status": "proved",
   "theorems": [
    "C51_history_invariant",
    "C51_queries_total"
   ],
   "note": ""
  },
  {
   "property": "C52",
   "status": "proved",
   "theorems": [
    "C52_stale_after_remove",
    "C52_wrong_query_refuted"
   ],
   "note": ""
  },
  {
   "property": "C53",
   "status": "proved",
   "theorems": [
    "C53_checks",
    "C53_failed_build",
    "C53_successful_build",
    "C53_periodic_needs_sites"
   ],
   "note": ""
  },
  {
   "property": "C54",
   "status": "proved",
   "theorems": [
    "C54_pairs",
    "C54_unique_pairs",
    "C54_adjacency",
    "C54_no_pairs",
    "C54_shape_refuted",
    "C54_entry_refuted"
   ],
   "note": ""
  },
  {
   "property": "C55",
   "status": "proved",
   "theorems": [
    "C55_from_index",
    "C55_index_inverse",
    "C55_from_pos",
    "C55_pos_inverse"
   ],
   "note": ""
  },
  {
   "property": "C56",
   "status": "proved",
   "theorems": [
    "C56_check_neighbors",
    "C56_complete",
    "C56_complete_refuted"
   ],
   "note": ""
  },
  {
   "property": "C57",
   "status": "proved",
   "theorems": [
    "C57_minimum_over_images",
    "C57_symmetric_and_zero",
    "C57_one_axis",
    "C57_two_axes",
    "C57_three_axes_refuted",
    "C57_rebuild_refuted"
   ],
   "note": ""
  },
  {
   "property": "C58",
   "status": "proved",
   "theorems": [
    "C58_periodic_neighbors",
    "C58_succeeds",
    "C58_dropped_refuted",
    "C58_own_image_refuted"
   ],
   "note": ""
  },
  {
   "property": "C59",
   "status": "proved",
   "theorems": [
    "C59_repeat_right",
    "C59_repeat_left",
    "C59_repeat_left_refuted",
    "C59_periodic_refuted",
    "C59_ring_refuted"
   ],
   "note": ""
  },
  {
   "property": "C60",
   "status": "proved",
   "theorems": [
    "C60_dangling_filter",
    "C60_again_refuted"
   ],
   "note": ""
  },
  {
   "property": "C61",
   "status": "proved",
   "theorems": [
    "C61_limits",
    "C61_relative_position",
    "C61_center",
    "C61_center_of_gravity",
    "C61_without_sites"
   ],
   "note": ""
  },
  {
   "property": "C62",
   "status": "proved",
   "theorems": [
    "C62_primitive_shape",
    "C62_shape_complete",
    "C62_shape_refuted",
    "C62_primitive_sites",
    "C62_number_of_sites",
    "C62_integer_sizes",
    "C62_finite_hypercubic",
    "C62_same_number_refuted"
   ],
   "note": ""
  },
  {
   "property": "C63",
   "status": "proved",
   "theorems": [
    "C63_labels_and_points",
    "C63_add",
    "C63_unnamed",
    "C63_add_points",
    "C63_cycle",
    "C63_build",
    "C63_last_tick_refuted",
    "C63_short_points_refuted",
    "C63_build_mixed",
    "C63_build_fails",
    "C63_unbuilt",
    "C63_preset_paths"
   ],
   "note": ""
  },
  {
   "property": "C64",
   "status": "proved",
   "theorems": [
    "C64_frmt_time_long",
    "C64_frmt_time_short",
    "C64_sixty_refuted"
   ],
   "note": ""
  },
  {
   "property": "C65",
   "status": "proved",
   "theorems": [
    "C65_colors"
   ],
   "note": ""
  },
  {
   "property": "C66",
   "status": "proved",
   "theorems": [
    "C66_zero_wavevector",
    "C66_conjugation",
    "C66_inversion_symmetric_is_real",
    "C66_reciprocal_periodicity",
    "C66_bounded"
   ],
   "note": ""
  },
  {
   "property": "C67",
   "status": "proved",
   "theorems": [
    "C67_neighbor_vectors",
    "C67_include_zero_refuted",
    "C67_position",
    "C67_estimate_index",
    "C67_estimate_index_refuted",
    "C67_outcomes",
    "C67_no_such_atom"
   ],
   "note": ""
  },
  {
   "property": "C68",
   "status": "proved",
   "theorems": [
    "C68_get_positions",
    "C68_partition"
   ],
   "note": ""
  },
  {
   "property": "C69",
   "status": "proved",
   "theorems": [
    "C69_axis",
    "C69_uneven_refuted"
   ],
   "note": ""
  },
  {
   "property": "C70",
   "status": "proved",
   "theorems": [
    "C70_search_range"
   ],
   "note": ""
  },
  {
   "property": "C71",
   "status": "proved",
   "theorems": [
    "C71_build_connects_the_sites"
   ],
   "note": ""
  },
  {
   "property": "C72",
   "status": "proved",
   "theorems": [
    "C72_hypercubic_grid",
    "C72_box_sites",
    "C72_finite_hypercubic_is_a_grid"
   ],
   "note": ""
  },
  {
   "property": "C73",
   "status": "proved",
   "theorems": [
    "C73_preset",
    "C73_finite_hypercubic_errors",
    "C73_ready_made"
   ],
   "note": ""
  },
  {
   "property": "C74",
   "status": "proved",
   "theorems": [
    "C74_fcc",
    "C74_bcc"
   ],
   "note": ""
  },
  {
   "property": "C75",
   "status": "proved",
   "theorems": [
    "C75_lattice_vectors",
    "C75_lattice_constant_refuted",
    "C75_hexagonal_neighbors",
    "C75_honeycomb_neighbors"
   ],
   "note": ""
  },
  {
   "property": "C77",
   "status": "proved",
   "theorems": [
    "C77_append_links",
    "C77_distance_lost_refuted",
    "C77_full_rows_refuted",
    "C77_connections_ignored_refuted",
    "C77_axes_kept",
    "C77_axes_stale_refuted"
   ],
   "note": ""
  },
  {
   "property": "C76",
   "status": "proved",
   "theorems": [
    "C76_cells",
    "C76_shape"
   ],
   "note": ""
  },
  {
   "property": "C78",
   "status": "proved",
   "theorems": [
    "C78_append_pieces",
    "C78_append_boxes",
    "C78_built_piece",
    "C78_repeat_box",
    "C78_finite_hypercubic_box"
   ],
   "note": ""
  },
  {
   "property": "C79",
   "status": "proved",
   "theorems": [
    "C79_extend_appends",
    "C79_extend_needs",
    "C79_extend_box",
    "C79_extend_repeatedly",
    "C79_finite_hypercubic_start",
    "C79_extend_rows_refuted",
    "C79_extend_both_sides_refuted"
   ],
   "note": ""
  },
  {
   "property": "C80",
   "status": "proved",
   "theorems": [
    "C80_equal_iff_look_alike",
    "C80_not_built",
    "C80_sites_do_not_count",
    "C80_dictionary",
    "C80_bad_dictionaries",
    "C80_atoms_by_instance",
    "C80_own_atoms_differ",
    "C80_printed_parameters",
    "C80_same_sites_refuted",
    "C80_made_twice_refuted",
    "C80_printed_index"
   ],
   "note": ""
  },
  {
   "property": "C81",
   "status": "proved",
   "theorems": [
    "C81_close_lengths",
    "C81_check",
    "C81_hypercubic",
    "C81_limits",
    "C81_size_refuted",
    "C81_fcc",
    "C81_bcc_refuted",
    "C81_rhombic_refuted",
    "C81_rectangular_refuted",
    "C81_brillouin_hypercubic",
    "C81_brillouin_fcc_refuted",
    "C81_symmetry_points",
    "C81_linspace",
    "C81_arange",
    "C81_meshgrid"
   ],
   "note": ""
  },
  {
   "property": "C82",
   "status": "proved",
   "theorems": [
    "C82_vrange",
    "C82_count",
    "C82_arguments"
   ],
   "note": ""
  },
  {
   "property": "C83",
   "status": "proved",
   "theorems": [
    "C83_contains",
    "C83_tolerance",
    "C83_limits"
   ],
   "note": ""
  },
  {
   "property": "C84",
   "status": "proved",
   "theorems": [
    "C84_corners",
    "C84_edges",
    "C84_surfaces"
   ],
   "note": ""
  },
  {
   "property": "C85",
   "status": "proved",
   "theorems": [
    "C85_torus",
    "C85_finite_hypercubic"
   ],
   "note": ""
  },
  {
   "property": "C86",
   "status": "proved",
   "theorems": [
    "C86_distances",
    "C86_fails",
    "C86_straight_line",
    "C86_scales",
    "C86_unit_of_length",
    "C86_preset_scales"
   ],
   "note": ""
  },
  {
   "property": "C87",
   "status": "proved",
   "theorems": [
    "C87_groups_by_name",
    "C87_one_dimension",
    "C87_name_param_refuted"
   ],
   "note": ""
  },
  {
   "property": "C88",
   "status": "proved",
   "theorems": [
    "C88_limits",
    "C88_box_limits",
    "C88_primitive_translation"
   ],
   "note": ""
  },
  {
   "property": "C89",
   "status": "proved",
   "theorems": [
    "C89_last_call",
    "C89_reset",
    "C89_stale_axes_refuted",
    "C89_failed_call_refuted"
   ],
   "note": ""
  },
  {
   "property": "C90",
   "status": "proved",
   "theorems": [
    "C90_torus",
    "C90_built_block",
    "C90_built_torus",
    "C90_opposite_ways_refuted"
   ],
   "note": ""
  },
  {
   "property": "C91",
   "status": "proved",
   "theorems": [
    "C91_neighbors",
    "C91_built",
    "C91_incomplete_cells_refuted"
   ],
   "note": ""
  },
  {
   "property": "C92",
   "status": "proved",
   "theorems": [
    "C92_csr",
    "C92_hamiltonian",
    "C92_finite_lattice",
    "C92_same_as_loop",
    "C92_bsr",
    "C92_errors",
    "C92_negative_refuted",
    "C92_fresh_after_build",
    "C92_built",
    "C92_single_site_refuted"
   ],
   "note": ""
  },
  {
   "property": "C93",
   "status": "proved",
   "theorems": [
    "C93_product",
    "C93_bloch",
    "C93_eigenvector",
    "C93_dispersion"
   ],
   "note": ""
  },
  {
   "property": "C94",
   "status": "proved",
   "theorems": [
    "C94_order_of_vindices",
    "C94_order_of_sites",
    "C94_same_sites_same_tables",
    "C94_wide_box_refuted",
    "C94_moved_sites",
    "C94_moved_shape",
    "C94_moved_box",
    "C94_moved_circle",
    "C94_moved_box_refuted",
    "C94_moved_build"
   ],
   "note": ""
  },
  {
   "property": "C95",
   "status": "proved",
   "theorems": [
    "C95_nearest_neighbors",
    "C95_set_uses_all",
    "C95_iter_neighbors",
    "C95_compute_connections",
    "C95_connections_symmetric",
    "C95_connections_unbuilt",
    "C95_closest_refuted",
    "C95_removed_refuted",
    "C95_connections_too_many_refuted",
    "C95_dmap_kept"
   ],
   "note": ""
  },
  {
   "property": "C96",
   "status": "proved",
   "theorems": [
    "C96_distances",
    "C96_numbers",
    "C96_built",
    "C96_row_refuted",
    "C96_atoms_refuted"
   ],
   "note": ""
  },
  {
   "property": "C97",
   "status": "proved",
   "theorems": [
    "C97_refinement",
    "C97_removed",
    "C97_undirected"
   ],
   "note": ""
  },
  {
   "property": "C98",
   "status": "proved",
   "theorems": [
    "C98_plot",
    "C98_bonds_once",
    "C98_errors",
    "C98_torus",
    "C98_set_periodic"
   ],
   "note": ""
  },
  {
   "property": "C99",
   "status": "proved",
   "theorems": [
    "C99_unit_cell",
    "C99_vectors_only",
    "C99_plot_cell",
    "C99_dimension",
    "C99_missing_neighbors_refuted"
   ],
   "note": ""
  },
  {
   "property": "C100",
   "status": "proved",
   "theorems": [
    "C100_dispersion",
    "C100_no_color",
    "C100_atom_refuted",
    "C100_short_list",
    "C100_uneven",
    "C100_wrong_scales",
    "C100_no_axis",
    "C100_dos",
    "C100_dos_lengths",
    "C100_subplots_off"
   ],
   "note": ""
  },
  {
   "property": "C101",
   "status": "proved",
   "theorems": [
    "C101_line",
    "C101_plane",
    "C101_label_refuted",
    "C101_other"
   ],
   "note": ""
  },
  {
   "property": "C102",
   "status": "proved",
   "theorems": [
    "C102_donut",
    "C102_donut_position",
    "C102_box",
    "C102_box_outline",
    "C102_box_other",
    "C102_hull",
    "C102_hull_surface",
    "C102_hull_outline",
    "C102_hull_other"
   ],
   "note": ""
  },
  {
   "property": "C103",
   "status": "proved",
   "theorems": [
    "C103_atoms",
    "C103_pairs",
    "C103_order",
    "C103_number",
    "C103_unknown_name",
    "C103_bad_pairs",
    "C103_neighbors",
    "C103_no_atoms",
    "C103_shape",
    "C103_ready_made"
   ],
   "note": ""
  },
  {
   "property": "C104",
   "status": "proved",
   "theorems": [
    "C104_arc_length",
    "C104_drawn"
   ],
   "note": ""
  },
  {
   "property": "C105",
   "status": "proved",
   "theorems": [
    "C105_form",
    "C105_hypercubic_shells",
    "C105_fcc_shells",
    "C105_bcc_shells",
    "C105_true_neighbors",
    "C105_missed",
    "C105_nearest",
    "C105_fcc",
    "C105_bcc",
    "C105_chain",
    "C105_rock_salt",
    "C105_hypercubic"
   ],
   "note": ""
  },
  {
   "property": "C106",
   "status": "proved",
   "theorems": [
    "C106_built",
    "C106_hypercubic",
    "C106_fcc",
    "C106_bcc"
   ],
   "note": ""
  },
  {
   "property": "C107",
   "status": "proved",
   "theorems": [
    "C107_hexagonal",
    "C107_honeycomb",
    "C107_three_neighbors",
    "C107_three_refuted"
   ],
   "note": ""
  },
  {
   "property": "C108",
   "status": "proved",
   "theorems": [
    "C108_built",
    "C108_honeycomb"
   ],
   "note": ""
  },
  {
   "property": "C109",
   "status": "proved",
   "theorems": [
    "C109_labels",
    "C109_distinct",
    "C109_chain",
    "C109_zip"
   ],
   "note": ""
  },
  {
   "property": "C110",
   "status": "proved",
   "theorems": [
    "C110_picture",
    "C110_nearest",
    "C110_when",
    "C110_chain",
    "C110_triangle_refuted"
   ],
   "note": ""
  },
  {
   "property": "C111",
   "status": "proved",
   "theorems": [
    "C111_torus",
    "C111_honeycomb"
   ],
   "note": ""
  },
  {
   "property": "C112",
   "status": "proved",
   "theorems": [
    "C112_built",
    "C112_torus",
    "C112_hexagonal",
    "C112_fcc",
    "C112_bcc"
   ],
   "note": ""
  },
  {
   "property": "C113",
   "status": "proved",
   "theorems": [
    "C113_block",
    "C113_honeycomb",
    "C113_hexagonal",
    "C113_small_constant_refuted"
   ],
   "note": ""
  },
  {
   "property": "C114",
   "status": "proved",
   "theorems": [
    "C114_block",
    "C114_fcc",
    "C114_bcc",
    "C114_small_constant_refuted"
   ],
   "note": ""
  },
  {
   "property": "C115",
   "status": "proved",
   "theorems": [
    "C115_grid",
    "C115_nearest",
    "C115_linear",
    "C115_border",
    "C115_errors"
   ],
   "note": ""
  },
  {
   "property": "C116",
   "status": "proved",
   "theorems": [
    "C116_tree",
    "C116_links",
    "C116_errors"
   ],
   "note": ""
  },
  {
   "property": "C117",
   "status": "proved",
   "theorems": [
    "C117_graphene",
    "C117_hexagonal"
   ],
   "note": ""
  }
 ]
}