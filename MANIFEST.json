{
 "claims": [
  {
   "property": "C01",
   "status": "proved",
   "theorems": [
    "C01_serializer_roundtrip",
    "C01_too_large_throws"
   ],
   "note": ""
  },
  {
   "property": "C02",
   "status": "proved",
   "theorems": [
    "C02_no_out_of_bounds_after_allocate",
    "C02_no_out_of_bounds_from_buffer",
    "C02_overflow_throws_exactly",
    "C02_malformed_buffer_refuted"
   ],
   "note": ""
  },
  {
   "property": "C03",
   "status": "proved",
   "theorems": [
    "C03_fortran_roundtrip",
    "C03_wrong_byte_count_throws",
    "C03_bad_trailer_throws",
    "C03_write_val_array_guard",
    "C03_records_over_2GiB_refuted"
   ],
   "note": ""
  },
  {
   "property": "C04",
   "status": "proved",
   "theorems": [
    "C04_string_roundtrip",
    "C04_vector_trivial_roundtrip",
    "C04_vector_roundtrip",
    "C04_bad_flag_throws"
   ],
   "note": ""
  },
  {
   "property": "C05",
   "status": "proved",
   "theorems": [
    "C05_endian_swap_reverses",
    "C05_endian_swap_involutive"
   ],
   "note": ""
  },
  {
   "property": "C06",
   "status": "proved",
   "theorems": [
    "C06_is_pow_of_two",
    "C06_is_pow_of_two_fast",
    "C06_roundup_pow2_32",
    "C06_roundup_pow2_64",
    "C06_roundup_pow2_clz",
    "C06_roundup_pow2_clz_u64_refuted",
    "C06_roundup_pow2_range_refuted",
    "C06_group_count",
    "C06_group_count_wrap_refuted",
    "C06_select_bit",
    "C06_is_most_sig_bit_set",
    "C06_pow_constexpr",
    "C06_pow_constexpr_negative_is_undefined"
   ],
   "note": ""
  },
  {
   "property": "C07",
   "status": "proved",
   "theorems": [
    "C07_narrow_exact"
   ],
   "note": ""
  },
  {
   "property": "C08",
   "status": "proved",
   "theorems": [
    "C08_set_diff",
    "C08_duplicate_reference_refuted"
   ],
   "note": ""
  },
  {
   "property": "C09",
   "status": "proved",
   "theorems": [
    "C09_history",
    "C09_add",
    "C09_map"
   ],
   "note": ""
  },
  {
   "property": "C10",
   "status": "proved",
   "theorems": [
    "C10_tranfer_all",
    "C10_build_and_map"
   ],
   "note": ""
  },
  {
   "property": "C11",
   "status": "proved",
   "theorems": [
    "C11_ids_diff",
    "C11_diff",
    "C11_large_ids_refuted"
   ],
   "note": ""
  },
  {
   "property": "C12",
   "status": "proved",
   "theorems": [
    "C12_fixed_stack",
    "C12_fixed_stack_from_value"
   ],
   "note": ""
  },
  {
   "property": "C13",
   "status": "proved",
   "theorems": [
    "C13_encode_decode_64",
    "C13_encode_decode_32",
    "C13_decode_encode_64",
    "C13_decode_encode_32",
    "C13_monotone_64",
    "C13_monotone_32",
    "C13_bits_2d"
   ],
   "note": ""
  },
  {
   "property": "C14",
   "status": "proved",
   "theorems": [
    "C14_prefix_is_a_box_64",
    "C14_prefix_is_a_box_32",
    "C14_cell_boxes_64",
    "C14_cell_boxes_32",
    "C14_cell_contains_its_leaves_64"
   ],
   "note": ""
  },
  {
   "property": "C15",
   "status": "proved",
   "theorems": [
    "C15_defined",
    "C15_injective",
    "C15_surjective",
    "C15_consecutive_are_neighbours",
    "C15_cubes_are_intervals",
    "C15_starts_at_origin",
    "C15_quad_bijective"
   ],
   "note": ""
  },
  {
   "property": "C16",
   "status": "proved",
   "theorems": [
    "C16_radix_tree",
    "C16_single_leaf",
    "C16_tree_unique",
    "C16_more_than_2p24_codes_refuted"
   ],
   "note": ""
  },
  {
   "property": "C17",
   "status": "proved",
   "theorems": [
    "C17_traversal",
    "C17_complete_for_monotone_conditions",
    "C17_single_leaf",
    "C17_full_width_codes_refuted"
   ],
   "note": ""
  },
  {
   "property": "C18",
   "status": "proved",
   "theorems": [
    "C18_leaves_partition_into_cells",
    "C18_level0_distinct_codes",
    "C18_level_step",
    "C18_deterministic",
    "C18_empty_throws"
   ],
   "note": ""
  },
  {
   "property": "C19",
   "status": "proved",
   "theorems": [
    "C19_exclusive_host",
    "C19_inclusive_host",
    "C19_in_place_std"
   ],
   "note": ""
  },
  {
   "property": "C20",
   "status": "proved",
   "theorems": [
    "C20_groups_cover",
    "C20_scan_any_schedule",
    "C20_in_place_any_schedule",
    "C20_terminates",
    "C20_no_deadlock",
    "C20_static_ids_refuted",
    "C20_sycl_in_place_race_refuted"
   ],
   "note": ""
  },
  {
   "property": "C21",
   "status": "proved",
   "theorems": [
    "C21_fallback",
    "C21_selected",
    "C21_excl_scan",
    "C21_other_flags_refuted"
   ],
   "note": ""
  },
  {
   "property": "C22",
   "status": "proved",
   "theorems": [
    "C22_sort_by_key",
    "C22_rejects_other_lengths"
   ],
   "note": ""
  },
  {
   "property": "C23",
   "status": "proved",
   "theorems": [
    "C23_device_sort",
    "C23_host_sort",
    "C23_implementations_agree",
    "C23_degenerate"
   ],
   "note": ""
  },
  {
   "property": "C24",
   "status": "proved",
   "theorems": [
    "C24_lower_bound",
    "C24_upper_bound",
    "C24_binary_range_search"
   ],
   "note": ""
  },
  {
   "property": "C25",
   "status": "proved",
   "theorems": [
    "C25_split_partition",
    "C25_merge_inverse",
    "C25_power_of_two_sides",
    "C25_patch_split_merge",
    "C25_unit_box_refuted"
   ],
   "note": ""
  },
  {
   "property": "C26",
   "status": "proved",
   "theorems": [
    "C26_tree_invariant",
    "C26_tree_progress",
    "C26_merge_rejects",
    "C26_split_then_merge",
    "C26_ids_over_32_bits_refuted"
   ],
   "note": ""
  },
  {
   "property": "C27",
   "status": "proved",
   "theorems": [
    "C27_patches_partition_domain"
   ],
   "note": ""
  },
  {
   "property": "C28",
   "status": "proved",
   "theorems": [
    "C28_valid_and_monotone",
    "C28_contiguous",
    "C28_sweep_balanced",
    "C28_balanced",
    "C28_empty_refuted",
    "C28_overflow_refuted"
   ],
   "note": ""
  },
  {
   "property": "C29",
   "status": "proved",
   "theorems": [
    "C29_change_list"
   ],
   "note": ""
  },
  {
   "property": "C30",
   "status": "proved",
   "theorems": [
    "C30_conflicting_accesses_ordered",
    "C30_misuse_throws",
    "C30_use_succeeds",
    "C30_kernel_call",
    "C30_kernel_call_refused",
    "C30_empty_completion_refuted"
   ],
   "note": ""
  },
  {
   "property": "C31",
   "status": "proved",
   "theorems": [
    "C31_step_keeps_objects",
    "C31_add_roots_keeps_objects",
    "C31_merge_without_balance_refuted"
   ],
   "note": ""
  },
  {
   "property": "C32",
   "status": "proved",
   "theorems": [
    "C32_migration_delivers"
   ],
   "note": ""
  },
  {
   "property": "C33",
   "status": "proved",
   "theorems": [
    "C33_build",
    "C33_empty_throws",
    "C33_size_mismatch_throws"
   ],
   "note": ""
  },
  {
   "property": "C34",
   "status": "proved",
   "theorems": [
    "C34_rtree_for",
    "C34_no_false_negative",
    "C34_box_query"
   ],
   "note": ""
  },
  {
   "property": "C35",
   "status": "proved",
   "theorems": [
    "C35_buffers_are_arrays",
    "C35_memory_accounting",
    "C35_no_leak",
    "C35_fill_wraparound_refuted",
    "C35_append_4G_refuted"
   ],
   "note": ""
  },
  {
   "property": "C36",
   "status": "proved",
   "theorems": [
    "C36_layers_are_object_lists",
    "C36_selection",
    "C36_permut_vars",
    "C36_permut_vars_empty_refuted",
    "C36_insert_element",
    "C36_extract_element",
    "C36_extract_element_vector_refuted",
    "C36_extract_duplicates_refuted",
    "C36_expand_wraparound_refuted"
   ],
   "note": ""
  },
  {
   "property": "C37",
   "status": "proved",
   "theorems": [
    "C37_float_partition",
    "C37_int_partition",
    "C37_float_cover",
    "C37_int_cover",
    "C37_base_grid",
    "C37_cover_refuted",
    "C37_cover_49_refuted"
   ],
   "note": ""
  },
  {
   "property": "C38",
   "status": "proved",
   "theorems": [
    "C38_split_float",
    "C38_split_int",
    "C38_merge",
    "C38_merge_missing",
    "C38_no_overwrite",
    "C38_split_float_refines",
    "C38_split_int_refines",
    "C38_merge_refines"
   ],
   "note": ""
  },
  {
   "property": "C39",
   "status": "proved",
   "theorems": [
    "C39_build",
    "C39_owner",
    "C39_leafs",
    "C39_int_owner",
    "C39_outside_refuted",
    "C39_empty_refuted"
   ],
   "note": ""
  },
  {
   "property": "C40",
   "status": "proved",
   "theorems": [
    "C40_tree_field"
   ],
   "note": ""
  },
  {
   "property": "C41",
   "status": "proved",
   "theorems": [
    "C41_table",
    "C41_too_large_throws",
    "C41_empty_throws",
    "C41_foreign_throws",
    "C41_exchange"
   ],
   "note": ""
  },
  {
   "property": "C42",
   "status": "proved",
   "theorems": [
    "C42_delivery",
    "C42_total",
    "C42_ok_or_throw",
    "C42_prepare",
    "C42_split_limit_refuted"
   ],
   "note": ""
  },
  {
   "property": "C43",
   "status": "proved",
   "theorems": [
    "C43_exchange",
    "C43_total",
    "C43_ok_or_throw",
    "C43_layer_roundtrip",
    "C43_layers"
   ],
   "note": ""
  },
  {
   "property": "C44",
   "status": "proved",
   "theorems": [
    "C44_reattribute",
    "C44_total",
    "C44_ok_or_throw",
    "C44_lost_object",
    "C44_conservation",
    "C44_idempotent",
    "C44_owner_binary64"
   ],
   "note": ""
  },
  {
   "property": "C45",
   "status": "proved",
   "theorems": [
    "C45_reference",
    "C45_traversal",
    "C45_ordered_deterministic",
    "C45_symmetric",
    "C45_empty",
    "C45_select_ranges",
    "C45_select_ranges_refuted"
   ],
   "note": ""
  },
  {
   "property": "C46",
   "status": "proved",
   "theorems": [
    "C46_contractions",
    "C46_collections",
    "C46_store_load",
    "C46_green_derivatives",
    "C46_green_variants",
    "C46_offset_multipole",
    "C46_M_mat",
    "C46_dM_mat",
    "C46_offset_M_mat",
    "C46_leaf_moments",
    "C46_merge_moments",
    "C46_far_field",
    "C46_local_translation",
    "C46_local_sum"
   ],
   "note": ""
  },
  {
   "property": "C47",
   "status": "proved",
   "theorems": [
    "C47_self_gravity",
    "C47_acceptance",
    "C47_momentum",
    "C47_direct",
    "C47_single_leaf_throws",
    "C47_single_particle_refuted"
   ],
   "note": ""
  },
  {
   "property": "C48",
   "status": "proved",
   "theorems": [
    "C48_direct",
    "C48_direct_momentum",
    "C48_particle_walk",
    "C48_leaf_walk",
    "C48_acceptance",
    "C48_zero_angle_refuted"
   ],
   "note": ""
  },
  {
   "property": "C49",
   "status": "proved",
   "theorems": [
    "C49_neighbours",
    "C49_max_field",
    "C49_symmetric",
    "C49_self",
    "C49_tolerance",
    "C49_same_lists"
   ],
   "note": ""
  },
  {
   "property": "C50",
   "status": "proved",
   "theorems": [
    "C50_equations",
    "C50_with_lists",
    "C50_momentum",
    "C50_angular_momentum",
    "C50_energy",
    "C50_viscosity_heats",
    "C50_conduction",
    "C50_galilean",
    "C50_symetric_av_refuted"
   ],
   "note": ""
  },
  {
   "property": "C51",
   "status": "proved",
   "theorems": [
    "C51_derivatives",
    "C51_second_derivative",
    "C51_second_derivative_shifted",
    "C51_compact",
    "C51_positive",
    "C51_normalised",
    "C51_potential",
    "C51_forces",
    "C51_tgauss"
   ],
   "note": ""
  },
  {
   "property": "C52",
   "status": "proved",
   "theorems": [
    "C52_iteration",
    "C52_loop",
    "C52_prestep",
    "C52_omega",
    "C52_omega_mask",
    "C52_limiter",
    "C52_lists",
    "C52_forces"
   ],
   "note": ""
  },
  {
   "property": "C53",
   "status": "proved",
   "theorems": [
    "C53_consistency",
    "C53_conservation",
    "C53_conservation_hllc",
    "C53_conservation_hllc_refuted",
    "C53_upwind_hll",
    "C53_upwind_hllc",
    "C53_contact",
    "C53_positivity",
    "C53_hllc_waves",
    "C53_prim_cons",
    "C53_cons_prim",
    "C53_dust",
    "C53_dust_hb",
    "C53_limiters"
   ],
   "note": ""
  },
  {
   "property": "C54",
   "status": "proved",
   "theorems": [
    "C54_cell_graph",
    "C54_face_areas",
    "C54_conservation",
    "C54_conservation_first_order",
    "C54_uniform",
    "C54_positivity",
    "C54_affine_faces"
   ],
   "note": ""
  },
  {
   "property": "C55",
   "status": "proved",
   "theorems": [
    "C55_answers",
    "C55_memory",
    "C55_generated_once",
    "C55_oldest_first",
    "C55_host_counter_refuted",
    "C55_build_again_refuted",
    "C55_order_after_failure_refuted"
   ],
   "note": ""
  },
  {
   "property": "C56",
   "status": "proved",
   "theorems": [
    "C56_capture",
    "C56_accretion",
    "C56_accretion_conserves",
    "C56_gas_sink_forces",
    "C56_sink_sink_forces",
    "C56_leapfrog_reversible",
    "C56_corrector_idempotent",
    "C56_step",
    "C56_run",
    "C56_central",
    "C56_central_whole_patch_refuted",
    "C56_angular_momentum_refuted"
   ],
   "note": ""
  },
  {
   "property": "C57",
   "status": "proved",
   "theorems": [
    "C57_ghosts",
    "C57_offsets_distinct",
    "C57_offsets_images",
    "C57_neighbours",
    "C57_scatter_refuted",
    "C57_small_box_refuted",
    "C57_negative_shear_refuted"
   ],
   "note": ""
  },
  {
   "property": "C58",
   "status": "proved",
   "theorems": [
    "C58_free",
    "C58_boundary",
    "C58_same_images",
    "C58_inside_unchanged",
    "C58_home",
    "C58_fmod_exact",
    "C58_double_bounds",
    "C58_upper_face_refuted",
    "C58_inside_rounded_refuted",
    "C58_lower_face_refuted"
   ],
   "note": ""
  },
  {
   "property": "C59",
   "status": "proved",
   "theorems": [
    "C59_merge_flags",
    "C59_update",
    "C59_sorted",
    "C59_race_refuted",
    "C59_merge_refuted",
    "C59_overlap_refuted",
    "C59_base_grid",
    "C59_base_grid_refuted"
   ],
   "note": ""
  },
  {
   "property": "C60",
   "status": "proved",
   "theorems": [
    "C60_refine",
    "C60_balance",
    "C60_ghost_refuted",
    "C60_race_refuted"
   ],
   "note": ""
  },
  {
   "property": "C61",
   "status": "proved",
   "theorems": [
    "C61_steps",
    "C61_result",
    "C61_returns",
    "C61_reaches_target",
    "C61_defined",
    "C61_nothing_to_do",
    "C61_never_past_refuted",
    "C61_flag_refuted",
    "C61_zero_niter_refuted",
    "C61_walltime_ub_refuted",
    "C61_stall_refuted"
   ],
   "note": ""
  }
 ]
}