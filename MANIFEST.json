{
 "claims": [
  {
   "property": "C01",
   "status": "proved",
   "theorems": [
    "C01_cyclic_buffer_contents",
    "C01_capacity_refuted"
   ],
   "note": ""
  },
  {
   "property": "C02",
   "status": "proved",
   "theorems": [
    "C02_roll_back_characterised",
    "C02_rolls_are_inverse",
    "C02_full_turn_is_identity"
   ],
   "note": ""
  },
  {
   "property": "C03",
   "status": "proved",
   "theorems": [
    "C03_random_id",
    "C03_random_within",
    "C03_random_between"
   ],
   "note": ""
  },
  {
   "property": "C04",
   "status": "proved",
   "theorems": [
    "C04_names_have_no_separator",
    "C04_split_inverts_join",
    "C04_paths_are_injective",
    "C04_every_text_splits"
   ],
   "note": ""
  },
  {
   "property": "C05",
   "status": "proved",
   "theorems": [
    "C05_sibling_names_unique",
    "C05_failed_add_changes_nothing",
    "C05_add_refused_iff_name_taken",
    "C05_polygon_has_none"
   ],
   "note": ""
  },
  {
   "property": "C06",
   "status": "proved",
   "theorems": [
    "C06_path_roundtrip",
    "C06_path_roundtrip_linked",
    "C06_shared_object_refuted"
   ],
   "note": ""
  },
  {
   "property": "C07",
   "status": "proved",
   "theorems": [
    "C07_get_returns_exactly_the_named_object",
    "C07_level_decides_class",
    "C07_wrong_building_name_asserts",
    "C07_missing_component_is_KeyError",
    "C07_too_many_components_is_ValueError",
    "C07_point_index",
    "C07_get_on_descendant",
    "C07_get_without_building_recurses"
   ],
   "note": ""
  },
  {
   "property": "C08",
   "status": "proved",
   "theorems": [
    "C08_listing_complete_and_distinct",
    "C08_listed_paths_resolve",
    "C08_building_concatenates_zones",
    "C08_zone_concatenates_solids",
    "C08_solid_concatenates_walls",
    "C08_wall_lists_its_polygons",
    "C08_orphans"
   ],
   "note": ""
  },
  {
   "property": "C09",
   "status": "proved",
   "theorems": [
    "C09_replace_polygon",
    "C09_replace_wall",
    "C09_replace_is_atomic_refuted"
   ],
   "note": ""
  },
  {
   "property": "C10",
   "status": "proved",
   "theorems": [
    "C10_unique_name_replaces_one",
    "C10_replaces_only_the_given_polygon_refuted"
   ],
   "note": ""
  },
  {
   "property": "C11",
   "status": "proved",
   "theorems": [
    "C11_polygon_graph_is_the_connection_relation",
    "C11_symmetric_and_irreflexive"
   ],
   "note": ""
  },
  {
   "property": "C12",
   "status": "proved",
   "theorems": [
    "C12_strip_is_the_quotient",
    "C12_remove_last_takes_the_prefix",
    "C12_strip_keeps_symmetry"
   ],
   "note": ""
  },
  {
   "property": "C13",
   "status": "proved",
   "theorems": [
    "C13_new_graph_is_current",
    "C13_every_result_is_some_fresh_graph",
    "C13_stale_until_recomputed",
    "C13_unknown_level_is_ValueError",
    "C13_flags_respected_refuted"
   ],
   "note": ""
  },
  {
   "property": "C14",
   "status": "proved",
   "theorems": [
    "C14_each_name_pair_at_most_once",
    "C14_unique_names_each_pair_once",
    "C14_all_adjacent_pairs_stitched_refuted"
   ],
   "note": ""
  },
  {
   "property": "C15",
   "status": "proved",
   "theorems": [
    "C15_first_containing_solid",
    "C15_search_order_is_building_order"
   ],
   "note": ""
  },
  {
   "property": "C16",
   "status": "proved",
   "theorems": [
    "C16_first_call",
    "C16_two_facing_polygons_fail",
    "C16_later_calls_repeat_the_answer"
   ],
   "note": ""
  },
  {
   "property": "C17",
   "status": "proved",
   "theorems": [
    "C17_stacking_keeps_vertices_and_triangles",
    "C17_gap_refuted"
   ],
   "note": ""
  },
  {
   "property": "C18",
   "status": "proved",
   "theorems": [
    "C18_mesh_contains_every_polygon_triangle"
   ],
   "note": ""
  },
  {
   "property": "C19",
   "status": "proved",
   "theorems": [
    "C19_array_format_is_faithful",
    "C19_faces_index_own_points"
   ],
   "note": ""
  },
  {
   "property": "C20",
   "status": "proved",
   "theorems": [
    "C20_array_round_trip",
    "C20_no_solids_raises",
    "C20_only_accepted_polygons",
    "C20_out_of_range",
    "C20_unused_vertices_refuted"
   ],
   "note": ""
  },
  {
   "property": "C21",
   "status": "proved",
   "theorems": [
    "C21_b3d_roundtrip",
    "C21_b3d_drops_empty_containers",
    "C21_b3d_no_polygons",
    "C21_reads_well_formed",
    "C21_values_refused"
   ],
   "note": ""
  },
  {
   "property": "C22",
   "status": "proved",
   "theorems": [
    "C22_bim_roundtrip",
    "C22_bim_drops_empty_containers",
    "C22_bim_rejects_foreign_files",
    "C22_reads_well_formed"
   ],
   "note": ""
  },
  {
   "property": "C23",
   "status": "proved",
   "theorems": [
    "C23_stl_roundtrip",
    "C23_unclean_uid_refuted",
    "C23_reads",
    "C23_errors",
    "C23_line_ends"
   ],
   "note": ""
  },
  {
   "property": "C24",
   "status": "proved",
   "theorems": [
    "C24_fill",
    "C24_brackets_in_values_refuted"
   ],
   "note": ""
  },
  {
   "property": "C25",
   "status": "proved",
   "theorems": [
    "C25_match_inverts_fill",
    "C25_leading_wildcard_loses_digits",
    "C25_adjacent_wildcards_refuted",
    "C25_index_clash_refuted"
   ],
   "note": ""
  },
  {
   "property": "C26",
   "status": "proved",
   "theorems": [
    "C26_filter",
    "C26_unknown_keyword",
    "C26_others_skipped",
    "C26_keyed_by_values",
    "C26_keyed_by_values_total"
   ],
   "note": ""
  },
  {
   "property": "C27",
   "status": "proved",
   "theorems": [
    "C27_dump_then_read",
    "C27_chained_batches_lose_nothing",
    "C27_other_extension_refuted",
    "C27_read_sound",
    "C27_lengths_differ",
    "C27_missing_file",
    "C27_no_files"
   ],
   "note": ""
  },
  {
   "property": "C28",
   "status": "proved",
   "theorems": [
    "C28_set_changes_exactly",
    "C28_set_outcome",
    "C28_last_setting_wins",
    "C28_array",
    "C28_unnumbered_polygon_raises"
   ],
   "note": ""
  },
  {
   "property": "C29",
   "status": "proved",
   "theorems": [
    "C29_settings_do_not_reach_the_simulation"
   ],
   "note": ""
  },
  {
   "property": "C30",
   "status": "proved",
   "theorems": [
    "C30_energy_monotone"
   ],
   "note": ""
  },
  {
   "property": "C31",
   "status": "proved",
   "theorems": [
    "C31_conservation",
    "C31_hits",
    "C31_budget"
   ],
   "note": ""
  },
  {
   "property": "C32",
   "status": "proved",
   "theorems": [
    "C32_dead_rays_stay",
    "C32_left_rays_die"
   ],
   "note": ""
  },
  {
   "property": "C33",
   "status": "proved",
   "theorems": [
    "C33_constant_speed",
    "C33_step_outcome"
   ],
   "note": ""
  },
  {
   "property": "C34",
   "status": "proved",
   "theorems": [
    "C34_terminates",
    "C34_number_of_reflections",
    "C34_zero_absorption_loops"
   ],
   "note": ""
  },
  {
   "property": "C35",
   "status": "proved",
   "theorems": [
    "C35_schedule_independent",
    "C35_schedule_sound",
    "C35_schedule_complete"
   ],
   "note": ""
  },
  {
   "property": "C36",
   "status": "proved",
   "theorems": [
    "C36_batching",
    "C36_positions_always",
    "C36_stalled_velocity"
   ],
   "note": ""
  },
  {
   "property": "C37",
   "status": "proved",
   "theorems": [
    "C37_buffers_history"
   ],
   "note": ""
  },
  {
   "property": "C38",
   "status": "proved",
   "theorems": [
    "C38_grid_complete",
    "C38_grid_exact",
    "C38_outside_rejected"
   ],
   "note": ""
  },
  {
   "property": "C39",
   "status": "proved",
   "theorems": [
    "C39_nearby_cells",
    "C39_nearby_complete"
   ],
   "note": ""
  },
  {
   "property": "C40",
   "status": "proved",
   "theorems": [
    "C40_target_nearest",
    "C40_no_wall_missed"
   ],
   "note": ""
  },
  {
   "property": "C41",
   "status": "proved",
   "theorems": [
    "C41_normalised",
    "C41_fails_without_hits",
    "C41_time_axis",
    "C41_time_axis_refuted"
   ],
   "note": ""
  },
  {
   "property": "C42",
   "status": "proved",
   "theorems": [
    "C42_buffer_to_lines",
    "C42_decoding_unique",
    "C42_plotter_lines",
    "C42_plotter_empty"
   ],
   "note": ""
  },
  {
   "property": "C43",
   "status": "proved",
   "theorems": [
    "C43_area_squared",
    "C43_area_bounds",
    "C43_area_degenerate",
    "C43_area_invariant"
   ],
   "note": ""
  },
  {
   "property": "C44",
   "status": "proved",
   "theorems": [
    "C44_centroid",
    "C44_volume_formula",
    "C44_volume_bounds",
    "C44_volume_invariant"
   ],
   "note": ""
  },
  {
   "property": "C45",
   "status": "proved",
   "theorems": [
    "C45_normal",
    "C45_normal_undefined",
    "C45_normal_invariant"
   ],
   "note": ""
  },
  {
   "property": "C46",
   "status": "proved",
   "theorems": [
    "C46_rotation",
    "C46_rodrigues",
    "C46_rotate_around",
    "C46_all_ones",
    "C46_matrix_refuted"
   ],
   "note": ""
  },
  {
   "property": "C47",
   "status": "proved",
   "theorems": [
    "C47_to_plane",
    "C47_parallel"
   ],
   "note": ""
  },
  {
   "property": "C48",
   "status": "proved",
   "theorems": [
    "C48_bbox",
    "C48_bbox_empty",
    "C48_inside_bbox",
    "C48_overlap"
   ],
   "note": ""
  },
  {
   "property": "C49",
   "status": "proved",
   "theorems": [
    "C49_edges",
    "C49_edges_empty"
   ],
   "note": ""
  },
  {
   "property": "C50",
   "status": "proved",
   "theorems": [
    "C50_area_formula",
    "C50_area_invariant",
    "C50_area_vector",
    "C50_area_triangle",
    "C50_area_small"
   ],
   "note": ""
  },
  {
   "property": "C51",
   "status": "proved",
   "theorems": [
    "C51_result",
    "C51_outcome",
    "C51_bad_normal",
    "C51_terminates",
    "C51_convex",
    "C51_simple_refuted"
   ],
   "note": ""
  },
  {
   "property": "C52",
   "status": "proved",
   "theorems": [
    "C52_boundary",
    "C52_vector_area",
    "C52_positive",
    "C52_orientation",
    "C52_area",
    "C52_area_plane"
   ],
   "note": ""
  },
  {
   "property": "C53",
   "status": "proved",
   "theorems": [
    "C53_volume",
    "C53_exists",
    "C53_mesh_moved",
    "C53_divergence",
    "C53_moved",
    "C53_total"
   ],
   "note": ""
  },
  {
   "property": "C54",
   "status": "proved",
   "theorems": [
    "C54_distance",
    "C54_degenerate"
   ],
   "note": ""
  },
  {
   "property": "C55",
   "status": "proved",
   "theorems": [
    "C55_accepted",
    "C55_sound",
    "C55_in_array"
   ],
   "note": ""
  },
  {
   "property": "C56",
   "status": "proved",
   "theorems": [
    "C56_between",
    "C56_one_between"
   ],
   "note": ""
  },
  {
   "property": "C57",
   "status": "proved",
   "theorems": [
    "C57_accepted",
    "C57_sound",
    "C57_total",
    "C57_sound_refuted",
    "C57_collinear",
    "C57_collinear_repeated"
   ],
   "note": ""
  },
  {
   "property": "C58",
   "status": "proved",
   "theorems": [
    "C58_vertices",
    "C58_outside_box",
    "C58_total",
    "C58_interior",
    "C58_exterior",
    "C58_interior_refuted",
    "C58_exterior_refuted"
   ],
   "note": ""
  },
  {
   "property": "C59",
   "status": "proved",
   "theorems": [
    "C59_sound",
    "C59_in_plane",
    "C59_error",
    "C59_then_inside"
   ],
   "note": ""
  },
  {
   "property": "C60",
   "status": "proved",
   "theorems": [
    "C60_parts",
    "C60_edges",
    "C60_vector_area",
    "C60_area",
    "C60_polygons",
    "C60_slice",
    "C60_same_edge",
    "C60_same_edge_area",
    "C60_closing_edge_refuted",
    "C60_reflex_start_refuted",
    "C60_short",
    "C60_count",
    "C60_ends_inside",
    "C60_same_vertex"
   ],
   "note": ""
  },
  {
   "property": "C61",
   "status": "proved",
   "theorems": [
    "C61_names",
    "C61_points",
    "C61_outcomes",
    "C61_order",
    "C61_equal_names_refuted"
   ],
   "note": ""
  },
  {
   "property": "C62",
   "status": "proved",
   "theorems": [
    "C62_added",
    "C62_same_points",
    "C62_crossing",
    "C62_order_refuted"
   ],
   "note": ""
  },
  {
   "property": "C63",
   "status": "proved",
   "theorems": [
    "C63_result",
    "C63_first_run",
    "C63_straight"
   ],
   "note": ""
  },
  {
   "property": "C64",
   "status": "proved",
   "theorems": [
    "C64_greedy",
    "C64_first",
    "C64_count",
    "C64_empty"
   ],
   "note": ""
  },
  {
   "property": "C65",
   "status": "proved",
   "theorems": [
    "C65_sound",
    "C65_complete",
    "C65_symmetric",
    "C65_symmetric_refuted"
   ],
   "note": ""
  },
  {
   "property": "C66",
   "status": "proved",
   "theorems": [
    "C66_box",
    "C66_edges",
    "C66_outward",
    "C66_bad_name",
    "C66_far",
    "C66_everywhere_refuted"
   ],
   "note": ""
  },
  {
   "property": "C67",
   "status": "proved",
   "theorems": [
    "C67_names",
    "C67_shape",
    "C67_bad_names",
    "C67_no_points",
    "C67_name_clash",
    "C67_closed",
    "C67_volume",
    "C67_always_closed_refuted"
   ],
   "note": ""
  },
  {
   "property": "C68",
   "status": "proved",
   "theorems": [
    "C68_centroid",
    "C68_errors",
    "C68_inside_refuted"
   ],
   "note": ""
  },
  {
   "property": "C69",
   "status": "proved",
   "theorems": [
    "C69_returns",
    "C69_pieces",
    "C69_nothing_to_do",
    "C69_rounds",
    "C69_depth",
    "C69_names",
    "C69_replace",
    "C69_replace_error",
    "C69_lost",
    "C69_touching_refuted",
    "C69_uncaught_refuted",
    "C69_nested_cut",
    "C69_nested_refuted"
   ],
   "note": ""
  },
  {
   "property": "C70",
   "status": "proved",
   "theorems": [
    "C70_plane",
    "C70_plane_all",
    "C70_no_plane",
    "C70_projection",
    "C70_parallel",
    "C70_inside",
    "C70_boundary",
    "C70_margin",
    "C70_contains",
    "C70_no_normal",
    "C70_distance",
    "C70_ortho",
    "C70_undefined",
    "C70_distance_refuted"
   ],
   "note": ""
  },
  {
   "property": "C71",
   "status": "proved",
   "theorems": [
    "C71_matrix",
    "C71_defined",
    "C71_not_coplanar",
    "C71_visible",
    "C71_blocked"
   ],
   "note": ""
  },
  {
   "property": "C72",
   "status": "proved",
   "theorems": [
    "C72_stored_values_are_read_back",
    "C72_storing_succeeds",
    "C72_storing_below_a_value_fails",
    "C72_reading_creates",
    "C72_conversion_keeps_string_paths",
    "C72_conversion_of_mixed_keys_refuted"
   ],
   "note": ""
  },
  {
   "property": "C73",
   "status": "proved",
   "theorems": [
    "C73_angle",
    "C73_angle_invariant",
    "C73_angle_parallel",
    "C73_angle_undefined"
   ],
   "note": ""
  },
  {
   "property": "C74",
   "status": "proved",
   "theorems": [
    "C74_nothing_is_overwritten",
    "C74_start_needs_new_directory",
    "C74_nonempty_directory_refused",
    "C74_empty_directory_refused",
    "C74_file_refused",
    "C74_same_directory_never_works"
   ],
   "note": ""
  },
  {
   "property": "C75",
   "status": "proved",
   "theorems": [
    "C75_trail_energy",
    "C75_trail_energy_refuted",
    "C75_trail_energy_single",
    "C75_frame_current",
    "C75_frame_index"
   ],
   "note": ""
  },
  {
   "property": "C76",
   "status": "proved",
   "theorems": [
    "C76_sound",
    "C76_complete",
    "C76_guard",
    "C76_parallel",
    "C76_segments_sound",
    "C76_segments_complete",
    "C76_all_crossings_refuted"
   ],
   "note": ""
  },
  {
   "property": "C77",
   "status": "proved",
   "theorems": [
    "C77_made",
    "C77_flip",
    "C77_flip_reverses_refuted"
   ],
   "note": ""
  },
  {
   "property": "C78",
   "status": "proved",
   "theorems": [
    "C78_exact",
    "C78_sound",
    "C78_boxes_apart",
    "C78_not_coplanar",
    "C78_apart",
    "C78_same",
    "C78_crossing_missed_refuted"
   ],
   "note": ""
  },
  {
   "property": "C79",
   "status": "proved",
   "theorems": [
    "C79_exact",
    "C79_self",
    "C79_symmetric_refuted",
    "C79_overlap_refuted"
   ],
   "note": ""
  },
  {
   "property": "C80",
   "status": "proved",
   "theorems": [
    "C80_outside",
    "C80_parity_odd",
    "C80_parity_even",
    "C80_on_face",
    "C80_box_inside",
    "C80_interior_refuted",
    "C80_exterior_refuted"
   ],
   "note": ""
  },
  {
   "property": "C81",
   "status": "proved",
   "theorems": [
    "C81_made_proper",
    "C81_facing_exact",
    "C81_interface",
    "C81_adjacent",
    "C81_interface_adjacent",
    "C81_boxes",
    "C81_nested_refuted",
    "C81_overlap_refuted",
    "C81_symmetric_refuted"
   ],
   "note": ""
  },
  {
   "property": "C82",
   "status": "proved",
   "theorems": [
    "C82_made",
    "C82_leaving_crosses_outline",
    "C82_total",
    "C82_true_distance",
    "C82_far_refuted"
   ],
   "note": ""
  },
  {
   "property": "C83",
   "status": "proved",
   "theorems": [
    "C83_scene_exists",
    "C83_no_wall_crossed",
    "C83_interior_refuted"
   ],
   "note": ""
  },
  {
   "property": "C84",
   "status": "proved",
   "theorems": [
    "C84_interior_point",
    "C84_contained",
    "C84_contained_refuted",
    "C84_given_triangles",
    "C84_no_triangles"
   ],
   "note": ""
  },
  {
   "property": "C85",
   "status": "proved",
   "theorems": [
    "C85_source_on_wall",
    "C85_endless"
   ],
   "note": ""
  },
  {
   "property": "C86",
   "status": "proved",
   "theorems": [
    "C86_box_is_room",
    "C86_step",
    "C86_never_leaves"
   ],
   "note": ""
  },
  {
   "property": "C87",
   "status": "proved",
   "theorems": [
    "C87_three_reflections",
    "C87_ends",
    "C87_energy",
    "C87_short_box_refuted"
   ],
   "note": ""
  },
  {
   "property": "C88",
   "status": "proved",
   "theorems": [
    "C88_exact",
    "C88_crosses",
    "C88_misses",
    "C88_reverse",
    "C88_within_plane"
   ],
   "note": ""
  },
  {
   "property": "C89",
   "status": "proved",
   "theorems": [
    "C89_edges",
    "C89_sides",
    "C89_exact",
    "C89_pierced",
    "C89_entered",
    "C89_apart"
   ],
   "note": ""
  },
  {
   "property": "C90",
   "status": "proved",
   "theorems": [
    "C90_not_missed",
    "C90_no_target",
    "C90_only_wall",
    "C90_box",
    "C90_first_met_refuted"
   ],
   "note": ""
  },
  {
   "property": "C91",
   "status": "proved",
   "theorems": [
    "C91_same_length",
    "C91_reflexive",
    "C91_raises",
    "C91_symmetric_refuted",
    "C91_transitive_refuted",
    "C91_rolled_refuted"
   ],
   "note": ""
  },
  {
   "property": "C92",
   "status": "proved",
   "theorems": [
    "C92_round8",
    "C92_tuple",
    "C92_same_key",
    "C92_hash",
    "C92_equal_points_refuted",
    "C92_valid"
   ],
   "note": ""
  },
  {
   "property": "C93",
   "status": "proved",
   "theorems": [
    "C93_outcome",
    "C93_keeps",
    "C93_again",
    "C93_raises",
    "C93_where",
    "C93_text"
   ],
   "note": ""
  },
  {
   "property": "C94",
   "status": "proved",
   "theorems": [
    "C94_found",
    "C94_never_raises",
    "C94_found_iff",
    "C94_ends_in_slash",
    "C94_doubled_slash_refuted",
    "C94_only_made_refuted",
    "C94_looked_up_refuted",
    "C94_repeated_refuted",
    "C94_dot_refuted"
   ],
   "note": ""
  },
  {
   "property": "C95",
   "status": "proved",
   "theorems": [
    "C95_rounding",
    "C95_never_grow",
    "C95_hits",
    "C95_due",
    "C95_ends",
    "C95_loops",
    "C95_positive_absorption_refuted",
    "C95_exact"
   ],
   "note": ""
  },
  {
   "property": "C96",
   "status": "proved",
   "theorems": [
    "C96_between",
    "C96_below_refuted",
    "C96_within",
    "C96_tiny_refuted"
   ],
   "note": ""
  },
  {
   "property": "C97",
   "status": "proved",
   "theorems": [
    "C97_exact",
    "C97_nearby",
    "C97_default",
    "C97_skipped_refuted"
   ],
   "note": ""
  },
  {
   "property": "C98",
   "status": "proved",
   "theorems": [
    "C98_upwards",
    "C98_exact",
    "C98_downwards",
    "C98_default",
    "C98_gap_refuted"
   ],
   "note": ""
  },
  {
   "property": "C99",
   "status": "proved",
   "theorems": [
    "C99_saved",
    "C99_refused",
    "C99_no_parents",
    "C99_raises",
    "C99_others",
    "C99_load_fails",
    "C99_formats_load_fails",
    "C99_b3d_no_parents",
    "C99_dotbim_no_parents",
    "C99_stl_no_parents"
   ],
   "note": ""
  },
  {
   "property": "C100",
   "status": "proved",
   "theorems": [
    "C100_b3d",
    "C100_dotbim",
    "C100_stl",
    "C100_name",
    "C100_name_plain"
   ],
   "note": ""
  },
  {
   "property": "C101",
   "status": "proved",
   "theorems": [
    "C101_checks",
    "C101_checks_errors",
    "C101_negative_batch_refuted",
    "C101_velocity",
    "C101_no_velocity",
    "C101_completes",
    "C101_saved",
    "C101_shapes"
   ],
   "note": ""
  },
  {
   "property": "C102",
   "status": "proved",
   "theorems": [
    "C102_energies",
    "C102_dead_rays",
    "C102_reach",
    "C102_budget",
    "C102_box"
   ],
   "note": ""
  },
  {
   "property": "C103",
   "status": "proved",
   "theorems": [
    "C103_purge",
    "C103_purge_ends",
    "C103_purge_ragged",
    "C103_purge_again",
    "C103_purge_same",
    "C103_volume",
    "C103_total"
   ],
   "note": ""
  },
  {
   "property": "C104",
   "status": "proved",
   "theorems": [
    "C104_collapse",
    "C104_different",
    "C104_same"
   ],
   "note": ""
  },
  {
   "property": "C105",
   "status": "proved",
   "theorems": [
    "C105_neighbors",
    "C105_missing",
    "C105_compiled",
    "C105_compiled_empty",
    "C105_compiled_symmetric_refuted"
   ],
   "note": ""
  },
  {
   "property": "C106",
   "status": "proved",
   "theorems": [
    "C106_invalid",
    "C106_unused",
    "C106_no_zero",
    "C106_least_volume",
    "C106_mesh"
   ],
   "note": ""
  },
  {
   "property": "C107",
   "status": "proved",
   "theorems": [
    "C107_generate",
    "C107_fixed_points",
    "C107_shared",
    "C107_again",
    "C107_fails",
    "C107_reinit",
    "C107_areas_refuted",
    "C107_fixed_points_refuted",
    "C107_shared_refuted",
    "C107_add"
   ],
   "note": ""
  },
  {
   "property": "C108",
   "status": "proved",
   "theorems": [
    "C108_generate",
    "C108_volume",
    "C108_twice",
    "C108_fails",
    "C108_copy_small",
    "C108_copy_ends",
    "C108_copy_elements",
    "C108_copy_whole",
    "C108_twice_refuted",
    "C108_names_refuted",
    "C108_copy_elements_refuted"
   ],
   "note": ""
  },
  {
   "property": "C109",
   "status": "proved",
   "theorems": [
    "C109_add",
    "C109_add_fails",
    "C109_generate",
    "C109_surface"
   ],
   "note": ""
  },
  {
   "property": "C110",
   "status": "proved",
   "theorems": [
    "C110_free",
    "C110_first_cut",
    "C110_second_cut",
    "C110_result",
    "C110_area",
    "C110_first",
    "C110_names",
    "C110_vanishes",
    "C110_few"
   ],
   "note": ""
  },
  {
   "property": "C111",
   "status": "proved",
   "theorems": [
    "C111_walls",
    "C111_names",
    "C111_bad_names",
    "C111_built"
   ],
   "note": ""
  },
  {
   "property": "C112",
   "status": "proved",
   "theorems": [
    "C112_wall",
    "C112_aperture",
    "C112_inside",
    "C112_built",
    "C112_flat",
    "C112_default_refuted",
    "C112_axis"
   ],
   "note": ""
  },
  {
   "property": "C113",
   "status": "proved",
   "theorems": [
    "C113_numbers",
    "C113_average",
    "C113_surface",
    "C113_volume",
    "C113_fails",
    "C113_empty",
    "C113_least_area"
   ],
   "note": ""
  },
  {
   "property": "C114",
   "status": "proved",
   "theorems": [
    "C114_computes",
    "C114_vertices",
    "C114_fixed",
    "C114_all_used"
   ],
   "note": ""
  },
  {
   "property": "C115",
   "status": "proved",
   "theorems": [
    "C115_oriented"
   ],
   "note": ""
  },
  {
   "property": "C116",
   "status": "proved",
   "theorems": [
    "C116_fuel",
    "C116_one_round",
    "C116_round_runs",
    "C116_end"
   ],
   "note": ""
  },
  {
   "property": "C117",
   "status": "proved",
   "theorems": [
    "C117_loaded",
    "C117_any",
    "C117_made",
    "C117_normal_refuted",
    "C117_missing_refuted"
   ],
   "note": ""
  },
  {
   "property": "C118",
   "status": "proved",
   "theorems": [
    "C118_volume",
    "C118_turned",
    "C118_without",
    "C118_volume_refuted"
   ],
   "note": ""
  },
  {
   "property": "C119",
   "status": "proved",
   "theorems": [
    "C119_fresh",
    "C119_cached",
    "C119_unique_names",
    "C119_crossing_refuted"
   ],
   "note": ""
  },
  {
   "property": "C120",
   "status": "proved",
   "theorems": [
    "C120_errors",
    "C120_hierarchy"
   ],
   "note": ""
  },
  {
   "property": "C121",
   "status": "proved",
   "theorems": [
    "C121_made",
    "C121_loop",
    "C121_count",
    "C121_exact",
    "C121_mesh",
    "C121_no_overlap",
    "C121_convex",
    "C121_code",
    "C121_inside",
    "C121_overlap_refuted"
   ],
   "note": ""
  },
  {
   "property": "C122",
   "status": "proved",
   "theorems": [
    "C122_cut",
    "C122_parts",
    "C122_slice",
    "C122_covers",
    "C122_points"
   ],
   "note": ""
  },
  {
   "property": "C123",
   "status": "proved",
   "theorems": [
    "C123_simple",
    "C123_move",
    "C123_loop",
    "C123_triangles",
    "C123_region",
    "C123_made",
    "C123_same",
    "C123_code",
    "C123_accepts_refuted"
   ],
   "note": ""
  },
  {
   "property": "C124",
   "status": "proved",
   "theorems": [
    "C124_union",
    "C124_apart",
    "C124_points"
   ],
   "note": ""
  },
  {
   "property": "C125",
   "status": "proved",
   "theorems": [
    "C125_direction",
    "C125_way",
    "C125_outside",
    "C125_paths",
    "C125_some"
   ],
   "note": ""
  },
  {
   "property": "C126",
   "status": "proved",
   "theorems": [
    "C126_solid",
    "C126_turned",
    "C126_open_refuted"
   ],
   "note": ""
  },
  {
   "property": "C127",
   "status": "proved",
   "theorems": [
    "C127_convex_inside",
    "C127_convex_outside",
    "C127_box_inside",
    "C127_box_outside"
   ],
   "note": ""
  },
  {
   "property": "C128",
   "status": "proved",
   "theorems": [
    "C128_outline",
    "C128_floor",
    "C128_levels"
   ],
   "note": ""
  },
  {
   "property": "C129",
   "status": "proved",
   "theorems": [
    "C129_located",
    "C129_hints_free"
   ],
   "note": ""
  },
  {
   "property": "C130",
   "status": "proved",
   "theorems": [
    "C130_inside",
    "C130_unmet",
    "C130_room",
    "C130_located"
   ],
   "note": ""
  },
  {
   "property": "C131",
   "status": "proved",
   "theorems": [
    "C131_way",
    "C131_doors",
    "C131_rooms",
    "C131_stays",
    "C131_twins"
   ],
   "note": ""
  },
  {
   "property": "C132",
   "status": "proved",
   "theorems": [
    "C132_numbers",
    "C132_transparent",
    "C132_several",
    "C132_remembered",
    "C132_off",
    "C132_dummy"
   ],
   "note": ""
  },
  {
   "property": "C133",
   "status": "proved",
   "theorems": [
    "C133_rooms",
    "C133_stays"
   ],
   "note": ""
  },
  {
   "property": "C134",
   "status": "proved",
   "theorems": [
    "C134_geometry",
    "C134_no_points",
    "C134_foreign_points_refuted",
    "C134_absorption",
    "C134_reads",
    "C134_absorption_refuted",
    "C134_stays"
   ],
   "note": ""
  },
  {
   "property": "C135",
   "status": "proved",
   "theorems": [
    "C135_drawn",
    "C135_cells",
    "C135_refused",
    "C135_errors",
    "C135_one_colour_refuted",
    "C135_file"
   ],
   "note": ""
  },
  {
   "property": "C136",
   "status": "proved",
   "theorems": [
    "C136_drawn",
    "C136_fails"
   ],
   "note": ""
  },
  {
   "property": "C137",
   "status": "proved",
   "theorems": [
    "C137_named",
    "C137_refused",
    "C137_default"
   ],
   "note": ""
  }
 ]
}