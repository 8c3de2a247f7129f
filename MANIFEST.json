{
 "claims": [
  {
   "property": "C01",
   "status": "proved",
   "theorems": [
    "C01_unions_exact"
   ],
   "note": "binary64 endpoints, any conforming std::sort"
  },
  {
   "property": "C02",
   "status": "proved",
   "theorems": [
    "C02_unions_normal_form",
    "C02_unions_canonical",
    "C02_unions_order_independent"
   ],
   "note": ""
  },
  {
   "property": "C03",
   "status": "proved",
   "theorems": [
    "C03_intersects_exact",
    "C03_intersects_empty_list"
   ],
   "note": ""
  },
  {
   "property": "C04",
   "status": "proved",
   "theorems": [
    "C04_complements_exact",
    "C04_complements_no_inner",
    "C04_complements_no_outer"
   ],
   "note": ""
  },
  {
   "property": "C05",
   "status": "proved",
   "theorems": [
    "C05_overlapping_inner_refuted",
    "C05_complements_never_loses_points"
   ],
   "note": "the disjointness guard of C04 is necessary (witness), completeness for all inputs"
  },
  {
   "property": "C06",
   "status": "proved",
   "theorems": [
    "C06_only_first_outer",
    "C06_other_outer_dropped_refuted"
   ],
   "note": "theorem plus witness that later outer intervals are dropped"
  },
  {
   "property": "C07",
   "status": "proved",
   "theorems": [
    "C07_sweep_line_exact",
    "C07_never_inside_an_obstacle",
    "C07_no_arena_no_segment",
    "C07_from_intersections"
   ],
   "note": "touching obstacle intervals merge, so free means outside the interior of their union"
  },
  {
   "property": "C08",
   "status": "proved",
   "theorems": [
    "C08_midpoint_inside",
    "C08_no_overflow_below_2p1022",
    "C08_overflow_guard_refuted"
   ],
   "note": ""
  },
  {
   "property": "C09",
   "status": "proved",
   "theorems": [
    "C09_enhancement_sound",
    "C09_free_segments_are_free"
   ],
   "note": ""
  },
  {
   "property": "C10",
   "status": "proved",
   "theorems": [
    "C10_zero_lines_undefined",
    "C10_some_line_defined"
   ],
   "note": ""
  },
  {
   "property": "C11",
   "status": "proved",
   "theorems": [
    "C11_arena_never_shrinks",
    "C11_points_outside_arena_reported_free_refuted"
   ],
   "note": ""
  },
  {
   "property": "C12",
   "status": "proved",
   "theorems": [
    "C12_defined_iff_no_single_hit"
   ],
   "note": ""
  },
  {
   "property": "C13",
   "status": "proved",
   "theorems": [
    "C13_hits_exact",
    "C13_outside_range_empty",
    "C13_empty_polygon_undefined"
   ],
   "note": ""
  },
  {
   "property": "C14",
   "status": "proved",
   "theorems": [
    "C14_convex_cross_section",
    "C14_chord",
    "C14_vertex_hit_refuted"
   ],
   "note": ""
  },
  {
   "property": "C15",
   "status": "proved",
   "theorems": [
    "C15_crossing_iff",
    "C15_segment_inside_not_reported_refuted",
    "C15_through_vertices_not_reported_refuted",
    "C15_crossing_reported",
    "C15_short_pose_throws"
   ],
   "note": ""
  },
  {
   "property": "C16",
   "status": "proved",
   "theorems": [
    "C16_hit_iff",
    "C16_rejects_degenerate",
    "C16_thin_triangle_refuted"
   ],
   "note": ""
  },
  {
   "property": "C17",
   "status": "proved",
   "theorems": [
    "C17_line_first_two",
    "C17_vertical_first_two",
    "C17_at_most_two",
    "C17_bad_face_undefined",
    "C17_shared_vertex_refuted",
    "C17_tilted_line_refuted",
    "C17_line_exactly",
    "C17_steep_line_loses_nothing"
   ],
   "note": ""
  },
  {
   "property": "C18",
   "status": "proved",
   "theorems": [
    "C18_roadmap_well_formed",
    "C18_slice_keeps_well_formed",
    "C18_linking_keeps_well_formed"
   ],
   "note": ""
  },
  {
   "property": "C19",
   "status": "proved",
   "theorems": [
    "C19_slice_vertices",
    "C19_vertices_of_slices"
   ],
   "note": ""
  },
  {
   "property": "C20",
   "status": "proved",
   "theorems": [
    "C20_ranges_partition",
    "C20_one_slice_each"
   ],
   "note": ""
  },
  {
   "property": "C21",
   "status": "proved",
   "theorems": [
    "C21_slice_edges",
    "C21_every_edge_was_checked"
   ],
   "note": ""
  },
  {
   "property": "C22",
   "status": "proved",
   "theorems": [
    "C22_bridge_is_idle",
    "C22_no_bridge_vertices"
   ],
   "note": ""
  },
  {
   "property": "C23",
   "status": "proved",
   "theorems": [
    "C23_cross_edges",
    "C23_one_slice_no_edges",
    "C23_greedy_misses_pairs_refuted"
   ],
   "note": ""
  },
  {
   "property": "C24",
   "status": "proved",
   "theorems": [
    "C24_two_slices_never_return",
    "C24_two_slices_throw"
   ],
   "note": ""
  },
  {
   "property": "C25",
   "status": "proved",
   "theorems": [
    "C25_one_slice_nan",
    "C25_one_line_nan",
    "C25_headings",
    "C25_heights"
   ],
   "note": ""
  },
  {
   "property": "C26",
   "status": "proved",
   "theorems": [
    "C26_refine_never_returns",
    "C26_returning_plans_did_not_refine",
    "C26_refine_throws"
   ],
   "note": ""
  },
  {
   "property": "C27",
   "status": "proved",
   "theorems": [
    "C27_one_boundary_for_all_slices",
    "C27_boundary_at_heading_refuted"
   ],
   "note": ""
  },
  {
   "property": "C28",
   "status": "proved",
   "theorems": [
    "C28_path_is_a_roadmap_walk",
    "C28_unsolved_means_disconnected",
    "C28_search"
   ],
   "note": ""
  },
  {
   "property": "C29",
   "status": "proved",
   "theorems": [
    "C29_reported_cost",
    "C29_defined_or_out_of_range",
    "C29_cost_is_path_length_refuted",
    "C29_undefined_plan"
   ],
   "note": ""
  },
  {
   "property": "C30",
   "status": "proved",
   "theorems": [
    "C30_solution_path",
    "C30_returned_path"
   ],
   "note": ""
  },
  {
   "property": "C31",
   "status": "proved",
   "theorems": [
    "C31_neighbours_bounded",
    "C31_neighbours_exact",
    "C31_defined_on_nonempty",
    "C31_empty_roadmap_undefined"
   ],
   "note": ""
  },
  {
   "property": "C32",
   "status": "proved",
   "theorems": [
    "C32_nearest_in_slice",
    "C32_belongs_to_slice_refuted"
   ],
   "note": ""
  },
  {
   "property": "C33",
   "status": "proved",
   "theorems": [
    "C33_kc_never_connects",
    "C33_kc_plan_edges",
    "C33_kc_links_through_middle_vertex"
   ],
   "note": ""
  },
  {
   "property": "C34",
   "status": "proved",
   "theorems": [
    "C34_true_iff_coordinates_in_unit_interval",
    "C34_is_membership_in_simplices",
    "C34_short_point_is_undefined"
   ],
   "note": ""
  },
  {
   "property": "C35",
   "status": "proved",
   "theorems": [
    "C35_linked_to_nearest_earlier",
    "C35_never_a_later_slice",
    "C35_first_slice_with_itself"
   ],
   "note": ""
  },
  {
   "property": "C36",
   "status": "proved",
   "theorems": [
    "C36_spatial_path_not_interpolated",
    "C36_planar_path_not_interpolated"
   ],
   "note": ""
  },
  {
   "property": "C37",
   "status": "proved",
   "theorems": [
    "C37_straight_equally_spaced",
    "C37_undefined_iff_end_shorter",
    "C37_zero_steps_is_nan",
    "C37_first_is_start_binary64",
    "C37_last_is_end_binary64_refuted"
   ],
   "note": ""
  },
  {
   "property": "C38",
   "status": "proved",
   "theorems": [
    "C38_shape",
    "C38_short_pose_is_undefined",
    "C38_zero_steps_count",
    "C38_slerp_facts"
   ],
   "note": ""
  },
  {
   "property": "C39",
   "status": "proved",
   "theorems": [
    "C39_is_a_metric",
    "C39_undefined_iff_second_shorter",
    "C39_symmetric_binary64"
   ],
   "note": ""
  },
  {
   "property": "C40",
   "status": "proved",
   "theorems": [
    "C40_planar_placement",
    "C40_spatial_placement",
    "C40_composition_moves_points",
    "C40_placing_overrides",
    "C40_histories_run"
   ],
   "note": ""
  },
  {
   "property": "C41",
   "status": "proved",
   "theorems": [
    "C41_planar_boundary",
    "C41_spatial_boundary",
    "C41_one_sample",
    "C41_planar_samples",
    "C41_spatial_samples"
   ],
   "note": ""
  },
  {
   "property": "C42",
   "status": "proved",
   "theorems": [
    "C42_returned_points_are_contacts"
   ],
   "note": ""
  },
  {
   "property": "C43",
   "status": "proved",
   "theorems": [
    "C43_round_obstacle",
    "C43_elongated_obstacle_refuted"
   ],
   "note": ""
  },
  {
   "property": "C44",
   "status": "proved",
   "theorems": [
    "C44_coefficients_are_the_characteristic_polynomial",
    "C44_separated_ellipses_are_disjoint",
    "C44_separated_ellipsoids_are_disjoint",
    "C44_disjoint_circles_and_spheres",
    "C44_disjoint_ellipses_iff_two_negative_roots",
    "C44_disjoint_ellipsoids_iff_two_negative_roots",
    "C44_disjoint_ellipses_reported",
    "C44_disjoint_ellipsoids_reported",
    "C44_separated_but_overlapping_refuted",
    "C44_disjoint_always_reported_refuted"
   ],
   "note": ""
  },
  {
   "property": "C45",
   "status": "proved",
   "theorems": [
    "C45_roots_are_padded_with_zeros",
    "C45_companion_matrix",
    "C45_zero_is_not_a_root_refuted"
   ],
   "note": ""
  },
  {
   "property": "C46",
   "status": "proved",
   "theorems": [
    "C46_planar_up_to_the_sign",
    "C46_planar_upwards",
    "C46_planar_angle_refuted",
    "C46_spatial_rotation",
    "C46_spatial_orientation_refuted"
   ],
   "note": ""
  },
  {
   "property": "C47",
   "status": "proved",
   "theorems": [
    "C47_each_cell_exactly_two_triangles",
    "C47_zero_is_undefined",
    "C47_consistent_orientation_refuted"
   ],
   "note": ""
  },
  {
   "property": "C48",
   "status": "proved",
   "theorems": [
    "C48_one_record_per_data_line",
    "C48_out_of_range_escapes",
    "C48_missing_file_throws",
    "C48_columns_keep_their_position_refuted"
   ],
   "note": ""
  },
  {
   "property": "C49",
   "status": "proved",
   "theorems": [
    "C49_plan_at_most_once"
   ],
   "note": ""
  },
  {
   "property": "C50",
   "status": "proved",
   "theorems": [
    "C50_one_slice_unsolved"
   ],
   "note": ""
  },
  {
   "property": "C51",
   "status": "proved",
   "theorems": [
    "C51_astar_terminates",
    "C51_astar_sound",
    "C51_astar_complete"
   ],
   "note": ""
  },
  {
   "property": "C52",
   "status": "proved",
   "theorems": [
    "C52_roadmap_well_formed",
    "C52_slice_keeps_well_formed"
   ],
   "note": ""
  },
  {
   "property": "C53",
   "status": "proved",
   "theorems": [
    "C53_ranges_partition",
    "C53_slices_recorded",
    "C53_slices_sampled",
    "C53_sampling_order"
   ],
   "note": ""
  },
  {
   "property": "C54",
   "status": "proved",
   "theorems": [
    "C54_vertices_of_slices",
    "C54_vertices_first_call",
    "C54_vertices_any_history"
   ],
   "note": ""
  },
  {
   "property": "C55",
   "status": "proved",
   "theorems": [
    "C55_slice_edges",
    "C55_every_edge_was_checked",
    "C55_last_slice_links"
   ],
   "note": ""
  },
  {
   "property": "C56",
   "status": "proved",
   "theorems": [
    "C56_plan_at_most_once"
   ],
   "note": ""
  },
  {
   "property": "C57",
   "status": "proved",
   "theorems": [
    "C57_refine_never_returns",
    "C57_returning_plans_did_not_refine",
    "C57_prob_fewer_than_sixty"
   ],
   "note": ""
  },
  {
   "property": "C58",
   "status": "proved",
   "theorems": [
    "C58_one_boundary_for_all_slices",
    "C58_boundary_at_orientation_refuted"
   ],
   "note": ""
  },
  {
   "property": "C59",
   "status": "proved",
   "theorems": [
    "C59_prob_never_returns",
    "C59_needs_a_closer_sample"
   ],
   "note": ""
  },
  {
   "property": "C60",
   "status": "proved",
   "theorems": [
    "C60_articulated_hrm3d_throws",
    "C60_rigid_prob_never_returns"
   ],
   "note": ""
  },
  {
   "property": "C61",
   "status": "proved",
   "theorems": [
    "C61_lines_required",
    "C61_one_line_is_nan",
    "C61_grid_spacing"
   ],
   "note": ""
  },
  {
   "property": "C63",
   "status": "proved",
   "theorems": [
    "C63_blocks",
    "C63_zero_cost_is_undefined",
    "C63_one_vertex_never_returns",
    "C63_poses_are_numbers_refuted"
   ],
   "note": ""
  },
  {
   "property": "C64",
   "status": "proved",
   "theorems": [
    "C64_fresh_query_ignores_boundary",
    "C64_query_needs_meshes",
    "C64_query_segments"
   ],
   "note": ""
  },
  {
   "property": "C65",
   "status": "proved",
   "theorems": [
    "C65_hrm3d_path",
    "C65_hrm3d_unsolved",
    "C65_prob_path"
   ],
   "note": ""
  },
  {
   "property": "C66",
   "status": "proved",
   "theorems": [
    "C66_neighbours",
    "C66_neighbours_exactly",
    "C66_nearest_vertex",
    "C66_vertex_has_orientation_refuted"
   ],
   "note": ""
  },
  {
   "property": "C67",
   "status": "proved",
   "theorems": [
    "C67_replan_reports_a_path",
    "C67_stale_search_costs_nothing"
   ],
   "note": ""
  },
  {
   "property": "C62",
   "status": "proved",
   "theorems": [
    "C62_free_segment_crosses_nothing",
    "C62_blocked_segment_meets_a_face",
    "C62_defined",
    "C62_clear_point_not_inside",
    "C62_blocked_point_between_faces",
    "C62_planar_clear_point",
    "C62_planar_blocked_point",
    "C62_segment_inside_is_free",
    "C62_first_two_hits_only"
   ],
   "note": ""
  },
  {
   "property": "C68",
   "status": "proved",
   "theorems": [
    "C68_planar_straight",
    "C68_planar_between_slices",
    "C68_spatial_straight",
    "C68_spatial_straight_poses",
    "C68_spatial_between_slices",
    "C68_one_point_undefined"
   ],
   "note": ""
  },
  {
   "property": "C69",
   "status": "proved",
   "theorems": [
    "C69_no_points_nothing_tested",
    "C69_one_point_nothing_tested",
    "C69_passing_through_refuted"
   ],
   "note": ""
  },
  {
   "property": "C70",
   "status": "proved",
   "theorems": [
    "C70_planar_poses_touch",
    "C70_spatial_poses_touch",
    "C70_spatial_moved_base_refuted"
   ],
   "note": ""
  },
  {
   "property": "C71",
   "status": "proved",
   "theorems": [
    "C71_planar_range",
    "C71_planar_one_step",
    "C71_spatial_range"
   ],
   "note": ""
  },
  {
   "property": "C72",
   "status": "proved",
   "theorems": [
    "C72_boundary_is_open",
    "C72_spatial_ranges_overlap"
   ],
   "note": ""
  },
  {
   "property": "C73",
   "status": "proved",
   "theorems": [
    "C73_planar_edges_collide",
    "C73_planar_samples_differ",
    "C73_spatial_triangles_collide"
   ],
   "note": ""
  },
  {
   "property": "C74",
   "status": "proved",
   "theorems": [
    "C74_planar_vertices_are_clear",
    "C74_planar_waypoints_are_clear",
    "C74_spatial_vertices_are_clear"
   ],
   "note": ""
  },
  {
   "property": "C75",
   "status": "proved",
   "theorems": [
    "C75_start_is_clear_refuted",
    "C75_first_leg_is_clear_refuted"
   ],
   "note": ""
  },
  {
   "property": "C76",
   "status": "proved",
   "theorems": [
    "C76_path_exists_refuted"
   ],
   "note": ""
  },
  {
   "property": "C77",
   "status": "proved",
   "theorems": [
    "C77_plan_result",
    "C77_short_vectors",
    "C77_true_means_solved_refuted"
   ],
   "note": ""
  },
  {
   "property": "C78",
   "status": "proved",
   "theorems": [
    "C78_paths_accumulate",
    "C78_planar_interpolated_empty",
    "C78_path_length",
    "C78_latest_path_refuted"
   ],
   "note": ""
  },
  {
   "property": "C79",
   "status": "proved",
   "theorems": [
    "C79_planar_readout",
    "C79_first_readout_refuted",
    "C79_spatial_readout"
   ],
   "note": ""
  },
  {
   "property": "C80",
   "status": "proved",
   "theorems": [
    "C80_planar_valid_sound",
    "C80_planar_valid_exact",
    "C80_spatial_valid_exact",
    "C80_ablation_exact"
   ],
   "note": ""
  },
  {
   "property": "C81",
   "status": "proved",
   "theorems": [
    "C81_arena_checked_refuted",
    "C81_robot_shape_checked_refuted"
   ],
   "note": ""
  },
  {
   "property": "C82",
   "status": "proved",
   "theorems": [
    "C82_inside_detected_refuted",
    "C82_planar_samples_detected",
    "C82_planar_overlap_detected_refuted",
    "C82_planar_clear_accepted_refuted",
    "C82_within_tolerance_as_ellipse",
    "C82_within_tolerance_as_ellipsoid"
   ],
   "note": ""
  },
  {
   "property": "C83",
   "status": "proved",
   "theorems": [
    "C83_query_pulled",
    "C83_joints_pulled",
    "C83_given_start_refuted",
    "C83_unchecked_before_setup",
    "C83_checked_after_setup"
   ],
   "note": ""
  },
  {
   "property": "C84",
   "status": "proved",
   "theorems": [
    "C84_astar_nearly_shortest",
    "C84_search_nearly_shortest",
    "C84_planar_path_nearly_shortest",
    "C84_spatial_path_nearly_shortest",
    "C84_prob_path_nearly_shortest",
    "C84_best_neighbours_refuted"
   ],
   "note": ""
  },
  {
   "property": "C85",
   "status": "proved",
   "theorems": [
    "C85_planar_file",
    "C85_spatial_file",
    "C85_short_line_undefined",
    "C85_empty_line_undefined",
    "C85_missing_file_throws",
    "C85_planar_scene",
    "C85_spatial_scene",
    "C85_planar_robot",
    "C85_spatial_robot",
    "C85_columns_by_field_refuted"
   ],
   "note": ""
  },
  {
   "property": "C86",
   "status": "proved",
   "theorems": [
    "C86_turned_about_the_axis",
    "C86_six_digits",
    "C86_zero_axis_not_turned",
    "C86_other_rows_copied",
    "C86_extra_column_not_converted",
    "C86_empty_row_throws",
    "C86_one_row_per_row",
    "C86_converting_twice_refuted",
    "C86_goals_converted",
    "C86_planar_goals",
    "C86_other_dimension_writes_nothing"
   ],
   "note": ""
  },
  {
   "property": "C87",
   "status": "proved",
   "theorems": [
    "C87_limits",
    "C87_spatial_limits",
    "C87_base_stays_in_box",
    "C87_spatial_base_stays_in_box",
    "C87_limits_can_be_empty",
    "C87_links_stay_in_box_refuted",
    "C87_within_limits_in_arena_refuted"
   ],
   "note": ""
  },
  {
   "property": "C88",
   "status": "proved",
   "theorems": [
    "C88_planar_count",
    "C88_thin_obstacles_between_lines",
    "C88_taller_bands_are_swept",
    "C88_small_arena_no_lines",
    "C88_no_lines_undefined",
    "C88_no_obstacles",
    "C88_spatial_counts",
    "C88_random_orientations_never_plan",
    "C88_spatial_small_arena_undefined"
   ],
   "note": ""
  },
  {
   "property": "C89",
   "status": "proved",
   "theorems": [
    "C89_inside_is_blocked",
    "C89_disc_core_is_blocked"
   ],
   "note": ""
  },
  {
   "property": "C90",
   "status": "proved",
   "theorems": [
    "C90_blocked_means_contact",
    "C90_disc_blocked_is_near"
   ],
   "note": ""
  },
  {
   "property": "C91",
   "status": "proved",
   "theorems": [
    "C91_free_motion_stays_outside",
    "C91_disc_motion_clearance",
    "C91_from_boundary_refuted"
   ],
   "note": ""
  },
  {
   "property": "C92",
   "status": "proved",
   "theorems": [
    "C92_crossings_nearly_exact",
    "C92_same_edges_as_exact",
    "C92_deep_inside_is_blocked"
   ],
   "note": ""
  },
  {
   "property": "C93",
   "status": "proved",
   "theorems": [
    "C93_vertices_outside_obstacles",
    "C93_waypoints_outside_obstacles",
    "C93_vertex_heights_refuted"
   ],
   "note": ""
  },
  {
   "property": "C94",
   "status": "proved",
   "theorems": [
    "C94_vertices_keep_distance",
    "C94_waypoints_keep_distance"
   ],
   "note": ""
  },
  {
   "property": "C95",
   "status": "proved",
   "theorems": [
    "C95_blocked_means_contact",
    "C95_ball_blocked_is_near"
   ],
   "note": ""
  },
  {
   "property": "C96",
   "status": "proved",
   "theorems": [
    "C96_line_through_centre_not_blocked_refuted",
    "C96_returned_path_through_ball_refuted"
   ],
   "note": ""
  },
  {
   "property": "C97",
   "status": "proved",
   "theorems": [
    "C97_rows_and_fields",
    "C97_six_digits",
    "C97_read_back",
    "C97_edges",
    "C97_path_ids",
    "C97_segments",
    "C97_boundary_rows",
    "C97_boundary_read_back_refuted",
    "C97_values_kept_refuted"
   ],
   "note": ""
  },
  {
   "property": "C98",
   "status": "proved",
   "theorems": [
    "C98_vertices_in_range",
    "C98_roadmap_is_tame",
    "C98_first_plan_exact",
    "C98_headings_plain",
    "C98_spatial_vertices_in_range",
    "C98_spatial_roadmap_is_tame",
    "C98_spatial_first_plan_exact",
    "C98_prob_first_path_exact"
   ],
   "note": ""
  },
  {
   "property": "C99",
   "status": "proved",
   "theorems": [
    "C99_planar_no_smaller",
    "C99_planar_smallest",
    "C99_planar_order",
    "C99_spatial_no_smaller",
    "C99_spatial_smallest",
    "C99_planar_unique",
    "C99_planar_same",
    "C99_spatial_unique",
    "C99_spatial_same"
   ],
   "note": ""
  },
  {
   "property": "C100",
   "status": "proved",
   "theorems": [
    "C100_chain",
    "C100_every_link",
    "C100_root",
    "C100_other_joints",
    "C100_joint_numbers",
    "C100_robot_placement"
   ],
   "note": ""
  },
  {
   "property": "C101",
   "status": "proved",
   "theorems": [
    "C101_articulated_valid_exact"
   ],
   "note": ""
  },
  {
   "property": "C102",
   "status": "proved",
   "theorems": [
    "C102_reported_refuted",
    "C102_no_joints"
   ],
   "note": ""
  },
  {
   "property": "C103",
   "status": "proved",
   "theorems": [
    "C103_vertical_hits",
    "C103_line_hits",
    "C103_point_test",
    "C103_straight_motion",
    "C103_planar_point_test",
    "C103_planar_straight_motion"
   ],
   "note": ""
  },
  {
   "property": "C104",
   "status": "proved",
   "theorems": [
    "C104_every_stopping_point",
    "C104_converts",
    "C104_planar_scene",
    "C104_spatial_scene",
    "C104_spatial_orientation",
    "C104_failure_keeps_the_scene_refuted",
    "C104_unwritten_reported_refuted",
    "C104_empty_line_throws",
    "C104_other_dimension_no_ends"
   ],
   "note": ""
  },
  {
   "property": "C105",
   "status": "proved",
   "theorems": [
    "C105_planar_endings",
    "C105_spatial_endings",
    "C105_planar_last_writer",
    "C105_spatial_last_writer",
    "C105_success_forgets",
    "C105_failure_keeps_the_scene_refuted",
    "C105_spatial_failure_keeps_the_scene_refuted",
    "C105_points_per_shape",
    "C105_spatial_points_per_shape"
   ],
   "note": ""
  },
  {
   "property": "C106",
   "status": "proved",
   "theorems": [
    "C106_planar_history",
    "C106_spatial_history",
    "C106_returns_as_once",
    "C106_failed_count_keeps_limits",
    "C106_failed_spatial_count_keeps_limits",
    "C106_no_limits_nothing_changes",
    "C106_count_fits_the_scene_refuted"
   ],
   "note": ""
  }
 ]
}