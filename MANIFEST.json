{
 "claims": [
  {
   "property": "C01",
   "status": "proved",
   "theorems": [
    "C01_heap_is_priority_queue",
    "C01_heap_is_priority_queue_f64",
    "C01_peek_is_next_pop"
   ],
   "note": "refinement to a handle->entry map over every call history"
  },
  {
   "property": "C02",
   "status": "proved",
   "theorems": [
    "C01_heap_is_priority_queue",
    "C02_heap_keeps_entries_unordered"
   ],
   "note": "set/handles are part of the refinement"
  },
  {
   "property": "C03",
   "status": "proved",
   "theorems": [
    "C03_heap_memory_safe",
    "C03_heap_lifetime_bound_refuted"
   ],
   "note": ""
  },
  {
   "property": "C04",
   "status": "proved",
   "theorems": [
    "C04_heap_drain_sorts"
   ],
   "note": ""
  },
  {
   "property": "C05",
   "status": "proved",
   "theorems": [
    "C05_self_test_transparent"
   ],
   "note": ""
  },
  {
   "property": "C06",
   "status": "proved",
   "theorems": [
    "C06_mesh_construction_succeeds",
    "C06_mesh_sizes",
    "C06_mesh_numbering_bijection",
    "C06_element_centres"
   ],
   "note": ""
  },
  {
   "property": "C07",
   "status": "proved",
   "theorems": [
    "C07_mesh_neighbours",
    "C07_marker_is_no_node",
    "C07_zero_width_refuted"
   ],
   "note": ""
  },
  {
   "property": "C08",
   "status": "proved",
   "theorems": [
    "C08_element_corners",
    "C08_incidence_agrees"
   ],
   "note": ""
  },
  {
   "property": "C09",
   "status": "proved",
   "theorems": [
    "C09_domain_flag",
    "C09_fresh_flags"
   ],
   "note": ""
  },
  {
   "property": "C10",
   "status": "proved",
   "theorems": [
    "C10_getElement_contains_point"
   ],
   "note": "over real coordinates"
  },
  {
   "property": "C11",
   "status": "proved",
   "theorems": [
    "C11_getClosestNode_nearest",
    "C11_beyond_width_refuted"
   ],
   "note": "over real coordinates"
  },
  {
   "property": "C12",
   "status": "proved",
   "theorems": [
    "C12_built_meshes_qualify",
    "C12_march_safe_and_total",
    "C12_self_test_passes",
    "C12_second_march_on_same_object_refuted"
   ],
   "note": "Any arithmetic. The refuted theorem shows the claim cannot be extended to re-using one object."
  },
  {
   "property": "C13",
   "status": "proved",
   "theorems": [
    "C13_contour_nodes_unchanged",
    "C13_front_nodes_get_contour_distance"
   ],
   "note": "First in any arithmetic, second in exact arithmetic."
  },
  {
   "property": "C14",
   "status": "partial",
   "theorems": [
    "C14_signs_kept_if_result_has_no_jump_partial",
    "C14_sign_flip_refuted",
    "C14_tiny_value_refuted"
   ],
   "note": "Proved in exact arithmetic: signs are kept whenever the result has no jump of magnitude above 1 between adjacent nodes. Without that proviso the claim is false of the code: C14_sign_flip_refuted gives a double field where a node with value 64 comes out below -0.4."
  },
  {
   "property": "C15",
   "status": "proved",
   "theorems": [
    "C15_velocity_extension_frame"
   ],
   "note": "Any arithmetic; the Exit outcome is the code's own divide-by-zero or no-front error."
  },
  {
   "property": "C16",
   "status": "proved",
   "theorems": [
    "C16_extended_velocities_in_range"
   ],
   "note": "Exact arithmetic."
  },
  {
   "property": "C17",
   "status": "proved",
   "theorems": [
    "C17_vertical_line_exact",
    "C17_horizontal_line_exact"
   ],
   "note": "Exact arithmetic."
  },
  {
   "property": "C18",
   "status": "proved",
   "theorems": [
    "C18_invalid_parameters_exit",
    "C18_valid_parameters_accepted"
   ],
   "note": "All six constructors reject; the holes constructor accepts. Any arithmetic in which 32-bit integers are exact (doubles and reals)."
  },
  {
   "property": "C19",
   "status": "proved",
   "theorems": [
    "C19_band_after_construction",
    "C19_band_after_reinitialisation",
    "C19_band_between_reinitialisations"
   ],
   "note": "After construction, reinitialise, update that reinitialises, and mask; between reinitialisations the band is unchanged and equals the set of active nodes."
  },
  {
   "property": "C20",
   "status": "proved",
   "theorems": [
    "C20_mines_after_reinitialisation",
    "C20_update_reports_mines",
    "C20_flag_isMine_outdated_refuted"
   ],
   "note": "The list of mines and the report of update. The per-node flag isMine is not kept up to date (refuted)."
  },
  {
   "property": "C21",
   "status": "proved",
   "theorems": [
    "C21_update_moves_only_the_band",
    "C21_border_stays_outside"
   ],
   "note": "Frame in any arithmetic; sign of border nodes over the reals."
  },
  {
   "property": "C22",
   "status": "partial",
   "theorems": [
    "C22_masked_nodes_frozen_between_reinitialisations_partial",
    "C22_masks_are_permanent_partial",
    "C22_reinitialised_masks_stay_outside_partial",
    "C22_masked_node_joins_structure_refuted"
   ],
   "note": "Proved: masks are permanent and never active; values are frozen between reinitialisations; a reinitialisation keeps masked nodes negative if its result has no jump. The unconditional claim is false: C22_masked_node_joins_structure_refuted."
  },
  {
   "property": "C23",
   "status": "proved",
   "theorems": [
    "C23_initial_field_is_nearest_feature",
    "C23_order_and_repetition_of_holes_irrelevant"
   ],
   "note": "Exact arithmetic."
  },
  {
   "property": "C24",
   "status": "proved",
   "theorems": [
    "C24_mask_circles",
    "C24_mask_rectangle",
    "C24_mask_is_set_like",
    "C24_small_polygons_refuted"
   ],
   "note": "Circles and rectangles. Polygons: the inside test itself is wrong for small polygons (refuted)."
  },
  {
   "property": "C25",
   "status": "proved",
   "theorems": [
    "C25_gradients_safe_zero_outside_nonneg_inside",
    "C25_gradient_values",
    "C25_small_meshes_refuted"
   ],
   "note": "Any arithmetic with signs of square roots as in IEEE and R; refuted for width or height 3."
  },
  {
   "property": "C26",
   "status": "proved",
   "theorems": [
    "C26_affine_gradient_exact"
   ],
   "note": "Exact arithmetic, all nodes."
  },
  {
   "property": "C27",
   "status": "proved",
   "theorems": [
    "C27_weno_is_convex_combination",
    "C27_weno_within_candidates",
    "C27_weno_exact_on_constant_and_linear"
   ],
   "note": "Exact arithmetic; also exact for linear differences."
  },
  {
   "property": "C28",
   "status": "proved",
   "theorems": [
    "C28_total_of_the_elements",
    "C28_areas_of_the_elements",
    "C28_areas_with_nodes_on_the_contour"
   ],
   "note": "Total, INSIDE and OUTSIDE elements for every boundary and number type; areas of cut elements, their range and the range of the total in exact arithmetic, also with nodes on the contour, under the conditions in which discretise is shown to succeed (C35)."
  },
  {
   "property": "C29",
   "status": "proved",
   "theorems": [
    "C29_distance_to_segment",
    "C29_short_segments_within_a_thousandth"
   ],
   "note": "Exact arithmetic."
  },
  {
   "property": "C30",
   "status": "proved",
   "theorems": [
    "C30_velocities_next_to_boundary",
    "C30_velocities_in_range",
    "C30_masked_front_refuted"
   ],
   "note": "Exact arithmetic. The proviso of the range theorem is needed: C30_masked_front_refuted shows the un-normalised sums of masked nodes leaking into the band."
  },
  {
   "property": "C31",
   "status": "proved",
   "theorems": [
    "C31_node_status",
    "C31_element_status",
    "C31_rest_unchanged"
   ],
   "note": "Any arithmetic. CENTRE_* statuses are shown to occur only for alternating corners; that they do occur whenever all four edges are visible belongs to C35."
  },
  {
   "property": "C32",
   "status": "proved",
   "theorems": [
    "C32_points_on_contour"
   ],
   "note": "Exact arithmetic, every completed run."
  },
  {
   "property": "C33",
   "status": "proved",
   "theorems": [
    "C33_segments_well_formed",
    "C33_segments_in_elements",
    "C51_points_know_their_segments"
   ],
   "note": "Exact arithmetic; the link with the element's own list is C51."
  },
  {
   "property": "C34",
   "status": "proved",
   "theorems": [
    "C34_length_by_segments",
    "C34_length_by_points"
   ],
   "note": "Exact arithmetic."
  },
  {
   "property": "C35",
   "status": "proved",
   "theorems": [
    "C35_closed_curves",
    "C35_segments_of_an_element",
    "C35_built_by_the_element_rules",
    "C35_nodes_on_contour_refuted",
    "C35_balanced_saddle_refuted"
   ],
   "note": "Exact arithmetic. C35_built_by_the_element_rules also covers nodes on the contour, in terms of the element rules of BoundaryGraph.v. The two _refuted theorems (f64) show that the hypotheses are needed: nodes on the contour can cause an out-of-bounds write, and a saddle whose corner values add up to zero gets segments and status that disagree."
  },
  {
   "property": "C36",
   "status": "proved",
   "theorems": [
    "C36_move_limits_and_flags"
   ],
   "note": "Exact arithmetic."
  },
  {
   "property": "C37",
   "status": "proved",
   "theorems": [
    "C37_only_normals_change",
    "C37_normals_are_gathered",
    "C37_unit_normals",
    "C37_normals_of_a_plane",
    "C37_border_normals_refuted"
   ],
   "note": "Generic: only normals change and the call returns. R: the normal is the gathered gradient direction, unit length off the border, the exact unit gradient on a plane. Border points are not normalised (refuted)."
  },
  {
   "property": "C38",
   "status": "proved",
   "theorems": [
    "C38_displacements_within_the_limits",
    "C38_discretised_points_qualify",
    "C38_far_side_limit_refuted"
   ],
   "note": "Exact arithmetic, every behaviour of NLopt; needs negative limits of border points in [-limit, 0], which the points made by discretise have; without that it is refuted in doubles."
  },
  {
   "property": "C39",
   "status": "proved",
   "theorems": [
    "C39_velocities_reproduce_the_displacements"
   ],
   "note": "Exact arithmetic, every behaviour of NLopt."
  },
  {
   "property": "C40",
   "status": "proved",
   "theorems": [
    "C40_value_is_the_change_of_the_objective",
    "C40_rescaled_side_limit_refuted"
   ],
   "note": "Exact arithmetic; NLopt is assumed to report the objective at the multipliers it returns; refuted in doubles when a border point is held at its limit and another point is scaled back."
  },
  {
   "property": "C41",
   "status": "proved",
   "theorems": [
    "C41_constraints_kept",
    "C41_largest_change_exists",
    "C41_all_or_none",
    "C41_some_dropped_never_returns",
    "C41_dropping_some_constraints_refuted",
    "C41_solve_returns",
    "C41_solve_ends",
    "C41_single_constraint",
    "C41_exception_at_first_attempt_refuted"
   ],
   "note": "Exact arithmetic, no moving border point, every function has a non-zero sensitivity. Dropping some but not all constraints is shown to be undefined behaviour; keeping all or dropping all is shown to return."
  },
  {
   "property": "C42",
   "status": "proved",
   "theorems": [
    "C42_value_of_the_callback",
    "C42_gradient_of_the_callback"
   ],
   "note": "Exact arithmetic."
  },
  {
   "property": "C43",
   "status": "proved",
   "theorems": [
    "C43_two_calls_and_the_point_restored",
    "C43_returns",
    "C43_exact_on_quadratics"
   ],
   "note": "Generic in the number type and the callback; exactness on quadratics (and the cubic error) over R."
  },
  {
   "property": "C44",
   "status": "proved",
   "theorems": [
    "C44_zero_temperature",
    "C44_only_the_first_sensitivity",
    "C44_correction",
    "C44_sign",
    "C44_returns_after_discretise",
    "C44_no_sensitivity_refuted"
   ],
   "note": "Needs one sensitivity per point (without: out of bounds, refuted). The overload with a level set also renews the normals."
  },
  {
   "property": "C45",
   "status": "proved",
   "theorems": [
    "C45_binary_round_trip",
    "C45_any_file",
    "C45_no_file"
   ],
   "note": "On IEEE doubles with NaN payloads; also what any other file content does."
  },
  {
   "property": "C46",
   "status": "proved",
   "theorems": [
    "C46_text_round_trip",
    "C46_line_count_checked",
    "C46_lines_are_newlines",
    "C46_loaded_level_sets_are_sound",
    "C46_other_flag_refuted",
    "C46_infinite_value_refuted"
   ],
   "note": "Same flag and finite values; both conditions are shown to be needed. printf and strtod are modelled as correctly rounded."
  },
  {
   "property": "C47",
   "status": "proved",
   "theorems": [
    "C47_names_are_distinct",
    "C47_four_digits",
    "C47_other_files_kept"
   ],
   "note": ""
  },
  {
   "property": "C48",
   "status": "proved",
   "theorems": [
    "C48_reseeding_reproduces",
    "C48_reseeding_with_normal",
    "C48_default_normal_refuted",
    "C48_getSeed",
    "C48_returns"
   ],
   "note": "The engine and the distributions are any functions; the default normal distribution keeps a number over setSeed (refuted part of the property)."
  },
  {
   "property": "C49",
   "status": "proved",
   "theorems": [
    "C49_every_history_is_safe",
    "C49_empty_point_list_refuted"
   ],
   "note": "Any arithmetic. Points passed to computeVelocities must have a closest node in the mesh. Empty point lists are not detected (refuted)."
  },
  {
   "property": "C50",
   "status": "proved",
   "theorems": [
    "C50_settings_never_change",
    "C50_target_only_written_by_caller"
   ],
   "note": "Any arithmetic."
  },
  {
   "property": "C51",
   "status": "proved",
   "theorems": [
    "C51_points_know_their_segments"
   ],
   "note": "Any arithmetic."
  },
  {
   "property": "C52",
   "status": "proved",
   "theorems": [
    "C52_level_set_txt",
    "C52_level_set_vtk",
    "C52_areas_txt",
    "C52_areas_vtk",
    "C52_boundary_points",
    "C52_boundary_segments",
    "C52_vtk_flags_of_a_data_point_refuted"
   ],
   "note": "File contents in IOSpec. saveLevelSetVTK with a data point drops its flags (refuted)."
  },
  {
   "property": "C53",
   "status": "proved",
   "theorems": [
    "C53_attempts_until_success",
    "C53_no_success_no_result"
   ],
   "note": "Any arithmetic. That an exception in the first attempt is undefined behaviour is C41_exception_at_first_attempt_refuted."
  },
  {
   "property": "C54",
   "status": "proved",
   "theorems": [
    "C54_noise_keeps_the_move_limit"
   ],
   "note": "exact arithmetic"
  },
  {
   "property": "C55",
   "status": "proved",
   "theorems": [
    "C55_a_step_stays_within_the_move_limit",
    "C55_reinitialise_covers_the_boundary"
   ],
   "note": "exact arithmetic; composes discretise, solve, computeVelocities, computeGradients and update; second theorem: reinitialise establishes the covering hypothesis under the no-jump condition of C14"
  },
  {
   "property": "C56",
   "status": "proved",
   "theorems": [
    "C56_constructors_mask_nothing",
    "C56_targets_are_independent",
    "C56_targets_accepted"
   ],
   "note": "any arithmetic"
  },
  {
   "property": "C57",
   "status": "proved",
   "theorems": [
    "C57_future_depends_on_visible_state"
   ],
   "note": "Any arithmetic. Shown state: the four fields, band, mines, masks, parameters; the flag isMine, which nothing reads, and the stale part of the arrays are not shown."
  },
  {
   "property": "C58",
   "status": "proved",
   "theorems": [
    "C58_restart_with_written_fields",
    "C58_restart_with_computed_fields"
   ],
   "note": "Any arithmetic; reinitialise, then fields written by the program or computed."
  },
  {
   "property": "C59",
   "status": "partial",
   "theorems": [
    "C59_match_sensitivities_partial",
    "C59_sensitivity_between_partial",
    "C59_inner_shapes",
    "C59_sensitivity_at_border_refuted",
    "C59_match_sensitivities_refuted"
   ],
   "note": "Proved for boundaries further than half a cell from the border (enough: nodes in the two outer layers outside the shape); missing: points whose closest node is on the border, where the code reads outside its arrays (refuted, also by a concrete run in doubles)."
  },
  {
   "property": "C60",
   "status": "proved",
   "theorems": [
    "C60_mismatch_is_distance",
    "C60_mismatch_triangle",
    "C60_target_areas",
    "C60_mismatch_short"
   ],
   "note": "exact arithmetic"
  },
  {
   "property": "C61",
   "status": "proved",
   "theorems": [
    "C61_weighted_perimeter",
    "C61_weights",
    "C61_mean_weight",
    "C61_unreduced"
   ],
   "note": "exact arithmetic"
  },
  {
   "property": "C62",
   "status": "proved",
   "theorems": [
    "C62_centre_in_box",
    "C62_centre_in_domain",
    "C62_centre_moves"
   ],
   "note": "exact arithmetic"
  },
  {
   "property": "C63",
   "status": "proved",
   "theorems": [
    "C63_accepted_iff",
    "C63_downhill",
    "C63_detailed_balance",
    "C63_trial_decision"
   ],
   "note": "exact arithmetic; the draw is a parameter"
  },
  {
   "property": "C64",
   "status": "proved",
   "theorems": [
    "C64_reinitialisation_cadence",
    "C64_turn_moves_the_field",
    "C64_loop_history",
    "C64_first_reinitialisation_refuted"
   ],
   "note": "any arithmetic; C64_first_reinitialisation_refuted shows the comment in the source (every 20) is off by one at the start"
  },
  {
   "property": "C65",
   "status": "proved",
   "theorems": [
    "C65_samples_due",
    "C65_samples_on_schedule",
    "C65_sampling_ends"
   ],
   "note": "any arithmetic with ordered due times, and exact arithmetic without that hypothesis"
  },
  {
   "property": "C66",
   "status": "proved",
   "theorems": [
    "C66_trials_ledger",
    "C66_last_accepted",
    "C66_rejection_restarts",
    "C66_trials_keep_setup",
    "C66_first_position_refuted"
   ],
   "note": "any arithmetic; C66_first_position_refuted: the position before the first accepted trial is not relative to the middle"
  },
  {
   "property": "C67",
   "status": "proved",
   "theorems": [
    "C67_area_turn",
    "C67_first_area_turn",
    "C67_area_turn_general"
   ],
   "note": "exact arithmetic; ends with the discretisation of a reachable level set, which C35 describes"
  },
  {
   "property": "C68",
   "status": "proved",
   "theorems": [
    "C68_shape_match_uncorrected"
   ],
   "note": "exact arithmetic"
  },
  {
   "property": "C69",
   "status": "proved",
   "theorems": [
    "C69_perimeter_sensitivities",
    "C69_constrained_sensitivities",
    "C69_weighted_sensitivities",
    "C69_areas",
    "C69_area_distance",
    "C69_mismatch_distance",
    "C69_normals"
   ],
   "note": "exact arithmetic"
  },
  {
   "property": "C70",
   "status": "proved",
   "theorems": [
    "C70_boundary_of_a_shape",
    "C70_minimise_area",
    "C70_minimise_perimeter",
    "C70_minimise_perimeter_constrained",
    "C70_shape_match",
    "C70_weighted_programs",
    "C70_states_of_a_run",
    "C70_measures_keep_the_field"
   ],
   "note": "exact arithmetic; the turn ends with the discretisation of a reachable level set, which C70_boundary_of_a_shape and C35 describe"
  },
  {
   "property": "C71",
   "status": "proved",
   "theorems": [
    "C71_minimise_area",
    "C71_minimise_perimeter",
    "C71_mean_curvature",
    "C71_minimise_perimeter_constrained",
    "C71_shape_match",
    "C71_dumbbell",
    "C71_bimodal",
    "C71_brolly",
    "C71_one_shape_refuted"
   ],
   "note": "C71_one_shape_refuted: length and mismatch of a dumbbell sample need not belong to one shape"
  },
  {
   "property": "C72",
   "status": "proved",
   "theorems": [
    "C72_configuration_is_read",
    "C72_every_configuration",
    "C72_dumbbell_from_file",
    "C72_value_of_a_word",
    "C72_shape_is_read",
    "C72_every_shape_file",
    "C72_saved_level_set_as_configuration_refuted"
   ],
   "note": "C72_configuration_is_read and C72_shape_is_read for texts of numbers, C72_every_configuration and C72_every_shape_file for any text; the out-of-bounds cases are in the first and in C72_saved_level_set_as_configuration_refuted."
  },
  {
   "property": "C73",
   "status": "proved",
   "theorems": [
    "C73_options",
    "C73_every_command_line",
    "C73_documented_spelling_refuted"
   ],
   "note": "Every command line is covered; the documented spelling is rejected."
  },
  {
   "property": "C74",
   "status": "proved",
   "theorems": [
    "C74_target_areas",
    "C74_restart_from_file",
    "C74_start_is_reached",
    "C74_position_refuted"
   ],
   "note": "For any start reached by the constructors, in particular the program's (C74_start_is_reached); C74_position_refuted is a run in doubles on a 4 by 4 mesh."
  },
  {
   "property": "C75",
   "status": "proved",
   "theorems": [
    "C75_discs",
    "C75_square_R",
    "C75_square_f64",
    "C75_bimodal",
    "C75_dumbbell",
    "C75_weights",
    "C75_mismatch_allowed"
   ],
   "note": "Shapes node by node; the weights satisfy the condition C60 assumes."
  },
  {
   "property": "C76",
   "status": "partial",
   "theorems": [
    "C76_whole_polygon_level_set",
    "C76_polygon_level_set",
    "C76_polygon_mask",
    "C76_inside_whole_polygons",
    "C76_inside_partial",
    "C76_small_polygons_are_missed",
    "C76_inside_refuted",
    "C76_shape_match",
    "C76_no_points_refuted",
    "C76_far_corners_refuted"
   ],
   "note": "Level sets, masks and safety are proved for every polygon in terms of the inside test, and end to end for corners on whole numbers. For other corners a node is lost if an edge and the node span an area below 1/2 (C76_inside_refuted); C76_inside_partial excludes these."
  },
  {
   "property": "C77",
   "status": "proved",
   "theorems": [
    "C77_units_do_not_matter"
   ],
   "note": "Two runs of the whole solve model side by side. The external optimiser is assumed to go by the problem it is given; exact arithmetic."
  },
  {
   "property": "C78",
   "status": "proved",
   "theorems": [
    "C78_more_material_more_area",
    "C78_complement",
    "C78_complement_refuted",
    "C78_only_the_contour_counts"
   ],
   "note": "For pairs of level sets for which the areas are known (C28). The exception is necessary: a balanced saddle and its complement both have area 1/4."
  },
  {
   "property": "C79",
   "status": "proved",
   "theorems": [
    "C79_no_values_break_solve",
    "C79_no_sensitivity_refuted"
   ],
   "note": "Any number type; the loops may not end. What happens when some but not all constraints are dropped is C41_dropping_some_constraints_refuted."
  },
  {
   "property": "C80",
   "status": "proved",
   "theorems": [
    "C80_opposite_distances",
    "C80_opposite_velocities",
    "C80_same_motion",
    "C80_same_boundary"
   ],
   "note": "Exact arithmetic. Where the extended velocity is zero the gradients of the two may differ (it is the upwind direction that is chosen by the sign of the velocity), which does not move the boundary."
  },
  {
   "property": "C81",
   "status": "proved",
   "theorems": [
    "C81_same_boundary",
    "C81_same_normals",
    "C81_same_areas",
    "C81_same_distances"
   ],
   "note": "Exact arithmetic. The 1e-6 tolerance for nodes on the contour is absolute, hence the hypothesis same_nodes. Nodes away from the contour are not claimed: where the quadratic of the marching method has no two roots it keeps the old value, which does depend on the factor."
  },
  {
   "property": "C82",
   "status": "proved",
   "theorems": [
    "C82_areas_of_the_last_boundary",
    "C82_areas_before_discretise"
   ],
   "note": "Any arithmetic. The areas depend on node and element status, corners and segments, which only discretise writes."
  },
  {
   "property": "C83",
   "status": "proved",
   "theorems": [
    "C83_mirrored_areas",
    "C83_upside_down_areas",
    "C83_transposed_areas",
    "C83_length_of_values",
    "C83_mirrored_length",
    "C83_upside_down_length",
    "C83_transposed_length",
    "C83_balanced_saddle_refuted"
   ],
   "note": "Exact arithmetic, no node on the contour. C83_length_of_values gives the boundary length as an explicit function of the nodal values."
  },
  {
   "property": "C84",
   "status": "proved",
   "theorems": [
    "C84_moved_areas",
    "C84_moved_length"
   ],
   "note": "Exact arithmetic, no node on the contour."
  },
  {
   "property": "C85",
   "status": "proved",
   "theorems": [
    "C85_order_of_points",
    "C85_rounding_refuted"
   ],
   "note": "Exact arithmetic; C85_rounding_refuted shows that doubles may give another value."
  },
  {
   "property": "C86",
   "status": "proved",
   "theorems": [
    "C86_areas_add",
    "C86_lengths_add"
   ],
   "note": "Exact arithmetic, no node on the contour."
  },
  {
   "property": "C87",
   "status": "proved",
   "theorems": [
    "C87_extreme_areas",
    "C87_no_boundary"
   ],
   "note": "Exact arithmetic, no node on the contour."
  },
  {
   "property": "C88",
   "status": "partial",
   "theorems": [
    "C88_use_again_partial",
    "C88_leftovers_partial",
    "C88_fixed_refuted",
    "C88_dropped_refuted"
   ],
   "note": "The full claim is false of the code. (1) displacements is resized but not cleared, so a point that became fixed where a free one was keeps the old displacement and gets a velocity (C88_fixed_refuted). (2) nConstraints is not reset, so a constraint dropped as out of reach in one call is ignored in later ones (C88_dropped_refuted). Proved for every history without constraints in which no position changes from free to fixed (C88_use_again_partial), and with constraints for any object that still has all of them (C88_leftovers_partial). NLopt's first call of each solve must not throw."
  }
 ]
}