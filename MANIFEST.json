{
 "claims": [
  {
   "property": "C01",
   "status": "proved",
   "theorems": [
    "C01_dedup_first_occurrences"
   ],
   "note": ""
  },
  {
   "property": "C02",
   "status": "proved",
   "theorems": [
    "C02_wrap_normalises",
    "C02_wrap_idempotent"
   ],
   "note": ""
  },
  {
   "property": "C03",
   "status": "proved",
   "theorems": [
    "C03_separation_sound"
   ],
   "note": ""
  },
  {
   "property": "C04",
   "status": "partial",
   "theorems": [
    "C04_opposite_angle_partial",
    "C04_corners_partial",
    "C04_corner_points",
    "C04_refuted"
   ],
   "note": "the test turns the point the wrong way; refuted by a 3-4-5 rotation, true for the opposite angle and for unturned rectangles"
  },
  {
   "property": "C05",
   "status": "partial",
   "theorems": [
    "C05_no_behaviour_lost_partial",
    "C05_same_value_in_both_branches_refuted",
    "C05_unconditional_assignment_refuted"
   ],
   "note": "false for a value assigned equally in both branches and for assignments outside of ifs"
  },
  {
   "property": "C06",
   "status": "partial",
   "theorems": [
    "C06_path_is_executed_partial",
    "C06_refuted"
   ],
   "note": "same restriction to tidy programs"
  },
  {
   "property": "C07",
   "status": "partial",
   "theorems": [
    "C07_violated_fails_partial",
    "C07_failed_is_violated_partial",
    "C07_refuted"
   ],
   "note": "same restriction to tidy programs"
  },
  {
   "property": "C08",
   "status": "partial",
   "theorems": [
    "C08_helper_value_partial",
    "C08_early_return_refuted"
   ],
   "note": "false for early returns: the value is that of the last return"
  },
  {
   "property": "C09",
   "status": "proved",
   "theorems": [
    "C09_chain",
    "C09_filter"
   ],
   "note": ""
  },
  {
   "property": "C10",
   "status": "partial",
   "theorems": [
    "C10_box_exact",
    "C10_box_sure",
    "C10_unknown_refuted"
   ],
   "note": "an unknown answer counts as unsatisfiable (refuted)"
  },
  {
   "property": "C11",
   "status": "proved",
   "theorems": [
    "C11_disc_preserves"
   ],
   "note": ""
  },
  {
   "property": "C12",
   "status": "proved",
   "theorems": [
    "C12_unroll_preserves",
    "C12_unroll_reduction",
    "C12_no_agents"
   ],
   "note": ""
  },
  {
   "property": "C13",
   "status": "partial",
   "theorems": [
    "C13_guard_over",
    "C13_position_longitudinal",
    "C13_position_lateral",
    "C13_position",
    "C13_lateral_interval",
    "C13_longitudinal_interval_partial",
    "C13_lane_interval_partial",
    "C13_corners_refuted",
    "C13_circular_refuted",
    "C13_straight_map_partial"
   ],
   "note": "false when the two corners of the box are on one segment and other points of it on another, and on circular segments at the branch cut"
  },
  {
   "property": "C14",
   "status": "partial",
   "theorems": [
    "C14_view_partial",
    "C14_rows",
    "C14_columns",
    "C14_mixed_refuted"
   ],
   "note": "false when an agent has fewer variables than the type declares"
  },
  {
   "property": "C15",
   "status": "partial",
   "theorems": [
    "C15_reported_partial",
    "C15_path_condition_refuted",
    "C15_rejected_transitions_refuted"
   ],
   "note": "false when the path condition holds on a part of the box only, and when the map rejects all hits"
  },
  {
   "property": "C16",
   "status": "proved",
   "theorems": [
    "C16_assert_report",
    "C16_transitions",
    "C16_defined",
    "C16_no_violation_missed"
   ],
   "note": ""
  },
  {
   "property": "C17",
   "status": "proved",
   "theorems": [
    "C17_multiaffine_exact",
    "C17_each_once_multiaffine",
    "C17_apply_reset_box"
   ],
   "note": ""
  },
  {
   "property": "C18",
   "status": "partial",
   "theorems": [
    "C18_axis_between_partial",
    "C18_square_refuted"
   ],
   "note": "false for a square"
  },
  {
   "property": "C19",
   "status": "partial",
   "theorems": [
    "C19_substitution_partial",
    "C19_prefix_names_refuted",
    "C19_negative_power_refuted"
   ],
   "note": "false when a name is inside another one and for powers of negative values"
  },
  {
   "property": "C20",
   "status": "proved",
   "theorems": [
    "C20_tubes",
    "C20_children",
    "C20_assertion"
   ],
   "note": ""
  },
  {
   "property": "C21",
   "status": "partial",
   "theorems": [
    "C21_tube_covers_starts_partial",
    "C21_tube_tight_partial",
    "C21_tube_covers_shifted_partial",
    "C21_combined_segments_refuted"
   ],
   "note": "proved for one initial set per segment; for longer segments only up to L-1 rows early, and the exact claim is refuted"
  },
  {
   "property": "C22",
   "status": "partial",
   "theorems": [
    "C22_covered_partial",
    "C22_run",
    "C22_scenarios_sound",
    "C22_gap_refuted",
    "C22_late_entry_refuted",
    "C22_variables_refuted"
   ],
   "note": "needs: sound tubes, guards and resets, one variable per agent, a map that permits the destinations, hits without gaps, no certain guard before all starts have entered, aligned hits. Each is shown necessary by a refutation"
  },
  {
   "property": "C23",
   "status": "proved",
   "theorems": [
    "C23_combine_rect_hull",
    "C23_combine_all_hull",
    "C23_union_traces_hull",
    "C23_hull_contains_states",
    "C23_empty_rejected"
   ],
   "note": ""
  },
  {
   "property": "C24",
   "status": "proved",
   "theorems": [
    "C24_partition_covers",
    "C24_partition_pieces"
   ],
   "note": ""
  },
  {
   "property": "C25",
   "status": "partial",
   "theorems": [
    "C25_first_index_partial",
    "C25_single_index_partial",
    "C25_tubes",
    "C25_cut",
    "C25_assertion",
    "C25_later_indices_refuted",
    "C25_other_paths_refuted"
   ],
   "note": "only the first index of a transition and one path combination are used; refuted for the others"
  },
  {
   "property": "C26",
   "status": "partial",
   "theorems": [
    "C26_partitioned_no_children",
    "C26_no_violation_partial",
    "C26_always_fails",
    "C26_unsafe_continue_refuted"
   ],
   "note": "unsafe_continue with a violation raises; refuted by one node"
  },
  {
   "property": "C27",
   "status": "proved",
   "theorems": [
    "C27_ids_unique",
    "C27_each_processed_once"
   ],
   "note": ""
  },
  {
   "property": "C28",
   "status": "proved",
   "theorems": [
    "C28_tree_is_unfolding",
    "C28_order_independent"
   ],
   "note": ""
  },
  {
   "property": "C29",
   "status": "proved",
   "theorems": [
    "C29_height",
    "C29_horizon",
    "C29_terminates",
    "C29_finite_by_height",
    "C29_finite_by_time"
   ],
   "note": ""
  },
  {
   "property": "C30",
   "status": "partial",
   "theorems": [
    "C30_verify_hits",
    "C30_verify_same",
    "C30_simulate_partial",
    "C30_simulate_refuted"
   ],
   "note": "false for parallel simulate: hits of remote workers are lost"
  },
  {
   "property": "C31",
   "status": "partial",
   "theorems": [
    "C31_first_event_partial",
    "C31_rejected_refuted",
    "C31_same_destination_refuted"
   ],
   "note": "a hit rejected by the map stops the scan; transitions with equal destination are merged (both refuted)"
  },
  {
   "property": "C32",
   "status": "proved",
   "theorems": [
    "C32_handover",
    "C32_moved_starts_at",
    "C32_glued",
    "C32_start_time"
   ],
   "note": ""
  },
  {
   "property": "C33",
   "status": "proved",
   "theorems": [
    "C33_verify_respects_map",
    "C33_verify_keeps_permitted",
    "C33_simulate_respects_map",
    "C33_simulate_keeps_permitted"
   ],
   "note": ""
  },
  {
   "property": "C34",
   "status": "partial",
   "theorems": [
    "C34_reported_partial",
    "C34_reports_sound",
    "C34_refuted"
   ],
   "note": "agents without paths are not checked (refuted)"
  },
  {
   "property": "C35",
   "status": "proved",
   "theorems": [
    "C35_nodes",
    "C35_leaves",
    "C35_height"
   ],
   "note": ""
  },
  {
   "property": "C36",
   "status": "partial",
   "theorems": [
    "C36_dump_load_partial",
    "C36_agents_refuted",
    "C36_simple_never_loads"
   ],
   "note": "agents come back as class descriptions; simulate_simple trees with a grandchild load forever (refuted)"
  },
  {
   "property": "C37",
   "status": "partial",
   "theorems": [
    "C37_reflexive_partial",
    "C37_refuted"
   ],
   "note": "false when a branch stops early"
  },
  {
   "property": "C38",
   "status": "partial",
   "theorems": [
    "C38_sound_partial",
    "C38_agents",
    "C38_equal_partial",
    "C38_dropped_refuted",
    "C38_joint_refuted",
    "C38_simulation_refuted"
   ],
   "note": "false for branches that stop early, for whole states and for simulation trees"
  },
  {
   "property": "C39",
   "status": "partial",
   "theorems": [
    "C39_first_partial",
    "C39_total",
    "C39_unbranched",
    "C39_refuted"
   ],
   "note": "breadth-first first is not earliest (refuted)"
  },
  {
   "property": "C40",
   "status": "proved",
   "theorems": [
    "C40_hit_contains",
    "C40_hit_covers"
   ],
   "note": ""
  },
  {
   "property": "C41",
   "status": "partial",
   "theorems": [
    "C41_found_partial",
    "C41_refuted"
   ],
   "note": "greedy descent misses entries (refuted)"
  },
  {
   "property": "C42",
   "status": "proved",
   "theorems": [
    "C42_hit_near",
    "C42_found",
    "C42_suits"
   ],
   "note": ""
  },
  {
   "property": "C43",
   "status": "partial",
   "theorems": [
    "C43_incremental_aligned_partial",
    "C43_partial_hit_refuted"
   ],
   "note": "false when the first initial set misses and a later one hits"
  },
  {
   "property": "C44",
   "status": "partial",
   "theorems": [
    "C44_long_enough_partial",
    "C44_refuted",
    "C44_times_refuted"
   ],
   "note": "horizon and step are not part of the key; simulation cache returns absolute times (refuted)"
  },
  {
   "property": "C45",
   "status": "partial",
   "theorems": [
    "C45_reuse_partial",
    "C45_unchecked_refuted",
    "C45_more_paths_refuted",
    "C45_stale_result_refuted"
   ],
   "note": "segments without transitions, additional paths, changed values (refuted)"
  },
  {
   "property": "C46",
   "status": "partial",
   "theorems": [
    "C46_initial_box",
    "C46_training_traces_partial",
    "C46_boundary_trace_refuted",
    "C46_small_box_refuted"
   ],
   "note": "traces from the outermost 1e-10th of the box, and boxes thinner than 2e-10 in discrete time (refuted)"
  },
  {
   "property": "C47",
   "status": "partial",
   "theorems": [
    "C47_mixed_monotone",
    "C47_optimised",
    "C47_local_optima_refuted",
    "C47_other_inits_refuted"
   ],
   "note": "minimiser that is only locally optimal and further initial sets (refuted)"
  },
  {
   "property": "C48",
   "status": "partial",
   "theorems": [
    "C48_center_partial",
    "C48_rectangles_partial",
    "C48_center_refuted",
    "C48_rectangles_refuted",
    "C48_box",
    "C48_polytope",
    "C48_affine_image",
    "C48_linear_tube",
    "C48_halfspace_partial",
    "C48_halfspace_refuted",
    "C48_rectangle"
   ],
   "note": "half-space intersection uses the basis untransposed, `get_true_center` and `overapprox_rectangles` are wrong for most stars (refuted)"
  },
  {
   "property": "C49",
   "status": "partial",
   "theorems": [
    "C49_contains_point",
    "C49_empty_partial",
    "C49_empty_refuted",
    "C49_satisfies_partial",
    "C49_satisfies_refuted"
   ],
   "note": "bounds alpha >= 0 (refuted)"
  },
  {
   "property": "C50",
   "status": "proved",
   "theorems": [
    "C50_combine"
   ],
   "note": ""
  },
  {
   "property": "C51",
   "status": "proved",
   "theorems": [
    "C51_straight_inverse",
    "C51_straight_ends",
    "C51_straight_isometry",
    "C51_circular_inverse",
    "C51_heading"
   ],
   "note": ""
  },
  {
   "property": "C52",
   "status": "partial",
   "theorems": [
    "C52_only_segment_partial",
    "C52_segment_chosen",
    "C52_refuted"
   ],
   "note": "smallest signed lateral distance (refuted)"
  },
  {
   "property": "C53",
   "status": "partial",
   "theorems": [
    "C53_starts",
    "C53_starts_stay",
    "C53_joints",
    "C53_shared_refuted"
   ],
   "note": "segment object shared between lanes (refuted)"
  },
  {
   "property": "C54",
   "status": "partial",
   "theorems": [
    "C54_symmetric_partial",
    "C54_lists_partial",
    "C54_pair_succeeds",
    "C54_failing_call_local",
    "C54_queries",
    "C54_failing_pair_refuted",
    "C54_readding_refuted"
   ],
   "note": "failing pairings, re-added lanes (refuted)"
  },
  {
   "property": "C55",
   "status": "partial",
   "theorems": [
    "C55_history",
    "C55_accepted_iff",
    "C55_rejected_unchanged",
    "C55_effect",
    "C55_add_agent",
    "C55_set_init",
    "C55_set_init_atomic_refuted",
    "C55_constructor_refuted"
   ],
   "note": "set_init not atomic; constructor not checked (refuted)"
  },
  {
   "property": "C56",
   "status": "proved",
   "theorems": [
    "C56_add_agent",
    "C56_set_map"
   ],
   "note": ""
  },
  {
   "property": "C57",
   "status": "partial",
   "theorems": [
    "C57_contains",
    "C57_reach",
    "C57_fixed_points",
    "C57_two_trees_refuted"
   ],
   "note": "two trees number modes independently (refuted)"
  },
  {
   "property": "C58",
   "status": "partial",
   "theorems": [
    "C58_condition_partial",
    "C58_chained_refuted",
    "C58_contains_partial",
    "C58_answers",
    "C58_argument_names_refuted",
    "C58_assignment_refuted"
   ],
   "note": "chained comparisons, argument names, statements before the if (refuted)"
  },
  {
   "property": "C59",
   "status": "partial",
   "theorems": [
    "C59_grid",
    "C59_quadrotor",
    "C59_agents",
    "C59_counts",
    "C59_horizon_refuted",
    "C59_rounding",
    "C59_states"
   ],
   "note": "row count for horizons that are not a multiple of the step (refuted across agents)"
  },
  {
   "property": "C60",
   "status": "partial",
   "theorems": [
    "C60_consecutive_partial",
    "C60_same_destination_refuted"
   ],
   "note": "several reset sets at one row, or rows without one (refuted)"
  },
  {
   "property": "C61",
   "status": "proved",
   "theorems": [
    "C61_near_split_bins",
    "C61_near_split_size"
   ],
   "note": ""
  },
  {
   "property": "C62",
   "status": "proved",
   "theorems": [
    "C62_lmap",
    "C62_constrain",
    "C62_not_zero"
   ],
   "note": ""
  },
  {
   "property": "C63",
   "status": "proved",
   "theorems": [
    "C63_index_of"
   ],
   "note": ""
  },
  {
   "property": "C64",
   "status": "partial",
   "theorems": [
    "C64_stored_tubes_only_grow_partial",
    "C64_lookup_mutates_cache_refuted"
   ],
   "note": "the array in the cache is the accumulator (refuted)"
  },
  {
   "property": "C65",
   "status": "proved",
   "theorems": [
    "C65_destinations_exact"
   ],
   "note": ""
  },
  {
   "property": "C66",
   "status": "proved",
   "theorems": [
    "C66_transitions_grouped"
   ],
   "note": ""
  },
  {
   "property": "C67",
   "status": "partial",
   "theorems": [
    "C67_intersect_right_partial",
    "C67_points",
    "C67_crossing_refuted"
   ],
   "note": "crossing rectangles are missed (refuted)"
  },
  {
   "property": "C68",
   "status": "proved",
   "theorems": [
    "C68_transitions_contain",
    "C68_transitions_found",
    "C68_suits"
   ],
   "note": ""
  },
  {
   "property": "C69",
   "status": "partial",
   "theorems": [
    "C69_tube",
    "C69_many_stars_refuted"
   ],
   "note": "more than 1000 stars (refuted)"
  },
  {
   "property": "C70",
   "status": "proved",
   "theorems": [
    "C70_fitted",
    "C70_generic_predicate"
   ],
   "note": ""
  },
  {
   "property": "C71",
   "status": "partial",
   "theorems": [
    "C71_highway",
    "C71_intersection",
    "C71_physical",
    "C71_longer_names_refuted"
   ],
   "note": "names with several digits (refuted)"
  },
  {
   "property": "C72",
   "status": "partial",
   "theorems": [
    "C72_parse_partial",
    "C72_mixed_refuted"
   ],
   "note": "special function inside a larger expression (refuted)"
  },
  {
   "property": "C73",
   "status": "partial",
   "theorems": [
    "C73_difference_partial",
    "C73_wide_refuted"
   ],
   "note": "differences whose bounds span more than a turn (refuted)"
  },
  {
   "property": "C74",
   "status": "partial",
   "theorems": [
    "C74_between_partial",
    "C74_tight",
    "C74_atan2_partial",
    "C74_to_origin_partial",
    "C74_same_refuted",
    "C74_edge_refuted",
    "C74_axis_refuted"
   ],
   "note": "same rectangle, origin on an edge, zero on an axis (refuted)"
  },
  {
   "property": "C75",
   "status": "partial",
   "theorems": [
    "C75_union_partial",
    "C75_wrapped_refuted",
    "C75_pieces_refuted"
   ],
   "note": "bounds that wrap, or several pieces of one sign (refuted)"
  },
  {
   "property": "C76",
   "status": "partial",
   "theorems": [
    "C76_error_exact",
    "C76_wide_refuted"
   ],
   "note": "eps >= pi (refuted)"
  },
  {
   "property": "C77",
   "status": "partial",
   "theorems": [
    "C77_history_partial",
    "C77_split_covers",
    "C77_same_name_refuted",
    "C77_options_refuted",
    "C77_several_refuted",
    "C77_keeps_refuted"
   ],
   "note": "variables with several intervals under splitting when the union loses values, as that of the code does (refuted); same-named functions and changed options (refuted)"
  },
  {
   "property": "C78",
   "status": "partial",
   "theorems": [
    "C78_kept",
    "C78_uncached",
    "C78_cleared",
    "C78_shape_refuted"
   ],
   "note": "first call returns a pair, later ones the bounds alone (refuted)"
  },
  {
   "property": "C79",
   "status": "partial",
   "theorems": [
    "C79_one_atan2_partial",
    "C79_one_minus_partial",
    "C79_one_minus_refuted",
    "C79_several_refuted",
    "C79_map",
    "C79_expression",
    "C79_atan2_partial",
    "C79_parse_partial"
   ],
   "note": "arguments with several intervals give wrong bounds for atan2 when y crosses 0, and minus_angular loses values when the intervals are together longer than half a turn (both refuted); angular and piecewise functions in whole functions (see C72-C75)"
  },
  {
   "property": "C80",
   "status": "proved",
   "theorems": [
    "C80_start",
    "C80_finish",
    "C80_histories"
   ],
   "note": "-"
  },
  {
   "property": "C81",
   "status": "partial",
   "theorems": [
    "C81_made",
    "C81_smooth",
    "C81_neighbours",
    "C81_starts_refuted"
   ],
   "note": "the longitudinal start stored in shared segments (refuted)"
  },
  {
   "property": "C82",
   "status": "partial",
   "theorems": [
    "C82_exist",
    "C82_histories",
    "C82_left",
    "C82_right",
    "C82_offered",
    "C82_neighbours",
    "C82_smooth",
    "C82_brake_refuted",
    "C82_double_partial",
    "C82_single_left_refuted",
    "C82_double_histories"
   ],
   "note": "a braking car on M1 can do nothing else; SwitchLeft on SimpleMap4Switch2 (refuted)"
  },
  {
   "property": "C83",
   "status": "partial",
   "theorems": [
    "C83_limits",
    "C83_limit_refuted",
    "C83_answers",
    "C83_turns",
    "C83_npc_turns_refuted",
    "C83_steers",
    "C83_npc_steers_partial",
    "C83_switch",
    "C83_switch2",
    "C83_bend_partial",
    "C83_trace",
    "C83_speed",
    "C83_others",
    "C83_dynamics"
   ],
   "note": "braking in mode Accel is not limited; NPCAgent and full turns (refuted); bends around the joints"
  },
  {
   "property": "C84",
   "status": "partial",
   "theorems": [
    "C84_on_lane_known",
    "C84_straight_coordinates",
    "C84_straight_cylinder",
    "C84_straight_back",
    "C84_straight_inverse_partial",
    "C84_straight_level",
    "C84_straight_inverse_refuted",
    "C84_on_lane_refuted"
   ],
   "note": "the angle is blurred for directions close to the plane y = 0 (refuted); on_lane and distance raise (refuted)"
  },
  {
   "property": "C85",
   "status": "partial",
   "theorems": [
    "C85_arc",
    "C85_closest",
    "C85_back",
    "C85_inverse_partial",
    "C85_inverse_refuted",
    "C85_upright_refuted"
   ],
   "note": "angles of lanes with right_rotate false are mirrored, and angles flip where a lane on an upright circle runs straight up (both refuted)"
  },
  {
   "property": "C86",
   "status": "partial",
   "theorems": [
    "C86_circle",
    "C86_angle_partial",
    "C86_angle_refuted",
    "C86_ends_partial",
    "C86_ends_refuted"
   ],
   "note": "angles other than left turns below pi and right turns of 3/2 pi, normals not of length 1 (both refuted)"
  },
  {
   "property": "C87",
   "status": "partial",
   "theorems": [
    "C87_segment",
    "C87_coordinates",
    "C87_starts",
    "C87_middle",
    "C87_single",
    "C87_altitude",
    "C87_monotone_refuted"
   ],
   "note": "the longitudinal position on M6 falls back at the crossing (refuted)"
  },
  {
   "property": "C88",
   "status": "proved",
   "theorems": [
    "C88_guard",
    "C88_history",
    "C88_independent",
    "C88_begin",
    "C88_straight",
    "C88_converge",
    "C88_turn"
   ],
   "note": "waypoints that raise; rounding of the angle while the lateral distance is not 0"
  },
  {
   "property": "C89",
   "status": "proved",
   "theorems": [
    "C89_loop",
    "C89_up",
    "C89_down",
    "C89_offered",
    "C89_histories",
    "C89_neighbours"
   ],
   "note": "-"
  },
  {
   "property": "C90",
   "status": "partial",
   "theorems": [
    "C90_capped",
    "C90_diameter",
    "C90_empty",
    "C90_wide_refuted",
    "C90_steps"
   ],
   "note": "stars wider than N/2 = 524287.5 in a coordinate (refuted)"
  },
  {
   "property": "C91",
   "status": "partial",
   "theorems": [
    "C91_cover",
    "C91_representable",
    "C91_tight",
    "C91_stable",
    "C91_zero",
    "C91_names_refuted",
    "C91_rounding_refuted"
   ],
   "note": "functions of the same name (refuted); bounds changed by the conversion to 32 bits (refuted)"
  },
  {
   "property": "C92",
   "status": "partial",
   "theorems": [
    "C92_atan2",
    "C92_atan2_refuted",
    "C92_norm"
   ],
   "note": "the axes and the strip left of the second axis (refuted)"
  },
  {
   "property": "C93",
   "status": "partial",
   "theorems": [
    "C93_view",
    "C93_stay",
    "C93_move",
    "C93_fail",
    "C93_members",
    "C93_static_refuted",
    "C93_shared_refuted",
    "C93_single_refuted",
    "C93_label_refuted"
   ],
   "note": "static variables, shared names of discrete variables, single other agents, assertions without a label (refuted)"
  },
  {
   "property": "C94",
   "status": "partial",
   "theorems": [
    "C94_chain",
    "C94_hits",
    "C94_assert_refuted"
   ],
   "note": "controllers without transitions (refuted)"
  },
  {
   "property": "C95",
   "status": "partial",
   "theorems": [
    "C95_height",
    "C95_nodes",
    "C95_time",
    "C95_zeno_refuted"
   ],
   "note": "controllers that are still enabled after their action (refuted)"
  },
  {
   "property": "C96",
   "status": "partial",
   "theorems": [
    "C96_exact_partial",
    "C96_linear",
    "C96_destinations",
    "C96_product_refuted",
    "C96_prefix_refuted",
    "C96_other_agent_refuted"
   ],
   "note": "products and powers of variables, names that begin with another, right-hand sides over other agents (refuted)"
  },
  {
   "property": "C97",
   "status": "partial",
   "theorems": [
    "C97_exact",
    "C97_sure",
    "C97_unknown_refuted",
    "C97_alpha_refuted",
    "C97_ego_name_refuted",
    "C97_lanes",
    "C97_lanes_same",
    "C97_order_refuted"
   ],
   "note": "queries left open, state variables named like coefficients, variables of others with \"ego\" in their names, other agents whose variables are not ordered like the ego's in guards with lane coordinates (refuted)"
  },
  {
   "property": "C98",
   "status": "proved",
   "theorems": [
    "C98_sensed",
    "C98_order"
   ],
   "note": "other agents not called others, single other agents"
  },
  {
   "property": "C99",
   "status": "proved",
   "theorems": [
    "C99_start",
    "C99_multi",
    "C99_seed",
    "C99_multi_seed",
    "C99_given",
    "C99_independent_refuted",
    "C99_single_point_refuted",
    "C99_given_outside_refuted"
   ],
   "note": "independence between agents under a seed, single points given to the constructor, given states outside the set (refuted)"
  },
  {
   "property": "C100",
   "status": "proved",
   "theorems": [
    "C100_refused",
    "C100_agent_set",
    "C100_verify",
    "C100_past",
    "C100_conditions_kept",
    "C100_verify_fill_refuted",
    "C100_stale_refuted"
   ],
   "note": "agents given their set after they were added cannot be verified before a simulation; an agent's own set_initial is ignored later (refuted)"
  },
  {
   "property": "C101",
   "status": "partial",
   "theorems": [
    "C101_outline",
    "C101_tube",
    "C101_agent",
    "C101_sound",
    "C101_combined_partial",
    "C101_range",
    "C101_labels",
    "C101_default",
    "C101_dot_refuted",
    "C101_outline_refuted",
    "C101_combined_refuted",
    "C101_level_refuted",
    "C101_hits_refuted",
    "C101_shared_figure_refuted",
    "C101_colours_refuted"
   ],
   "note": "grouped boxes only when they move right and down or left and up (refuted otherwise); nodes of one box are drawn as dots, violations not marked without labels, the default figure is shared between calls, two of nine agents have the same colours (refuted)"
  },
  {
   "property": "C102",
   "status": "proved",
   "theorems": [
    "C102_lines",
    "C102_unchanged",
    "C102_changed_refuted",
    "C102_hit_refuted",
    "C102_tube_refuted"
   ],
   "note": "rates above 1 change the caller's tree, misplace the marks of violations and keep only lower corners of tubes (refuted)"
  },
  {
   "property": "C103",
   "status": "partial",
   "theorems": [
    "C103_slice",
    "C103_outline_refuted",
    "C103_outline_never_refuted",
    "C103_group_refuted",
    "C103_still_refuted"
   ],
   "note": "combine_rect None raises, groups read the times of the first group, nodes standing still are always drawn (refuted)"
  },
  {
   "property": "C104",
   "status": "proved",
   "theorems": [
    "C104_frames",
    "C104_time",
    "C104_last",
    "C104_steps",
    "C104_range",
    "C104_one_frame_refuted",
    "C104_rounding_refuted",
    "C104_figure_refuted"
   ],
   "note": "one allowed frame shows only what is earliest; rounding shows boxes up to half a unit early; the figure passed is dropped (refuted)"
  },
  {
   "property": "C105",
   "status": "partial",
   "theorems": [
    "C105_frames_partial",
    "C105_order_refuted",
    "C105_first_boxes_refuted"
   ],
   "note": "the first four boxes of a node starting after time 0 are left out, and the order of frames is the order of insertion (refuted)"
  },
  {
   "property": "C106",
   "status": "proved",
   "theorems": [
    "C106_frames",
    "C106_start_refuted",
    "C106_trail_refuted",
    "C106_trail_partial",
    "C106_trail_absent_refuted"
   ],
   "note": "raises without a state at time 0; with a trail no frame before the eleventh time (refuted)"
  },
  {
   "property": "C107",
   "status": "partial",
   "theorems": [
    "C107_initial_box",
    "C107_training_traces_partial",
    "C107_late_refuted",
    "C107_boundary_trace_refuted",
    "C107_line",
    "C107_order"
   ],
   "note": "training traces from the outermost 1e-10th of the box, traces that start after time 0 (both refuted); that the assertions hold is not claimed"
  },
  {
   "property": "C108",
   "status": "partial",
   "theorems": [
    "C108_sampled_states_partial",
    "C108_between_partial",
    "C108_between_refuted"
   ],
   "note": "the times between two samples where a bounding curve turns round (refuted); the integrator is an exact oracle"
  },
  {
   "property": "C109",
   "status": "partial",
   "theorems": [
    "C109_read_back",
    "C109_round_trip_partial",
    "C109_injective",
    "C109_single_value",
    "C109_multi_slice_refuted",
    "C109_negative_refuted"
   ],
   "note": "subscripts of several slices (refuted); statements, f-strings, sets, dictionaries, starred arguments, parameter defaults"
  },
  {
   "property": "C110",
   "status": "partial",
   "theorems": [
    "C110_succeeds",
    "C110_vertices",
    "C110_extreme_partial",
    "C110_extreme_refuted",
    "C110_plot",
    "C110_dimensions_refuted",
    "C110_tree_refuted"
   ],
   "note": "stars whose generators are not symmetric (refuted), dimensions other than the first two (refuted), leaving the tree unchanged (refuted)"
  },
  {
   "property": "C111",
   "status": "partial",
   "theorems": [
    "C111_succeeds",
    "C111_pairs",
    "C111_histories",
    "C111_modes_refuted",
    "C111_dimensions_refuted",
    "C111_tubes",
    "C111_tube_states",
    "C111_later_steps_refuted"
   ],
   "note": "joint states of different dimensions at a time (refuted), modes whose names run together (refuted), later steps in a window (refuted)"
  },
  {
   "property": "C112",
   "status": "partial",
   "theorems": [
    "C112_samples",
    "C112_boxes",
    "C112_tube",
    "C112_steps",
    "C112_sound_refuted"
   ],
   "note": "the states of points that were not sampled (refuted): a PCA tube is not an over-approximation"
  },
  {
   "property": "C113",
   "status": "partial",
   "theorems": [
    "C113_tubes",
    "C113_covered",
    "C113_assertion",
    "C113_time_refuted",
    "C113_last_step_refuted"
   ],
   "note": "executions that leave later than the first hit (refuted), transitions in the last step of a tube with several agents (refuted: the step raises)"
  },
  {
   "property": "C114",
   "status": "partial",
   "theorems": [
    "C114_rect_meets",
    "C114_rect_first",
    "C114_circle",
    "C114_ellipse_partial",
    "C114_along_refuted",
    "C114_inside_refuted",
    "C114_touch_refuted",
    "C114_ellipse_refuted"
   ],
   "note": "segments along a side and inside the rectangle, rays that start on the circle, ellipses turned by an angle other than 0 (all refuted; the ellipse is that of the opposite angle)"
  },
  {
   "property": "C115",
   "status": "partial",
   "theorems": [
    "C115_view",
    "C115_same_simulate",
    "C115_same_verify",
    "C115_single_partial",
    "C115_single_refuted",
    "C115_unknown_refuted"
   ],
   "note": "SingleSensor with several others, static variables (refuted)"
  },
  {
   "property": "C116",
   "status": "partial",
   "theorems": [
    "C116_distance_near",
    "C116_distance_far",
    "C116_distance_zero_partial",
    "C116_long_arc_refuted",
    "C116_heading_partial",
    "C116_on_lane_partial",
    "C116_on_lane_known",
    "C116_reachable_partial",
    "C116_centre_line_on_partial",
    "C116_after_end_partial",
    "C116_after_end_zero_refuted"
   ],
   "note": "arcs of half a turn or more (refuted), after_end with the coordinate 0 (refuted)"
  },
  {
   "property": "C117",
   "status": "partial",
   "theorems": [
    "C117_round_trip_partial",
    "C117_round_trip_refuted",
    "C117_arc3_refuted",
    "C117_new",
    "C117_defaults"
   ],
   "note": "the configuration alone, without the identifier (refuted for every class); arcs in space even with it (refuted)"
  },
  {
   "property": "C118",
   "status": "partial",
   "theorems": [
    "C118_thermo",
    "C118_modes",
    "C118_vanderpol",
    "C118_craft_clocks",
    "C118_craft_passive",
    "C118_robot",
    "C118_ball",
    "C118_line",
    "C118_ball_g_refuted"
   ],
   "note": "the ball under gravity (refuted: its dynamics cannot be called); the integrators are exact oracles"
  },
  {
   "property": "C119",
   "status": "partial",
   "theorems": [
    "C119_graph",
    "C119_dot",
    "C119_redder",
    "C119_blue",
    "C119_newer_refuted"
   ],
   "note": "that newer nodes are redder (refuted); layout, fonts and tooltips are not modelled"
  },
  {
   "property": "C120",
   "status": "partial",
   "theorems": [
    "C120_switches",
    "C120_order",
    "C120_letters_refuted",
    "C120_run",
    "C120_keywords_refuted",
    "C120_report",
    "C120_compare",
    "C120_compare_runs",
    "C120_compare_refuted",
    "C120_replace",
    "C120_replace_refuted"
   ],
   "note": "that comparisons of two configurations work, keywords reach simulations, reports of incremental runs never fail, and a replacement keeps try_local (refuted); times and sizes in memory are not modelled, int(a / b) is exact"
  },
  {
   "property": "C121",
   "status": "partial",
   "theorems": [
    "C121_reported",
    "C121_mixed_refuted",
    "C121_tubes_refuted"
   ],
   "note": "no depth works if agents have different numbers of variables; the report of the cache for reachable sets raises as soon as anything is stored (both refuted)"
  },
  {
   "property": "C122",
   "status": "partial",
   "theorems": [
    "C122_inside",
    "C122_positive",
    "C122_outside_refuted",
    "C122_default_refuted",
    "C122_short"
   ],
   "note": "the scale of the predicate is a free unknown, so that points outside of the star are not reported; the default centre raises (both refuted)"
  },
  {
   "property": "C123",
   "status": "partial",
   "theorems": [
    "C123_bound",
    "C123_polytope",
    "C123_valid",
    "C123_invalid",
    "C123_single",
    "C123_consistent",
    "C123_default_refuted",
    "C123_clipped_refuted"
   ],
   "note": "the corners are clipped one by one, so that parameters within the box are lost; the default box raises (both refuted); confidence_ellipsoid and the eigenvalues are oracles, outputs are numbers"
  },
  {
   "property": "C124",
   "status": "partial",
   "theorems": [
    "C124_lookup_partial",
    "C124_lookup_first",
    "C124_incremental_refuted",
    "C124_known_refuted",
    "C124_several_refuted",
    "C124_plain"
   ],
   "note": "an incremental verification with star sets raises for every node, so nothing is ever computed or found; lookups raise for a mode that has an entry and for segments of several stars (all refuted); stars, tubes, combine_stars and calc_reach_tube are any"
  }
 ]
}