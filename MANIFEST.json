{
 "claims": [
  {
   "property": "C01",
   "status": "proved",
   "theorems": [
    "C01_RemoveContact_exact"
   ],
   "note": ""
  },
  {
   "property": "C02",
   "status": "proved",
   "theorems": [
    "C02_RemoveFirstContact_empty",
    "C02_RemoveFirstContact_oldest",
    "C02_drain_is_fifo",
    "C02_queue_is_chronological"
   ],
   "note": ""
  },
  {
   "property": "C03",
   "status": "proved",
   "theorems": [
    "C03_bookkeeping_consistent",
    "C03_printing_defined"
   ],
   "note": "count is modulo 2^64 (size_t)"
  },
  {
   "property": "C04",
   "status": "proved",
   "theorems": [
    "C04_contactCreations_exact",
    "C04_contactCreations_append"
   ],
   "note": "exact reals"
  },
  {
   "property": "C05",
   "status": "proved",
   "theorems": [
    "C05_breaks_mirror_creations"
   ],
   "note": "exact reals"
  },
  {
   "property": "C06",
   "status": "proved",
   "theorems": [
    "C06_fixed_varying_partition"
   ],
   "note": "exact reals"
  },
  {
   "property": "C07",
   "status": "proved",
   "theorems": [
    "C07_freeVariations_exact",
    "C07_full_tables",
    "C07_library_states"
   ],
   "note": "finding: contacts_.at() throws for every library-produced state with an effector free in both states"
  },
  {
   "property": "C08",
   "status": "proved",
   "theorems": [
    "C08_effectorDistance_is_max",
    "C08_effectorDistance_symmetric"
   ],
   "note": "exact reals"
  },
  {
   "property": "C09",
   "status": "proved",
   "theorems": [
    "C09_copy_exact",
    "C09_assign_exact",
    "C09_assign_loses_robustness"
   ],
   "note": "finding: operator= does not copy robustness"
  },
  {
   "property": "C10",
   "status": "proved",
   "theorems": [
    "C10_maintain_candidates_exact",
    "C10_exact_list",
    "C10_maintain_candidates_one_break"
   ],
   "note": "consistent states (C03)"
  },
  {
   "property": "C11",
   "status": "proved",
   "theorems": [
    "C11_lone_contact_kept",
    "C11_at_least_one_contact_kept"
   ],
   "note": ""
  },
  {
   "property": "C12",
   "status": "proved",
   "theorems": [
    "C12_creation_candidates_exact",
    "C12_creation_states",
    "C12_order",
    "C12_order_strict"
   ],
   "note": ""
  },
  {
   "property": "C13",
   "status": "proved",
   "theorems": [
    "C13_sortLimbs_order"
   ],
   "note": ""
  },
  {
   "property": "C14",
   "status": "proved",
   "theorems": [
    "C14_no_filter_all_objects",
    "C14_filter_objects",
    "C14_unknown_type",
    "C14_own_filter_ignored"
   ],
   "note": "findings: unknown affordance type in a filter dereferences end() (UB, shown); the filter chosen is the first whose name merely contains the limb name"
  },
  {
   "property": "C15",
   "status": "proved",
   "theorems": [
    "C15_first_admissible",
    "C15_with_stability",
    "C15_unstable_state_accepted",
    "C15_colliding_state_accepted"
   ],
   "note": "findings with the stability test: success is kept for an unstable state, and a candidate put in its place is not tested for collisions"
  },
  {
   "property": "C16",
   "status": "proved",
   "theorems": [
    "C16_best_ranked_projection"
   ],
   "note": ""
  },
  {
   "property": "C17",
   "status": "proved",
   "theorems": [
    "C17_stability_of_the_result",
    "C17_postural_mode",
    "C17_reachable_in_every_mode",
    "C17_stable_flag",
    "C17_retry_forgets_the_placement",
    "C17_single_contact_unchecked"
   ],
   "note": "findings: the postural retry keeps the flags of the first pass and may announce a contact with uninitialised placement; a first contact is declared stable unchecked"
  },
  {
   "property": "C18",
   "status": "proved",
   "theorems": [
    "C18_contact_in_all_tables",
    "C18_contact_recorded",
    "C18_count_not_updated"
   ],
   "note": "finding: nbContacts is never updated; uninitialised placement after the postural retry (C17)"
  },
  {
   "property": "C19",
   "status": "proved",
   "theorems": [
    "C19_status_determines_success",
    "C19_unstable_never_succeeds"
   ],
   "note": ""
  },
  {
   "property": "C20",
   "status": "proved",
   "theorems": [
    "C20_at_most_one_creation",
    "C20_created_contacts",
    "C20_bound_exceeded"
   ],
   "note": "finding: with maxContactCreations >= 2 a failed arrangement leaves its first contacts in the working state; later ones come on top"
  },
  {
   "property": "C21",
   "status": "proved",
   "theorems": [
    "C21_flags_restored",
    "C21_postural_flag_restored",
    "C21_working_state_changes"
   ],
   "note": ""
  },
  {
   "property": "C22",
   "status": "proved",
   "theorems": [
    "C22_oneStep_terminates",
    "C22_candidates_examined_once",
    "C22_truthful_flags"
   ],
   "note": ""
  },
  {
   "property": "C23",
   "status": "proved",
   "theorems": [
    "C23_success_means_stable",
    "C23_failure",
    "C23_contacts_lost",
    "C23_unreachable_accepted"
   ],
   "note": "findings: a failing repositioning drops contacts; unreachable ones are accepted"
  },
  {
   "property": "C24",
   "status": "proved",
   "theorems": [
    "C24_initial_contacts",
    "C24_one_contact_per_group",
    "C24_always_stable",
    "C24_stability_unchecked"
   ],
   "note": "finding: the state is always declared stable"
  },
  {
   "property": "C25",
   "status": "proved",
   "theorems": [
    "C25_accepted",
    "C25_heuristic",
    "C25_rejected_changes_nothing",
    "C25_when_rejected",
    "C25_heuristics_kept",
    "C25_registry",
    "C25_registry_any_history",
    "C25_same_name_twice"
   ],
   "note": "finding: AddLimb and AddNonContactingLimb each look only at their own table: one id may denote two limbs, be listed twice and share one collision validation"
  },
  {
   "property": "C26",
   "status": "proved",
   "theorems": [
    "C26_lookup",
    "C26_lookup_throws",
    "C26_toggle_moves",
    "C26_toggle_twice",
    "C26_toggle_name_in_both",
    "C26_toggle_loses_a_limb"
   ],
   "note": "finding: with a name in both tables, toggling loses a limb"
  },
  {
   "property": "C27",
   "status": "proved",
   "theorems": [
    "C27_getter_exact",
    "C27_all_effectors_exact",
    "C27_reports"
   ],
   "note": ""
  },
  {
   "property": "C28",
   "status": "proved",
   "theorems": [
    "C28_realigned",
    "C28_constructed",
    "C28_resorted",
    "C28_short_values_undefined"
   ],
   "note": "values vectors of full length; shorter ones (a file with a wrong size line) are undefined behaviour, shown"
  },
  {
   "property": "C29",
   "status": "proved",
   "theorems": [
    "C29_existing_name",
    "C29_unsorted",
    "C29_sort_moves_samples_only",
    "C29_static_value_kept",
    "C29_constructor_detaches"
   ],
   "note": "realignment: C28_realigned; finding: sortDB permutes samples_ but not values_, so after construction values[name][i] is not the value of sample i"
  },
  {
   "property": "C30",
   "status": "proved",
   "theorems": [
    "C30_candidates"
   ],
   "note": "for the contacts fcl reports (at most 1000)"
  },
  {
   "property": "C31",
   "status": "proved",
   "theorems": [
    "C31_round_trip",
    "C31_digits_lost",
    "C31_reading_ends",
    "C31_fields",
    "C31_fields_exist"
   ],
   "note": "findings: numbers are written with the stream's default six digits and valueBounds_ is not written; order of samples may change (voxel ids are pointer differences)"
  },
  {
   "property": "C32",
   "status": "proved",
   "theorems": [
    "C32_load",
    "C32_undefined_outside"
   ],
   "note": ""
  },
  {
   "property": "C33",
   "status": "proved",
   "theorems": [
    "C33_set_collision_free"
   ],
   "note": ""
  },
  {
   "property": "C34",
   "status": "proved",
   "theorems": [
    "C34_in_triangle",
    "C34_nearest",
    "C34_beyond_t1",
    "C34_nearest_everywhere_refuted",
    "C34_contact_on_triangle",
    "C34_point_in_prism",
    "C34_offset"
   ],
   "note": "exact reals, non-degenerate triangles. Finding: one branch divides e by c where d by a is meant, e.g. for (2,-1/2) and the unit triangle the corner (0,0) is returned instead of (1,0)"
  },
  {
   "property": "C35",
   "status": "proved",
   "theorems": [
    "C35_hull_terminates",
    "C35_hull_encloses",
    "C35_aligned_refuted"
   ],
   "note": "exact reals; enclosure needs general position, shown necessary"
  },
  {
   "property": "C36",
   "status": "proved",
   "theorems": [
    "C36_containsHull_exact",
    "C36_contains",
    "C36_one_point_always_inside",
    "C36_two_points_whole_line",
    "C36_contains_refuted",
    "C36_containsHull_small"
   ],
   "note": "exact reals; findings: one point contains everything, two points their whole line"
  },
  {
   "property": "C37",
   "status": "proved",
   "theorems": [
    "C37_clip",
    "C37_clip_region",
    "C37_inside_unchanged",
    "C37_clip_in_space",
    "C37_iterators_sound",
    "C37_iterators_unchanged_refuted",
    "C37_disjoint_refuted"
   ],
   "note": "exact reals; findings: undefined for disjoint polygons, the iterator overload shrinks small polygons, z of 2D intersection points unset"
  },
  {
   "property": "C38",
   "status": "proved",
   "theorems": [
    "C38_projection",
    "C38_in_plane_iff",
    "C38_other_normals_refuted",
    "C38_triangle_plane",
    "C38_flatten"
   ],
   "note": "exact reals"
  },
  {
   "property": "C39",
   "status": "proved",
   "theorems": [
    "C39_verdict",
    "C39_default_verdict",
    "C39_others_irrelevant",
    "C39_no_report_undefined",
    "C39_every_named_rom_reaches_refuted",
    "C39_unset_rom_not_required"
   ],
   "note": "findings: a ROM outside the constructor's filter passes without reaching; ROMs without affordance settings are not asked for by default; duplicate or unknown names are rejected; the overloads without a report dereference null"
  },
  {
   "property": "C40",
   "status": "proved",
   "theorems": [
    "C40_pairs_kept",
    "C40_rom_validate",
    "C40_report",
    "C40_shuffle"
   ],
   "note": ""
  },
  {
   "property": "C41",
   "status": "proved",
   "theorems": [
    "C41_path_verdict",
    "C41_accepted_dense",
    "C41_valid_part_valid_refuted",
    "C41_zero_step_diverges"
   ],
   "note": "exact reals; findings: if the first configuration is invalid the valid part [tmin,tmin] is invalid; zero step never ends"
  },
  {
   "property": "C42",
   "status": "proved",
   "theorems": [
    "C42_accepted_sequences",
    "C42_initial_contacts_accepted",
    "C42_other_number_rejected",
    "C42_repeatable_refuted",
    "C42_rejection_forgotten",
    "C42_same_contacts_refuted"
   ],
   "note": "findings: the verdict is cached on the acceleration alone; different ROMs in equal number count as the same contacts"
  },
  {
   "property": "C43",
   "status": "proved",
   "theorems": [
    "C43_weights",
    "C43_choice",
    "C43_choice_exists",
    "C43_zero_area",
    "C43_beyond"
   ],
   "note": "exact reals; with zero total area (NaN weights) always the last triangle, shown"
  },
  {
   "property": "C44",
   "status": "proved",
   "theorems": [
    "C44_point_in_triangle",
    "C44_every_point",
    "C44_config_at_point",
    "C44_translated"
   ],
   "note": "exact reals"
  },
  {
   "property": "C45",
   "status": "proved",
   "theorems": [
    "C45_shoot",
    "C45_accepting",
    "C45_gives_up",
    "C45_no_triangles_undefined"
   ],
   "note": "random numbers, the uniform shooter and the validator are arbitrary services; a trunk collision reported without contact is excluded (out-of-range read)"
  },
  {
   "property": "C46",
   "status": "proved",
   "theorems": [
    "C46_ground_contacts",
    "C46_empty_map"
   ],
   "note": "exact reals; an empty map is dereferenced (undefined behaviour), shown"
  },
  {
   "property": "C47",
   "status": "proved",
   "theorems": [
    "C47_copy_kept",
    "C47_copy_dynamic",
    "C47_copy_fixed_step",
    "C47_assign"
   ],
   "note": "finding: comPath_, currentPathId_ and limbReferenceOffset_ are neither copied nor assigned"
  },
  {
   "property": "C48",
   "status": "proved",
   "theorems": [
    "C48_support_test",
    "C48_no_contact",
    "C48_sizes_missing",
    "C48_point_contact",
    "C48_two_points",
    "C48_three_aligned_points",
    "C48_four_points",
    "C48_segment_sound",
    "C48_segment_ends",
    "C48_segment_complete_refuted"
   ],
   "note": "exact reals; findings: zero sized contacts"
  },
  {
   "property": "C49",
   "status": "proved",
   "theorems": [
    "C49_no_contact_no_step"
   ],
   "note": ""
  },
  {
   "property": "C50",
   "status": "proved",
   "theorems": [
    "C50_maintained_contacts_untouched"
   ],
   "note": ""
  },
  {
   "property": "C51",
   "status": "proved",
   "theorems": [
    "C51_one_break_one_creation"
   ],
   "note": "consistent previous states"
  },
  {
   "property": "C52",
   "status": "proved",
   "theorems": [
    "C52_segment_plane",
    "C52_mesh_plane"
   ],
   "note": ""
  },
  {
   "property": "C53",
   "status": "proved",
   "theorems": [
    "C53_inside_complete",
    "C53_inside_sound",
    "C53_tolerance_refuted",
    "C53_triangles_sound",
    "C53_triangles_complete",
    "C53_triangles_apart_undefined"
   ],
   "note": "findings: the tolerance is relative to the squared area; intersectTriangles overruns its arrays unless the triangle straddles the plane"
  },
  {
   "property": "C54",
   "status": "proved",
   "theorems": [
    "C54_inside_is_projection",
    "C54_in_plane",
    "C54_nearest_crossing",
    "C54_result_in_polygon_refuted"
   ],
   "note": "finding: the nearest crossing with an edge's line, not with the edge, is returned: it may be outside the polygon"
  },
  {
   "property": "C55",
   "status": "proved",
   "theorems": [
    "C55_center_of_closed",
    "C55_area_of_convex",
    "C55_undefined"
   ],
   "note": "centerPlanar always reads out of bounds"
  },
  {
   "property": "C56",
   "status": "proved",
   "theorems": [
    "C56_orientation",
    "C56_no_limits",
    "C56_short_limits_undefined"
   ],
   "note": ""
  },
  {
   "property": "C57",
   "status": "proved",
   "theorems": [
    "C57_surfaces",
    "C57_triangles",
    "C57_not_a_mesh_undefined"
   ],
   "note": ""
  },
  {
   "property": "C58",
   "status": "proved",
   "theorems": [
    "C58_support_polygon",
    "C58_hull_points",
    "C58_hull_encloses",
    "C58_tight_points_refuted",
    "C58_projection",
    "C58_angle",
    "C58_angle_undefined"
   ],
   "note": "exact reals; points nearer than 1e-9 may be lost, shown"
  },
  {
   "property": "C59",
   "status": "proved",
   "theorems": [
    "C59_small",
    "C59_average_of_groups",
    "C59_equal_points_never_end",
    "C59_inside"
   ],
   "note": "exact reals; convexHull's output meets the hypothesis of C59_inside by C58_hull_points"
  },
  {
   "property": "C60",
   "status": "proved",
   "theorems": [
    "C60_value",
    "C60_never_positive",
    "C60_interest",
    "C60_y_axis_refuted"
   ],
   "note": "exact reals. Finding: the guard of the second loop tests the acceleration along x; a limb already in contact keeps its old position"
  },
  {
   "property": "C61",
   "status": "proved",
   "theorems": [
    "C61_manipulability",
    "C61_efort",
    "C61_forward",
    "C61_backward",
    "C61_fixed_step",
    "C61_dynamic_walk",
    "C61_dynamic_walk_still"
   ],
   "note": "the NaN direction is not modelled"
  },
  {
   "property": "C62",
   "status": "proved",
   "theorems": [
    "C62_registry",
    "C62_analyses",
    "C62_analysis_names"
   ],
   "note": ""
  },
  {
   "property": "C63",
   "status": "proved",
   "theorems": [
    "C63_manipulability_part",
    "C63_manipulability_short",
    "C63_manipulability",
    "C63_least_singular",
    "C63_greatest_singular",
    "C63_isotropy",
    "C63_isotropy_not_the_ratio"
   ],
   "note": "exact reals; the singular values of Eigen's SVD are an input; finding: operator precedence makes isotropy independent of the greatest singular value"
  },
  {
   "property": "C64",
   "status": "proved",
   "theorems": [
    "C64_limb",
    "C64_value",
    "C64_margin_unique",
    "C64_within",
    "C64_beyond",
    "C64_equal_bounds",
    "C64_throws"
   ],
   "note": "exact reals"
  },
  {
   "property": "C65",
   "status": "proved",
   "theorems": [
    "C65_value",
    "C65_best",
    "C65_undefined"
   ],
   "note": "pinocchio's difference is an input function"
  },
  {
   "property": "C66",
   "status": "proved",
   "theorems": [
    "C66_database",
    "C66_database_never_ends",
    "C66_value",
    "C66_range",
    "C66_other_robot"
   ],
   "note": "findings: the value is the fraction without collision; the database is shared by all robots of the process"
  },
  {
   "property": "C67",
   "status": "proved",
   "theorems": [
    "C67_distance",
    "C67_metric",
    "C67_ends",
    "C67_geodesic",
    "C67_close",
    "C67_assertion"
   ],
   "note": "exact reals"
  },
  {
   "property": "C68",
   "status": "proved",
   "theorems": [
    "C68_locked",
    "C68_one_name",
    "C68_once",
    "C68_top_down"
   ],
   "note": ""
  },
  {
   "property": "C69",
   "status": "proved",
   "theorems": [
    "C69_add",
    "C69_body",
    "C69_limb",
    "C69_remove_effector",
    "C69_remove_all_but_one",
    "C69_remove_all_but",
    "C69_remove_all_but_complete",
    "C69_remove_all_but_stuck"
   ],
   "note": "hpp-core's removeObstacleFromJoint throws iff the pair is absent (its code is not in /repo); filterCollisionPairs left out. Finding: the obstacles of later limbs never reach the whole body test"
  },
  {
   "property": "C70",
   "status": "proved",
   "theorems": [
    "C70_z",
    "C70_y",
    "C70_turns",
    "C70_x"
   ],
   "note": "findings: uninitialised entries, misplaced sine"
  },
  {
   "property": "C71",
   "status": "proved",
   "theorems": [
    "C71_launch_none",
    "C71_launch_interval",
    "C71_impact_none",
    "C71_impact_interval"
   ],
   "note": "exact reals"
  },
  {
   "property": "C72",
   "status": "proved",
   "theorems": [
    "C72_feasible"
   ],
   "note": "hypotheses: positive gravity and angle margin, non-negative speed bounds, ends not vertically aligned (aligned ends divide by zero in the code)"
  },
  {
   "property": "C73",
   "status": "proved",
   "theorems": [
    "C73_impossible",
    "C73_all_tried",
    "C73_answers"
   ],
   "note": ""
  },
  {
   "property": "C74",
   "status": "proved",
   "theorems": [
    "C74_inside",
    "C74_ends",
    "C74_stuck"
   ],
   "note": "findings: the parabola computed is overwritten by the interpolation; jumps with equal x never leave their start"
  },
  {
   "property": "C75",
   "status": "proved",
   "theorems": [
    "C75_evaluation",
    "C75_reverse",
    "C75_extract",
    "C75_extract_backwards"
   ],
   "note": ""
  },
  {
   "property": "C76",
   "status": "proved",
   "theorems": [
    "C76_reverse",
    "C76_range"
   ],
   "note": "findings"
  },
  {
   "property": "C77",
   "status": "proved",
   "theorems": [
    "C77_random_target"
   ],
   "note": "finding"
  },
  {
   "property": "C78",
   "status": "proved",
   "theorems": [
    "C78_motion",
    "C78_extract",
    "C78_extract_backwards"
   ],
   "note": "finding: the documentation says a backward extraction is reversed"
  },
  {
   "property": "C79",
   "status": "proved",
   "theorems": [
    "C79_values",
    "C79_extract",
    "C79_ends"
   ],
   "note": "finding: a range ending at 0 is constant"
  },
  {
   "property": "C80",
   "status": "proved",
   "theorems": [
    "C80_values",
    "C80_ends",
    "C80_late_curve",
    "C80_outside"
   ],
   "note": "the curve of ndcurves is any function that throws outside of its range; finding: interpolation parameter for curves not starting at 0"
  },
  {
   "property": "C81",
   "status": "proved",
   "theorems": [
    "C81_configuration",
    "C81_projected",
    "C81_history"
   ],
   "note": "the projector of hpp-core is any function of the right hand sides and the configuration"
  },
  {
   "property": "C82",
   "status": "proved",
   "theorems": [
    "C82_create",
    "C82_extract",
    "C82_extract_times",
    "C82_extract_fails",
    "C82_edit"
   ],
   "note": ""
  },
  {
   "property": "C83",
   "status": "proved",
   "theorems": [
    "C83_verdict",
    "C83_last_step",
    "C83_straight"
   ],
   "note": "Discretized::validate of hpp-core is a parameter; finding: the last step is not tested"
  },
  {
   "property": "C84",
   "status": "proved",
   "theorems": [
    "C84_com",
    "C84_root",
    "C84_defined"
   ],
   "note": "hpp-core's projector is any solver that only succeeds when its mandatory constraints hold up to the threshold; result_'s robustness is not copied (uninitialised)"
  },
  {
   "property": "C85",
   "status": "proved",
   "theorems": [
    "C85_locked_joints",
    "C85_root_configuration"
   ],
   "note": ""
  },
  {
   "property": "C86",
   "status": "proved",
   "theorems": [
    "C86_free_com"
   ],
   "note": "finding: the configurations found by setCollisionFree are dropped, only success is used"
  },
  {
   "property": "C87",
   "status": "proved",
   "theorems": [
    "C87_align",
    "C87_contact_point",
    "C87_requested_rotation",
    "C87_normal_aligned"
   ],
   "note": "Eigen's setFromTwoVectors and toRotationMatrix are modelled; the SVD of the opposite case is any unit orthogonal vector"
  },
  {
   "property": "C88",
   "status": "proved",
   "theorems": [
    "C88_state_to_obstacle",
    "C88_sample_to_obstacle"
   ],
   "note": "finding: locked joints take the device's current configuration, not the state's"
  },
  {
   "property": "C89",
   "status": "proved",
   "theorems": [
    "C89_position",
    "C89_orientation",
    "C89_orientation_aligned",
    "C89_orientation_wrong"
   ],
   "note": "finding: the placement multiplies the target on the wrong side and is not transposed; the property states the actual effect"
  },
  {
   "property": "C90",
   "status": "proved",
   "theorems": [
    "C90_weights",
    "C90_few_dofs",
    "C90_reference"
   ],
   "note": ""
  },
  {
   "property": "C91",
   "status": "proved",
   "theorems": [
    "C91_set_configuration",
    "C91_together",
    "C91_last_configuration",
    "C91_references"
   ],
   "note": ""
  },
  {
   "property": "C92",
   "status": "proved",
   "theorems": [
    "C92_contact_set",
    "C92_cone_contacts",
    "C92_sole_plane",
    "C92_defined"
   ],
   "note": "hpp-centroidal-dynamics is a parameter; finding: the rectangle is built with the inverse of the needed rotation"
  },
  {
   "property": "C93",
   "status": "proved",
   "theorems": [
    "C93_values",
    "C93_largest"
   ],
   "note": ""
  },
  {
   "property": "C94",
   "status": "proved",
   "theorems": [
    "C94_inputs",
    "C94_static",
    "C94_acceleration"
   ],
   "note": ""
  },
  {
   "property": "C95",
   "status": "proved",
   "theorems": [
    "C95_cone"
   ],
   "note": "finding: a failure yields constraints that hold everywhere"
  },
  {
   "property": "C96",
   "status": "proved",
   "theorems": [
    "C96_loaded",
    "C96_defined",
    "C96_missing",
    "C96_verified",
    "C96_moved",
    "C96_hull"
   ],
   "note": "exact reals"
  },
  {
   "property": "C97",
   "status": "proved",
   "theorems": [
    "C97_state",
    "C97_verify",
    "C97_all",
    "C97_limb",
    "C97_throws"
   ],
   "note": ""
  },
  {
   "property": "C98",
   "status": "proved",
   "theorems": [
    "C98_rows"
   ],
   "note": "finding: h is not divided by the norm of the row; a zero row would give NaN"
  },
  {
   "property": "C99",
   "status": "proved",
   "theorems": [
    "C99_statuses",
    "C99_defined",
    "C99_empty_queue"
   ],
   "note": "finding: front() of an empty queue"
  },
  {
   "property": "C100",
   "status": "proved",
   "theorems": [
    "C100_broken",
    "C100_created",
    "C100_moved"
   ],
   "note": "assumes the quadratic program is sound and complete for the distance cost (shown satisfiable), no zero polytope row"
  },
  {
   "property": "C101",
   "status": "proved",
   "theorems": [
    "C101_intermediate",
    "C101_no_break",
    "C101_acceleration"
   ],
   "note": "findings: half-way to the origin; acceleration dropped"
  },
  {
   "property": "C102",
   "status": "proved",
   "theorems": [
    "C102_guards",
    "C102_defined"
   ],
   "note": ""
  },
  {
   "property": "C103",
   "status": "proved",
   "theorems": [
    "C103_dynamic"
   ],
   "note": "finding: the last row of the table of durations is never tried"
  },
  {
   "property": "C104",
   "status": "proved",
   "theorems": [
    "C104_shorter_or_same",
    "C104_starts"
   ],
   "note": "exact reals; the random generator is any list of draws; finding: a failing extraction in the length test escapes as an exception; one in the replacement loop corrupts the path given (C104_failure)"
  },
  {
   "property": "C105",
   "status": "proved",
   "theorems": [
    "C105_elements_validated"
   ],
   "note": ""
  },
  {
   "property": "C106",
   "status": "proved",
   "theorems": [
    "C106_no_error"
   ],
   "note": "findings: 0 loops wraps around and throws; a path whose first evaluations all fail dereferences null"
  },
  {
   "property": "C107",
   "status": "proved",
   "theorems": [
    "C107_rounds_bounded",
    "C107_rounds_bounded_all",
    "C107_draws",
    "C107_draws_accepted"
   ],
   "note": "a round may itself draw for ever when the current path is shorter than three times the least distance between times; rounds, not draws, are bounded"
  },
  {
   "property": "C108",
   "status": "proved",
   "theorems": [
    "C108_oriented_same"
   ],
   "note": "finding: the vectors of elements are passed by value, so that nothing is ever reoriented"
  },
  {
   "property": "C109",
   "status": "proved",
   "theorems": [
    "C109_node_matrices"
   ],
   "note": "the contact approximation (point, normal) is a parameter; its unit length is a hypothesis (its absence a finding)"
  },
  {
   "property": "C110",
   "status": "proved",
   "theorems": [
    "C110_friction",
    "C110_root_axis"
   ],
   "note": ""
  },
  {
   "property": "C111",
   "status": "proved",
   "theorems": [
    "C111_best_surface"
   ],
   "note": ""
  },
  {
   "property": "C112",
   "status": "proved",
   "theorems": [
    "C112_steer_from"
   ],
   "note": "hpp-core's kinodynamic steering and the LP solver are parameters"
  },
  {
   "property": "C113",
   "status": "proved",
   "theorems": [
    "C113_steer_to"
   ],
   "note": "hpp-core's kinodynamic steering and the LP solver are parameters"
  },
  {
   "property": "C114",
   "status": "proved",
   "theorems": [
    "C114_edges",
    "C114_step"
   ],
   "note": "hpp-core's roadmap is a list of nodes and edges with component labels; every service may answer differently at each call; the hypothesis reaches_goals is needed because a direct connection never checks that its path reaches the goal (C114_stops_short); parabolas are not checked for collisions by this code"
  },
  {
   "property": "C115",
   "status": "proved",
   "theorems": [
    "C115_trees",
    "C115_connected"
   ],
   "note": ""
  },
  {
   "property": "C116",
   "status": "proved",
   "theorems": [
    "C116_step",
    "C116_direct"
   ],
   "note": "without problem constraints"
  },
  {
   "property": "C117",
   "status": "proved",
   "theorems": [
    "C117_grows",
    "C117_step"
   ],
   "note": ""
  },
  {
   "property": "C118",
   "status": "proved",
   "theorems": [
    "C118_defined"
   ],
   "note": "C118_null_report shows the excluded case is a real null dereference"
  },
  {
   "property": "C119",
   "status": "proved",
   "theorems": [
    "C119_forward",
    "C119_reverse",
    "C119_default"
   ],
   "note": "the overload with a filter first evaluates the path into an empty vector (dynamic-path-validation.cc:56): the theorems suppose this works; hpp-core's Discretized::validate is a parameter"
  },
  {
   "property": "C120",
   "status": "proved",
   "theorems": [
    "C120_steady"
   ],
   "note": ""
  },
  {
   "property": "C121",
   "status": "proved",
   "theorems": [
    "C121_narrower_filter"
   ],
   "note": "records a behaviour a user would not expect"
  },
  {
   "property": "C122",
   "status": "proved",
   "theorems": [
    "C122_samples",
    "C122_load"
   ],
   "note": "Eigen's determinant, pinocchio's forward kinematics and jacobian and the shooter are parameters; C122_stale shows that the geometry of sample 0 need not be that of its joint values"
  },
  {
   "property": "C123",
   "status": "proved",
   "theorems": [
    "C123_create",
    "C123_effector"
   ],
   "note": "C123_stale shows the default rotation need not be that of the neutral configuration"
  },
  {
   "property": "C124",
   "status": "proved",
   "theorems": [
    "C124_round_trip"
   ],
   "note": "the decimal rounding of the stream is a parameter with the laws of number_text, met by an example"
  },
  {
   "property": "C125",
   "status": "proved",
   "theorems": [
    "C125_sampling"
   ],
   "note": "the answer of the path evaluation is ignored by the code; the path is a total function in the model"
  },
  {
   "property": "C126",
   "status": "proved",
   "theorems": [
    "C126_ends",
    "C126_defined",
    "C126_generator"
   ],
   "note": "C126_needed: without the hypothesis on the generator the loop may not end"
  },
  {
   "property": "C127",
   "status": "proved",
   "theorems": [
    "C127_chain",
    "C127_cut_short"
   ],
   "note": "times are one step early with respect to the configurations (o = 0); states of failed reports are in the list too"
  },
  {
   "property": "C128",
   "status": "proved",
   "theorems": [
    "C128_goal",
    "C128_one_limb",
    "C128_towards",
    "C128_exception"
   ],
   "note": "the solver is a parameter, sound when it reports success"
  },
  {
   "property": "C129",
   "status": "proved",
   "theorems": [
    "C129_filters"
   ],
   "note": ""
  },
  {
   "property": "C130",
   "status": "proved",
   "theorems": [
    "C130_replace"
   ],
   "note": "undefined behaviour of trySkipStates on an empty list of creations is Ub in the model; the theorem is about calls that return"
  },
  {
   "property": "C131",
   "status": "proved",
   "theorems": [
    "C131_filtered"
   ],
   "note": ""
  },
  {
   "property": "C132",
   "status": "proved",
   "theorems": [
    "C132_one_change",
    "C132_replaced"
   ],
   "note": "for tryReplaceStates and trySkipStates: one change but for the redone contact, which may slip by more than 1 cm unless the aimed rotation leaves the limb's offset alone"
  },
  {
   "property": "C133",
   "status": "proved",
   "theorems": [
    "C133_ends",
    "C133_no_failure",
    "C133_states",
    "C133_path",
    "C133_path_states",
    "C133_no_path"
   ],
   "note": ""
  },
  {
   "property": "C134",
   "status": "proved",
   "theorems": [
    "C134_result",
    "C134_continuous",
    "C134_time"
   ],
   "note": "the planner and the optimizers of hpp-core are parameters; C134_continuous and C134_time assume that they answer the problem they are given (sound_planner)"
  },
  {
   "property": "C135",
   "status": "proved",
   "theorems": [
    "C135_ends",
    "C135_running",
    "C135_never",
    "C135_terminates",
    "C135_too_many",
    "C135_too_few"
   ],
   "note": ""
  },
  {
   "property": "C136",
   "status": "proved",
   "theorems": [
    "C136_any_order",
    "C136_interleaved",
    "C136_same_end",
    "C136_interleaved_exists",
    "C136_loop_ends"
   ],
   "note": "any permutation of the iterations, and any interleaving of their accesses to the shared arrays res and valid (computation, write of the path, write of the flag; each access atomic); the answers of planner and optimizers are functions of the attempt and of the pair (iterations share no variable); exceptions end the process in any order; calls without undefined behaviour (defined_calls)"
  },
  {
   "property": "C137",
   "status": "proved",
   "theorems": [
    "C137_shoot",
    "C137_never_last"
   ],
   "note": "samples fit in the configuration; rand() is a list of numbers"
  },
  {
   "property": "C138",
   "status": "proved",
   "theorems": [
    "C138_project"
   ],
   "note": "the numerical solver is a parameter, assumed sound (sound_solver)"
  },
  {
   "property": "C139",
   "status": "proved",
   "theorems": [
    "C139_ignored",
    "C139_guide"
   ],
   "note": ""
  },
  {
   "property": "C140",
   "status": "proved",
   "theorems": [
    "C140_problem",
    "C140_defined",
    "C140_held",
    "C140_limbRRT",
    "C140_limb_from_path",
    "C140_com_from_path"
   ],
   "note": "the planner is assumed to respect its constraints (sound_planner)"
  },
  {
   "property": "C141",
   "status": "proved",
   "theorems": [
    "C141_limb",
    "C141_no_limb",
    "C141_effector",
    "C141_effector_throws",
    "C141_effector_undefined",
    "C141_normal"
   ],
   "note": ""
  },
  {
   "property": "C142",
   "status": "proved",
   "theorems": [
    "C142_position",
    "C142_unique"
   ],
   "note": "exact reals; the answer of the evaluation of the path is ignored as in the code"
  },
  {
   "property": "C143",
   "status": "proved",
   "theorems": [
    "C143_height",
    "C143_sign"
   ],
   "note": "exact reals"
  },
  {
   "property": "C144",
   "status": "proved",
   "theorems": [
    "C144_generate",
    "C144_unknown",
    "C144_undefined",
    "C144_first_time"
   ],
   "note": "ndcurves and hpp-bezier-com-traj are parameters, assumed to respect the end conditions (good_curves; a septic instance is given with the derivatives of analysis)"
  },
  {
   "property": "C145",
   "status": "proved",
   "theorems": [
    "C145_candidates",
    "C145_throws"
   ],
   "note": "same assumption on the curves"
  },
  {
   "property": "C146",
   "status": "proved",
   "theorems": [
    "C146_followed",
    "C146_no_fit",
    "C146_runs",
    "C146_throws",
    "C146_locked",
    "C146_unknown_joint"
   ],
   "note": "same assumption on the curves; planner and optimizers are parameters"
  },
  {
   "property": "C147",
   "status": "proved",
   "theorems": [
    "C147_from_path",
    "C147_ignored",
    "C147_effectorRRT"
   ],
   "note": ""
  },
  {
   "property": "C148",
   "status": "proved",
   "theorems": [
    "C148_measures",
    "C148_any_history",
    "C148_nonnegative",
    "C148_so_far"
   ],
   "note": "exact reals for long double; the clock readings are the inputs of the history"
  },
  {
   "property": "C149",
   "status": "proved",
   "theorems": [
    "C149_zero"
   ],
   "note": ""
  },
  {
   "property": "C150",
   "status": "proved",
   "theorems": [
    "C150_throws",
    "C150_effect"
   ],
   "note": ""
  },
  {
   "property": "C151",
   "status": "proved",
   "theorems": [
    "C151_pause"
   ],
   "note": ""
  },
  {
   "property": "C152",
   "status": "proved",
   "theorems": [
    "C152_reset",
    "C152_reset_all",
    "C152_after_reset",
    "C152_off",
    "C152_off_silent",
    "C152_other"
   ],
   "note": ""
  },
  {
   "property": "C153",
   "status": "proved",
   "theorems": [
    "C153_report",
    "C153_report_all",
    "C153_off",
    "C153_counts",
    "C153_report_count"
   ],
   "note": "numbers are kept as reals, their printed digits are not modelled; integers without overflow"
  },
  {
   "property": "C154",
   "status": "proved",
   "theorems": [
    "C154_exists",
    "C154_ends",
    "C154_values",
    "C154_history",
    "C154_time",
    "C154_copy"
   ],
   "note": "the copy of the constraint set with rightHandSideFromConfig and the distance are those of hpp-core: parameters; the copy is taken not to share its own right hand sides with the original"
  },
  {
   "property": "C155",
   "status": "proved",
   "theorems": [
    "C155_cone",
    "C155_refused",
    "C155_tangent",
    "C155_total"
   ],
   "note": "exact reals; normals whose cone passes within 1e-6 of the vertical without touching it are out of the claim (there the code uses the formula of the touching case)"
  },
  {
   "property": "C156",
   "status": "proved",
   "theorems": [
    "C156_text",
    "C156_new",
    "C156_unique",
    "C156_unique_new",
    "C156_first_letter",
    "C156_count",
    "C156_no_name"
   ],
   "note": "the digits of numbers are a parameter; print() on the standard output is not modelled"
  },
  {
   "property": "C157",
   "status": "proved",
   "theorems": [
    "C157_shot",
    "C157_history",
    "C157_hopeless",
    "C157_construct",
    "C157_not_a_mesh_undefined",
    "C157_direction"
   ],
   "note": "composition of the shooter (C45) and validator (C39) models; fcl's collision answers and the joint bound test are parameters; impl_shoot returns nothing, found is the value only printed"
  },
  {
   "property": "C158",
   "status": "proved",
   "theorems": [
    "C158_way_points",
    "C158_exact_line",
    "C158_spline"
   ],
   "note": "nothing in the library calls these functions"
  },
  {
   "property": "C159",
   "status": "proved",
   "theorems": [
    "C159_step",
    "C159_initial",
    "C159_robot",
    "C159_sequence",
    "C159_whole"
   ],
   "note": "without the postural task; the solver's soundness, the placement of a joint depending on the joints above it only, and a failing solver leaving locked joints alone are hypotheses, shown satisfiable by services built from the projections of a robot"
  },
  {
   "property": "C160",
   "status": "proved",
   "theorems": [
    "C160_constrained"
   ],
   "note": "the constraints are a predicate of configurations and one of paths; that the steering method and the validation keep within the constraints paths between configurations that satisfy them is a hypothesis (hpp-core applies the constraints along the path); when jumps are asked for, the constraints must not depend on the velocity"
  },
  {
   "property": "C161",
   "status": "proved",
   "theorems": [
    "C161_interpolate",
    "C161_forward",
    "C161_reverse",
    "C161_dense",
    "C161_stuck"
   ],
   "note": "doubles without overflow; the subtraction of the reverse loop is the addition on opposite times; evaluation of the path and validity of a configuration are parameters"
  },
  {
   "property": "C162",
   "status": "proved",
   "theorems": [
    "C162_weights",
    "C162_choice"
   ],
   "note": "doubles without overflow; the areas are taken as computed"
  },
  {
   "property": "C163",
   "status": "proved",
   "theorems": [
    "C163_search",
    "C163_late",
    "C163_step"
   ],
   "note": "no overflow; the path's time coordinate is a parameter"
  },
  {
   "property": "C164",
   "status": "proved",
   "theorems": [
    "C164_tested",
    "C164_no_move",
    "C164_throws",
    "C164_stuck"
   ],
   "note": "the validations of the problem are one set of pairs; removing an absent pair throws, as in hpp-core"
  },
  {
   "property": "C165",
   "status": "proved",
   "theorems": [
    "C165_draw",
    "C165_jump"
   ],
   "note": "reals; the bounds of the angle are never initialised by the library and are arbitrary here"
  },
  {
   "property": "C166",
   "status": "proved",
   "theorems": [
    "C166_history",
    "C166_defined",
    "C166_robot",
    "C166_late_limb",
    "C166_refused"
   ],
   "note": "reals; configurations with a unit root quaternion; the samples of the limb are left out; the placement of an effector is any function of the configuration"
  },
  {
   "property": "C167",
   "status": "proved",
   "theorems": [
    "C167_mean",
    "C167_convex",
    "C167_reversed",
    "C167_defined"
   ],
   "note": "reals; the area is that seen from above (the points' heights are not used)"
  },
  {
   "property": "C168",
   "status": "proved",
   "theorems": [
    "C168_sound",
    "C168_found",
    "C168_none",
    "C168_whole",
    "C168_center",
    "C168_reference_over",
    "C168_reference_beside",
    "C168_nearest",
    "C168_rigid",
    "C168_touching",
    "C168_contact_near_surface_refuted",
    "C168_on_obstacle_refuted"
   ],
   "note": "reals; exactness for points in general position and sides not along the plane (the hull loses points otherwise, C35); loops are given fuel, enough of which exists; two claims one would expect are refuted"
  },
  {
   "property": "C169",
   "status": "proved",
   "theorems": [
    "C169_step",
    "C169_decided",
    "C169_not_reset"
   ],
   "note": "the loop is given fuel, a result meaning that it ended (it does: C22_oneStep_terminates)"
  },
  {
   "property": "C170",
   "status": "proved",
   "theorems": [
    "C170_root",
    "C170_robot"
   ],
   "note": "without the postural task; for a robot, the samples of a limb describe joints of that limb; tolerances of the solver as in C86 and C88 (locked joints are exact)"
  },
  {
   "property": "C171",
   "status": "proved",
   "theorems": [
    "C171_loop",
    "C171_generator",
    "C171_filters",
    "C171_sequence",
    "C171_path",
    "C171_sizes",
    "C171_library",
    "C171_goal_root_refuted"
   ],
   "note": "configurations of the robot's size, free flyer in the first seven entries; the states added for the goal may have their root anywhere (C171_goal_root_refuted: addGoalConfig does not lock it)"
  },
  {
   "property": "C172",
   "status": "proved",
   "theorems": [
    "C172_step",
    "C172_initial",
    "C172_robot",
    "C172_sequence",
    "C172_whole"
   ],
   "note": "without the postural task; the validation of a limb finds what the whole validation would find when only this limb moved (see C173), samples of a limb describe this limb, extra dofs do not collide"
  },
  {
   "property": "C173",
   "status": "proved",
   "theorems": [
    "C173_pairs",
    "C173_robot",
    "C173_effector_refuted"
   ],
   "note": "filterCollisionPairs is left out (it removes pairs that never meet); all validations test all bodies against each other; the condition on effectors is needed (C173_effector_refuted)"
  },
  {
   "property": "C174",
   "status": "proved",
   "theorems": [
    "C174_best",
    "C174_exists"
   ],
   "note": "scores are reals or not numbers (+infinity left out); private and without caller"
  }
 ]
}