# Formal model of hpp-rbprm in Rocq (Coq 8.16.1)

Source read as text: `/repo` (humanoid-path-planner/hpp-rbprm, pinned commit). Nothing is compiled or run.

## Method

One module = one `*Model.v` (computable / total Gallina definitions only, each citing file and lines),
one `*Proofs.v` (lemmas), one `Properties*.v` (the property theorems only, each `exact lemma`, with
`Print Assumptions` under it and an `Example` of non-vacuity next to it).

Conventions
* `std::map<std::string,V>` = std++ `gmap string V`; iteration order of `std::map` = keys sorted by
  `std::string::operator<` (unsigned lexicographic), function `skeys` of `Maps.v`.
* `std::vector`, `std::queue` = `list` (front of the queue = head).
* Geometry over Coq's axiomatic reals `R` (stdlib axioms, listed by `Print Assumptions`); floating-point
  rounding, NaN and infinities are **not** modelled unless the theorem says so.
* Services of other libraries (forward kinematics, projector, collision checking, QP / LP solvers, octree
  queries, random numbers, path evaluation) are functions passed as parameters (Section variables that
  become universally quantified arguments): the theorems hold for every behaviour of the service.
* Undefined behaviour / exceptions are separate outcomes (`Ub`, `Throw`) of an outcome type.
* `size_t` counters are modelled in `Z` modulo 2^64 where wrap-around is reachable (nbContacts).
* Where the code violates what a user would expect, the property states what the code does; theorems with `_refuted`, or
  named after the anomaly, give the witness that the expected statement is false.

## Plan per property: what is modelled, how it is proved, theorems

* **C01** RemoveContact removes exactly one contact — State record over abstract geometry; `RemoveContact` as function; field-wise lemma. Theorems: `C01_RemoveContact_exact`.
* **C02** RemoveFirstContact is FIFO — same model; iterate `RemoveFirstContact`, induction on the queue. Theorems: `C02_RemoveFirstContact_empty`, `C02_RemoveFirstContact_oldest`, `C02_drain_is_fifo`, `C02_queue_is_chronological`.
* **C03** Contact bookkeeping stays consistent under any history — operation datatype, invariant, induction over the op list. Theorems: `C03_bookkeeping_consistent`, `C03_printing_defined`. Note: count is modulo 2^64 (size_t)
* **C04** contactCreations lists exactly the new or moved contacts — `contactCreations` as fold over sorted keys; characterise membership, NoDup, order. Theorems: `C04_contactCreations_exact`, `C04_contactCreations_append`. Note: exact reals
* **C05** contactBreaks mirrors contactCreations — set equality from C04; symmetry for the real-valued norm. Theorems: `C05_breaks_mirror_creations`. Note: exact reals
* **C06** Contacts are partitioned into fixed and varying ones — filters over the lists of C04/C05. Theorems: `C06_fixed_varying_partition`. Note: exact reals
* **C07** freeVariations returns the effectors free in both states, or throws — `at()` may throw: outcome type; exact outcome in all cases (C07_freeVariations_exact), the non-throwing case for total tables, the throwing one for library states. Theorems: `C07_freeVariations_exact`, `C07_full_tables`, `C07_library_states`. Note: finding: contacts_.at() throws for every library-produced state with an effector free in both states
* **C08** effectorDistance is the largest displacement of a re-placed contact — reals; fold of max; proved equal to max over common contacts moved > 1 cm. Theorems: `C08_effectorDistance_is_max`, `C08_effectorDistance_symmetric`. Note: exact reals
* **C09** What copying and assigning a State preserve — copy constructor and operator= as functions; field-wise equalities, and the field (`robustness`) the assignment drops. Theorems: `C09_copy_exact`, `C09_assign_exact`, `C09_assign_loses_robustness`. Note: finding: operator= does not copy robustness
* **C10** Maintained-contact candidates: all removals up to the bound, fewest broken first — recursive function on depth; enumeration theorem by induction, subsets as sorted id sets. Theorems: `C10_maintain_candidates_exact`, `C10_exact_list`, `C10_maintain_candidates_one_break`. Note: consistent states (C03)
* **C11** A lone contact is never broken by the maintain step — corollary of C10 model. Theorems: `C11_lone_contact_kept`, `C11_at_least_one_contact_kept`.
* **C12** Contact-creation candidates enumerate every arrangement once — recursion on depth; enumeration of arrangements, NoDup, length order. Theorems: `C12_creation_candidates_exact`, `C12_creation_states`, `C12_order`, `C12_order_strict`.
* **C13** Free limbs are tried in a deterministic order without loss — insertIfNew fold; Permutation and filter characterisation. Theorems: `C13_sortLimbs_order`.
* **C14** Affordance objects offered to a limb — outcome type with UB for unknown type; substring test `string::find`. Theorems: `C14_no_filter_all_objects`, `C14_filter_objects`, `C14_unknown_type`, `C14_own_filter_ignored`. Note: findings: unknown affordance type in a filter dereferences end() (UB, shown); the filter chosen is the first whose name merely contains the limb name
* **C15** maintain_contacts returns the first admissible candidate — loop over candidate list with oracles; first-success specification. Theorems: `C15_first_admissible`, `C15_with_stability`, `C15_unstable_state_accepted`, `C15_colliding_state_accepted`. Note: findings with the stability test: success is kept for an unstable state, and a candidate put in its place is not tested for collisions
* **C16** Samples are tried best first and the first admissible one is used — findValidCandidate as loop over ranked reports with oracle projection. Theorems: `C16_best_ranked_projection`.
* **C17** What stability of a generated contact means — loop of findValidCandidate; invariant on flags and robustness; the postural retry modelled with the flags it keeps. Theorems: `C17_stability_of_the_result`, `C17_postural_mode`, `C17_reachable_in_every_mode`, `C17_stable_flag`, `C17_retry_forgets_the_placement`, `C17_single_contact_unchecked`. Note: findings: the postural retry keeps the flags of the first pass and may announce a contact with uninitialised placement; a first contact is declared stable unchecked
* **C18** Adding a contact updates all contact tables and the order — tables and order after an addition; the count that is not updated is a theorem of its own. Theorems: `C18_contact_in_all_tables`, `C18_contact_recorded`, `C18_count_not_updated`. Note: finding: nbContacts is never updated; uninitialised placement after the postural retry (C17)
* **C19** Status of a generated contact determines success — case analysis of generate_contact. Theorems: `C19_status_determines_success`, `C19_unstable_never_succeeds`.
* **C20** Bound on the number of created contacts — gen_contacts loop; exact bound 1 for max = 1, created contacts in general, witness that the bound is exceeded for max >= 2. Theorems: `C20_at_most_one_creation`, `C20_created_contacts`, `C20_bound_exceeded`. Note: finding: with maxContactCreations >= 2 a failed arrangement leaves its first contacts in the working state; later ones come on top
* **C21** Search flags are restored — final-state equalities of the loops. Theorems: `C21_flags_restored`, `C21_postural_flag_restored`, `C21_working_state_changes`.
* **C22** oneStep terminates and reports truthfully — oneStep loop on candidate list; report function. Theorems: `C22_oneStep_terminates`, `C22_candidates_examined_once`, `C22_truthful_flags`.
* **C23** Repositioning: what success and failure mean — repositionContacts with its always-true test; what success and failure then mean. Theorems: `C23_success_means_stable`, `C23_failure`, `C23_contacts_lost`, `C23_unreachable_accepted`. Note: findings: a failing repositioning drops contacts; unreachable ones are accepted
* **C24** One contact per limb group in an initial state — ComputeContacts loop; group predicate; the stable flag. Theorems: `C24_initial_contacts`, `C24_one_contact_per_group`, `C24_always_stable`, `C24_stability_unchecked`. Note: finding: the state is always declared stable
* **C25** Limb registry: unique names — registry operations with both tables; invariant over any history; the case of a name in both tables shown. Theorems: `C25_accepted`, `C25_heuristic`, `C25_rejected_changes_nothing`, `C25_when_rejected`, `C25_heuristics_kept`, `C25_registry`, `C25_registry_any_history`, `C25_same_name_twice`. Note: finding: AddLimb and AddNonContactingLimb each look only at their own table: one id may denote two limbs, be listed twice and share one collision validation
* **C26** Limb lookups and toggling — involution when the id is in one map; the other case shown. Theorems: `C26_lookup`, `C26_lookup_throws`, `C26_toggle_moves`, `C26_toggle_twice`, `C26_toggle_name_in_both`, `C26_toggle_loses_a_limb`. Note: finding: with a name in both tables, toggling loses a limb
* **C27** Effector trajectories: first set wins, appends accumulate in order — nested maps; history theorem. Theorems: `C27_getter_exact`, `C27_all_effectors_exact`, `C27_reports`.
* **C28** Sample database: octree voxels index contiguous, complete and disjoint sample ranges — align as list function; permutation, ranges. Theorems: `C28_realigned`, `C28_constructed`, `C28_resorted`, `C28_short_values_undefined`. Note: values vectors of full length; shorter ones (a file with a wrong size line) are undefined behaviour, shown
* **C29** Which samples the evaluation values belong to — values permuted with align; not with sortDB (own theorem). Theorems: `C29_existing_name`, `C29_unsorted`, `C29_sort_moves_samples_only`, `C29_static_value_kept`, `C29_constructor_detaches`. Note: realignment: C28_realigned; finding: sortDB permutes samples_ but not values_, so after construction values[name][i] is not the value of sample i
* **C30** Candidate query is complete and sorted — multiset insertion; sortedness and multiset equality. Theorems: `C30_candidates`. Note: for the contacts fcl reports (at most 1000)
* **C31** Database save/load round trip — text format; token level model, round trip; findings on the splitter. Theorems: `C31_round_trip`, `C31_digits_lost`, `C31_reading_ends`, `C31_fields`, `C31_fields_exist`. Note: findings: numbers are written with the stream's default six digits and valueBounds_ is not written; order of samples may change (voxel ids are pointer differences)
* **C32** Loading a sample changes only the limb's joints — vectors as lists; segment update. Theorems: `C32_load`, `C32_undefined_outside`.
* **C33** setCollisionFree keeps the current configuration if valid, else the first valid sample — find-first over samples with oracle. Theorems: `C33_set_collision_free`.
* **C34** A sample's contact point: nearest point of the triangle — reals; region case analysis; membership and nearest point outside of the faulty region, witness inside it. Theorems: `C34_in_triangle`, `C34_nearest`, `C34_beyond_t1`, `C34_nearest_everywhere_refuted`, `C34_contact_on_triangle`, `C34_point_in_prism`, `C34_offset`. Note: exact reals, non-degenerate triangles. Finding: one branch divides e by c where d by a is meant, e.g. for (2,-1/2) and the unit triangle the corner (0,0) is returned instead of (1,0)
* **C35** convexHull is a closed clockwise traversal enclosing all points — gift wrapping over R (exact); termination with fuel shown sufficient, edges property. Theorems: `C35_hull_terminates`, `C35_hull_encloses`, `C35_aligned_refuted`. Note: exact reals; enclosure needs general position, shown necessary
* **C36** containsHull decides membership — half-plane test; exact; one- and two-vertex hulls shown. Theorems: `C36_containsHull_exact`, `C36_contains`, `C36_one_point_always_inside`, `C36_two_points_whole_line`, `C36_contains_refuted`, `C36_containsHull_small`. Note: exact reals; findings: one point contains everything, two points their whole line
* **C37** Polygon clipping is intersection — Sutherland-Hodgman; invariant of the clip; undefined behaviour on an empty intermediate list is an outcome. Theorems: `C37_clip`, `C37_clip_region`, `C37_inside_unchanged`, `C37_clip_in_space`, `C37_iterators_sound`, `C37_iterators_unchanged_refuted`, `C37_disjoint_refuted`. Note: exact reals; findings: undefined for disjoint polygons, the iterator overload shrinks small polygons, z of 2D intersection points unset
* **C38** Plane projection and distances — reals, algebra. Theorems: `C38_projection`, `C38_in_plane_iff`, `C38_other_normals_refuted`, `C38_triangle_plane`, `C38_flatten`. Note: exact reals
* **C39** ROM filter semantics of the reachability condition — counting loop with early stop; exact verdict; duplicates and unset ROMs shown. Theorems: `C39_verdict`, `C39_default_verdict`, `C39_others_irrelevant`, `C39_no_report_undefined`, `C39_every_named_rom_reaches_refuted`, `C39_unset_rom_not_required`. Note: findings: a ROM outside the constructor's filter passes without reaching; ROMs without affordance settings are not asked for by default; duplicate or unknown names are rejected; the overloads without a report dereference null
* **C40** Reordering collision pairs never loses or mismatches a pair — Permutation lemmas on swap / Fisher-Yates. Theorems: `C40_pairs_kept`, `C40_rom_validate`, `C40_report`, `C40_shuffle`.
* **C41** Path validation only accepts densely validated paths — loop over real time with fuel; coverage, valid part; termination by Archimedes. Theorems: `C41_path_verdict`, `C41_accepted_dense`, `C41_valid_part_valid_refuted`, `C41_zero_step_diverges`. Note: exact reals; findings: if the first configuration is invalid the valid part [tmin,tmin] is invalid; zero step never ends
* **C42** Which sequences of configurations dynamic validation accepts — state machine with its cache; exact set of accepted sequences; repeatability refuted. Theorems: `C42_accepted_sequences`, `C42_initial_contacts_accepted`, `C42_other_number_rejected`, `C42_repeatable_refuted`, `C42_rejection_forgotten`, `C42_same_contacts_refuted`. Note: findings: the verdict is cached on the acceleration alone; different ROMs in equal number count as the same contacts
* **C43** Weighted triangle choice covers the unit interval — prefix sums; interval lemma. Theorems: `C43_weights`, `C43_choice`, `C43_choice_exists`, `C43_zero_area`, `C43_beyond`. Note: exact reals; with zero total area (NaN weights) always the last triangle, shown
* **C44** Shot positions lie on the affordance triangle, within bounds — convex combination and clamp lemmas. Theorems: `C44_point_in_triangle`, `C44_every_point`, `C44_config_at_point`, `C44_translated`. Note: exact reals
* **C45** Shooting terminates and a found configuration was validated — nested fuel loops with counters. Theorems: `C45_shoot`, `C45_accepting`, `C45_gives_up`, `C45_no_triangles_undefined`. Note: random numbers, the uniform shooter and the validator are arbitrary services; a trunk collision reported without contact is excluded (out-of-range read)
* **C46** removeNonGroundContacts keeps exactly the lowest contacts — filter over map; UB on empty. Theorems: `C46_ground_contacts`, `C46_empty_map`. Note: exact reals; an empty map is dereferenced (undefined behaviour), shown
* **C47** What a copy of heuristic parameters keeps — copy functions; the three dropped fields are theorems. Theorems: `C47_copy_kept`, `C47_copy_dynamic`, `C47_copy_fixed_step`, `C47_assign`. Note: finding: comPath_, currentPathId_ and limbReferenceOffset_ are neither copied nor assigned
* **C48** Support-polygon inclusion test — support polygon of support.cc: contact rectangles, sort by angle, crossing test over the reals. Theorems: `C48_support_test`, `C48_no_contact`, `C48_sizes_missing`, `C48_point_contact`, `C48_two_points`, `C48_three_aligned_points`, `C48_four_points`, `C48_segment_sound`, `C48_segment_ends`, `C48_segment_complete_refuted`. Note: exact reals; findings: zero sized contacts
* **C49** Without any contact no step is possible — oneStep model (Gen*), invariant of the candidate list. Theorems: `C49_no_contact_no_step`.
* **C50** Creating contacts never touches the maintained ones — frame lemma of gen_contacts. Theorems: `C50_maintained_contacts_untouched`.
* **C51** Consecutive states differ by at most one break and one creation — composition of C10, C12, C20 on oneStep. Theorems: `C51_one_break_one_creation`. Note: consistent previous states
* **C52** Intersecting segments and meshes with a plane — segment/plane and mesh/plane intersection over the reals. Theorems: `C52_segment_plane`, `C52_mesh_plane`.
* **C53** Points and pairs of triangles — barycentric test and triangle pair test; array overrun as outcome. Theorems: `C53_inside_complete`, `C53_inside_sound`, `C53_tolerance_refuted`, `C53_triangles_sound`, `C53_triangles_complete`, `C53_triangles_apart_undefined`. Note: findings: the tolerance is relative to the squared area; intersectTriangles overruns its arrays unless the triangle straddles the plane
* **C54** Projecting a point into a polygon — projectPointInsidePlan; minimum over crossings. Theorems: `C54_inside_is_projection`, `C54_in_plane`, `C54_nearest_crossing`, `C54_result_in_polygon_refuted`. Note: finding: the nearest crossing with an edge's line, not with the edge, is returned: it may be outside the polygon
* **C55** Centre and area of a polygon — shoelace sums, induction over the list of vertices. Theorems: `C55_center_of_closed`, `C55_area_of_convex`, `C55_undefined`. Note: centerPlanar always reads out of bounds
* **C56** Sampled orientations respect the limits — loop over the three angles; clamp lemmas. Theorems: `C56_orientation`, `C56_no_limits`, `C56_short_limits_undefined`.
* **C57** The shooter samples exactly the surfaces of the affordances asked for — filtering of affordances and flattening of meshes; membership. Theorems: `C57_surfaces`, `C57_triangles`, `C57_not_a_mesh_undefined`.
* **C58** The support polygon of the heuristics — hull of the rectangles of the ground contacts; closure lemma of C35's algorithm with tolerance. Theorems: `C58_support_polygon`, `C58_hull_points`, `C58_hull_encloses`, `C58_tight_points_refuted`, `C58_projection`, `C58_angle`, `C58_angle_undefined`. Note: exact reals; points nearer than 1e-9 may be lost, shown
* **C59** The weighted centre of a support polygon — weightedCentroid2D; convex combination; non termination as divergence at every fuel. Theorems: `C59_small`, `C59_average_of_groups`, `C59_equal_points_never_end`, `C59_inside`. Note: exact reals; convexHull's output meets the hypothesis of C59_inside by C58_hull_points
* **C60** The dynamic heuristic — explicit formula of the heuristic, sign, witness of the wrong guard. Theorems: `C60_value`, `C60_never_positive`, `C60_interest`, `C60_y_axis_refuted`. Note: exact reals. Finding: the guard of the second loop tests the acceleration along x; a limb already in contact keeps its old position
* **C61** Order induced by the heuristics — order of the `multimap` keys as a function of the value. Theorems: `C61_manipulability`, `C61_efort`, `C61_forward`, `C61_backward`, `C61_fixed_step`, `C61_dynamic_walk`, `C61_dynamic_walk_still`. Note: the NaN direction is not modelled
* **C62** Heuristics and analyses cannot be redefined — factory maps; history theorem. Theorems: `C62_registry`, `C62_analyses`, `C62_analysis_names`.
* **C63** Jacobian measures of a sample — determinants and singular values as inputs; algebra over the reals. Theorems: `C63_manipulability_part`, `C63_manipulability_short`, `C63_manipulability`, `C63_least_singular`, `C63_greatest_singular`, `C63_isotropy`, `C63_isotropy_not_the_ratio`. Note: exact reals; the singular values of Eigen's SVD are an input; finding: operator precedence makes isotropy independent of the greatest singular value
* **C64** Distance to the joint limits — recursive chain of joints, minimum. Theorems: `C64_limb`, `C64_value`, `C64_margin_unique`, `C64_within`, `C64_beyond`, `C64_equal_bounds`, `C64_throws`. Note: exact reals
* **C65** Distance to the reference configuration — difference of pinocchio as a parameter. Theorems: `C65_value`, `C65_best`, `C65_undefined`. Note: pinocchio's difference is an input function
* **C66** Self collision analysis — database loop with fuel and retry; fraction of samples. Theorems: `C66_database`, `C66_database_never_ends`, `C66_value`, `C66_range`, `C66_other_robot`. Note: findings: the value is the fraction without collision; the database is shared by all robots of the process
* **C67** Quaternion distance and interpolation — quaternion algebra over the reals (acos). Theorems: `C67_distance`, `C67_metric`, `C67_ends`, `C67_geodesic`, `C67_close`, `C67_assertion`. Note: exact reals
* **C68** Locking a kinematic tree — recursion on the kinematic tree. Theorems: `C68_locked`, `C68_one_name`, `C68_once`, `C68_top_down`.
* **C69** Obstacles given to and removed from collision tests — lists of (joint, obstacle) pairs; removal may throw. Theorems: `C69_add`, `C69_body`, `C69_limb`, `C69_remove_effector`, `C69_remove_all_but_one`, `C69_remove_all_but`, `C69_remove_all_but_complete`, `C69_remove_all_but_stuck`. Note: hpp-core's removeObstacleFromJoint throws iff the pair is absent (its code is not in /repo); filterCollisionPairs left out. Finding: the obstacles of later limbs never reach the whole body test
* **C70** Rotation matrix helpers — 3x3 matrices with uninitialised entries as arbitrary parameters. Theorems: `C70_z`, `C70_y`, `C70_turns`, `C70_x`. Note: findings: uninitialised entries, misplaced sine
* **C71** Launch and landing speed limits as angle intervals — interval of launch angles from tangents, monotonicity. Theorems: `C71_launch_none`, `C71_launch_interval`, `C71_impact_none`, `C71_impact_interval`. Note: exact reals
* **C72** A returned jump is feasible — second_constraint / third_constraint and dichotomy; final speed and friction inequalities. Theorems: `C72_feasible`. Note: hypotheses: positive gravity and angle margin, non-negative speed bounds, ends not vertically aligned (aligned ends divide by zero in the code)
* **C73** What a refused jump means — loop over trials with fuel. Theorems: `C73_impossible`, `C73_all_tried`, `C73_answers`.
* **C74** Configurations along a jump — parabola-path.cc interpolation; per coordinate. Theorems: `C74_inside`, `C74_ends`, `C74_stuck`. Note: findings: the parabola computed is overwritten by the interpolation; jumps with equal x never leave their start
* **C75** Evaluating, reversing and extracting a parabola path — path record with time range, reverse and extract. Theorems: `C75_evaluation`, `C75_reverse`, `C75_extract`, `C75_extract_backwards`.
* **C76** Reversed jumps and parameter ranges — timed parabola path. Theorems: `C76_reverse`, `C76_range`. Note: findings
* **C77** The target of a random jump — projection of the target. Theorems: `C77_random_target`. Note: finding
* **C78** Trajectory of the centre of mass — com-trajectory.cc as function of time; derivatives by Coquelicot-free algebra. Theorems: `C78_motion`, `C78_extract`, `C78_extract_backwards`. Note: finding: the documentation says a backward extraction is reversed
* **C79** Polynomial trajectories — polynomials of ndcurves as functions. Theorems: `C79_values`, `C79_extract`, `C79_ends`. Note: finding: a range ending at 0 is constant
* **C80** Bezier paths — ndcurves curve as function with throwing outside of its range. Theorems: `C80_values`, `C80_ends`, `C80_late_curve`, `C80_outside`. Note: the curve of ndcurves is any function that throws outside of its range; finding: interpolation parameter for curves not starting at 0
* **C81** Evaluating a path with time-dependent constraints — TimeDependant right hand sides as functions of time, projector any function. Theorems: `C81_configuration`, `C81_projected`, `C81_history`. Note: the projector of hpp-core is any function of the right hand sides and the configuration
* **C82** Creating and extracting paths with time-dependent constraints — record of times, ranges. Theorems: `C82_create`, `C82_extract`, `C82_extract_times`, `C82_extract_fails`, `C82_edit`.
* **C83** Validation of paths with time-dependent constraints — Discretized::validate as parameter. Theorems: `C83_verdict`, `C83_last_step`, `C83_straight`. Note: Discretized::validate of hpp-core is a parameter; finding: the last step is not tested
* **C84** Projecting a state keeps its contacts — projector as sound solver; frame lemma on contacts. Theorems: `C84_com`, `C84_root`, `C84_defined`. Note: hpp-core's projector is any solver that only succeeds when its mandatory constraints hold up to the threshold; result_'s robustness is not copied (uninitialised)
* **C85** Projecting on a root configuration — lock of root joints; invariants of the loop. Theorems: `C85_locked_joints`, `C85_root_configuration`.
* **C86** Collision-free projection on a centre of mass — loop of projections with draws. Theorems: `C86_free_com`. Note: finding: the configurations found by setCollisionFree are dropped, only success is used
* **C87** Pose aimed at by a new contact — rotations as 3x3 real matrices, Eigen's setFromTwoVectors. Theorems: `C87_align`, `C87_contact_point`, `C87_requested_rotation`, `C87_normal_aligned`. Note: Eigen's setFromTwoVectors and toRotationMatrix are modelled; the SVD of the opposite case is any unit orthogonal vector
* **C88** Creating a contact by projection — tasks given to the projector, state updates. Theorems: `C88_state_to_obstacle`, `C88_sample_to_obstacle`. Note: finding: locked joints take the device's current configuration, not the state's
* **C89** Effector constraints of the interpolation — residual of the explicit constraints. Theorems: `C89_position`, `C89_orientation`, `C89_orientation_aligned`, `C89_orientation_wrong`. Note: finding: the placement multiplies the target on the wrong side and is not transposed; the property states the actual effect
* **C90** Weights of the postural tasks — vector writes with range check. Theorems: `C90_weights`, `C90_few_dofs`, `C90_reference`.
* **C91** Reachability bodies follow the robot — device with its ROM sub-devices, any history of configurations. Theorems: `C91_set_configuration`, `C91_together`, `C91_last_configuration`, `C91_references`.
* **C92** The balance library is given exactly the recorded contacts — contact points by frames; failure as outcome. Theorems: `C92_contact_set`, `C92_cone_contacts`, `C92_sole_plane`, `C92_defined`. Note: hpp-centroidal-dynamics is a parameter; finding: the rectangle is built with the inverse of the needed rotation
* **C93** Meaning of the number returned by the balance test — LP answer as parameter. Theorems: `C93_values`, `C93_largest`.
* **C94** What the balance test depends on — extensionality of the inputs. Theorems: `C94_inputs`, `C94_static`, `C94_acceleration`.
* **C95** A failed wrench cone constrains nothing — rows of zeros. Theorems: `C95_cone`. Note: finding: a failure yields constraints that hold everywhere
* **C96** Kinematic constraints loaded from a mesh — mesh of triangles, half-spaces; convexity. Theorems: `C96_loaded`, `C96_defined`, `C96_missing`, `C96_verified`, `C96_moved`, `C96_hull`. Note: exact reals
* **C97** Kinematic constraints of a state — conjunction over the limbs in contact. Theorems: `C97_state`, `C97_verify`, `C97_all`, `C97_limb`, `C97_throws`.
* **C98** Balance constraints on the centre of mass — row scaling. Theorems: `C98_rows`. Note: finding: h is not divided by the norm of the row; a zero row would give NaN
* **C99** Statuses of the reachability test — case analysis of isReachable. Theorems: `C99_statuses`, `C99_defined`, `C99_empty_queue`. Note: finding: front() of an empty queue
* **C100** Reachable means a centre of mass that fits both states — QP as sound and complete solver; equivalence with existence of a centre of mass. Theorems: `C100_broken`, `C100_created`, `C100_moved`. Note: assumes the quadratic program is sound and complete for the distance cost (shown satisfiable), no zero polytope row
* **C101** Reachability through an intermediate state — intermediate state; composition of C100. Theorems: `C101_intermediate`, `C101_no_break`, `C101_acceleration`. Note: findings: half-way to the origin; acceleration dropped
* **C102** Cases the dynamic reachability test does not compute — early returns. Theorems: `C102_guards`, `C102_defined`.
* **C103** Dynamic reachability — table of durations, loop. Theorems: `C103_dynamic`. Note: finding: the last row of the table of durations is never tried
* **C104** Shortcutting returns the same path or a shorter one — optimizer loop over draws; invariant length. Theorems: `C104_shorter_or_same`, `C104_starts`. Note: exact reals; the random generator is any list of draws; finding: a failing extraction in the length test escapes as an exception; one in the replacement loop corrupts the path given (C104_failure)
* **C105** Every element of a shortcut path was validated or comes from the path given — invariant on path elements. Theorems: `C105_elements_validated`.
* **C106** Shortcutting does not fail — outcomes along the loop. Theorems: `C106_no_error`. Note: findings: 0 loops wraps around and throws; a path whose first evaluations all fail dereferences null
* **C107** Shortcutting ends — measure of rounds. Theorems: `C107_rounds_bounded`, `C107_rounds_bounded_all`, `C107_draws`, `C107_draws_accepted`. Note: a round may itself draw for ever when the current path is shorter than three times the least distance between times; rounds, not draws, are bounded
* **C108** The orientation optimizer returns the path given — by-value parameters as pure functions. Theorems: `C108_oriented_same`. Note: finding: the vectors of elements are passed by value, so that nothing is ever reoriented
* **C109** The linear problem stored at a node is Newton and Euler's equation — matrices as functions; Newton-Euler algebra. Theorems: `C109_node_matrices`. Note: the contact approximation (point, normal) is a parameter; its unit length is a hypothesis (its absence a finding)
* **C110** Forces of the node's pyramids respect friction — pyramid generators. Theorems: `C110_friction`, `C110_root_axis`.
* **C111** The surface chosen for a ROM is the nearest of its reference — loop of minimum with draws. Theorems: `C111_best_surface`.
* **C112** Kinodynamic steering from a node — LP and kinodynamic steering as parameters; case analysis. Theorems: `C112_steer_from`. Note: hpp-core's kinodynamic steering and the LP solver are parameters
* **C113** Kinodynamic steering to a node — same, reversed. Theorems: `C113_steer_to`. Note: hpp-core's kinodynamic steering and the LP solver are parameters
* **C114** Every edge of the dynamic planner's roadmap joins its nodes — roadmap with connected component labels, oracles indexed by call number; invariant over any history. Theorems: `C114_edges`, `C114_step`. Note: hpp-core's roadmap is a list of nodes and edges with component labels; every service may answer differently at each call; the hypothesis reaches_goals is needed because a direct connection never checks that its path reaches the goal (C114_stops_short); parabolas are not checked for collisions by this code
* **C115** A component joined to the start means a solution — invariant of the labels (equivalence closure of edges). Theorems: `C115_trees`, `C115_connected`.
* **C116** A drawn configuration that can be joined both ways solves the problem — one step followed through. Theorems: `C116_step`, `C116_direct`. Note: without problem constraints
* **C117** The dynamic planner only adds to the roadmap — monotonicity. Theorems: `C117_grows`, `C117_step`.
* **C118** The dynamic planner's steps are defined — absence of the undefined outcome. Theorems: `C118_defined`. Note: C118_null_report shows the excluded case is a real null dereference
* **C119** Verdict of the dynamic path validation — composition of Valid* with Dpv*. Theorems: `C119_forward`, `C119_reverse`, `C119_default`. Note: the overload with a filter first evaluates the path into an empty vector (dynamic-path-validation.cc:56): the theorems suppose this works; hpp-core's Discretized::validate is a parameter
* **C120** A motion that keeps its contacts is dynamically accepted — invariant of the cached contacts. Theorems: `C120_steady`.
* **C121** A filter that leaves out a ROM in contact rejects the path at its start — witness-free general theorem on the first configuration. Theorems: `C121_narrower_filter`. Note: records a behaviour a user would not expect
* **C122** Samples generated for a limb — sample creation loops; frame on the device. Theorems: `C122_samples`, `C122_load`. Note: Eigen's determinant, pinocchio's forward kinematics and jacobian and the shooter are parameters; C122_stale shows that the geometry of sample 0 need not be that of its joint values
* **C123** Creation of a limb — createLimb as function of the device. Theorems: `C123_create`, `C123_effector`. Note: C123_stale shows the default rotation need not be that of the neutral configuration
* **C124** A limb saved to a file and read again — text round trip, number_text laws. Theorems: `C124_round_trip`. Note: the decimal rounding of the stream is a parameter with the laws of number_text, met by an example
* **C125** Sampling of the path for contact planning — loop over real time, Archimedes. Theorems: `C125_sampling`. Note: the answer of the path evaluation is ignored by the code; the path is a total function in the model
* **C126** The contact planning loop ends — lexicographic measure, singleton groups; divergence witness. Theorems: `C126_ends`, `C126_defined`, `C126_generator`. Note: C126_needed: without the hypothesis on the generator the loop may not end
* **C127** The states follow each other — induction on the loop. Theorems: `C127_chain`, `C127_cut_short`. Note: times are one step early with respect to the configurations (o = 0); states of failed reports are in the list too
* **C128** Reaching the goal state — last steps, exceptions as outcomes. Theorems: `C128_goal`, `C128_one_limb`, `C128_towards`, `C128_exception`. Note: the solver is a parameter, sound when it reports success
* **C129** Which states the filters remove — filters as list functions. Theorems: `C129_filters`.
* **C130** Merging two moves of a limb — tryReplace/trySkip as outcomes. Theorems: `C130_replace`. Note: undefined behaviour of trySkipStates on an empty list of creations is Ub in the model; the theorem is about calls that return
* **C131** Filtering ends with nothing left to filter — fixpoint of the filter, length measure. Theorems: `C131_filtered`.
* **C132** Filters keep one contact change at a time — preservation through the filters. Theorems: `C132_one_change`, `C132_replaced`. Note: for tryReplaceStates and trySkipStates: one change but for the redone contact, which may slip by more than 1 cm unless the aimed rotation leaves the limb's offset alone
* **C133** Contact planning along configurations — composition of C125-C132. Theorems: `C133_ends`, `C133_no_failure`, `C133_states`, `C133_path`, `C133_path_states`, `C133_no_path`.
* **C134** The path between contact states — InterModel.interpolate (retry loop with fuel, table of cells filled in schedule order); equivalence by induction on the attempts; continuity by induction on the states, from soundness of the planner. Theorems: `C134_result`, `C134_continuous`, `C134_time`. Note: the planner and the optimizers of hpp-core are parameters; C134_continuous and C134_time assume that they answer the problem they are given (sound_planner)
* **C135** When the interpolation between states ends — same model: characterisation of the results None (running), ITerminate, IUndef; least attempt by strong induction. Theorems: `C135_ends`, `C135_running`, `C135_never`, `C135_terminates`, `C135_too_many`, `C135_too_few`.
* **C136** The parallel loop is independent of the schedule — same model: the table after an attempt is determined pointwise, whatever the permutation; OmpModel: the loop as interleaved accesses to the two arrays, an invariant tells what the cells of each iteration contain according to where it is, and the end is that of the sequential loop. Theorems: `C136_any_order`, `C136_interleaved`, `C136_same_end`, `C136_interleaved_exists`, `C136_loop_ends`. Note: any permutation of the iterations, and any interleaving of their accesses to the shared arrays res and valid (computation, write of the path, write of the flag; each access atomic); the answers of planner and optimizers are functions of the attempt and of the pair (iterations share no variable); exceptions end the process in any order; calls without undefined behaviour (defined_calls)
* **C137** Random configurations of the interpolation — InterModel.shoot: induction on the free limbs; samples loaded as in C32, right hand sides as for the time dependent paths. Theorems: `C137_shoot`, `C137_never_last`. Note: samples fit in the configuration; rand() is a list of numbers
* **C138** Projection on a centre of mass — InterModel.projectOnCom with the solver of C84. Theorems: `C138_project`. Note: the numerical solver is a parameter, assumed sound (sound_solver)
* **C139** comRRT does not follow the centre of mass — InterModel.comRRT: two runs with the same bodies give the same attempts. Theorems: `C139_ignored`, `C139_guide`.
* **C140** Contacts along the path between states — InterModel.problemBetween; constraints read through contact_held (C84). Theorems: `C140_problem`, `C140_defined`, `C140_held`, `C140_limbRRT`, `C140_limb_from_path`, `C140_com_from_path`. Note: the planner is assumed to respect its constraints (sound_planner)
* **C141** Which effector moves between two states — EffModel.getEffectorLimb/getEffector over contactCreations (C06). Theorems: `C141_limb`, `C141_no_limb`, `C141_effector`, `C141_effector_throws`, `C141_effector_undefined`, `C141_normal`.
* **C142** The effector along a whole body path — EffModel.endEffectorPath: loop with enough fuel; induction; uniqueness of the index. Theorems: `C142_position`, `C142_unique`. Note: exact reals; the answer of the evaluation of the path is ignored as in the code
* **C143** Height of the effector's take off and landing — EffModel.computePredefConstants: polynomial inequalities. Theorems: `C143_height`, `C143_sign`. Note: exact reals
* **C144** Generated trajectory of an effector — EffModel.threePhases/computeBezierPath/generateEndEffectorBezier over the Bezier paths of TrajModel; end conditions by the specification of the curves. Theorems: `C144_generate`, `C144_unknown`, `C144_undefined`, `C144_first_time`. Note: ndcurves and hpp-bezier-com-traj are parameters, assumed to respect the end conditions (good_curves; a septic instance is given with the derivatives of analysis)
* **C145** Candidate trajectories fitted to a path — EffModel.fitBeziersToPath: induction on the weights. Theorems: `C145_candidates`, `C145_throws`. Note: same assumption on the curves
* **C146** Following the effector's trajectory — EffModel.effectorRRTWithPath over InterModel.interpolate (C134): it never throws, hence the first candidate is the only one used. Theorems: `C146_followed`, `C146_no_fit`, `C146_runs`, `C146_throws`, `C146_locked`, `C146_unknown_joint`. Note: same assumption on the curves; planner and optimizers are parameters
* **C147** effectorRRT — EffModel.effectorRRTFromPath/effectorRRT: case analysis; two runs compared. Theorems: `C147_from_path`, `C147_ignored`, `C147_effectorRRT`.
* **C148** Durations measured by the profiler — WatchModel.run: a history is a list of calls with the clock readings; the durations are given by the relation `measured`; induction on it. Theorems: `C148_measures`, `C148_any_history`, `C148_nonnegative`, `C148_so_far`. Note: exact reals for long double; the clock readings are the inputs of the history
* **C149** The minimum forgets after a zero — same model: the fold of the minimum after a zero. Theorems: `C149_zero`.
* **C150** Exceptions of the profiler — WatchModel.step: case analysis. Theorems: `C150_throws`, `C150_effect`.
* **C151** Pausing a measurement — same model, both modes. Theorems: `C151_pause`.
* **C152** Resets, switching off, independence of names — same model; reset_all by induction on the sorted keys. Theorems: `C152_reset`, `C152_reset_all`, `C152_after_reset`, `C152_off`, `C152_off_silent`, `C152_other`.
* **C153** Reports and counts of events — WatchModel.report_all, report_count over the sorted keys of the map. Theorems: `C153_report`, `C153_report_all`, `C153_off`, `C153_counts`, `C153_report_count`. Note: numbers are kept as reals, their printed digits are not modelled; integers without overflow
* **C154** Steering under time-dependent constraints — SteerModel on top of TrajModel; creation (C82) and evaluation (C81) lemmas, invariance of the right hand sides outside of the time-dependent equations by induction on the history. Theorems: `C154_exists`, `C154_ends`, `C154_values`, `C154_history`, `C154_time`, `C154_copy`. Note: the copy of the constraint set with rightHandSideFromConfig and the distance are those of hpp-core: parameters; the copy is taken not to share its own right hand sides with the original
* **C155** Friction cone of a jump — FricModel.fiveth_constraint; Coulomb written on vectors; both compute the half angle through the squared length of the projection of the normal. Theorems: `C155_cone`, `C155_refused`, `C155_tangent`, `C155_total`. Note: exact reals; normals whose cone passes within 1e-6 of the vertical without touching it are out of the claim (there the code uses the formula of the touching case)
* **C156** Text of a state — PrintModel.print1, print2 on strings; text by induction on the sorted names; uniqueness by cutting the text at the blanks. Theorems: `C156_text`, `C156_new`, `C156_unique`, `C156_unique_new`, `C156_first_letter`, `C156_count`, `C156_no_name`. Note: the digits of numbers are a parameter; print() on the standard output is not modelled
* **C157** Shot configurations satisfy the reachability condition — ShotModel composes ShootModel (C43-C45) and ValidModel (C39): constructor, translation bounds, report read by the loop; found implies accepted by induction on the three loops, accepted iff reachability condition by C39. Theorems: `C157_shot`, `C157_history`, `C157_hopeless`, `C157_construct`, `C157_not_a_mesh_undefined`, `C157_direction`. Note: composition of the shooter (C45) and validator (C39) models; fcl's collision answers and the joint bound test are parameters; impl_shoot returns nothing, found is the value only printed
* **C158** Way points of the end effector — WayModel: IsLine, Is2d, getWayPoints with its ramp (unsigned factor) and the spline as a parameter. By induction on the sampling and ramp loops; the cosine test is turned into an inequality between a scalar product and norms. Theorems: `C158_way_points`, `C158_exact_line`, `C158_spline`. Note: nothing in the library calls these functions
* **C159** Recorded contacts hold in the configuration of every generated state — GenModel and SeqModel: the generator keeps the invariant that effectors are at their recorded contacts, given abstract kinematics (induction on the candidate, maintain, creation and repositioning loops); the robot's projections (C86, C88) are shown to satisfy the kinematics; then induction on the interpolation loop, the goal moves (C128) and the filters (C129-C131). Theorems: `C159_step`, `C159_initial`, `C159_robot`, `C159_sequence`, `C159_whole`. Note: without the postural task; the solver's soundness, the placement of a joint depending on the joints above it only, and a failing solver leaving locked joints alone are hypotheses, shown satisfiable by services built from the projections of a robot
* **C160** The dynamic planner stays within the constraints — PlanModel: an invariant of the roadmap kept by each action, with the sequencing rule of the actions; induction on the goals and the steps. Theorems: `C160_constrained`. Note: the constraints are a predicate of configurations and one of paths; that the steering method and the validation keep within the constraints paths between configurations that satisfy them is a hypothesis (hpp-core applies the constraints along the path); when jumps are asked for, the constraints must not depend on the velocity
* **C161** Stepping through time with doubles — FloatSpec: doubles and rounding to nearest in elementary terms; FloatModel: the loops of C41 and C125 with rounded additions. The relative error of a sum of doubles comes from Flocq; induction on the steps; the reverse loop is the forward one on opposite times. Theorems: `C161_interpolate`, `C161_forward`, `C161_reverse`, `C161_dense`, `C161_stuck`. Note: doubles without overflow; the subtraction of the reverse loop is the addition on opposite times; evaluation of the path and validity of a configuration are parameters
* **C162** Weights of the shooter with doubles — FloatModel: the weights of C43 with rounded additions and divisions; relative error of the sum by induction, absolute error of the cumulated weights by induction, then the choice by induction on the list. Theorems: `C162_weights`, `C162_choice`. Note: doubles without overflow; the areas are taken as computed
* **C163** Looking for a time along a path with doubles — FloatModel: the search of C142 with rounded additions, the step being the double nearest to 0.01; the instants of C161, then induction on the steps. Theorems: `C163_search`, `C163_late`, `C163_step`. Note: no overflow; the path's time coordinate is a parameter
* **C164** Collision tests between two contact states — CollModel: the loop over the moving limbs and the removal outside of them, on the pairs of ToolModel. Unicity of joints from that of names, then induction on the limbs with the invariant that nothing is tested below what is not tested, and C69. Theorems: `C164_tested`, `C164_no_move`, `C164_throws`, `C164_stuck`. Note: the validations of the problem are one set of pairs; removing an absent pair throws, as in hpp-core
* **C165** Random parabolic jump — RjumpModel on top of ParaModel (randomTarget, computeCoefficients, maxHeightRespected of C71-C77); the random numbers and the uninitialised members are arguments. Free fall of ParaSpec; the apex is computed from the coefficients. Theorems: `C165_draw`, `C165_jump`. Note: reals; the bounds of the angle are never initialised by the library and are arbitrary here
* **C166** Reference configuration and reference positions of the limbs — RefModel: histories of AddLimb, AddNonContactingLimb, referenceConfig and other uses of the robot, the creation being that of LimbModel (C123); invariant by induction on the history from its end. The root's frame is specified with the rotation formula of a unit quaternion. Theorems: `C166_history`, `C166_defined`, `C166_robot`, `C166_late_limb`, `C166_refused`. Note: reals; configurations with a unit root quaternion; the samples of the limb are left out; the placement of an effector is any function of the configuration
* **C167** Centroid of a polygon — CentModel: the loop of sums. Both sums around the closed polygon are those over a fan (antisymmetry, induction on the points); convex polygons through C36's characterisation by half planes. Theorems: `C167_mean`, `C167_convex`, `C167_reversed`, `C167_defined`. Note: reals; the area is that seen from above (the points' heights are not used)
* **C168** Contact surface and approximate contact point — SurfModel: meshes with placements, on top of GeomModel (C35-C37, C52, C54, C55) and chooseBest of NodeModel (C111). Every predicate closed under segments goes through the clipping (induction on the edges), which gives the soundness for any meshes; exactness composes the theorems on hulls, clipping and sections in general position. Theorems: `C168_sound`, `C168_found`, `C168_none`, `C168_whole`, `C168_center`, `C168_reference_over`, `C168_reference_beside`, `C168_nearest`, `C168_rigid`, `C168_touching`, `C168_contact_near_surface_refuted`, `C168_on_obstacle_refuted`. Note: reals; exactness for points in general position and sides not along the plane (the hull loses points otherwise, C35); loops are given fuel, enough of which exists; two claims one would expect are refuted
* **C169** One step of the generator, exactly — GenModel: a relation for the attempts of a step (maintain a candidate, complete it), proved to be what the do-while loop does by induction on the fuel with the working state and the queue as state; the relation is functional (its steps are deterministic and its ends exclusive). Theorems: `C169_step`, `C169_decided`, `C169_not_reset`. Note: the loop is given fuel, a result meaning that it ended (it does: C22_oneStep_terminates)
* **C170** The root of the robot during a step — GenModel: every transformation of a step keeps the root (induction on the attempts, the candidates, the samples and the repositioned limbs), given abstract services; the robot's projections (C85, C88) satisfy them. Theorems: `C170_root`, `C170_robot`. Note: without the postural task; for a robot, the samples of a limb describe joints of that limb; tolerances of the solver as in C86 and C88 (locked joints are exact)
* **C171** The root of the robot follows the guide — SeqModel and GenModel: an invariant of the loop (index of the configuration the last state has its root from), on top of C127 and C170; closure of a predicate on frames under the filters (C129, C130) and C125 for the path. Theorems: `C171_loop`, `C171_generator`, `C171_filters`, `C171_sequence`, `C171_path`, `C171_sizes`, `C171_library`, `C171_goal_root_refuted`. Note: configurations of the robot's size, free flyer in the first seven entries; the states added for the goal may have their root anywhere (C171_goal_root_refuted: addGoalConfig does not lock it)
* **C172** Generated configurations stay collision free — GenModel: a configuration that is validated stays so: the root projections are validated as they are made, the limbs freed or moved are validated limb by limb (safe_services); induction on the attempts, the samples and the limbs repositioned; SeqModel: invariant of the loop, limb_moved and contact_redone of C128 and C130 contain the validation. Theorems: `C172_step`, `C172_initial`, `C172_robot`, `C172_sequence`, `C172_whole`. Note: without the postural task; the validation of a limb finds what the whole validation would find when only this limb moved (see C173), samples of a limb describe this limb, extra dofs do not collide
* **C173** Limb validations agree with that of the robot — ToolModel: the pairs of C69, trees with distinct names: a joint not under the limb keeps its placement, a joint under it is tested by the limb (paths in the tree, excluded joints are leaves). Theorems: `C173_pairs`, `C173_robot`, `C173_effector_refuted`. Note: filterCollisionPairs is left out (it removes pairs that never meet); all validations test all bodies against each other; the condition on effectors is needed (C173_effector_refuted)
* **C174** The best state of a repositioning — BestModel: the two nested loops; invariant over the candidates seen (the first of the greatest, or none with a score), scores as sums of optional reals. Theorems: `C174_best`, `C174_exists`. Note: scores are reals or not numbers (+infinity left out); private and without caller

## What is modelled and what is not

Modelled, function by function (each definition cites its lines):

| model file | code |
|---|---|
| StateModel | src/rbprm-state.cc, include/hpp/rbprm/rbprm-state.hh |
| CombModel, GenModel | src/contact_generation/contact_generation.cc, algorithm.cc, reports.hh; the part of projection.cc called there |
| BodyModel | src/rbprm-fullbody.cc |
| SampModel, LimbModel | src/sampling/sample-db.cc, sample.cc, src/rbprm-limb.cc |
| ValidModel, DpvModel | src/rbprm-validation.cc, rbprm-rom-validation.cc, rbprm-path-validation.cc, src/dynamic/dynamic-validation.cc, dynamic-path-validation.cc |
| GeomModel | src/utils/algorithms.cc |
| TriModel, ProjModel | src/projection/projection.cc, src/interpolation/interpolation-constraints.{cc,hh} |
| ShootModel | src/rbprm-shooter.cc |
| HeurModel, AnalModel | src/sampling/heuristic.cc, heuristic-tools.cc, analysis.cc |
| SupModel, StabModel | src/stability/support.cc, stability.cc |
| ToolModel, DevModel | src/tools.cc, include/hpp/rbprm/tools.hh, src/rbprm-device.cc |
| ParaModel | src/planner/steering-method-parabola.cc, parabola-path.cc, timed-parabola-path.cc |
| TrajModel | src/interpolation/com-trajectory.cc, polynom-trajectory.cc, bezier-path.cc, time-constraint-path.cc, time-constraint-path-validation.cc, time-dependant.hh |
| ReachModel | src/contact_generation/reachability.cc, kinematics_constraints.cc |
| OptModel | src/planner/random-shortcut-dynamic.cc, oriented-path-optimizer.cc |
| NodeModel | src/planner/rbprm-node.cc, rbprm-steering-kinodynamic.cc |
| PlanModel | src/planner/dynamic-planner.cc |
| SeqModel | src/interpolation/rbprm-path-interpolation.cc |
| InterModel | time-constraint-helper.{hh,inl}, time-constraint-utils.hh, time-constraint-shooter.cc, com-rrt-shooter.cc, limb-rrt-shooter.cc, limb-rrt.cc, com-rrt.cc (BiRRT planner, shortcuts and paths of hpp-core are parameters; removal of collision pairs (modelled in ToolModel) is not part of the problem given to the planner) |
| EffModel | effector-rrt.cc (effector-rrt.hh), getEffectorLimb and getEffector of interpolation-constraints.cc; curves, quadratic solver, planner and paths are parameters; getEffectorConfigAt and getEffectorTransformAt (dead code) are not modelled |
| WatchModel | utils/stop-watch.{hh,cc}, rbprm-profiler.hh (not the two static objects, the Windows branch, the printed digits) |
| SteerModel | time-constraint-steering.hh (copy of constraint sets, distance and operator() of core::SteeringMethod are parameters or as documented in hpp-core) |
| FricModel | SteeringMethodParabola::fiveth_constraint (printed values left out) |
| PrintModel | State::print(ss), print(ss, previous), printInternal |
| ShotModel | RbPrmShooter's constructor, BoundSO3, getTranslationBounds, normalFromTriangleContact, the report of RbPrmValidation::validate as the shooter reads it |
| WayModel | effector-rrt.cc: Is2d, IsLine, getWayPoints, genHeight, splineFromEffectorTraj (the spline is a parameter) |
| FloatModel | the time loops of RbPrmInterpolation::Interpolate, RbPrmPathValidation::validate and DynamicPathValidation::validate, the search of EndEffectorPath and the weights of RbPrmShooter, with rounded operations (no overflow) |
| CollModel | time-constraint-helper.inl: DisableUnNecessaryCollisions and its call in Run |
| RjumpModel | steering-method-parabola.cc: compute_random_3D_path, with the members alpha_1_plus_ and alpha_1_minus_ |
| OmpModel | time-constraint-helper.inl: the parallel loop access by access |
| RefModel | rbprm-fullbody.cc: referenceConfig and AddLimb as histories, what limbs keep of the reference configuration |
| CentModel | algorithms.cc: centroid |
| SurfModel | rbprm-node.cc: computeIntersectionSurface, centerOfRomIntersection, approximateContactPoint and the distance of chooseBestContactSurface; algorithms.cc: GetModel, convertBVH |
| BestModel | rbprm-path-interpolation.cc: findBestRepositionState |

Not modelled: src/planner/parabola-planner.cc (excluded from the build by CMakeLists), logging and profiling
(`hppDout`, `RbPrmProfiler`), data races inside the libraries called by the OpenMP loop (that of
time-constraint-helper.inl is modelled in any order and interleaving of its own accesses, C136; it is the only one compiled), memory management (shared pointers; aliasing is modelled only where an effect depends on it, e.g. the reference
in `setupLibrary`), and everything in other libraries (hpp-core, hpp-constraints, pinocchio, fcl, ndcurves, hpp-centroidal-dynamics,
Eigen's decompositions, glpk/qp solvers): these are parameters of the definitions.

**Services.** A service is a universally quantified function argument of the theorem. A service given as a function of its arguments
answers equally to equal questions; where the code depends on a service with state (random generators, planner oracles) the answers
are a list of draws or a function of the call number. Hypotheses on a service (for example "the solver only reports success
when its constraints hold") are explicit premises, and each is shown satisfiable by an `Example`.

**Numbers.** Reals are exact: rounding, NaN, infinities and `float` vs `double` are not modelled, except for C161-C163 (FloatModel, rounding of doubles with Flocq). `size_t` is modulo 2^64 where
a wrap-around is reachable.

## Trusted base

* Coq 8.16.1's kernel (and `vm_compute`, part of it, used in examples), the `coqc`/`coq_makefile` front end.
* The faithfulness of the definitions to the C++ text, which is by reading; each cites its lines.
* The axioms listed by `Print Assumptions` under each theorem (tables below). All come from the Coq standard library:
  `ClassicalDedekindReals.sig_forall_dec`, `ClassicalDedekindReals.sig_not_dec`,
  `FunctionalExtensionality.functional_extensionality_dep` (all three through `Reals`), `Classical_Prop.classic` (through `Reals`' square roots,
  trigonometry and completeness arguments). `ClassicalEpsilon.constructive_indefinite_description` occurs in a few statements listed in the last table.
* Libraries used: Coq's standard library, std++ (`gmap`, list lemmas) and, for C161-C163, Flocq (rounding to binary64); they add no axiom.
* Seeded bugs (`seeded/LOG.jsonl`) were used to test that the theorems fail for wrong programs.

## Findings

Behaviours of the code found while modelling that a user would not expect. Those with a theorem are named by it in the plan above.

* **Sampling.** `sortDB` permutes the samples but not the values; files keep six digits and not the value bounds; voxel ids are pointer differences; a wrong size header gives an out-of-range read; with `loadValues=false` a value name containing "sample" is misparsed.
* **Validation.** A ROM outside the filter counts as matched; a ROM without affordances is not required; duplicate or unknown names are always rejected; a null report is dereferenced; the "valid part" is invalid when the first configuration is; a zero step diverges. Dynamic validation caches on the acceleration alone, and different ROMs in equal number count as the same contacts. The filter overload of the dynamic path validation evaluates the path into an empty vector and ignores the answer; initial contacts use the default filter, so a narrower filter rejects at the start.
* **Geometry.** Collinear points lose their extremes; a one-point hull contains everything and a two-point hull its whole line; disjoint clipping is undefined; the iterator overload shrinks triangles; `insideTriangle`'s tolerance is relative to the squared area; `intersectTriangles` overruns its arrays; `projectPointInsidePlan` may leave the polygon; `centerPlanar` reads out of bounds.
* **Shooter.** Zero total area always gives the last triangle; no triangle is a modulo by zero; a non-mesh affordance is a null dereference; fewer than six SO3 bounds is an out-of-range read.
* **closestPointInTriangle.** One branch divides the wrong quotient.
* **Heuristics.** Copies of the parameters omit three fields; `removeNonGroundContacts` dereferences `begin()` of an empty map; the second guard of the dynamic heuristic tests x for y; `weightedCentroid` never ends on three equal points.
* **Contact generation.** The status tests in `ComputeStableContact` and `repositionContacts` are always true; the postural retry keeps the flags of the first pass; `nbContacts` is never updated by generation; `freeVariations` throws on library states; multi-limb groups break the tables on repositioning.
* **Analysis.** Operator precedence makes isotropy independent of the greatest singular value; "selfCollisionProbability" is the fraction without collision; the full body database is shared across robots.
* **Tools.** The whole-body collision test only gets the obstacles of the first limbs; the several-limbs removal stops at the first missing pair; rotation helpers leave entries uninitialised and misplace a sine.
* **Parabolas.** The parabola is overwritten by a straight interpolation; jumps with equal x never leave their start; backward extraction and reversal give negative lengths; speeds are swapped without negation; the friction test is disabled; vertical jumps divide by zero.
* **Trajectories.** Backward extraction is not reversed; a polynomial range ending at 0 is constant; the Bezier interpolation parameter is off for curves that do not start at 0; a zero-length extraction divides by zero; the last tenth of a validation step is untested.
* **Projection.** `projectToColFreeComPosition` drops the configurations found; locked joints take the device's current configuration instead of the state's; the orientation target multiplies the placement on the wrong side, untransposed; postural weights write out of range below ten degrees of freedom.
* **Balance and reachability.** The sole rectangle uses the inverse rotation; a failed cone accepts every wrench; rows are normalised but not their right-hand sides; the saved configuration is a reference and not restored; `front()` of an empty contact order; some statuses that do not compute anything count as success; the last timing row is never tried.
* **Optimizers.** A failing extraction in the length test escapes; the "projection error" counter is decremented twice; zero loops wraps around; the orientation optimizer passes its vectors by value and never reorients.
* **Node and planner.** Tangents are not normalised; an unset normal is used when no contact point is found; the LP status is ignored; a direct connection never checks that the path reaches the goal; parabolas are never collision-validated; the reverse degenerate test is always true; a zero-duration path reads a null report; `createWithRoadmap` ignores the roadmap.
* **Limbs.** Sample 0 has neutral joint values but the geometry of the last placements computed; zero samples asked gives one; creation leaves the robot in the neutral configuration; files omit the offset, the flags and the constraint path.
* **Sequences.** State times are one step early; states of failed reports stay in the list; a non-repositioned multiple break would loop forever (excluded for consistent states with singleton groups); a limb broken at the goal makes `.at` throw with the postural flag left disabled; `FilterObsolete` drops states with an equal configuration whose contacts differ; empty lists are indexed by `trySkipStates`.
* **Interpolation.** `interpolateStatesFromPathGetter` retries for ever: `checkPath` no longer throws, and the planner's runtime errors are swallowed by `Run`; a pair that cannot be solved (e.g. a limb whose database has fewer than two samples) hangs limbRRT/comRRT (C135). Exceptions other than the planner's leave an OpenMP loop and terminate the process.
* Every attempt plans all pairs again, although solved ones are kept (C134).
* `res[100]`/`valid[100]`: a hundred pairs or more overflow the arrays in release builds; no pair at all dereferences a null pointer (C135).
* comRRT's constraint on the centre of mass is commented out: the given com path is ignored (C139).
* The last sample of a database is never drawn by the shooter (C137).
* With `keepExtraDof` the time coordinate jumps from 1 to 0 at every intermediate state (C134).
* `projectOnCom` also returns the configuration of a failed projection.
* effectorRRTFromPath: only the first of the nineteen candidates is ever used: the interpolation it calls never fails in a way that lets the loop go on (it retries for ever or the process ends); when the fit with weight 0 fails, its `dynamic_pointer_cast`s are null (C146).
* `computePredefConstants`: the height is negative for motions of 4.8 s or more (C143); velOffset and a_max_predefined are used uninitialised (C144: any value).
* `BezierPath`'s constructor from way points passes the duration where ndcurves expects T_min: the predefined curves throw when derived (C144_first_time).
* `constrainedLockedJoints` is never read; `constrainedJointPos` is ignored without reference path (C146, C147).
* fitBeziersToPath throws out_of_range when the limb that moves had no contact before (C145).
* the trajectory of effectorRRT is stored under `paths().size()`, that of generateEndEffectorBezier under `paths().size() - 1` (C144, C146).
* Stopwatch::pause reads clock() in every mode and never divides by CLOCKS_PER_SEC: start-pause-start-stop adds ticks minus seconds of the epoch (C151); a zero duration erases the minimum (C149); a start without mode throws after having created the record (C150).
* fiveth_constraint answers pi/4 when the cone only touches the vertical plane (one direction), but refuses the same situation at heading +-pi/2; its threshold on the discriminant shrinks with cos(heading) and jumps back at +-pi/2 (C155).
* print(ss, previous) and the contact lines of both texts drop the first character of the names: two effectors LFoot and RFoot give the same text (C156); the contacts are counted by nbContacts but read from contactNormals_.
* SteeringMethodParabola::compute_random_3D_path reads alpha_1_plus_ and alpha_1_minus_, which nothing ever writes (not modelled beyond C77).
* The shooter's constructor adds every geometry to the trunk's obstacles a second time: every trunk collision test is done twice (C157; no effect on the verdict).
* tryReplaceStates and trySkipStates (rbprm-path-interpolation.cc:675,756) add the limb's offset to the contact's position without turning it, while the projection takes off the turned offset: on a slope, or for a limb whose offset is not along its normal, the contact that is redone is not where it was (C132).
* getWayPoints moves the middle point of a straight motion by the height along x and y too (effector-rrt.cc:180 adds height * Ones), takes steps of 1/31 of the path for 30 intervals (the last one is twice as long), and IsLine throws a string literal for a path that ends where it starts (C158; these functions have no caller).
* RandomShortcutDynamic::optimize (random-shortcut-dynamic.cc:200-214): when a part cannot be extracted, the `continue` is that of the inner loop and result is the current path itself, so the following parts are appended to it, hence to the path given by the caller; the path returned is longer and jumps (C104_failure). The same failure is counted twice, so that the number of failures left can pass zero and wrap to 2^64-1 (C107_wraps).
* With doubles, the loop of Interpolate and those of the path validations never end when the step is below half of the spacing of the doubles at the start of the path (C161_stuck); nothing checks it.
* DisableUnNecessaryCollisions (time-constraint-helper.inl:103-123): between two states only the joints of the limbs that move are tested with the environment, the trunk is not (C164_tested, the TODO of the source); and if the root has no pair with one of the obstacles (no collision geometry) the removal stops there and everything but the effectors stays tested (C164_stuck). A limb whose effector is a frame and not a joint makes the interpolation throw (C164_throws).
* compute_random_3D_path reads alpha_1_plus_ and alpha_1_minus_ (steering-method-parabola.hh:187-188), which nothing assigns; its paths carry velocities V0_ and Vimp_ that nothing assigns (parabola-path.cc:41-42); and the height is checked up to the abscissa of the target instead of that of the landing point, so that a jump may pass above the ceiling (C165_jump, C165_above_the_ceiling). Its only caller, parabola-planner.cc, is not compiled.
* referenceConfig (rbprm-fullbody.cc:310-342) only updates the limbs already created, and leaves the robot at the configuration given; a limb created afterwards has the reference position of the neutral configuration, but offset and normal turned with the effector's rotation at the reference configuration, because GetEffectorTransform (rbprm-limb.cc:77-84) does not recompute the placements (C166_late_limb, C166_case).
* centroid (algorithms.cc:87-103) returns a point at height 0, not in the plane of the polygon (a TODO of the source), and for the clockwise polygons that convexHull makes the area it writes is negative (C167_mean, C167_convex; no caller in the library).
* computeIntersectionSurface (rbprm-node.cc:47-74) intersects the range of motion and the obstacle as seen from above: on a wall the surface includes points above its top (C168_on_obstacle_refuted); when they do not overlap at all, compute3DIntersection usually reads before an empty vector instead of returning false (C168_found, C37).
* a range of motion that touches the obstacle's plane in one point gives the polygon [v, v], for which containsHull (algorithms.cc:158-179) always answers true: approximateContactPoint returns the projection of the reference, possibly metres away from the contact (C168_touching).
* oneStep (algorithm.cc:65-95, 113-114) never resets the working state of the helper after a failed attempt: the next set of contacts is compared, for reachability, with the state of the failed attempt, so a solution next to the request can be refused (C169_not_reset).
* DistancePointSegment (support.cc) computes the foot of the perpendicular with the wrong sign, (d - b)/(c - a) for (d - b)/(a - c), and for segments along an axis only looks at the extremities: points of the segment are not recognised (C48_segment_complete_refuted). What is accepted is near the segment (C48_segment_sound).
* The states that addGoalConfig adds to reach the goal's contacts one by one (rbprm-path-interpolation.cc:98-156) are projections in which nothing holds the root: their root may be anywhere, neither on the path nor at the goal (C171_goal_root_refuted). All of them have the time of the last state of the path.
* The states of a sequence either all have the time of the path parameter of their root or are all one step early (C171_path): which of the two depends on whether the first call repositions a contact.
* Only the first limb added decides what the validation of the whole robot tests (rbprm-fullbody.cc:78-82): disableEffectorCollision of the other limbs is not honoured there unless the effector is on a last joint, so contacts accepted for the limb can be in collision for the robot (C173_effector_refuted).


## Assumptions of each theorem (output of Print Assumptions, grouped)

**Closed under the global context** (210): C64_limb, C66_database, C66_database_never_ends, C66_fill, C66_stuck, C62_analyses, C62_analysis_names, C62_analyses_case, C25_rejected_changes_nothing, C25_when_rejected, C25_heuristics_kept, C25_registry, C25_registry_any_history, C25_same_name_twice, C25_accepted, C25_heuristic, C25_example, C26_lookup, C26_lookup_throws, C26_toggle_moves, C26_toggle_twice, C26_toggle_name_in_both, C26_toggle_loses_a_limb, C26_example, C27_getter_exact, C27_all_effectors_exact, C27_reports, C27_example, C10_maintain_candidates_exact, C10_exact_list, C10_maintain_candidates_one_break, C10_example, C11_lone_contact_kept, C11_at_least_one_contact_kept, C11_example, C12_creation_candidates_exact, C12_creation_states, C12_order, C12_order_strict, C12_example, C13_sortLimbs_order, C13_example, C14_no_filter_all_objects, C14_filter_objects, C14_unknown_type, C14_own_filter_ignored, C14_example, C119_default, C119_empty_vector, C146_joints_case, C15_first_admissible, C15_with_stability, C15_unstable_state_accepted, C15_colliding_state_accepted, C15_example, C16_best_ranked_projection, C16_example, C17_stability_of_the_result, C17_reachable_in_every_mode, C17_postural_mode, C17_stable_flag, C17_retry_forgets_the_placement, C17_single_contact_unchecked, C17_example, C18_contact_in_all_tables, C18_contact_recorded, C18_count_not_updated, C18_example, C19_status_determines_success, C19_unstable_never_succeeds, C19_example, C20_at_most_one_creation, C20_created_contacts, C20_bound_exceeded, C20_example, C21_flags_restored, C21_postural_flag_restored, C21_working_state_changes, C21_example, C22_oneStep_terminates, C22_candidates_examined_once, C22_truthful_flags, C22_example, C23_success_means_stable, C23_failure, C23_contacts_lost, C23_unreachable_accepted, C23_example, C24_initial_contacts, C24_one_contact_per_group, C24_always_stable, C24_stability_unchecked, C24_example, C49_no_contact_no_step, C49_example, C50_maintained_contacts_untouched, C50_example, C51_one_break_one_creation, C51_example, C46_empty_map, C47_copy_kept, C47_copy_fixed_step, C47_assign, C62_registry, C62_case, C159_step, C159_initial, C159_step_case, C137_never_last, C123_effector, C124_round_trip, C124_case, C136_loop_ends, C136_loop_case, C108_oriented_same, C108_case, C173_pairs, C173_robot, C115_connected, C156_text, C156_unique, C85_locked_joints, C91_set_configuration, C91_together, C91_last_configuration, C91_references, C91_case, C172_step, C172_initial, C172_step_case, C28_realigned, C28_short_values_undefined, C28_example, C31_round_trip, C31_digits_lost, C31_reading_ends, C31_fields, C31_fields_exist, C31_fields_case, C31_example, C32_load, C32_undefined_outside, C32_example, C33_set_collision_free, C33_example, C133_no_path, C56_no_limits, C57_surfaces, C01_RemoveContact_exact, C01_example, C02_RemoveFirstContact_empty, C02_RemoveFirstContact_oldest, C02_drain_is_fifo, C02_queue_is_chronological, C02_example, C03_bookkeeping_consistent, C03_printing_defined, C03_example, C09_copy_exact, C09_assign_exact, C09_assign_loses_robustness, C09_example, C169_step, C169_decided, C169_step_case, C169_not_reset, C170_root, C170_root_case, C48_no_contact, C68_locked, C68_one_name, C68_once, C68_top_down, C68_names, C68_right_leg_and_pelvis, C69_add, C69_body, C69_limb, C69_remove_effector, C69_remove_all_but_one, C69_remove_all_but, C69_remove_all_but_complete, C69_remove_all_but_stuck, C69_all, C69_effector, C69_stuck, C69_two_feet, C39_verdict, C39_default_verdict, C39_others_irrelevant, C39_no_report_undefined, C39_every_named_rom_reaches_refuted, C39_unset_rom_not_required, C39_example, C40_pairs_kept, C40_rom_validate, C40_report, C40_report_case, C40_shuffle, C42_accepted_sequences, C42_initial_contacts_accepted, C42_other_number_rejected, C42_repeatable_refuted, C42_rejection_forgotten, C42_same_contacts_refuted, C42_example, C153_counts, C153_report_count, C150_case, C153_case

**`ClassicalDedekindReals.sig_forall_dec`** (27): C64_margin_unique, C64_leg, C64_load, C119_case, C141_normal, C38_flatten, C38_flatten_case, C47_case, C122_load, C156_case, C156_case_wrong, C85_locks, C90_reference, C28_resorted, C29_sort_moves_samples_only, C126_ends, C126_defined, C126_case, C126_needed, C127_cut_short, C127_cut_case, C127_case, C133_states, C07_example, C07_library_example, C82_edit, C152_case

**`ClassicalDedekindReals.sig_forall_dec`, `ClassicalDedekindReals.sig_not_dec`, `ClassicalEpsilon.constructive_indefinite_description`, `Classical_Prop.classic`, `FunctionalExtensionality.functional_extensionality_dep`** (8): C100_laws, C100_broken_case, C100_created_case, C100_moved_case, C101_case, C101_no_break_case, C102_case, C103_case

**`ClassicalDedekindReals.sig_forall_dec`, `ClassicalDedekindReals.sig_not_dec`, `Classical_Prop.classic`, `FunctionalExtensionality.functional_extensionality_dep`** (134): C64_within, C64_beyond, C64_middle, C64_out, C141_case, C144_case, C146_case, C147_case, C161_interpolate, C161_forward, C161_reverse, C161_stuck, C161_case, C162_weights, C162_choice, C163_search, C163_late, C155_cone, C155_refused, C155_tangent, C155_total, C155_case_flat, C155_case_faced, C155_case_refused, C47_copy_dynamic, C58_angle, C58_angle_undefined, C58_angle_case, C58_hull_points, C58_hull_encloses, C58_tight_points_refuted, C60_value, C60_never_positive, C159_robot, C159_robot_case, C159_sequence, C159_sequence_case, C159_whole, C159_whole_case, C140_held, C134_case, C135_never_case, C135_terminates_case, C136_case, C140_case, C140_entries_case, C138_project, C138_case, C139_case, C136_interleaved_case, C173_robot_case, C173_effector_refuted, C71_launch_none, C71_launch_interval, C71_impact_none, C71_impact_interval, C72_feasible, C72_one_metre, C73_impossible, C73_all_tried, C73_answers, C73_too_far, C73_colliding, C74_inside, C74_ends, C74_stuck, C74_along_y, C76_reverse, C76_range, C76_jump, C84_com, C84_root, C84_laws, C84_com_case, C84_root_case, C85_root_configuration, C85_case, C86_free_com, C86_case, C87_normal_aligned, C88_state_to_obstacle, C88_sample_to_obstacle, C88_case, C89_orientation, C89_orientation_aligned, C89_orientation_wrong, C89_case, C165_draw, C165_jump, C165_above_the_ceiling, C171_generator, C171_generator_case, C171_filters, C171_sequence, C171_path, C171_case, C171_library, C171_library_case, C171_goal_root_refuted, C172_robot, C172_robot_case, C172_sequence, C172_sequence_case, C172_whole, C128_goal, C128_one_limb, C128_towards, C128_case, C128_exception_case, C130_replace, C130_replaced, C130_skipped, C132_replaced, C132_replace_case, C132_skip_case, C92_cone_contacts, C170_robot, C170_robot_case, C48_support_test, C48_example, C168_contact_near_surface_refuted, C168_contact_case, C168_choice_case, C168_touching_case, C67_distance, C67_metric, C67_ends, C67_geodesic, C67_close, C67_assertion, C67_half_turn, C67_same_rotation, C174_case, C174_exists_case

**`ClassicalDedekindReals.sig_forall_dec`, `ClassicalDedekindReals.sig_not_dec`, `FunctionalExtensionality.functional_extensionality_dep`** (269): C63_manipulability_part, C63_manipulability_short, C63_manipulability, C63_isotropy, C63_isotropy_not_the_ratio, C63_square_case, C63_cube, C63_flat, C63_not_a_number, C64_value, C64_equal_bounds, C64_throws, C65_value, C65_best, C65_undefined, C65_undefined_case, C65_at_reference, C65_off_reference, C164_tested, C164_no_move, C164_throws, C164_stuck, C164_case, C164_throws_case, C164_stuck_case, C141_limb, C141_no_limb, C141_effector, C141_effector_throws, C141_effector_undefined, C144_generate, C144_unknown, C144_undefined, C144_first_time, C145_candidates, C145_throws, C146_followed, C146_no_fit, C146_runs, C146_throws, C146_locked, C146_unknown_joint, C147_from_path, C147_ignored, C147_effectorRRT, C144_first_time_case, C145_case, C155_case_tangent, C36_containsHull_exact, C36_contains, C36_one_point_always_inside, C36_two_points_whole_line, C36_contains_refuted, C36_containsHull_small, C36_small_case, C36_example, C38_projection, C38_triangle_plane, C52_mesh_plane, C53_tolerance_refuted, C53_triangles_sound, C53_triangles_complete, C53_triangles_apart_undefined, C53_example, C54_inside_is_projection, C54_in_plane, C54_nearest_crossing, C54_result_in_polygon_refuted, C54_example, C59_small, C59_average_of_groups, C59_equal_points_never_end, C59_inside, C59_case, C61_dynamic_walk, C61_dynamic_walk_still, C61_dynamic_walk_case, C159_robot_made, C134_result, C134_continuous, C134_time, C135_ends, C135_running, C135_never, C135_terminates, C135_too_many, C135_too_few, C136_any_order, C140_problem, C140_defined, C140_limbRRT, C140_limb_from_path, C140_com_from_path, C139_ignored, C139_guide, C122_samples, C122_stale, C109_node_matrices, C109_case, C110_friction, C110_root_axis, C110_case, C112_steer_from, C112_case, C113_steer_to, C113_case, C136_interleaved, C136_same_end, C136_interleaved_exists, C75_evaluation, C75_reverse, C75_extract, C75_extract_backwards, C75_path, C77_random_target, C77_off_the_line, C156_new, C156_unique_new, C156_first_letter, C156_count, C156_no_name, C156_case_moved, C84_defined, C87_align, C87_contact_point, C87_requested_rotation, C87_axis, C87_opposite, C89_position, C96_loaded, C96_defined, C96_missing, C98_rows, C98_case, C99_statuses, C99_defined, C99_empty_queue, C99_case, C100_broken, C100_created, C100_moved, C101_intermediate, C101_no_break, C101_acceleration, C102_guards, C102_defined, C103_dynamic, C103_hypotheses, C171_sizes, C30_candidates, C30_example, C126_generator, C126_generator_case, C128_exception, C129_filters, C129_repositioning, C129_break_create, C129_obsolete, C131_filtered, C131_case, C132_one_change, C132_case, C133_ends, C133_no_failure, C133_case, C133_path, C133_path_states, C43_weights, C43_choice, C43_choice_exists, C43_zero_area, C43_beyond, C43_beyond_case, C43_example, C44_point_in_triangle, C44_every_point, C44_config_at_point, C44_example, C45_shoot, C45_accepting, C45_gives_up, C45_no_triangles_undefined, C45_example, C56_orientation, C56_short_limits_undefined, C57_triangles, C57_not_a_mesh_undefined, C57_example, C157_shot, C157_history, C157_hopeless, C157_construct, C157_not_a_mesh_undefined, C157_direction, C157_example, C92_contact_set, C92_sole_plane, C92_defined, C92_case, C92_sole, C93_values, C93_case, C94_inputs, C94_static, C94_acceleration, C94_case, C95_cone, C95_case, C95_failure, C04_contactCreations_exact, C04_contactCreations_append, C04_example, C05_breaks_mirror_creations, C05_example, C06_fixed_varying_partition, C06_example, C07_freeVariations_exact, C07_full_tables, C07_library_states, C08_effectorDistance_is_max, C08_effectorDistance_symmetric, C08_example, C154_time, C154_valid, C48_sizes_missing, C48_point_contact, C48_two_points, C48_three_aligned_points, C48_four_points, C48_segment_sound, C48_segment_ends, C48_segment_complete_refuted, C48_segment_case, C168_sound, C168_found, C168_none, C168_whole, C168_center, C168_reference_over, C168_reference_beside, C168_nearest, C168_touching, C168_on_obstacle_refuted, C70_z, C70_y, C70_turns, C70_x, C70_identity, C70_quarter, C83_verdict, C83_last_step, C83_straight, C83_jump, C34_in_triangle, C34_nearest, C34_beyond_t1, C34_nearest_everywhere_refuted, C34_contact_on_triangle, C34_example, C34_offset, C34_prism_case, C158_way_points, C158_line_case, C158_arc_case, C158_closed_case, C158_exact_line, C158_straight_case, C158_spline, C158_spline_case

**`ClassicalDedekindReals.sig_forall_dec`, `Classical_Prop.classic`** (1): C97_throws

**`ClassicalDedekindReals.sig_forall_dec`, `Classical_Prop.classic`, `FunctionalExtensionality.functional_extensionality_dep`** (1): C168_case

**`ClassicalDedekindReals.sig_forall_dec`, `FunctionalExtensionality.functional_extensionality_dep`** (214): C63_least_singular, C63_greatest_singular, C63_values, C63_small_values, C64_joints, C65_weights, C66_value, C66_range, C66_other_robot, C66_all_free, C66_foreign, C167_mean, C167_convex, C167_reversed, C167_defined, C167_case, C167_convex_case, C119_forward, C119_reverse, C120_steady, C120_case, C121_narrower_filter, C121_case, C143_height, C143_sign, C143_case, C142_position, C142_unique, C142_case, C161_dense, C161_stuck_case, C162_case, C163_step, C163_case, C35_hull_terminates, C35_hull_encloses, C35_aligned_refuted, C35_example, C37_clip, C37_clip_region, C37_inside_unchanged, C37_clip_in_space, C37_iterators_sound, C37_iterators_unchanged_refuted, C37_disjoint_refuted, C37_example, C38_in_plane_iff, C38_other_normals_refuted, C38_example, C52_segment_plane, C52_example, C53_inside_complete, C53_inside_sound, C55_center_of_closed, C55_area_of_convex, C55_undefined, C55_example, C46_ground_contacts, C46_case, C58_support_polygon, C58_projection, C58_projection_case, C58_witness, C60_interest, C60_witness_x, C60_y_axis_refuted, C61_manipulability, C61_efort, C61_forward, C61_backward, C61_fixed_step, C61_case, C61_fixed_step_case, C137_shoot, C137_case, C122_case, C123_create, C123_case, C123_stale, C111_best_surface, C111_case, C104_shorter_or_same, C104_case, C104_starts, C104_failure, C105_elements_validated, C105_case, C106_no_error, C106_case, C107_rounds_bounded, C107_rounds_bounded_all, C107_draws, C107_draws_accepted, C107_draws_case, C107_wraps, C107_case, C71_parameters, C74_device, C114_edges, C114_step, C114_case, C114_stops_short, C115_trees, C115_case, C116_step, C116_direct, C116_case, C117_grows, C117_step, C117_case, C118_defined, C118_case, C118_null_report, C160_constrained, C160_case, C156_case_digits, C90_weights, C90_few_dofs, C90_case, C96_verified, C96_moved, C96_hull, C96_case, C97_state, C97_verify, C97_all, C97_limb, C97_case, C100_flags, C166_history, C166_defined, C166_robot, C166_late_limb, C166_refused, C166_case, C166_refused_case, C171_loop, C28_constructed, C28_example_sort, C29_existing_name, C29_unsorted, C29_static_value_kept, C29_constructor_detaches, C29_example, C125_sampling, C125_case, C127_chain, C133_path_case, C44_translated, C56_example, C93_largest, C154_exists, C154_ends, C154_values, C154_history, C154_copy, C154_some, C154_robot, C154_copied, C168_rigid, C168_reference_case, C78_motion, C78_extract, C78_extract_backwards, C78_free_fall, C79_values, C79_extract, C79_ends, C79_before_zero, C80_values, C80_ends, C80_late_curve, C80_outside, C80_path, C80_late, C81_configuration, C81_projected, C81_history, C81_square, C82_create, C82_extract, C82_extract_times, C82_extract_fails, C82_square, C82_part, C83_line, C34_point_in_prism, C41_path_verdict, C41_accepted_dense, C41_valid_part_valid_refuted, C41_zero_step_diverges, C41_example, C148_measures, C148_any_history, C148_nonnegative, C148_so_far, C149_zero, C150_throws, C150_effect, C151_pause, C152_reset, C152_reset_all, C152_after_reset, C152_off, C152_off_silent, C152_other, C153_report, C153_report_all, C153_off, C148_case, C149_case, C151_case, C174_best, C174_exists
