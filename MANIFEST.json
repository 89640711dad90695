{
 "claims": [
  {
   "property": "C01",
   "status": "proved",
   "theorems": [
    "C01_wrap_to_pi",
    "C01_wrap_to_pi_odd_multiples"
   ],
   "note": ""
  },
  {
   "property": "C02",
   "status": "proved",
   "theorems": [
    "C02_rotations"
   ],
   "note": ""
  },
  {
   "property": "C03",
   "status": "proved",
   "theorems": [
    "C03_normalize",
    "C03_truncate"
   ],
   "note": ""
  },
  {
   "property": "C04",
   "status": "proved",
   "theorems": [
    "C04_unit_vector_angle",
    "C04_weighted_average",
    "C04_weighted_average_unit_refuted"
   ],
   "note": "The statement is proved. The refuted theorem is about a further claim of the docstrings: weighted_average of unit vectors is not of unit length."
  },
  {
   "property": "C05",
   "status": "proved",
   "theorems": [
    "C05_polygon_area",
    "C05_area_invariant",
    "C05_area_triangle",
    "C05_area_cut",
    "C05_area_small"
   ],
   "note": ""
  },
  {
   "property": "C06",
   "status": "proved",
   "theorems": [
    "C06_line_intersect",
    "C06_line_intersect_symmetric",
    "C06_collinear_refuted"
   ],
   "note": "The statement is proved. The refuted theorem is about the stronger claim that overlapping collinear segments intersect: line_intersect answers False for them."
  },
  {
   "property": "C07",
   "status": "proved",
   "theorems": [
    "C07_line_of_sight",
    "C07_line_of_sight_laws"
   ],
   "note": ""
  },
  {
   "property": "C08",
   "status": "proved",
   "theorems": [
    "C08_distance_circles"
   ],
   "note": ""
  },
  {
   "property": "C09",
   "status": "partial",
   "theorems": [
    "C09_distance_three_circles_partial",
    "C09_second_lever_arm_refuted",
    "C09_lever_arm_far_side"
   ],
   "note": "distance.py:103 indexes the wrong body: second lever arm refuted; distance, normal and first lever arm proved."
  },
  {
   "property": "C10",
   "status": "proved",
   "theorems": [
    "C10_distance_circle_line",
    "C10_degenerate_wall"
   ],
   "note": ""
  },
  {
   "property": "C11",
   "status": "proved",
   "theorems": [
    "C11_distance_three_circle_line"
   ],
   "note": ""
  },
  {
   "property": "C12",
   "status": "proved",
   "theorems": [
    "C12_overlapping_circles",
    "C12_overlapping_three_circles",
    "C12_overlapping_circle_line",
    "C12_overlapping_three_circle_line",
    "C12_zero_length_walls_unseen"
   ],
   "note": ""
  },
  {
   "property": "C13",
   "status": "proved",
   "theorems": [
    "C13_block_list_needs_positive_cells",
    "C13_getitem_same_cell",
    "C13_nearest_cells_within",
    "C13_nearest_finds_everything_close"
   ],
   "note": ""
  },
  {
   "property": "C14",
   "status": "proved",
   "theorems": [
    "C14_reads_have_no_effect"
   ],
   "note": ""
  },
  {
   "property": "C15",
   "status": "proved",
   "theorems": [
    "C15_circular_agents_apart",
    "C15_agents_clear_of_walls",
    "C15_documented_cell_size_insufficient"
   ],
   "note": ""
  },
  {
   "property": "C16",
   "status": "partial",
   "theorems": [
    "C16_stale_shoulders_refuted",
    "C16_three_circle_agents_apart_partial",
    "C16_first_try_in_place_partial"
   ],
   "note": "Refuted: the shoulders of a three-circle agent are cached at the first position tried, so after a rejected draw bodies overlap. Proved for agents whose shoulders are in place, and that fresh members placed without rejected draws are."
  },
  {
   "property": "C17",
   "status": "proved",
   "theorems": [
    "C17_placement_frame",
    "C17_free_rows",
    "C17_wrong_agent_type"
   ],
   "note": ""
  },
  {
   "property": "C18",
   "status": "partial",
   "theorems": [
    "C18_callable_members_partial",
    "C18_iterator_members_partial",
    "C18_one_item_per_member_refuted",
    "C18_collection_ignores_size_refuted",
    "C18_rebuild_takes_next_items_partial",
    "C18_same_size",
    "C18_resized",
    "C18_emptied_refuted"
   ],
   "note": "Refuted as stated: a group built with its three keyword arguments is rebuilt three times, so a callable is called 3*size times, an iterator with exactly size items raises StopIteration, and a collection ignores size. Proved: size members, consecutive draws in order."
  },
  {
   "property": "C19",
   "status": "proved",
   "theorems": [
    "C19_radii_follow_ratios",
    "C19_body_type_once"
   ],
   "note": ""
  },
  {
   "property": "C20",
   "status": "proved",
   "theorems": [
    "C20_shipped_bodies"
   ],
   "note": ""
  },
  {
   "property": "C21",
   "status": "proved",
   "theorems": [
    "C21_zero_at_target_only",
    "C21_force_value",
    "C21_all_agents",
    "C21_zero_adjusting_time_raises",
    "C21_euler_converges",
    "C21_verlet_converges",
    "C21_verlet_closer_every_step",
    "C21_shrunk_is_closer",
    "C21_shrunk_converges"
   ],
   "note": ""
  },
  {
   "property": "C22",
   "status": "proved",
   "theorems": [
    "C22_torque_of_shortest_turn",
    "C22_torque_at_rest",
    "C22_shortest_turn_unique",
    "C22_all_agents",
    "C22_zero_adjusting_time_raises"
   ],
   "note": ""
  },
  {
   "property": "C23",
   "status": "partial",
   "theorems": [
    "C23_normal_and_tangential_part",
    "C23_third_law",
    "C23_friction_power",
    "C23_damping_adds_energy_refuted"
   ],
   "note": "Refuted clause: the damping part has power damping*(v.n)^2 >= 0, so it adds energy. The other clauses are proved."
  },
  {
   "property": "C24",
   "status": "proved",
   "theorems": [
    "C24_first_contact",
    "C24_nan_otherwise"
   ],
   "note": ""
  },
  {
   "property": "C25",
   "status": "proved",
   "theorems": [
    "C25_no_collision_no_force",
    "C25_capped",
    "C25_opposite",
    "C25_energy_gradient",
    "C25_returns",
    "C25_swapped_agents"
   ],
   "note": ""
  },
  {
   "property": "C26",
   "status": "partial",
   "theorems": [
    "C26_pairs_are_all_pairs",
    "C26_reacts_to_earliest_partial",
    "C26_blocked_by_passed_pair_refuted",
    "C26_missed_collision_refuted",
    "C26_no_crossing_no_force",
    "C26_capped",
    "C26_opposite"
   ],
   "note": "Refuted: the scan keeps the first defined root even when it is negative, which hides later collisions (witness). Proved when the first crossing pair is on a collision course; cap and opposite forces proved unconditionally."
  },
  {
   "property": "C27",
   "status": "proved",
   "theorems": [
    "C27_force_bounded",
    "C27_torque_bounded",
    "C27_fluctuation_node",
    "C27_own_draws"
   ],
   "note": ""
  },
  {
   "property": "C28",
   "status": "proved",
   "theorems": [
    "C28_only_forces_of_listed_agents",
    "C28_far_pairs_do_not_interact",
    "C28_order_irrelevant",
    "C28_superposition",
    "C28_pair_of_circular_agents",
    "C28_pair_of_three_circle_agents"
   ],
   "note": ""
  },
  {
   "property": "C29",
   "status": "proved",
   "theorems": [
    "C29_total_force_unchanged"
   ],
   "note": ""
  },
  {
   "property": "C30",
   "status": "proved",
   "theorems": [
    "C30_equals_all_pairs",
    "C30_default_settings",
    "C30_nothing_missed"
   ],
   "note": ""
  },
  {
   "property": "C31",
   "status": "proved",
   "theorems": [
    "C31_pushed_only_by_walls_it_hits",
    "C31_push_of_one_wall",
    "C31_walls_add_up",
    "C31_order_irrelevant",
    "C31_no_walls"
   ],
   "note": ""
  },
  {
   "property": "C32",
   "status": "proved",
   "theorems": [
    "C32_dt_max_when_nothing_moves",
    "C32_longest_admissible_step",
    "C32_fixed_step"
   ],
   "note": ""
  },
  {
   "property": "C33",
   "status": "partial",
   "theorems": [
    "C33_euler_step",
    "C33_no_inertia",
    "C33_euler_any_number_of_steps",
    "C33_verlet_init_step",
    "C33_verlet_step_partial",
    "C33_verlet_position_refuted",
    "C33_inactive_agents_moved_refuted"
   ],
   "note": "Refuted clauses: the Verlet step adds a*dt^2 too much to the position (exact error proved for any number of steps), and inactive agents are moved. The Euler integrator is exact for any number of steps."
  },
  {
   "property": "C34",
   "status": "partial",
   "theorems": [
    "C34_verlet",
    "C34_verlet_init",
    "C34_euler",
    "C34_euler_other_dtype_refuted"
   ],
   "note": "Refuted only for euler_integrator on arrays whose dtype object is not the module's own (line 158 tests identity); proved for all other steps from any state."
  },
  {
   "property": "C35",
   "status": "proved",
   "theorems": [
    "C35_indices",
    "C35_extent",
    "C35_steps",
    "C35_outside",
    "C35_getdefault"
   ],
   "note": ""
  },
  {
   "property": "C36",
   "status": "proved",
   "theorems": [
    "C36_direction_map",
    "C36_plane"
   ],
   "note": ""
  },
  {
   "property": "C37",
   "status": "proved",
   "theorems": [
    "C37_obstacle_handling",
    "C37_weight"
   ],
   "note": ""
  },
  {
   "property": "C38",
   "status": "partial",
   "theorems": [
    "C38_nearest_neighbours",
    "C38_no_neighbours_wanted_refuted"
   ],
   "note": "Refuted only for size_nearest_other = 0, which the trait allows: a pair in sight then raises (numba versions without the empty-array check write out of bounds instead). Proved for k >= 1."
  },
  {
   "property": "C39",
   "status": "proved",
   "theorems": [
    "C39_herding_directions",
    "C39_only_followers"
   ],
   "note": ""
  },
  {
   "property": "C40",
   "status": "proved",
   "theorems": [
    "C40_leader_choice",
    "C40_stays_ready"
   ],
   "note": ""
  },
  {
   "property": "C41",
   "status": "proved",
   "theorems": [
    "C41_zero_exactly_when_too_narrow",
    "C41_simple_formula",
    "C41_layer_formula",
    "C41_formulas_agree",
    "C41_no_width_refused",
    "C41_nonnegative",
    "C41_monotone"
   ],
   "note": ""
  },
  {
   "property": "C42",
   "status": "proved",
   "theorems": [
    "C42_ranks"
   ],
   "note": ""
  },
  {
   "property": "C43",
   "status": "proved",
   "theorems": [
    "C43_closest_visible_exit",
    "C43_followers_take_the_exit",
    "C43_exit_is_its_middle"
   ],
   "note": ""
  },
  {
   "property": "C44",
   "status": "proved",
   "theorems": [
    "C44_clock_yields_arrivals",
    "C44_clock_increases",
    "C44_clock_ends",
    "C44_timings",
    "C44_timings_count"
   ],
   "note": "Draws of the exponential distribution are an arbitrary stream; strict increase needs positive draws. np.random.shuffle and np.argsort are oracles constrained to permute and to sort."
  },
  {
   "property": "C45",
   "status": "partial",
   "theorems": [
    "C45_polygon_sample_in_triangle",
    "C45_triangle_chance",
    "C45_triangle_uniform",
    "C45_linestring_on_path",
    "C45_linestring_share_refuted"
   ],
   "note": "Polygon clauses proved (membership, triangle chance, uniformity in the triangle by constant Jacobian of a bijection) with scipy's Delaunay as an oracle returning index triples. The linestring clause on chances is refuted for every two-segment path: the lengths are not accumulated; membership on the path is proved."
  },
  {
   "property": "C46",
   "status": "partial",
   "theorems": [
    "C46_segments_partial",
    "C46_chain",
    "C46_outer_lines",
    "C46_holes_refuted",
    "C46_obstacles",
    "C46_refused"
   ],
   "note": "Proved without holes; with holes only outer lines are returned, so the full statement is refuted."
  },
  {
   "property": "C47",
   "status": "proved",
   "theorems": [
    "C47_stays_a_forest",
    "C47_failures_raise",
    "C47_attach",
    "C47_lshift"
   ],
   "note": ""
  },
  {
   "property": "C48",
   "status": "proved",
   "theorems": [
    "C48_update_order",
    "C48_any_node"
   ],
   "note": ""
  },
  {
   "property": "C49",
   "status": "partial",
   "theorems": [
    "C49_inject_after",
    "C49_inject_before_root",
    "C49_inject_before_child_partial",
    "C49_order_kept_refuted"
   ],
   "note": "Refuted clause: inject_before appends the new node to the former parent's children, so the branch moves behind its younger siblings and their order changes. All other clauses proved, with the exact new order."
  },
  {
   "property": "C50",
   "status": "proved",
   "theorems": [
    "C50_lookup"
   ],
   "note": ""
  },
  {
   "property": "C51",
   "status": "proved",
   "theorems": [
    "C51_run_loop",
    "C51_iterations",
    "C51_time"
   ],
   "note": "Run loop and counters for any simulation; the time_tot clause for trees with one Integrator node (all shipped ones)."
  },
  {
   "property": "C52",
   "status": "partial",
   "theorems": [
    "C52_end_marker_partial",
    "C52_at_most_one",
    "C52_no_marker_refuted"
   ],
   "note": "Refuted for exceptions that are not CrowdDynamicsException (for instance ZeroDivisionError from a node): they leave run before the marker is put. Proved for a normal end and for CrowdDynamicsException; never more than one marker."
  },
  {
   "property": "C53",
   "status": "partial",
   "theorems": [
    "C53_force_is_sum_of_contributions_partial",
    "C53_previous_force_partial",
    "C53_steering_gives_no_force",
    "C53_shipped_trees_partial",
    "C53_test_movement_refuted"
   ],
   "note": "Proved for every tree whose order ends integrator, then other nodes, then Reset, which covers all shipped trees except TestMovement (validation.py), where it is refuted: the integrator runs before the force nodes and Reset discards the forces."
  },
  {
   "property": "C54",
   "status": "partial",
   "theorems": [
    "C54_marks_and_adds_changes_partial",
    "C54_no_return_partial",
    "C54_return_counted_twice_refuted",
    "C54_empty_slot_refuted"
   ],
   "note": "Refuted: the counter adds every change of state in either direction, so an agent that leaves and returns counts twice, and an unplaced slot counts. Proved when no inactive agent is seen inside again."
  },
  {
   "property": "C55",
   "status": "partial",
   "theorems": [
    "C55_never_constructed_refuted",
    "C55_never_updated_refuted",
    "C55_names",
    "C55_no_polygon_partial"
   ],
   "note": "Refuted: the name template has a keyword field but is formatted with a positional argument, so the constructor raises KeyError for every field with a polygon target."
  },
  {
   "property": "C56",
   "status": "partial",
   "theorems": [
    "C56_files_hold_what_was_sent_partial",
    "C56_same_array_refuted",
    "C56_sent_states_lost_refuted",
    "C56_other_length_refused"
   ],
   "note": "Proved when no array is changed between being sent and the dump. Refuted in general: the buffer keeps references, so one array sent again and again (as SaveSimulationData does) gives files whose rows are all alike."
  },
  {
   "property": "C57",
   "status": "partial",
   "theorems": [
    "C57_index_order_partial",
    "C57_round_trip_partial",
    "C57_digits_refuted",
    "C57_other_base_names_refuted"
   ],
   "note": "Proved for base names without digits when no foreign file matches; refuted for base names with digits (str.lstrip takes a set of characters) and for base names that are prefixes of others."
  },
  {
   "property": "C58",
   "status": "proved",
   "theorems": [
    "C58_header_and_rows"
   ],
   "note": "The file may exist already; what it held stays in front."
  },
  {
   "property": "C59",
   "status": "partial",
   "theorems": [
    "C59_round_trip_partial",
    "C59_single_geometry_refuted",
    "C59_saved_twice_refuted",
    "C59_multipart_refuted",
    "C59_refused"
   ],
   "note": "Proved for None and lists of geometries, given that shape undoes mapping; refuted for single geometries (AttributeError), multipart geometries (come back as lists) and files saved to twice."
  },
  {
   "property": "C60",
   "status": "partial",
   "theorems": [
    "C60_answers_current_partial",
    "C60_questions_change_nothing",
    "C60_stale_refuted",
    "C60_float_target_refuted",
    "C60_asked_target"
   ],
   "note": "Holds when a field is not changed after it was first asked, whatever happens to other fields. Refuted otherwise: the caches keep the answer of the field as it was (C60_stale_refuted), and a float target number is refused or answered depending on what was asked before. shapely and the solvers behind the maps are parameters."
  },
  {
   "property": "C61",
   "status": "partial",
   "theorems": [
    "C61_in_convex_spawn_partial",
    "C61_away_from_obstacles_partial",
    "C61_hull_filled",
    "C61_sample_in_obstacle_refuted"
   ],
   "note": "Holds for convex spawns, and away from obstacles when what they leave of the spawn is convex. Refuted in general: samples come from the convex hull, so a pillar in the middle of a spawn is hit. shapely operations and Delaunay are parameters whose meaning is stated in Spec/Regions.v."
  },
  {
   "property": "C62",
   "status": "proved",
   "theorems": [
    "C62_round_trip",
    "C62_row_holds_traits",
    "C62_traits_reproduced",
    "C62_one_row_only"
   ],
   "note": ""
  },
  {
   "property": "C63",
   "status": "partial",
   "theorems": [
    "C63_commands_listed",
    "C63_single_partial",
    "C63_last_class_refuted",
    "C63_options_refuted",
    "C63_bad_trait_refuted",
    "C63_installed_refuted"
   ],
   "note": "Only one class without own traits works, and only when cli.py is run as a script. The lambda in the loop reads the loop variable when it is called, so all commands run the last class; a command with options calls a callback that takes no arguments; an unsupported trait stops everything; the console script never adds the commands. Imports and os.listdir are inputs."
  },
  {
   "property": "C64",
   "status": "partial",
   "theorems": [
    "C64_voronoi_1_total",
    "C64_voronoi_1_entries_partial",
    "C64_voronoi_1_raises_refuted",
    "C64_flat_cell",
    "C64_voronoi_2_partial",
    "C64_voronoi_2_area_refuted",
    "C64_negative_refuted",
    "C64_classical_refuted",
    "C64_raised"
   ],
   "note": "Voronoi cells and their intersections with grid cells are inputs with their meaning as hypotheses. density_voronoi_1 keeps the number of agents whenever it returns; its grid has jmax - imin + 1 columns, so it raises when the leftmost column is above the lowest row. density_voronoi_2 reads areas with scipy's region numbers although they are in the order of the points. density_classical passes floats to np.zeros and never returns (numpy 1.12). Truncation merges the cells around the axes."
  },
  {
   "property": "C65",
   "status": "proved",
   "theorems": [
    "C65_ranges",
    "C65_no_points"
   ],
   "note": "For positive figure sizes and aspect, and a margin that is not negative."
  },
  {
   "property": "C66",
   "status": "partial",
   "theorems": [
    "C66_orientation",
    "C66_zero_direction_refuted"
   ],
   "note": "Refuted clause: an agent with zero target direction is turned to orientation 0. The other clauses are proved for every array."
  },
  {
   "property": "C67",
   "status": "partial",
   "theorems": [
    "C67_restored",
    "C67_removed_refuted",
    "C67_nowhere"
   ],
   "note": "Holds whenever the directory still exists; refuted when the body removed it: the clean-up raises and hides the exception of the body."
  },
  {
   "property": "C68",
   "status": "partial",
   "theorems": [
    "C68_gradient_is_negated_partial",
    "C68_contact_time_exists_partial",
    "C68_not_the_gradient_refuted"
   ],
   "note": "Refuted: the returned vector is minus the gradient (proved for all inputs on a collision course); the social force is right because its sign is negated again."
  },
  {
   "property": "C69",
   "status": "partial",
   "theorems": [
    "C69_never_turns_refuted"
   ],
   "note": "Refuted: no assignment sets target_angular_velocity, so created agents at rest never turn, for any number of steps."
  },
  {
   "property": "C70",
   "status": "partial",
   "theorems": [
    "C70_gradient_for_aligned_contact_partial",
    "C70_shoulder_contact_refuted"
   ],
   "note": "Refuted with a shoulder-shoulder contact (power_law.py:149 and the offsets in lines 337-350 have the wrong sign and weight). Proved for contacts with equal displacement from the torsos."
  },
  {
   "property": "C71",
   "status": "partial",
   "theorems": [
    "C71_settings_ignored_refuted",
    "C71_longer_sight_has_no_effect",
    "C71_cap_has_no_effect"
   ],
   "note": "Refuted: both traits are ignored except through the cell size."
  },
  {
   "property": "C72",
   "status": "partial",
   "theorems": [
    "C72_herding_relation",
    "C72_head_on_refuted"
   ],
   "note": "Refuted for exactly head-on neighbours (strict < 1.0 in the comparison); proved otherwise."
  },
  {
   "property": "C73",
   "status": "proved",
   "theorems": [
    "C73_navigation"
   ],
   "note": ""
  },
  {
   "property": "C74",
   "status": "partial",
   "theorems": [
    "C74_continuous_partial",
    "C74_wrong_component_refuted"
   ],
   "note": "Refuted: obstacle_handling.py:89 reads the y component of the direction for both components. Proved outside the radius and for directions with equal components."
  },
  {
   "property": "C75",
   "status": "proved",
   "theorems": [
    "C75_written_tree",
    "C75_update_runs_written_order",
    "C75_exception_not_counted",
    "C75_shipped_orders",
    "C75_found_by_name",
    "C75_updates_deterministic"
   ],
   "note": ""
  },
  {
   "property": "C76",
   "status": "proved",
   "theorems": [
    "C76_nodes_write_their_columns_only",
    "C76_only_integrators_move",
    "C76_bodies_are_constant"
   ],
   "note": ""
  },
  {
   "property": "C77",
   "status": "proved",
   "theorems": [
    "C77_unset_adjusting_time",
    "C77_incomplete_placement"
   ],
   "note": ""
  },
  {
   "property": "C78",
   "status": "partial",
   "theorems": [
    "C78_truncnorm_within_scale_partial",
    "C78_truncnorm_zero_scale_refuted"
   ],
   "note": "Proved for a positive absolute scale; abs_scale = 0 is treated as missing and refutes the statement."
  },
  {
   "property": "C79",
   "status": "proved",
   "theorems": [
    "C79_random_vector"
   ],
   "note": ""
  },
  {
   "property": "C80",
   "status": "partial",
   "theorems": [
    "C80_array_partial",
    "C80_array_multipart_refuted",
    "C80_refused"
   ],
   "note": "Proved for single geometries; every multipart geometry raises ValueError because the generator returns instead of yielding."
  },
  {
   "property": "C81",
   "status": "partial",
   "theorems": [
    "C81_draw_partial",
    "C81_draw_polygon",
    "C81_hole_erases_refuted",
    "C81_outside_refuted",
    "C81_refused"
   ],
   "note": "Proved for geometries without holes inside the grid and for one polygon with holes; refuted for collections (a later hole erases earlier parts) and for cells left of or below the grid, which wrap around. skimage's rasterisers are oracles."
  },
  {
   "property": "C82",
   "status": "proved",
   "theorems": [
    "C82_union"
   ],
   "note": "shapely's | is an oracle that joins point sets."
  },
  {
   "property": "C83",
   "status": "partial",
   "theorems": [
    "C83_data_file",
    "C83_array_files_partial",
    "C83_save_every_update_partial",
    "C83_states_lost_refuted"
   ],
   "note": "The data file is right. Every array file has the right number of rows but all rows are the state at the save; right when every update saves."
  },
  {
   "property": "C84",
   "status": "proved",
   "theorems": [
    "C84_saves_after_all_others"
   ],
   "note": "For trees whose top, the logic of the simulation, is named Reset, as in all shipped simulations."
  },
  {
   "property": "C85",
   "status": "partial",
   "theorems": [
    "C85_values_under_names_partial",
    "C85_other_keys_refuted"
   ],
   "note": "Proved when all rows have the same keys in the same order; refuted otherwise."
  },
  {
   "property": "C86",
   "status": "proved",
   "theorems": [
    "C86_explicit_values_kept",
    "C86_shipped_body_types"
   ],
   "note": "For all histories; the shipped body types name none of the three traits."
  },
  {
   "property": "C87",
   "status": "partial",
   "theorems": [
    "C87_first_inertia_partial",
    "C87_inertia_never_updated_refuted",
    "C87_wrong_inertia_refuted"
   ],
   "note": "Right when mass and radius are both known for the first time; refuted after later changes: the inertia is never recomputed."
  },
  {
   "property": "C88",
   "status": "proved",
   "theorems": [
    "C88_shapes_stay_valid",
    "C88_assignment_effect"
   ],
   "note": "is_valid and is_empty are parameters."
  },
  {
   "property": "C89",
   "status": "proved",
   "theorems": [
    "C89_hull_of_all"
   ],
   "note": "shapely's union and hull are parameters with their meaning as hypotheses."
  },
  {
   "property": "C90",
   "status": "proved",
   "theorems": [
    "C90_accepts_exactly",
    "C90_refusal"
   ],
   "note": "Lengths are the real square roots; np.isclose with its default tolerances."
  },
  {
   "property": "C91",
   "status": "partial",
   "theorems": [
    "C91_columns",
    "C91_traits",
    "C91_override_refuted",
    "C91_named_twice"
   ],
   "note": "Default values are not modelled. Refuted for a class that redefines a trait of its base: the name comes twice and numpy raises ValueError."
  },
  {
   "property": "C92",
   "status": "partial",
   "theorems": [
    "C92_option",
    "C92_supported_partial",
    "C92_tuple_text_refuted"
   ],
   "note": "Refuted for tuples with a Unicode member: 'raise str' instead of 'return str'."
  },
  {
   "property": "C93",
   "status": "partial",
   "theorems": [
    "C93_outdoor",
    "C93_outdoor_size",
    "C93_refused_size_refuted",
    "C93_out_of_range",
    "C93_hallway",
    "C93_spawns_apart"
   ],
   "note": "Shapely's predicates are parameters with the few facts in Spec/Rooms.v (predicates); sizes are positive. Refuted: a width of 0 is refused with ValidationError but stays, with the old domain."
  },
  {
   "property": "C94",
   "status": "proved",
   "theorems": [
    "C94_hallway",
    "C94_rounding",
    "C94_avoid_obstacle",
    "C94_closed_room",
    "C94_room_with_one_exit",
    "C94_four_exits"
   ],
   "note": "Sizes are positive; RoomWithOneExit with an exit narrower than the room."
  },
  {
   "property": "C95",
   "status": "partial",
   "theorems": [
    "C95_hallway",
    "C95_rounding_partial",
    "C95_rounding_refuted",
    "C95_avoid_obstacle_partial",
    "C95_avoid_obstacle_refuted",
    "C95_room_with_one_exit_partial",
    "C95_room_with_one_exit_refuted",
    "C95_four_exits"
   ],
   "note": "Refuted for parameters the fields accept: Rounding with ratio 1 (nobody gets out), AvoidObstacle with ratio_obs 1 (exit shut), RoomWithOneExit with an exit wider than the room (walls in the exit). FourExitsField and HallwayField: proved without restriction on positive sizes."
  },
  {
   "property": "C96",
   "status": "partial",
   "theorems": [
    "C96_hallway",
    "C96_rounding",
    "C96_avoid_obstacle_partial",
    "C96_avoid_obstacle_refuted",
    "C96_closed_room",
    "C96_room_with_one_exit",
    "C96_four_exits",
    "C96_pillar_refuted"
   ],
   "note": "Refuted: AvoidObstacle with an exit wider than the room; PillarInTheMiddle, whose pillar is never inside the domain."
  },
  {
   "property": "C97",
   "status": "partial",
   "theorems": [
    "C97_outdoor",
    "C97_room_with_one_exit",
    "C97_four_exits",
    "C97_outdoor_herding",
    "C97_rounding",
    "C97_avoid_obstacle",
    "C97_closed_room",
    "C97_four_exits_herding",
    "C97_four_exits_fixed",
    "C97_hallway_partial",
    "C97_hallway_refuted",
    "C97_refused",
    "C97_no_targets_refused",
    "C97_everyone_outdoor",
    "C97_everyone_rounding",
    "C97_avoid_obstacle_refuted",
    "C97_any_direction",
    "C97_any_choice"
   ],
   "note": "Per example: the crowd is built without exception for every admissible size and endless draws, with the sizes, flags, targets, exits, directions, bodies and spawn areas stated. C97_everyone_*: draws far enough apart place everybody. Refuted: Hallway with an odd size starts with one agent less; AvoidObstacle accepts exits narrower than 1 but its field refuses them. Exceptions in agents that the first notifications of a group build and the last replaces are not modelled."
  },
  {
   "property": "C98",
   "status": "partial",
   "theorems": [
    "C98_clear_of_walls",
    "C98_into_walls_refuted",
    "C98_circular_apart",
    "C98_three_circle_apart_partial"
   ],
   "note": "Circular agents never overlap; three-circle agents do not if their shoulders are in place (stale shoulders are C16). Examples that hand their walls over (FourExits, Rounding, AvoidObstacle, FourExits herding and fixed) keep every agent clear of them; Hallway, RoomWithOneExit and ClosedRoom do not (refuted: the first draw is always taken)."
  },
  {
   "property": "C99",
   "status": "partial",
   "theorems": [
    "C99_distances",
    "C99_shortest_path",
    "C99_free_nodes",
    "C99_computed",
    "C99_all_reachable_refuted",
    "C99_too_narrow"
   ],
   "note": "path: what each node gets is exact; C99_free_nodes: every free node has a unit vector; C99_computed: the maps exist whenever something is unreachable. Refuted: where every place can be reached (no obstacle drawn, radius too small for the grid) the program raises AttributeError. The solver, the rasterisers, buffer and intersection are parameters."
  },
  {
   "property": "C100",
   "status": "partial",
   "theorems": [
    "C100_navigation",
    "C100_midway_refuted",
    "C100_agents"
   ],
   "note": "C100_navigation: node by node; C100_agents: every agent. Refuted: midway between walls that are both within the radius the direction is NaN."
  },
  {
   "property": "C101",
   "status": "partial",
   "theorems": [
    "C101_field_navigation",
    "C101_no_obstacles_refuted",
    "C101_no_obstacles_maps",
    "C101_domain_removed"
   ],
   "note": "First query; later ones are about the caches (C60). Refuted: a field without obstacles cannot be navigated (AttributeError)."
  },
  {
   "property": "C102",
   "status": "proved",
   "theorems": [
    "C102_explicit_body",
    "C102_drawn_body",
    "C102_straight",
    "C102_test_movement",
    "C102_test_interaction_starts"
   ],
   "note": "C102_explicit_body: any order of arguments. C102_straight: the tree of TestMovement, any crowd without pending forces, any number of updates. C102_test_movement: exactly n/100 m after n iterations. C102_test_interaction_starts is about the start of TestAgentInteraction only: what the two do when they meet depends on the draws."
  },
  {
   "property": "C103",
   "status": "proved",
   "theorems": [
    "C103_lone_walker",
    "C103_settles",
    "C103_outdoor_alone"
   ],
   "note": "C103_lone_walker: an explicit bound for each iteration; C103_settles: the limit; C103_outdoor_alone: the crowd of Outdoor with size 1, from construction on. Draws of the truncated normal are assumed to lie in [0, 3]. The cell list is assumed to pair nobody with themselves."
  },
  {
   "property": "C104",
   "status": "partial",
   "theorems": [
    "C104_only_brakes_refuted",
    "C104_target_ignored_refuted",
    "C104_never_turns_refuted"
   ],
   "note": "Refuted: target_angular_velocity is 0 and nothing in the repository sets it, so the adjusting torque only brakes the rotation (every agent of every example crowd), the orientation of an agent alone outdoors does not depend on its target direction, and without random torque it never changes while the agent comes to walk in another direction."
  },
  {
   "property": "C105",
   "status": "partial",
   "theorems": [
    "C105_finished",
    "C105_default_radius",
    "C105_inside",
    "C105_disjoint",
    "C105_shared",
    "C105_own_point_refuted",
    "C105_region_numbers_refuted"
   ],
   "note": "C105_finished: what becomes of every region (the record `finished` of Spec/Voronoi.v), with C105_default_radius for calls without radius. C105_inside, C105_disjoint, C105_shared: regions lie on their own side and meet in the same new corners. The diagram scipy returns is a parameter of which `is_voronoi` states what is required. Refuted: with the default radius an agent can be outside of its own region (C105_own_point_refuted), and density_voronoi_2 reads areas past their end whenever scipy's ownerless region is not the last one (C105_region_numbers_refuted)."
  },
  {
   "property": "C106",
   "status": "partial",
   "theorems": [
    "C106_every_part",
    "C106_refused",
    "C106_field",
    "C106_plot_field",
    "C106_axes",
    "C106_palette",
    "C106_arrows",
    "C106_arrows_apart",
    "C106_image_partial",
    "C106_image_refuted",
    "C106_holes_refuted",
    "C106_bare_field_refuted"
   ],
   "note": "C106_every_part, C106_refused, C106_field, C106_plot_field, C106_arrows, C106_arrows_apart. C106_image_partial: the picture of the distances is in place if and only if the domain starts in the origin, because the upper right corner is passed as width and height. Refuted: holes are painted over (C106_holes_refuted); fields without domain or without obstacles, which the traits allow, cannot be drawn (C106_bare_field_refuted)."
  },
  {
   "property": "C107",
   "status": "partial",
   "theorems": [
    "C107_splitext",
    "C107_figure",
    "C107_html",
    "C107_module_name",
    "C107_lines",
    "C107_any_node",
    "C107_same_names_refuted"
   ],
   "note": "C107_splitext states os.path.splitext on posix, which is modelled from the standard library. C107_figure, C107_html, C107_module_name, C107_lines, C107_any_node. Reading back is refuted for nodes with equal names (C107_same_names_refuted)."
  },
  {
   "property": "C108",
   "status": "partial",
   "theorems": [
    "C108_refused",
    "C108_accepted_partial",
    "C108_accepted_refuted",
    "C108_nan_refuted",
    "C108_contents",
    "C108_no_spec",
    "C108_numbers",
    "C108_shipped"
   ],
   "note": "ConfigObj.validate and Validator are modelled from their documentation and source (configobj 5). C108_refused, C108_contents, C108_no_spec, C108_shipped. C108_accepted_partial: files with one section, or with no conforming one. Refuted for other files: validate returns a non-empty dictionary when only a part is invalid, and load_config takes that for success (C108_accepted_refuted); nan passes every range (C108_nan_refuted)."
  },
  {
   "property": "C109",
   "status": "partial",
   "theorems": [
    "C109_signature",
    "C109_no_default_refuted",
    "C109_refused",
    "C109_deprecated_refuted",
    "C109_deprecated_partial"
   ],
   "note": "C109_signature. Refuted: isinstance compares with the class that marks missing defaults instead of testing identity, so nothing is refused (C109_no_default_refuted); deprecated reads func_code, which functions do not have in Python 3, so import_simulation_callables cannot be called (C109_deprecated_refuted, C109_deprecated_partial)."
  },
  {
   "property": "C110",
   "status": "partial",
   "theorems": [
    "C110_update",
    "C110_updates",
    "C110_run",
    "C110_cells",
    "C110_moved",
    "C110_images",
    "C110_turned_refuted"
   ],
   "note": "C110_update, C110_updates, C110_run: any logic tree, with cell lists that give the same pairs in both coordinate systems. C110_cells: any correct cell lists, for circular agents without herding. C110_images: every scene has an image (navigation maps only when the axes keep their directions, because the grid is parallel to the axes). C110_moved spells out the moved case. Three circle agents: without mirror images, and with turned axes only if they do not aim at an orientation. Refuted for turned axes otherwise: wrap_to_pi keeps -pi and pi apart, so an agent with its back to its target turns left in one coordinate system and right in another (C110_turned_refuted)."
  },
  {
   "property": "C111",
   "status": "partial",
   "theorems": [
    "C111_updates",
    "C111_circular",
    "C111_alone",
    "C111_step_refuted"
   ],
   "note": "C111_updates: both kinds of agents, cell lists that enumerate the same pairs of the group. C111_circular: circular agents, any correct cell lists with large enough cells. C111_alone: a group of one, with the simulation of that agent alone written out. Every theorem assumes equal random draws for the agents of the group, the forces between agents before the integrator (as in the shipped logics), no follower nodes and a fixed time step. Refuted for a variable time step: the fastest agent anywhere shortens the step of all (C111_step_refuted)."
  },
  {
   "property": "C112",
   "status": "proved",
   "theorems": [
    "C112_updates",
    "C112_circular"
   ],
   "note": "C112_updates: both kinds of agents, from one order to the other, with cell lists that enumerate the same pairs in the same orientation; any time step. C112_circular: circular agents, any correct cell lists, in both directions. Trees with follower nodes are excluded: they store row numbers of leaders and take the first of equally near ones."
  },
  {
   "property": "C113",
   "status": "proved",
   "theorems": [
    "C113_range",
    "C113_turns",
    "C113_idempotent",
    "C113_in_range",
    "C113_odd_multiples",
    "C113_negative_refuted"
   ],
   "note": "The statement is proved; the refuted theorem is about a stronger claim. The model rounds every operation (Flocq's round to nearest even with gradual underflow); np.pi is the nearest double to pi (proved, C113_case). Refuted: a small negative angle becomes zero (C113_negative_refuted), unlike in the idealised model of C01."
  },
  {
   "property": "C114",
   "status": "proved",
   "theorems": [
    "C114_error",
    "C114_error_linear",
    "C114_never_back",
    "C114_keeps_running_refuted"
   ],
   "note": "The statement is proved; the refuted theorem is about a stronger claim. C114_error: the exact bound (1+2^-53)^n - 1. Refuted: with steps of 0.01 the clock stops at 2^47 seconds (C114_keeps_running_refuted)."
  },
  {
   "property": "C115",
   "status": "proved",
   "theorems": [
    "C115_normalize",
    "C115_zero",
    "C115_truncate",
    "C115_subnormal_refuted"
   ],
   "note": "The statement is proved; the refuted theorem is about a stronger claim. hypot of the C library is an input with the stated accuracy; a correctly rounded one satisfies it (C115_case). C115_truncate is for bounds of at least 1 (the code uses 2000) and lengths up to 2^1000. Refuted for subnormal vectors (C115_subnormal_refuted)."
  },
  {
   "property": "C116",
   "status": "proved",
   "theorems": [
    "C116_cells",
    "C116_keys",
    "C116_neighbours"
   ],
   "note": "C116_keys carries C13 and C14 over to double precision keys. The algorithm of // is that of CPython and numpy 1.12."
  },
  {
   "property": "C117",
   "status": "proved",
   "theorems": [
    "C117_capacity",
    "C117_layer_as_wide_as_agent",
    "C117_decimal_refuted"
   ],
   "note": "The statement is proved; the refuted theorem is about a stronger claim. Refuted for decimal widths: a door of 1.2 has room for two agents of 0.4 (C117_decimal_refuted)."
  },
  {
   "property": "C118",
   "status": "partial",
   "theorems": [
    "C118_concatenates_partial",
    "C118_again_refuted",
    "C118_nothing_there",
    "C118_no_basename"
   ],
   "note": "Proved for base names without digits (C57) and files of this base name directly in the directory: the file written holds the rows of all files by number, the other files are kept. Refuted: afterwards every load of the base name and every second call raises ValueError, since the new file has no number."
  },
  {
   "property": "C119",
   "status": "partial",
   "theorems": [
    "C119_once_each_partial",
    "C119_unknown_name",
    "C119_num_refuted",
    "C119_level_refuted",
    "C119_help_refuted",
    "C119_no_names",
    "C119_named_levels"
   ],
   "note": "Proved: the named simulations are run once each in the order given, and nothing is run when a name is unknown. Refuted: --num changes nothing; a level given as a number or misspelled raises TypeError instead of a usage error, and so does --help, because the choices mix numbers and names."
  },
  {
   "property": "C120",
   "status": "partial",
   "theorems": [
    "C120_magnitude_is_slope",
    "C120_no_energy",
    "C120_bounding_box",
    "C120_no_points",
    "C120_three_dimensions_refuted",
    "C120_rectangle_area"
   ],
   "note": "Proved: slope of the potential (k times magnitude), tight bounding boxes in the plane, area of the rectangle. Refuted: points with three columns get two pairs only."
  },
  {
   "property": "C121",
   "status": "proved",
   "theorems": [
    "C121_written_rows_are_read",
    "C121_plain_fields",
    "C121_file_is_read"
   ],
   "note": "Proved for the reader of Python's csv module given the characters of the file: file read with universal newlines off. Values are represented by the texts str() gives."
  },
  {
   "property": "C122",
   "status": "proved",
   "theorems": [
    "C122_goes_on",
    "C122_shipped",
    "C122_run_until",
    "C122_runs_for_ever",
    "C122_worker"
   ],
   "note": "The exceptions considered are those of the model: division by zero of scalars, missing leaders, missing maps and targets; memory, signals and the file system are not. Navigation needs maps with a direction in every cell (Spec/GoesOn.v)."
  },
  {
   "property": "C123",
   "status": "partial",
   "theorems": [
    "C123_directories_differ",
    "C123_metadata",
    "C123_same_directory_refuted",
    "C123_base_ignored_refuted",
    "C123_clean_paths",
    "C123_braces_refuted"
   ],
   "note": "Refuted: two simulations given the same save_directory overwrite each other's arrays, a save_directory that starts with a slash makes the base directory ignored, and a brace anywhere in the directory sends the arrays elsewhere or raises. Proved for default directories without braces. The time zone is the default UTC; each write of a file takes place at once; the geometry file is left to C59."
  },
  {
   "property": "C124",
   "status": "partial",
   "theorems": [
    "C124_checkout",
    "C124_untagged",
    "C124_tells_apart_partial",
    "C124_lookalike_refuted",
    "C124_archive",
    "C124_release_first",
    "C124_branch_refuted",
    "C124_directory",
    "C124_unknown",
    "C124_as_described",
    "C124_styles",
    "C124_styles_untagged",
    "C124_broken_git_refuted",
    "C124_misread",
    "C124_at_the_root"
   ],
   "note": "git is an oracle that answers the commands; C124_checkout, C124_untagged, C124_archive, C124_release_first, C124_directory, C124_unknown, C124_styles, C124_as_described, C124_misread. C124_tells_apart_partial: tags without a plus. Refuted: a tag with a plus reads like another state (C124_lookalike_refuted); an archive of a commit without tags reports the name of a branch that holds a digit (C124_branch_refuted); a git that answers but then fails to count commits or to tell the date makes the import raise (C124_broken_git_refuted)."
  },
  {
   "property": "C125",
   "status": "partial",
   "theorems": [
    "C125_runs",
    "C125_complete",
    "C125_missing_part",
    "C125_unfinished_refuted",
    "C125_no_kind_refuted",
    "C125_too_narrow_refuted",
    "C125_accepted_refuted",
    "C125_traits"
   ],
   "note": "C125_runs, C125_complete (which classes have logic and crowd), C125_missing_part, C125_traits. Refuted: AroundCircle and AvoidPillar have no agents and raise AttributeError on the first update (C125_unfinished_refuted), the validation classes do so until agent_type is set (C125_no_kind_refuted), AvoidObstacle accepts widths and ratios with which its logic cannot be made (C125_too_narrow_refuted, C125_accepted_refuted); a process running a simulation without agents never puts the end marker into the queue (C125_missing_part). The maps and cell lists are as in C122."
  },
  {
   "property": "C126",
   "status": "partial",
   "theorems": [
    "C126_table_partial",
    "C126_listed",
    "C126_lines",
    "C126_rest_kept",
    "C126_unknown",
    "C126_no_text",
    "C126_percent",
    "C126_overridden_refuted",
    "C126_tuple_refuted",
    "C126_indentation_refuted"
   ],
   "note": "C126_table_partial (the csv inside the indented table reads back to the header and one row per trait, for default values that are no tuples of several items), C126_listed, C126_lines, C126_rest_kept, C126_unknown, C126_no_text, C126_percent (percent signs of other kinds). Refuted: a trait defined anew is listed with both default values (C126_overridden_refuted), a default value that is a tuple makes the decorator raise (C126_tuple_refuted), and the table starts in the first column, so the indentation of the rest of the text is no longer removed (C126_indentation_refuted)."
  },
  {
   "property": "C127",
   "status": "partial",
   "theorems": [
    "C127_reals_partial",
    "C127_nothing_missing",
    "C127_array",
    "C127_narrow_refuted",
    "C127_misspelt_refuted",
    "C127_refused",
    "C127_nothing_left",
    "C127_three_draws",
    "C127_gives_up",
    "C127_narrow_types",
    "C127_unit_vectors",
    "C127_unit_vectors_refused",
    "C127_points",
    "C127_linestrings",
    "C127_few_points",
    "C127_polygons_partial",
    "C127_hole_outside_refuted",
    "C127_no_area_refuted",
    "C127_agents",
    "C127_agents_refused"
   ],
   "note": "C127_reals_partial and C127_nothing_missing (scalars of every float type), C127_array (arrays of doubles), C127_refused, C127_nothing_left, C127_unit_vectors, C127_points, C127_linestrings, C127_few_points, C127_polygons_partial (holes in the convex hull of the corners), C127_agents, C127_agents_refused. Refuted: narrower arrays round after the filter, so float16 entries can be zero, infinite and out of bounds (C127_narrow_refuted); a misspelt choice keeps the zeros (C127_misspelt_refuted); holes of polygons that are not convex can lie outside (C127_hole_outside_refuted) and polygons can have no area (C127_no_area_refuted)."
  },
  {
   "property": "C128",
   "status": "proved",
   "theorems": [
    "C128_distance",
    "C128_normal",
    "C128_swapped",
    "C128_accepted",
    "C128_rejected",
    "C128_exact_refuted"
   ],
   "note": "The statement is proved; the refuted theorem is about a stronger claim: overlaps smaller than the rounding of the sum of the radii are accepted (C128_exact_refuted)."
  },
  {
   "property": "C129",
   "status": "proved",
   "theorems": [
    "C129_range",
    "C129_longest_step",
    "C129_nothing_moves",
    "C129_exact_bound_refuted"
   ],
   "note": "The statement is proved; the refuted theorem is about a stronger claim: the bound of C32 is exceeded by a rounding error (C129_exact_bound_refuted)."
  },
  {
   "property": "C130",
   "status": "proved",
   "theorems": [
    "C130_euler",
    "C130_verlet",
    "C130_standing",
    "C130_walking",
    "C130_gets_anywhere_refuted"
   ],
   "note": "The statement is proved; the refuted theorem is about a stronger claim: an agent walking at 2^53 from the origin never moves (C130_gets_anywhere_refuted). dt ** 2 is one rounded product."
  },
  {
   "property": "C131",
   "status": "proved",
   "theorems": [
    "C131_index_in_grid",
    "C131_cell",
    "C131_extent",
    "C131_far_domain_refuted"
   ],
   "note": "The statement is proved; the refuted theorem is about a stronger claim: without the bound on the coordinates the corner of the domain has an index outside the grid (C131_far_domain_refuted)."
  },
  {
   "property": "C132",
   "status": "partial",
   "theorems": [
    "C132_no_wall_stepped_over_partial",
    "C132_in_sight",
    "C132_fast_refuted"
   ],
   "note": "Proved for agents whose greatest stride at that bound of the speed is less than their radius (that of the torso with three circles); refuted for fast agents, who pass a wall in one update without touching it before or after (C132_fast_refuted)."
  },
  {
   "property": "C133",
   "status": "proved",
   "theorems": [
    "C133_speed",
    "C133_settles",
    "C133_scattered",
    "C133_maps"
   ],
   "note": "The logic of the movement test (validation.py:43-44), which integrates before the forces, is excluded. That navigation maps consist of directions is proved for the maps of a field (C133_maps)."
  },
  {
   "property": "C134",
   "status": "proved",
   "theorems": [
    "C134_loads",
    "C134_refused",
    "C134_one_number",
    "C134_int",
    "C134_own_names",
    "C134_foreign_file_refuted"
   ],
   "note": "Characterises load_npy on every listing; C134_foreign_file_refuted shows files of others that are taken for numbered ones. Only ASCII digits and blanks are modelled."
  },
  {
   "property": "C135",
   "status": "proved",
   "theorems": [
    "C135_held",
    "C135_not_crossed",
    "C135_long_wall",
    "C135_shipped_types"
   ],
   "note": "C135_held, C135_not_crossed, C135_long_wall, C135_shipped_types. Circular agents; nobody within 3 m and no other wall touched on the way, which C135_long_wall derives for a person alone with one long wall. In real arithmetic. Standard deviation of fluctuations up to 0.1, as the shipped traits have it."
  },
  {
   "property": "C136",
   "status": "proved",
   "theorems": [
    "C136_goes_on",
    "C136_nothing_else",
    "C136_same_exceptions"
   ],
   "note": "C136_goes_on, C136_nothing_else, C136_same_exceptions: for every tree of modelled nodes. data['dt'] need not be stored: the integrator sets it before anything reads it. Numbers are real numbers, so nothing is lost in storing them; numpy.save stores doubles exactly."
  },
  {
   "property": "C137",
   "status": "partial",
   "theorems": [
    "C137_order_direction",
    "C137_pieces_between",
    "C137_pieces_partial",
    "C137_joint_refuted"
   ],
   "note": "C137_order_direction for every logic, with the same exceptions; C137_pieces_between for sight; C137_pieces_partial: circular agents, shipped logics, nobody nearer to the joint than their radius. C137_joint_refuted: somebody touching the wall right at the joint is pushed with twice the force of the undivided wall."
  },
  {
   "property": "C138",
   "status": "proved",
   "theorems": [
    "C138_pace",
    "C138_gets_away",
    "C138_outdoor_alone"
   ],
   "note": "C138_pace, C138_gets_away, C138_outdoor_alone. Both models. In real arithmetic. The bound of 0.15 m/s is the time to adjust times three standard deviations of the random force."
  },
  {
   "property": "C139",
   "status": "proved",
   "theorems": [
    "C139_crowd_pace",
    "C139_crowd_velocity",
    "C139_interactions_cancel",
    "C139_stays"
   ],
   "note": "for crowds with logic of Outdoor; existence of the run is part of the statement; people of different mass are not covered, as the social force on each of two people is proportional to their own mass"
  },
  {
   "property": "C140",
   "status": "proved",
   "theorems": [
    "C140_led",
    "C140_arrives",
    "C140_says"
   ],
   "note": "for one agent with the logic of Hallway, RoomWithOneExit and FourExits; the direction map is that of the target as the Navigation node gets it; what the map says is traced to the distances the fast marching solver returns (C140_says), which are a parameter: that they diminish in one direction in a straight hall is a hypothesis"
  },
  {
   "property": "C141",
   "status": "proved",
   "theorems": [
    "C141_built",
    "C141_order",
    "C141_refused",
    "C141_unknown_type",
    "C141_type_alone",
    "C141_means_of_the_type"
   ],
   "note": "the held notifications of traitlets' HasTraits.__init__ are modelled (values stored first, observers told in the order of the arguments); the body type comes from any configuration whose section has the nine keys of the shipped file in its order; attributes that do not concern the body have no observers and are left out"
  },
  {
   "property": "C142",
   "status": "proved",
   "theorems": [
    "C142_same_run",
    "C142_same_exceptions",
    "C142_data_file",
    "C142_clock",
    "C142_array_files",
    "C142_every",
    "C142_resume"
   ],
   "note": "the tree of the simulation, the position of the new node in it, the coroutines of save_npy and save_csv and the counter of iterations are run together; that rows of one file repeat the last state is what C83 shows of the node alone; the draws of a resumed run are those that followed in the recorded one"
  },
  {
   "property": "C143",
   "status": "proved",
   "theorems": [
    "C143_swapped",
    "C143_grid_sight",
    "C143_grid_area",
    "C143_clear",
    "C143_along_axis",
    "C143_missed_refuted"
   ],
   "note": "The statement is proved; the refuted theorem is about a stronger claim: without the bound on the angle two segments that cross in their middle are not seen to cross (C143_missed_refuted). No overflow is modelled: a coordinate times another must stay below 2^1023."
  },
  {
   "property": "C144",
   "status": "proved",
   "theorems": [
    "C144_symmetric",
    "C144_without_noise",
    "C144_middle",
    "C144_centre",
    "C144_noise"
   ],
   "note": "Real numbers: with rounding, the order in which forces are added can break the symmetry in the last digit. C144_noise shows that the assumption on the random forces is needed."
  },
  {
   "property": "C145",
   "status": "proved",
   "theorems": [
    "C145_swapped",
    "C145_opposite",
    "C145_momentum",
    "C145_order",
    "C145_two"
   ],
   "note": "hypot and exp of the C library are parameters: of hypot only hypot(-x, -y) = hypot(x, y) is needed. No overflow and no sign of zero is modelled, and numba is taken not to fuse multiplications and additions (fastmath is off)."
  },
  {
   "property": "C146",
   "status": "proved",
   "theorems": [
    "C146_approach",
    "C146_settles",
    "C146_kept",
    "C146_stalls"
   ],
   "note": "One coordinate of a circular agent without random force, at steps of the same length (dt_min = dt_max, the default). No overflow and no sign of zero is modelled."
  },
  {
   "property": "C147",
   "status": "proved",
   "theorems": [
    "C147_update",
    "C147_updates",
    "C147_walls_only",
    "C147_limit_matters"
   ],
   "note": "C147_limit_matters shows that the condition on the social force cannot be dropped: F_SOC_MAX is a number of newtons in the code. The radii, times and lengths are not scaled."
  },
  {
   "property": "C148",
   "status": "proved",
   "theorems": [
    "C148_contact",
    "C148_no_touch",
    "C148_still",
    "C148_slides",
    "C148_on_the_line",
    "C148_room"
   ],
   "note": "hypot of the C library is an input that is exact along the axes, and in C148_room never below a coordinate. The push itself beside the wall only (not beyond its ends); walls at an angle are covered by C148_contact alone. No overflow and no sign of zero is modelled."
  },
  {
   "property": "C149",
   "status": "proved",
   "theorems": [
    "C149_pair",
    "C149_updates",
    "C149_cells",
    "C149_adaptive_steps_differ"
   ],
   "note": "Nodes that refer to the ground (walls, navigation, inside-domain, herding) and, for three circle agents, the orientation are excluded. C149_cells, for circular agents, allows any cell lists; C149_updates allows three circle agents but wants cell lists that do not depend on the origin."
  },
  {
   "property": "C150",
   "status": "proved",
   "theorems": [
    "C150_ticks",
    "C150_timings",
    "C150_strict",
    "C150_ends",
    "C150_ends_refuted",
    "C150_strict_refuted"
   ],
   "note": "The statement is proved; the refuted theorems are about stronger claims (no two ticks ever coincide, the clock always ends). The exponential draws themselves, shuffle and argsort are inputs (any doubles from 0 on, any permutation, any sorting)."
  },
  {
   "property": "C151",
   "status": "proved",
   "theorems": [
    "C151_point",
    "C151_near",
    "C151_chance",
    "C151_share"
   ],
   "note": "The triangulation of scipy is an input, as in C45. np.sqrt is correctly rounded. No overflow is modelled; numba's fastmath is off, as in the source."
  },
  {
   "property": "C152",
   "status": "proved",
   "theorems": [
    "C152_distance",
    "C152_site",
    "C152_clear",
    "C152_direction",
    "C152_overlap",
    "C152_push"
   ],
   "note": "hypot is any function with the error bound of Spec/Doubles.v; walls shorter than 2^-900 are left out (a wall of length zero gives NaN, see C148)."
  },
  {
   "property": "C153",
   "status": "proved",
   "theorems": [
    "C153_distance",
    "C153_clear",
    "C153_overlap"
   ],
   "note": "hypot and walls as for C152."
  },
  {
   "property": "C154",
   "status": "proved",
   "theorems": [
    "C154_gap",
    "C154_accepted",
    "C154_rejected",
    "C154_wall_accepted",
    "C154_wall_accepted_body",
    "C154_wall_rejected",
    "C154_wall_rejected_body"
   ],
   "note": "Complements C128 (circular agents). The lever arms of distance_three_circles are modelled as written but not used here (C09)."
  },
  {
   "property": "C155",
   "status": "proved",
   "theorems": [
    "C155_ranks",
    "C155_exit",
    "C155_grid"
   ],
   "note": "np.argsort is any function that sorts; hypot as for C115. Sight off a grid is C143."
  }
 ]
}