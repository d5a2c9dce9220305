{
 "claims": [
  {
   "property": "C01",
   "status": "proved",
   "theorems": [
    "C01_roundtrip",
    "C01_injective",
    "C01_surjective",
    "C01_never_outside"
   ],
   "note": "for all N"
  },
  {
   "property": "C02",
   "status": "proved",
   "theorems": [
    "C02_layer_new",
    "C02_mesh_new"
   ],
   "note": "any arithmetic"
  },
  {
   "property": "C03",
   "status": "proved",
   "theorems": [
    "C03_point_in_mesh_sound",
    "C03_get_point_layer_sound",
    "C03_many_layers_refuted"
   ],
   "note": "any arithmetic, any polygon finder answers; at most 256 layers (C03_many_layers_refuted shows that the limit is needed)"
  },
  {
   "property": "C04",
   "status": "proved",
   "theorems": [
    "C04_point_in_mesh_iff",
    "C04_get_point_layer_iff"
   ],
   "note": "any arithmetic, unbaked meshes; baked meshes are C05"
  },
  {
   "property": "C05",
   "status": "partial",
   "theorems": [
    "C05_layer_same",
    "C05_point_in_mesh_same",
    "C05_get_point_layer_same",
    "C05_point_in_mesh_same_in_binary32",
    "C05_get_point_layer_same_in_binary32",
    "C05_layer_same_in_binary32",
    "C05_same_in_small_worlds",
    "C05_in_binary32_refuted"
   ],
   "note": "proved in exact arithmetic (layers whose polygons are not empty) and in binary32 where the rounding error about the edges stays below the tolerance (C05_..._in_binary32, C05_same_in_small_worlds); in general it is false in binary32: C05_in_binary32_refuted exhibits a thin triangle that contains, without the finder, a point 276 units outside its bounding box"
  },
  {
   "property": "C06",
   "status": "proved",
   "theorems": [
    "C06_inside_sound",
    "C06_inside_complete",
    "C06_outside",
    "C06_complete_refuted"
   ],
   "note": "exact arithmetic; that the tolerance is needed in the converse is shown by C06_complete_refuted"
  },
  {
   "property": "C07",
   "status": "proved",
   "theorems": [
    "C07_closest_point_sound",
    "C07_closest_point_none",
    "C07_distance",
    "C07_within_radius"
   ],
   "note": "any arithmetic"
  },
  {
   "property": "C08",
   "status": "partial",
   "theorems": [
    "C08_arc_found_partial",
    "C08_all_around_refuted"
   ],
   "note": "proved for the sampled part of each circle; refuted for the rest (unit square, query 0.05 east of it)"
  },
  {
   "property": "C09",
   "status": "proved",
   "theorems": [
    "C09_towards_sound",
    "C09_towards_none",
    "C09_on_the_ray"
   ],
   "note": "any arithmetic"
  },
  {
   "property": "C10",
   "status": "proved",
   "theorems": [
    "C10_path_ends_at_destination",
    "C10_get_path_ends_at_destination",
    "C10_same_polygon"
   ],
   "note": "any arithmetic"
  },
  {
   "property": "C11",
   "status": "proved",
   "theorems": [
    "C11_path_is_supported",
    "C11_get_path_is_supported"
   ],
   "note": "any arithmetic with sane NaN tests"
  },
  {
   "property": "C12",
   "status": "proved",
   "theorems": [
    "C12_blocked_layers_not_entered",
    "C12_no_path_into_blocked_layer"
   ],
   "note": "any arithmetic"
  },
  {
   "property": "C13",
   "status": "proved",
   "theorems": [
    "C13_turns_at_corners"
   ],
   "note": "any arithmetic"
  },
  {
   "property": "C14",
   "status": "proved",
   "theorems": [
    "C14_node_cost_is_walk_length",
    "C14_reported_length",
    "C14_exact_length"
   ],
   "note": "accumulated cost for any arithmetic; equality with the polyline length in exact arithmetic"
  },
  {
   "property": "C15",
   "status": "partial",
   "theorems": [
    "C15_not_shorter_than_straight_line_partial",
    "C15_refuted"
   ],
   "note": "exact arithmetic, root and goal clear of the tolerance of the intervals; refuted in general (binary32 witness: reported length 0 for points at distance 2); in general position C67_at_least_the_distance proves it without a condition on the nodes of the search"
  },
  {
   "property": "C16",
   "status": "proved",
   "theorems": [
    "C16_admissible",
    "C16_attained",
    "C16_in_tolerance_refuted"
   ],
   "note": "exact arithmetic; inside the tolerance it is refuted by C16_in_tolerance_refuted"
  },
  {
   "property": "C17",
   "status": "proved",
   "theorems": [
    "C17_path_terminates",
    "C17_expansion_terminates",
    "C17_poll_terminates"
   ],
   "note": "any arithmetic"
  },
  {
   "property": "C18",
   "status": "proved",
   "theorems": [
    "C18_path_never_fails",
    "C18_path_never_fails_f32",
    "C18_get_path_never_fails",
    "C18_get_path_never_fails_f32",
    "C18_queries_never_fail",
    "C18_many_layers_refuted"
   ],
   "note": "any arithmetic (numbers as squared distances); binary32 with finite coordinates; at most 256 layers (C18_many_layers_refuted)"
  },
  {
   "property": "C19",
   "status": "partial",
   "theorems": [
    "C19_queries_never_out_of_bounds",
    "C19_search_in_bounds_partial",
    "C19_search_out_of_bounds_refuted"
   ],
   "note": "queries: proved; search: proved unless a polygon uses the index len; refuted in general (the guard is > instead of >=)"
  },
  {
   "property": "C20",
   "status": "proved",
   "theorems": [
    "C20_islands_do_not_change_paths"
   ],
   "note": "any arithmetic"
  },
  {
   "property": "C21",
   "status": "proved",
   "theorems": [
    "C21_islands_are_components",
    "C21_labels_reach",
    "C21_mesh_bake"
   ],
   "note": "any arithmetic"
  },
  {
   "property": "C22",
   "status": "proved",
   "theorems": [
    "C22_returned_path_is_best",
    "C22_node_order_total_preorder"
   ],
   "note": "any arithmetic with lawful total_cmp; binary32 is an instance"
  },
  {
   "property": "C23",
   "status": "proved",
   "theorems": [
    "C23_history_is_attained_lower_bound",
    "C23_dropped_when_dominated",
    "C23_pruned_when_dominated"
   ],
   "note": "any arithmetic with lawful comparisons; binary32 is an instance"
  },
  {
   "property": "C24",
   "status": "partial",
   "theorems": [
    "C24_why_no_path_partial",
    "C24_refuted"
   ],
   "note": "refuted (comb mesh: connected polygons, no path); proved: the only reasons for no path are unlocated ends, islands, an exhausted queue and the step limit; on meshes without defects C64 proves that only the step limit is left"
  },
  {
   "property": "C25",
   "status": "partial",
   "theorems": [
    "C25_path_implies_future_partial",
    "C25_future_implies_path_partial",
    "C25_future_none_implies_path_none_partial",
    "C25_separated_no_path",
    "C25_on_mesh_points_agree",
    "C25_location_refuted",
    "C25_islands_refuted"
   ],
   "note": "any number of layers, both ends located alike and, on several layers, not separated by the islands of layer 0: proved in both directions up to the step limit (separated ends: the future answers None at once); refuted in general by two witnesses"
  },
  {
   "property": "C26",
   "status": "proved",
   "theorems": [
    "C26_woken_iff_pending",
    "C26_result_is_first_outcome",
    "C26_wake_log"
   ],
   "note": "any arithmetic"
  },
  {
   "property": "C27",
   "status": "proved",
   "theorems": [
    "C27_no_way_back",
    "C27_corridors_stay",
    "C27_one_way_paths"
   ],
   "note": "any arithmetic, any sort"
  },
  {
   "property": "C28",
   "status": "proved",
   "theorems": [
    "C28_stitch_adds_exactly",
    "C28_stitch_at_points",
    "C28_stitching_twice_refuted"
   ],
   "note": "any arithmetic, any sort; stitching twice is refuted by C28_stitching_twice_refuted"
  },
  {
   "property": "C29",
   "status": "proved",
   "theorems": [
    "C29_reorder_keeps_neighbours",
    "C29_order_and_holes",
    "C29_reorder_never_fails"
   ],
   "note": "any arithmetic, any sort"
  },
  {
   "property": "C30",
   "status": "proved",
   "theorems": [
    "C30_remove_undoes_stitch",
    "C30_removing_twice_refuted",
    "C30_corners_not_restored_refuted"
   ],
   "note": "any arithmetic, any sort: neighbour sets; corner flags not restored and not idempotent: refuted"
  },
  {
   "property": "C31",
   "status": "proved",
   "theorems": [
    "C31_restitch_layer",
    "C31_restitch_layer_at_points"
   ],
   "note": "any arithmetic, any sort; for stitch vertices and for stitch points"
  },
  {
   "property": "C32",
   "status": "proved",
   "theorems": [
    "C32_finds_exactly_the_shared_points",
    "C32_can_be_stitched",
    "C32_eq_laws_binary32",
    "C32_eq_laws_exact",
    "C32_offsets_refuted"
   ],
   "note": "any arithmetic with symmetric equality; binary32 and exact reals are instances; layer offsets are ignored (C32_offsets_refuted)"
  },
  {
   "property": "C33",
   "status": "proved",
   "theorems": [
    "C33_remove_useless",
    "C33_same_containment",
    "C33_idempotent"
   ],
   "note": "any arithmetic"
  },
  {
   "property": "C34",
   "status": "partial",
   "theorems": [
    "C34_stops_at_the_first_change",
    "C34_repeating_reaches_all_layers",
    "C34_refuted"
   ],
   "note": "the claim is refuted; proved what one call does, and that repeating remove_useless_vertices reaches all layers"
  },
  {
   "property": "C35",
   "status": "proved",
   "theorems": [
    "C35_merge",
    "C35_neighbours",
    "C35_false_means_done",
    "C35_merge_never_fails",
    "C35_loop_terminates",
    "C35_stitched_refuted"
   ],
   "note": "any arithmetic, any area function, sort and convexity test; never fails on unstitched layers; stitched meshes make it panic (C35_stitched_refuted)"
  },
  {
   "property": "C36",
   "status": "partial",
   "theorems": [
    "C36_unchanged_or_accepted",
    "C36_area_of_a_group",
    "C36_area_partial",
    "C36_refuted"
   ],
   "note": "every result passed the convexity test: proved for any test; area: exact arithmetic, gluings along single edges; refuted in general (2x2 grid: the merged ring contains no point any more)"
  },
  {
   "property": "C37",
   "status": "proved",
   "theorems": [
    "C37_conversion"
   ],
   "note": "any arithmetic, any sort that permutes"
  },
  {
   "property": "C38",
   "status": "partial",
   "theorems": [
    "C38_refuted",
    "C38_circle_refuted",
    "C38_listing_refuted",
    "C38_half_plane_partial",
    "C38_convex_corner_partial"
   ],
   "note": "refuted in any arithmetic (not reflexive; circular; changes the neighbours, binary32 witness); proved: in exact arithmetic it orders different directions inside an open half plane, and there the converted mesh lists the triangles of the vertex counterclockwise whatever their order in the input (C38_convex_corner_partial); missing: vertices inside the mesh, where the listing matters"
  },
  {
   "property": "C39",
   "status": "proved",
   "theorems": [
    "C39_reads_the_format",
    "C39_round_trip",
    "C39_empty_polygon_refuted",
    "C39_round_trip_f32",
    "C39_saved_again",
    "C39_mesh_round_trip",
    "C39_other_layers_lost_refuted",
    "C39_flags_lost_refuted"
   ],
   "note": "reading the documented format: any number parser; writing and reading: any printer and parser that agree, and binary32 with six digits (within a millionth, exact from 16 on, stable); flags, offsets, other layers and empty polygons: refuted"
  },
  {
   "property": "C40",
   "status": "proved",
   "theorems": [
    "C40_one_way_flag"
   ],
   "note": "any arithmetic"
  },
  {
   "property": "C41",
   "status": "proved",
   "theorems": [
    "C41_as_layer",
    "C41_returns",
    "C41_well_formed"
   ],
   "note": "any arithmetic, any triangulator and geometry library that return consistent subdivisions"
  },
  {
   "property": "C42",
   "status": "proved",
   "theorems": [
    "C42_last_call_decides",
    "C42_settings",
    "C42_defaults"
   ],
   "note": "any arithmetic"
  },
  {
   "property": "C43",
   "status": "proved",
   "theorems": [
    "C43_one_by_one",
    "C43_every_obstacle_constrains",
    "C43_no_face_in_an_obstacle",
    "C43_prebuild_twice_refuted",
    "C43_lines",
    "C43_lines_of_the_layer"
   ],
   "note": "any arithmetic; at most one prebuild (any number on meshes); prebuild twice is refuted by C43_prebuild_twice_refuted; without prebuild C43_lines says exactly which lines are constraints; rings with NaN coordinates excluded"
  },
  {
   "property": "C44",
   "status": "proved",
   "theorems": [
    "C44_lookup_is_by_equality",
    "C44_equal_roots_hash_equally",
    "C44_history_lookup_f32",
    "C44_any_seed",
    "C44_seeds_agree",
    "C44_future_any_seed",
    "C44_detailed_any_seed",
    "C44_detailed_seeds_agree",
    "C44_detailed_get_path_any_seed"
   ],
   "note": "any arithmetic; binary32. C44_any_seed runs the whole search on a bucketed hash table with an arbitrary hasher, capacity and growth (Hashed.v) and is equal to the search of the model; C44_detailed_* the same with detailed-layers."
  },
  {
   "property": "C45",
   "status": "proved",
   "theorems": [
    "C45_mirror_is_reflection",
    "C45_side_is_sign",
    "C45_side_antisymmetric"
   ],
   "note": "exact arithmetic"
  },
  {
   "property": "C46",
   "status": "proved",
   "theorems": [
    "C46_intersection_sound",
    "C46_intersection_complete",
    "C46_parallel_none"
   ],
   "note": "exact arithmetic"
  },
  {
   "property": "C47",
   "status": "proved",
   "theorems": [
    "C47_covers_the_far_boundary"
   ],
   "note": "any arithmetic"
  },
  {
   "property": "C48",
   "status": "proved",
   "theorems": [
    "C48_intervals_on_edges"
   ],
   "note": "exact arithmetic"
  },
  {
   "property": "C49",
   "status": "proved",
   "theorems": [
    "C49_search_delta",
    "C49_search_steps",
    "C49_search_delta_f32",
    "C49_settings_of_a_new_mesh"
   ],
   "note": "any arithmetic; binary32. C49_settings_of_a_new_mesh: the settings a new mesh starts with"
  },
  {
   "property": "C50",
   "status": "proved",
   "theorems": [
    "C50_located_not_searched_again",
    "C50_prelocated_same_path"
   ],
   "note": "any arithmetic"
  },
  {
   "property": "C51",
   "status": "partial",
   "theorems": [
    "C51_stale_one_way_flags_refuted",
    "C51_stitching_makes_crossings",
    "C51_chain_is_found_partial",
    "C51_chain_is_found_unless_limited_partial"
   ],
   "note": "proved in any arithmetic: stitching makes the edge a crossing; proved in exact arithmetic for meshes in general position (the hypotheses of C64): a chain of such edges to the goal is found by the future, and by path_on_layers up to its limit of steps; refuted without these hypotheses: binary32 witness"
  },
  {
   "property": "C52",
   "status": "partial",
   "theorems": [
    "C52_cut_off_refuted",
    "C52_extra_lines_panic"
   ],
   "note": "cut off files: refuted for every file and cut between lines; extra lines: proved"
  },
  {
   "property": "C53",
   "status": "proved",
   "theorems": [
    "C53_clearance",
    "C53_bound_reached",
    "C53_one_segment_refuted",
    "C53_obstacle_kept_away",
    "C53_walkers_stay_away"
   ],
   "note": "exact arithmetic with exact trigonometry, before simplify_vw; for a whole obstacle geo's union is an oracle with the contract union_ok (Spec_outline.v); one or two segments: no clearance (C53_one_segment_refuted)"
  },
  {
   "property": "C54",
   "status": "proved",
   "theorems": [
    "C54_zero_segments_panic",
    "C54_short_obstacle_panics",
    "C54_mesh_outer_edge_refuted",
    "C54_no_space_left_panics"
   ],
   "note": "any arithmetic; from_mesh with the radius on the outer edge: _refuted"
  },
  {
   "property": "C55",
   "status": "partial",
   "theorems": [
    "C55_outer_edge_not_simplified_refuted"
   ],
   "note": "the claim is refuted for every outer edge and tolerance"
  },
  {
   "property": "C56",
   "status": "proved",
   "theorems": [
    "C56_vertices_on_segment",
    "C56_exact",
    "C56_tolerance_refuted"
   ],
   "note": "any arithmetic with a lawful <; binary32 and exact reals are instances; what the tolerance means is C56_exact and C56_tolerance_refuted"
  },
  {
   "property": "C57",
   "status": "proved",
   "theorems": [
    "C57_detailed_ends_at_destination",
    "C57_detailed_is_supported"
   ],
   "note": "any arithmetic in which a NaN coordinate makes the cost NaN; binary32 and exact reals are instances"
  },
  {
   "property": "C58",
   "status": "partial",
   "theorems": [
    "C58_path_with_layers",
    "C58_same_polygon_ignores_scale_refuted",
    "C58_turn_dropped_refuted"
   ],
   "note": "any such arithmetic, for ends in different polygons; same polygon and dropped turns: refuted by binary32 witnesses"
  },
  {
   "property": "C59",
   "status": "proved",
   "theorems": [
    "C59_not_shorter_than_scaled_line",
    "C59_not_shorter_than_straight_line",
    "C59_number_and_not_shorter"
   ],
   "note": "exact arithmetic; C59_number_and_not_shorter does not assume that the length is a number"
  },
  {
   "property": "C60",
   "status": "partial",
   "theorems": [
    "C60_shortest_of_the_found",
    "C60_not_longer_than_the_future",
    "C60_not_the_cheapest_refuted",
    "C60_future_longer_refuted"
   ],
   "note": "any arithmetic with a lawful <; that it is the cheapest path is refuted, as is equality with the future"
  },
  {
   "property": "C61",
   "status": "proved",
   "theorems": [
    "C61_unit_scales",
    "C61_unit_scales_exact"
   ],
   "note": "any arithmetic with x * 1 = x, layers of at most 2^24 vertices; exact reals are an instance"
  },
  {
   "property": "C62",
   "status": "proved",
   "theorems": [
    "C62_path_walks_through_chain",
    "C62_general_position",
    "C62_every_point_inside"
   ],
   "note": "exact arithmetic; convex polygons, neighbours with the same edge, start / goal / corners in general position (at least 1/100 away from lines through two others unless exactly on them, edges shorter than 100): a static condition on the mesh, met by the example"
  },
  {
   "property": "C63",
   "status": "proved",
   "theorems": [
    "C63_shortest"
   ],
   "note": "exact arithmetic; hypotheses: convex polygons with shared edges, no pinched vertices, corner flags where a turn is needed, start / goal / corners in general position (Spec_shortest.v)"
  },
  {
   "property": "C64",
   "status": "proved",
   "theorems": [
    "C64_future_finds_a_shortest_path",
    "C64_future_always_answers",
    "C64_no_path_means_no_way",
    "C64_future_decides",
    "C64_only_the_step_limit"
   ],
   "note": "exact arithmetic; hypotheses as for C63, and turnable vertices at the border of the mesh (not surrounded); islands must not separate the ends"
  },
  {
   "property": "C65",
   "status": "proved",
   "theorems": [
    "C65_shortest_in_the_area",
    "C65_future_decides"
   ],
   "note": "exact arithmetic; hypotheses of C63 (C64 for the future) and polygons side by side (Spec_area.v: seamless)"
  },
  {
   "property": "C66",
   "status": "proved",
   "theorems": [
    "C66_larger_area_not_longer",
    "C66_same_area_same_length",
    "C66_futures_agree",
    "C66_detailed_larger_area"
   ],
   "note": "exact arithmetic; both meshes meet the hypotheses of C65"
  },
  {
   "property": "C67",
   "status": "proved",
   "theorems": [
    "C67_symmetric",
    "C67_no_detour_is_shorter",
    "C67_at_least_the_distance",
    "C67_futures_symmetric",
    "C67_detailed_symmetric"
   ],
   "note": "exact arithmetic; hypotheses of C65 for each of the queries"
  },
  {
   "property": "C68",
   "status": "proved",
   "theorems": [
    "C68_remove_useless_same_answers",
    "C68_repeated_same_answers"
   ],
   "note": "any arithmetic; the heap may do anything that depends on the costs of the nodes only (pop_blind, met by std_pop)"
  },
  {
   "property": "C69",
   "status": "proved",
   "theorems": [
    "C69_queries_move",
    "C69_paths_move"
   ],
   "note": "exact arithmetic (rounding makes it false in binary32)"
  },
  {
   "property": "C70",
   "status": "proved",
   "theorems": [
    "C70_merge_layer",
    "C70_merge_mesh",
    "C70_merge_loop",
    "C70_same_area",
    "C70_same_length"
   ],
   "note": "exact arithmetic; the convexity test never accepts a right turn (never_right, met by the exact form of is_ccw_convex); with three vertices on a line it is false (C36_refuted)"
  },
  {
   "property": "C71",
   "status": "proved",
   "theorems": [
    "C71_same_path",
    "C71_same_future"
   ],
   "note": "any arithmetic; islands must not separate the ends (the one layer mesh for path, layer 0 for the future: C25)"
  },
  {
   "property": "C72",
   "status": "proved",
   "theorems": [
    "C72_stitched_parts_are_the_whole",
    "C72_same_path",
    "C72_same_future",
    "C72_found_points_are_the_common_ones",
    "C72_cut_find_stitch"
   ],
   "note": "any arithmetic; distinct sort keys around every vertex, equal layer offsets"
  },
  {
   "property": "C73",
   "status": "proved",
   "theorems": [
    "C73_side",
    "C73_inside_sound",
    "C73_inside_complete",
    "C73_outside",
    "C73_exact_on_grids",
    "C73_point_in_mesh_complete",
    "C73_point_in_mesh_sound"
   ],
   "note": "binary32; coordinates up to 2^60; the finite set of probes of point_in_mesh is named by the soundness theorem"
  },
  {
   "property": "C74",
   "status": "proved",
   "theorems": [
    "C74_same_polygon",
    "C74_points_are_finite",
    "C74_reported_length",
    "C74_not_shorter_than_straight_line"
   ],
   "note": "binary32; mesh coordinates up to 2^46; the length theorems ask for clear positions at the end of the path, as in C14 and C15"
  },
  {
   "property": "C75",
   "status": "proved",
   "theorems": [
    "C75_closest_point_sound",
    "C75_closest_point_none",
    "C75_towards_sound",
    "C75_towards_none",
    "C75_always_answers",
    "C75_mesh_of_one_layer",
    "C75_distance",
    "C75_on_the_ray"
   ],
   "note": "any arithmetic; distances and the ray in exact arithmetic; completeness for layers without polygon finder"
  },
  {
   "property": "C76",
   "status": "proved",
   "theorems": [
    "C76_area_outside_obstacles",
    "C76_area_keeps_distance",
    "C76_area_inside_outer_edge",
    "C76_path_keeps_distance",
    "C76_path_outside_obstacles"
   ],
   "note": "exact arithmetic; contracts of spade (faces_ok) and geo (finds_enclosed, union_ok, simplify_keeps) in Spec_free.v and Spec_outline.v; the outer edge with the agent radius kept from it or not (edge_used in Spec_free.v; what shape the shrunk edge has is C53's subject, not said here); paths for positions in general position as in C62"
  },
  {
   "property": "C77",
   "status": "proved",
   "theorems": [
    "C77_detailed_path_never_fails",
    "C77_detailed_future_never_fails",
    "C77_detailed_path_exact",
    "C77_overflowing_scale_refuted"
   ],
   "note": "any arithmetic: an answer, or a found path whose length is not a number and the sort panics; exact arithmetic: always an answer; refuted for finite scales that overflow (C77_overflowing_scale_refuted)"
  },
  {
   "property": "C78",
   "status": "proved",
   "theorems": [
    "C78_next_polygon_found",
    "C78_next_polygon_future",
    "C78_next_polygon_in_binary32"
   ],
   "note": "any arithmetic with the order laws of the heap and where a distance is never less than 0 (instantiated for binary32 and reals); the exception, the limit of steps of path_on_layers, is part of the statement"
  },
  {
   "property": "C79",
   "status": "proved",
   "theorems": [
    "C79_line_ends",
    "C79_plus_signs",
    "C79_plus_signs_in_binary32"
   ],
   "note": "any reader of numbers that takes a plus sign before a digit; instantiated for the reader of binary32"
  },
  {
   "property": "C80",
   "status": "proved",
   "theorems": [
    "C80_only_the_set",
    "C80_only_the_layers_of_the_mesh",
    "C80_blocking_never_shortens",
    "C80_blocking_never_helps",
    "C80_detailed_blocking"
   ],
   "note": "the first two in any arithmetic; the two comparisons in exact arithmetic for faultless meshes and positions in general position, as C63 and C64"
  },
  {
   "property": "C81",
   "status": "proved",
   "theorems": [
    "C81_similar_areas",
    "C81_moved_mesh",
    "C81_rotated_mesh",
    "C81_futures_rotated",
    "C81_small_units_refuted",
    "C81_detailed_similar_areas",
    "C81_detailed_moved_mesh"
   ],
   "note": "exact arithmetic; hypotheses of C65 for the query (and for the moved one unless it is a rotation); C81_small_units_refuted shows that they are needed for a scaled mesh: with squares of side 1/32 the path around a U is not found"
  },
  {
   "property": "C82",
   "status": "proved",
   "theorems": [
    "C82_turns_at_corners",
    "C82_reported_length",
    "C82_best",
    "C82_exact_length",
    "C82_not_shorter_than_straight_line",
    "C82_walks_through_chain",
    "C82_keeps_distance",
    "C82_points_are_finite",
    "C82_length_in_binary32"
   ],
   "note": "the theorems of C13, C14, C15, C22, C62, C74 and C76 for the future; in exact arithmetic and general position where those are"
  },
  {
   "property": "C83",
   "status": "proved",
   "theorems": [
    "C83_written",
    "C83_written_special",
    "C83_read",
    "C83_read_words",
    "C83_accepted",
    "C83_written_is_decimal",
    "C83_unsigned",
    "C83_signed"
   ],
   "note": "the conversions of Rust's core as modelled in Decimal32.v and PolyFile.v; exponents below 65536 for the value"
  },
  {
   "property": "C84",
   "status": "proved",
   "theorems": [
    "C84_walks_through_chain",
    "C84_future_walks_through_chain",
    "C84_keeps_distance",
    "C84_default_not_longer"
   ],
   "note": "exact arithmetic and general position, as C62; the comparison with the default path under the hypotheses of C65; distances under those of C76"
  },
  {
   "property": "C85",
   "status": "proved",
   "theorems": [
    "C85_follows_the_path",
    "C85_future_follows_the_path",
    "C85_length",
    "C85_unit_scales",
    "C85_nearly_shortest"
   ],
   "note": "exact arithmetic and general position, as C62; scales of one under the hypotheses of C65"
  },
  {
   "property": "C86",
   "status": "proved",
   "theorems": [
    "C86_labels",
    "C86_future_labels",
    "C86_one_turn",
    "C86_along_border_refuted"
   ],
   "note": "exact arithmetic and general position, as C62; paths that run along an edge between two layers are excepted, C86_along_border_refuted shows that they have to be (found in the code: the change of layer is dropped, and the rest of the leg counts with the scale of the wrong layer)"
  },
  {
   "property": "C87",
   "status": "proved",
   "theorems": [
    "C87_any_history",
    "C87_path_never_fails",
    "C87_future_never_fails",
    "C87_queries_never_fail",
    "C87_new_mesh",
    "C87_conditions_needed_refuted"
   ],
   "note": "any arithmetic; the merger's areas are numbers (proved for binary32 coordinates up to 2^40); the area, convexity and sort functions of the dependencies are parameters; C87_conditions_needed_refuted shows that baking, merging and stitching after stitching panic"
  },
  {
   "property": "C88",
   "status": "proved",
   "theorems": [
    "C88_free_space_is_covered",
    "C88_shortest_in_free_space",
    "C88_way_is_found",
    "C88_detailed_nearly_shortest"
   ],
   "note": "exact arithmetic; contracts of spade (faces_ok, faces_cover) and geo (finds_free) in Spec_free.v and Spec_freespace.v; the outer edge as it is or with the agent radius kept from it (edge_used in Spec_free.v), a builder not made from a mesh; the comparison and the future under the hypotheses of C65"
  },
  {
   "property": "C89",
   "status": "proved",
   "theorems": [
    "C89_area_is_the_free_space",
    "C89_more_obstacles_less_area",
    "C89_order_does_not_matter",
    "C89_more_obstacles_longer_path",
    "C89_same_length",
    "C89_fewer_obstacles_still_reachable",
    "C89_order_same_answer",
    "C89_detailed_more_obstacles"
   ],
   "note": "exact arithmetic; the contracts of C76 and C88 for spade and geo; the outer edge as it is or with the agent radius kept from it (edge_used), a builder not made from a mesh; lengths and futures under the hypotheses of C65 for both meshes"
  },
  {
   "property": "C90",
   "status": "proved",
   "theorems": [
    "C90_area_is_the_ground_left",
    "C90_never_leaves_the_ground",
    "C90_same_area_without_obstacles",
    "C90_shortest_on_the_ground",
    "C90_way_is_found",
    "C90_never_shorter",
    "C90_offset_dropped_refuted"
   ],
   "note": "exact arithmetic, layer coordinates; contracts of spade (faces_ok, faces cover the layer, their centres are not within the tolerance of point_in_polygon of an edge of the layer), geo and the polygon finder in Spec_frommesh.v and Spec_free.v; an agent radius for obstacles only; lengths and futures under the hypotheses of C65; C90_offset_dropped_refuted shows that the mesh is not where the layer is if the layer has an offset"
  },
  {
   "property": "C91",
   "status": "proved",
   "theorems": [
    "C91_path_never_fails",
    "C91_get_path_never_fails",
    "C91_queries_never_fail",
    "C91_point_in_mesh_iff",
    "C91_path_never_fails_f32",
    "C91_unbaked_refuted",
    "C91_detailed_path_never_fails",
    "C91_detailed_future_never_fails",
    "C91_detailed_path_exact"
   ],
   "note": "any arithmetic in which nothing is above the greatest number and below zero (no_box, proved for binary32); a finder that, made of two or more boxes, only offers boxes that hold the point; layers with an empty polygon have another polygon. C91_point_in_mesh_iff assumes, as C05, that what a polygon contains is in its bounding box. C91_unbaked_refuted: without the finder queries panic, although Polygon::EMPTY is documented for this use"
  },
  {
   "property": "C92",
   "status": "proved",
   "theorems": [
    "C92_locations_the_same",
    "C92_closest_point_kept",
    "C92_closest_point_towards_kept",
    "C92_layer_closest_point_kept",
    "C92_path_kept",
    "C92_detailed_path_kept",
    "C92_get_path_the_same",
    "C92_detailed_get_path_the_same"
   ],
   "note": "any arithmetic; no condition on the mesh"
  },
  {
   "property": "C93",
   "status": "proved",
   "theorems": [
    "C93_remove_useless_same_detailed_answers",
    "C93_repeated_same_detailed_answers",
    "C93_detailed_paths_move"
   ],
   "note": "any arithmetic for the unused vertices; exact arithmetic for moving; at most 2^24 vertices per layer; any priority queue that only compares costs"
  },
  {
   "property": "C94",
   "status": "proved",
   "theorems": [
    "C94_area_keeps_distance_from_outer_edge",
    "C94_path_keeps_distance_from_outer_edge",
    "C94_future_keeps_distance_from_outer_edge",
    "C94_detailed_keeps_distance_from_outer_edge"
   ],
   "note": "exact arithmetic; contracts of spade (faces_ok in Spec_free.v) and geo (union_ok, holes_ok in Spec_outline.v and Spec_outer.v; finds_only_enclosed); a builder not made from a mesh; no hole before the last side is drawn is a hypothesis on the outer edge; paths for positions in general position as in C62"
  }
 ]
}