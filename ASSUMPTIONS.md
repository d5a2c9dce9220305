# What `Print Assumptions` lists

Generated by `tools/gen_assumptions.py` from a finished build, one block per set of axioms.
All the axioms are those of Coq's standard library.

## Closed under the global context (208 theorems)

* `C01_roundtrip` (Properties_mesh.v)
* `C01_injective` (Properties_mesh.v)
* `C01_surjective` (Properties_mesh.v)
* `C01_never_outside` (Properties_mesh.v)
* `C02_layer_new` (Properties_mesh.v)
* `C02_mesh_new` (Properties_mesh.v)
* `C03_point_in_mesh_sound` (Properties_locate.v)
* `C03_get_point_layer_sound` (Properties_locate.v)
* `C03_many_layers_refuted` (Properties_manylayers.v)
* `C04_point_in_mesh_iff` (Properties_locate.v)
* `C04_get_point_layer_iff` (Properties_locate.v)
* `C05_in_binary32_refuted` (Properties_finder32.v)
* `C07_closest_point_sound` (Properties_locate.v)
* `C07_closest_point_none` (Properties_locate.v)
* `C09_towards_sound` (Properties_locate.v)
* `C09_towards_none` (Properties_locate.v)
* `C10_path_ends_at_destination` (Properties_search.v)
* `C10_get_path_ends_at_destination` (Properties_search.v)
* `C10_same_polygon` (Properties_search.v)
* `C11_path_is_supported` (Properties_search.v)
* `C11_get_path_is_supported` (Properties_search.v)
* `C12_blocked_layers_not_entered` (Properties_search.v)
* `C12_no_path_into_blocked_layer` (Properties_search.v)
* `C13_turns_at_corners` (Properties_search.v)
* `C14_node_cost_is_walk_length` (Properties_search.v)
* `C14_reported_length` (Properties_search.v)
* `C15_refuted` (Properties_findings.v)
* `C17_path_terminates` (Properties_search.v)
* `C17_expansion_terminates` (Properties_search.v)
* `C17_poll_terminates` (Properties_search.v)
* `C18_path_never_fails` (Properties_safe.v)
* `C18_path_never_fails_f32` (Properties_safe.v)
* `C18_get_path_never_fails` (Properties_safe.v)
* `C18_get_path_never_fails_f32` (Properties_safe.v)
* `C18_queries_never_fail` (Properties_safe.v)
* `C18_many_layers_refuted` (Properties_manylayers.v)
* `C19_queries_never_out_of_bounds` (Properties_locate.v)
* `C19_search_in_bounds_partial` (Properties_safe.v)
* `C19_search_out_of_bounds_refuted` (Properties_safe.v)
* `C20_islands_do_not_change_paths` (Properties_async.v)
* `C21_islands_are_components` (Properties_mesh.v)
* `C21_labels_reach` (Properties_mesh.v)
* `C21_mesh_bake` (Properties_mesh.v)
* `C22_returned_path_is_best` (Properties_search.v)
* `C22_node_order_total_preorder` (Properties_search.v)
* `C23_history_is_attained_lower_bound` (Properties_search.v)
* `C23_dropped_when_dominated` (Properties_search.v)
* `C23_pruned_when_dominated` (Properties_search.v)
* `C24_why_no_path_partial` (Properties_findings.v)
* `C24_refuted` (Properties_findings.v)
* `C25_path_implies_future_partial` (Properties_async.v)
* `C25_future_implies_path_partial` (Properties_async.v)
* `C25_future_none_implies_path_none_partial` (Properties_async.v)
* `C25_separated_no_path` (Properties_async.v)
* `C25_location_refuted` (Properties_async.v)
* `C25_islands_refuted` (Properties_async.v)
* `C26_woken_iff_pending` (Properties_async.v)
* `C26_result_is_first_outcome` (Properties_async.v)
* `C26_wake_log` (Properties_async.v)
* `C27_no_way_back` (Properties_stitch.v)
* `C27_corridors_stay` (Properties_stitch.v)
* `C27_one_way_paths` (Properties_stitch.v)
* `C28_stitch_adds_exactly` (Properties_stitch.v)
* `C28_stitch_at_points` (Properties_stitch.v)
* `C28_stitching_twice_refuted` (Properties_stitch.v)
* `C29_reorder_keeps_neighbours` (Properties_stitch.v)
* `C29_order_and_holes` (Properties_stitch.v)
* `C29_reorder_never_fails` (Properties_stitch.v)
* `C30_remove_undoes_stitch` (Properties_stitch.v)
* `C30_removing_twice_refuted` (Properties_stitch.v)
* `C30_corners_not_restored_refuted` (Properties_stitch.v)
* `C31_restitch_layer` (Properties_stitch.v)
* `C31_restitch_layer_at_points` (Properties_restitch.v)
* `C32_finds_exactly_the_shared_points` (Properties_stitch.v)
* `C32_can_be_stitched` (Properties_stitch.v)
* `C32_eq_laws_binary32` (Properties_stitch.v)
* `C32_offsets_refuted` (Properties_stitch.v)
* `C33_remove_useless` (Properties_cleanup.v)
* `C33_same_containment` (Properties_cleanup.v)
* `C33_idempotent` (Properties_cleanup.v)
* `C34_stops_at_the_first_change` (Properties_cleanup.v)
* `C34_repeating_reaches_all_layers` (Properties_cleanup.v)
* `C34_refuted` (Properties_cleanup.v)
* `C35_merge` (Properties_merge.v)
* `C35_neighbours` (Properties_merge.v)
* `C35_false_means_done` (Properties_merge.v)
* `C35_merge_never_fails` (Properties_merge.v)
* `C35_loop_terminates` (Properties_merge.v)
* `C35_stitched_refuted` (Properties_merge.v)
* `C36_unchanged_or_accepted` (Properties_merge.v)
* `C36_refuted` (Properties_merge.v)
* `C37_conversion` (Properties_trimesh.v)
* `C38_refuted` (Properties_trimesh.v)
* `C38_circle_refuted` (Properties_trimesh.v)
* `C38_listing_refuted` (Properties_trimesh.v)
* `C39_reads_the_format` (Properties_file.v)
* `C39_round_trip` (Properties_file.v)
* `C39_empty_polygon_refuted` (Properties_file.v)
* `C39_other_layers_lost_refuted` (Properties_file.v)
* `C39_flags_lost_refuted` (Properties_file.v)
* `C40_one_way_flag` (Properties_file.v)
* `C41_as_layer` (Properties_triangulation.v)
* `C41_returns` (Properties_triangulation.v)
* `C41_well_formed` (Properties_triangulation.v)
* `C42_last_call_decides` (Properties_triangulation.v)
* `C42_settings` (Properties_triangulation.v)
* `C42_defaults` (Properties_triangulation.v)
* `C43_one_by_one` (Properties_triangulation.v)
* `C43_every_obstacle_constrains` (Properties_triangulation.v)
* `C43_no_face_in_an_obstacle` (Properties_triangulation.v)
* `C43_prebuild_twice_refuted` (Properties_triangulation.v)
* `C43_lines` (Properties_builder.v)
* `C43_lines_of_the_layer` (Properties_builder.v)
* `C44_lookup_is_by_equality` (Properties_mesh.v)
* `C44_equal_roots_hash_equally` (Properties_mesh.v)
* `C44_history_lookup_f32` (Properties_mesh.v)
* `C44_any_seed` (Properties_hashed.v)
* `C44_seeds_agree` (Properties_hashed.v)
* `C44_future_any_seed` (Properties_hashed.v)
* `C44_detailed_any_seed` (Properties_hashed_detailed.v)
* `C44_detailed_seeds_agree` (Properties_hashed_detailed.v)
* `C44_detailed_get_path_any_seed` (Properties_hashed_detailed.v)
* `C47_covers_the_far_boundary` (Properties_expand.v)
* `C49_search_delta` (Properties_mesh.v)
* `C49_search_steps` (Properties_mesh.v)
* `C49_search_delta_f32` (Properties_mesh.v)
* `C49_settings_of_a_new_mesh` (Properties_defaults.v)
* `C50_located_not_searched_again` (Properties_locate.v)
* `C50_prelocated_same_path` (Properties_locate.v)
* `C51_stale_one_way_flags_refuted` (Properties_stitch.v)
* `C51_stitching_makes_crossings` (Properties_stitched.v)
* `C52_cut_off_refuted` (Properties_file.v)
* `C52_extra_lines_panic` (Properties_file.v)
* `C54_zero_segments_panic` (Properties_inflate.v)
* `C54_short_obstacle_panics` (Properties_inflate.v)
* `C54_mesh_outer_edge_refuted` (Properties_inflate.v)
* `C54_no_space_left_panics` (Properties_inflate.v)
* `C55_outer_edge_not_simplified_refuted` (Properties_inflate.v)
* `C56_vertices_on_segment` (Properties_segment.v)
* `C57_detailed_ends_at_destination` (Properties_detailed.v)
* `C57_detailed_is_supported` (Properties_detailed.v)
* `C58_path_with_layers` (Properties_detailed.v)
* `C58_same_polygon_ignores_scale_refuted` (Properties_detailed.v)
* `C58_turn_dropped_refuted` (Properties_detailed.v)
* `C60_shortest_of_the_found` (Properties_detailed.v)
* `C60_not_longer_than_the_future` (Properties_detailed.v)
* `C60_not_the_cheapest_refuted` (Properties_detailed.v)
* `C60_future_longer_refuted` (Properties_detailed.v)
* `C61_unit_scales` (Properties_detailed.v)
* `C68_remove_useless_same_answers` (Properties_alike.v)
* `C68_repeated_same_answers` (Properties_alike.v)
* `C71_same_path` (Properties_relayer.v)
* `C71_same_future` (Properties_relayer.v)
* `C72_stitched_parts_are_the_whole` (Properties_split.v)
* `C72_same_path` (Properties_split.v)
* `C72_same_future` (Properties_split.v)
* `C72_found_points_are_the_common_ones` (Properties_split.v)
* `C72_cut_find_stitch` (Properties_split.v)
* `C75_closest_point_sound` (Properties_layer.v)
* `C75_closest_point_none` (Properties_layer.v)
* `C75_towards_sound` (Properties_layer.v)
* `C75_towards_none` (Properties_layer.v)
* `C75_always_answers` (Properties_layer.v)
* `C75_mesh_of_one_layer` (Properties_layer.v)
* `C77_detailed_path_never_fails` (Properties_dsafe.v)
* `C77_detailed_future_never_fails` (Properties_dsafe.v)
* `C77_overflowing_scale_refuted` (Properties_dsafe32.v)
* `C78_next_polygon_found` (Properties_adjacent.v)
* `C78_next_polygon_future` (Properties_adjacent.v)
* `C79_line_ends` (Properties_text.v)
* `C79_plus_signs` (Properties_text.v)
* `C79_plus_signs_in_binary32` (Properties_text.v)
* `C80_only_the_set` (Properties_blocking.v)
* `C80_only_the_layers_of_the_mesh` (Properties_blocking.v)
* `C81_small_units_refuted` (Properties_units.v)
* `C82_turns_at_corners` (Properties_future.v)
* `C82_reported_length` (Properties_future.v)
* `C82_best` (Properties_future.v)
* `C83_written_special` (Properties_decimal.v)
* `C83_read_words` (Properties_decimal.v)
* `C83_accepted` (Properties_decimal.v)
* `C83_unsigned` (Properties_decimal.v)
* `C83_signed` (Properties_decimal.v)
* `C86_along_border_refuted` (Properties_labels.v)
* `C87_any_history` (Properties_history.v)
* `C87_path_never_fails` (Properties_history.v)
* `C87_future_never_fails` (Properties_history.v)
* `C87_queries_never_fail` (Properties_history.v)
* `C87_new_mesh` (Properties_history.v)
* `C87_conditions_needed_refuted` (Properties_history32.v)
* `C91_path_never_fails` (Properties_spots.v)
* `C91_get_path_never_fails` (Properties_spots.v)
* `C91_queries_never_fail` (Properties_spots.v)
* `C91_point_in_mesh_iff` (Properties_spots.v)
* `C91_path_never_fails_f32` (Properties_spots.v)
* `C91_unbaked_refuted` (Properties_spotty.v)
* `C91_detailed_path_never_fails` (Properties_dspots.v)
* `C91_detailed_future_never_fails` (Properties_dspots.v)
* `C92_locations_the_same` (Properties_steps.v)
* `C92_closest_point_kept` (Properties_steps.v)
* `C92_closest_point_towards_kept` (Properties_steps.v)
* `C92_layer_closest_point_kept` (Properties_steps.v)
* `C92_path_kept` (Properties_steps.v)
* `C92_detailed_path_kept` (Properties_steps.v)
* `C92_get_path_the_same` (Properties_steps.v)
* `C92_detailed_get_path_the_same` (Properties_steps.v)
* `C93_remove_useless_same_detailed_answers` (Properties_detailed_alike.v)
* `C93_repeated_same_detailed_answers` (Properties_detailed_alike.v)

## `ClassicalDedekindReals.sig_forall_dec`, `FunctionalExtensionality.functional_extensionality_dep` (4 theorems)

* `C36_area_of_a_group` (Properties_merge.v)
* `C36_area_partial` (Properties_merge.v)
* `C83_written` (Properties_decimal.v)
* `C83_written_is_decimal` (Properties_decimal.v)

## `ClassicalDedekindReals.sig_forall_dec`, `ClassicalDedekindReals.sig_not_dec`, `Classical_Prop.classic`, `FunctionalExtensionality.functional_extensionality_dep` (148 theorems)

* `C05_layer_same` (Properties_contain.v)
* `C05_point_in_mesh_same` (Properties_contain.v)
* `C05_get_point_layer_same` (Properties_contain.v)
* `C05_point_in_mesh_same_in_binary32` (Properties_finder32.v)
* `C05_get_point_layer_same_in_binary32` (Properties_finder32.v)
* `C05_layer_same_in_binary32` (Properties_finder32.v)
* `C05_same_in_small_worlds` (Properties_finder32.v)
* `C06_inside_sound` (Properties_contain.v)
* `C06_inside_complete` (Properties_contain.v)
* `C06_outside` (Properties_contain.v)
* `C06_complete_refuted` (Properties_contain.v)
* `C07_distance` (Properties_rings.v)
* `C07_within_radius` (Properties_rings.v)
* `C08_arc_found_partial` (Properties_rings.v)
* `C08_all_around_refuted` (Properties_rings.v)
* `C09_on_the_ray` (Properties_rings.v)
* `C14_exact_length` (Properties_heuristic.v)
* `C15_not_shorter_than_straight_line_partial` (Properties_heuristic.v)
* `C16_admissible` (Properties_heuristic.v)
* `C16_attained` (Properties_heuristic.v)
* `C16_in_tolerance_refuted` (Properties_heuristic.v)
* `C25_on_mesh_points_agree` (Properties_async.v)
* `C32_eq_laws_exact` (Properties_stitch.v)
* `C38_half_plane_partial` (Properties_trimesh.v)
* `C38_convex_corner_partial` (Properties_trisort.v)
* `C39_round_trip_f32` (Properties_file.v)
* `C39_saved_again` (Properties_file.v)
* `C39_mesh_round_trip` (Properties_file.v)
* `C45_mirror_is_reflection` (Properties_geometry.v)
* `C45_side_is_sign` (Properties_geometry.v)
* `C45_side_antisymmetric` (Properties_geometry.v)
* `C46_intersection_sound` (Properties_geometry.v)
* `C46_intersection_complete` (Properties_geometry.v)
* `C46_parallel_none` (Properties_geometry.v)
* `C48_intervals_on_edges` (Properties_geometry.v)
* `C51_chain_is_found_partial` (Properties_stitched.v)
* `C51_chain_is_found_unless_limited_partial` (Properties_stitched.v)
* `C53_clearance` (Properties_inflate.v)
* `C53_bound_reached` (Properties_inflate.v)
* `C53_one_segment_refuted` (Properties_inflate.v)
* `C53_obstacle_kept_away` (Properties_outline.v)
* `C53_walkers_stay_away` (Properties_outline.v)
* `C56_exact` (Properties_segment.v)
* `C56_tolerance_refuted` (Properties_segment.v)
* `C59_not_shorter_than_scaled_line` (Properties_detailed.v)
* `C59_not_shorter_than_straight_line` (Properties_detailed.v)
* `C59_number_and_not_shorter` (Properties_dsafe.v)
* `C61_unit_scales_exact` (Properties_detailed.v)
* `C62_path_walks_through_chain` (Properties_inside.v)
* `C62_general_position` (Properties_inside.v)
* `C62_every_point_inside` (Properties_inside.v)
* `C63_shortest` (Properties_shortest.v)
* `C64_future_finds_a_shortest_path` (Properties_complete.v)
* `C64_future_always_answers` (Properties_complete.v)
* `C64_no_path_means_no_way` (Properties_complete.v)
* `C64_future_decides` (Properties_complete.v)
* `C64_only_the_step_limit` (Properties_complete.v)
* `C65_shortest_in_the_area` (Properties_area.v)
* `C65_future_decides` (Properties_area.v)
* `C66_larger_area_not_longer` (Properties_area.v)
* `C66_same_area_same_length` (Properties_area.v)
* `C66_futures_agree` (Properties_area.v)
* `C66_detailed_larger_area` (Properties_compare.v)
* `C67_symmetric` (Properties_area.v)
* `C67_no_detour_is_shorter` (Properties_area.v)
* `C67_at_least_the_distance` (Properties_area.v)
* `C67_futures_symmetric` (Properties_area.v)
* `C67_detailed_symmetric` (Properties_compare.v)
* `C69_queries_move` (Properties_alike.v)
* `C69_paths_move` (Properties_alike.v)
* `C70_merge_layer` (Properties_merge_area.v)
* `C70_merge_mesh` (Properties_merge_area.v)
* `C70_merge_loop` (Properties_merge_area.v)
* `C70_same_area` (Properties_merge_area.v)
* `C70_same_length` (Properties_merge_area.v)
* `C73_side` (Properties_f32.v)
* `C73_inside_sound` (Properties_f32.v)
* `C73_inside_complete` (Properties_f32.v)
* `C73_outside` (Properties_f32.v)
* `C73_exact_on_grids` (Properties_f32.v)
* `C73_point_in_mesh_complete` (Properties_f32.v)
* `C73_point_in_mesh_sound` (Properties_f32.v)
* `C74_same_polygon` (Properties_length32.v)
* `C74_points_are_finite` (Properties_length32.v)
* `C74_reported_length` (Properties_length32.v)
* `C74_not_shorter_than_straight_line` (Properties_length32.v)
* `C75_distance` (Properties_layer.v)
* `C75_on_the_ray` (Properties_layer.v)
* `C76_area_outside_obstacles` (Properties_free.v)
* `C76_area_keeps_distance` (Properties_free.v)
* `C76_area_inside_outer_edge` (Properties_free.v)
* `C76_path_keeps_distance` (Properties_free.v)
* `C76_path_outside_obstacles` (Properties_free.v)
* `C77_detailed_path_exact` (Properties_dsafe.v)
* `C78_next_polygon_in_binary32` (Properties_adjacent.v)
* `C80_blocking_never_shortens` (Properties_blocking.v)
* `C80_blocking_never_helps` (Properties_blocking.v)
* `C80_detailed_blocking` (Properties_compare.v)
* `C81_similar_areas` (Properties_moved.v)
* `C81_moved_mesh` (Properties_moved.v)
* `C81_rotated_mesh` (Properties_moved.v)
* `C81_futures_rotated` (Properties_moved.v)
* `C81_detailed_similar_areas` (Properties_compare.v)
* `C81_detailed_moved_mesh` (Properties_compare.v)
* `C82_exact_length` (Properties_future.v)
* `C82_not_shorter_than_straight_line` (Properties_future.v)
* `C82_walks_through_chain` (Properties_future.v)
* `C82_keeps_distance` (Properties_future.v)
* `C82_points_are_finite` (Properties_future.v)
* `C82_length_in_binary32` (Properties_future.v)
* `C83_read` (Properties_decimal.v)
* `C84_walks_through_chain` (Properties_layered.v)
* `C84_future_walks_through_chain` (Properties_layered.v)
* `C84_keeps_distance` (Properties_layered.v)
* `C84_default_not_longer` (Properties_layered.v)
* `C85_follows_the_path` (Properties_layered.v)
* `C85_future_follows_the_path` (Properties_layered.v)
* `C85_length` (Properties_layered.v)
* `C85_unit_scales` (Properties_layered.v)
* `C85_nearly_shortest` (Properties_nearly.v)
* `C86_labels` (Properties_layered.v)
* `C86_future_labels` (Properties_layered.v)
* `C86_one_turn` (Properties_layered.v)
* `C88_free_space_is_covered` (Properties_freespace.v)
* `C88_shortest_in_free_space` (Properties_freespace.v)
* `C88_way_is_found` (Properties_freespace.v)
* `C88_detailed_nearly_shortest` (Properties_nearly.v)
* `C89_area_is_the_free_space` (Properties_order.v)
* `C89_more_obstacles_less_area` (Properties_order.v)
* `C89_order_does_not_matter` (Properties_order.v)
* `C89_more_obstacles_longer_path` (Properties_order.v)
* `C89_same_length` (Properties_order.v)
* `C89_fewer_obstacles_still_reachable` (Properties_order.v)
* `C89_order_same_answer` (Properties_order.v)
* `C89_detailed_more_obstacles` (Properties_compare.v)
* `C90_area_is_the_ground_left` (Properties_frommesh.v)
* `C90_never_leaves_the_ground` (Properties_frommesh.v)
* `C90_same_area_without_obstacles` (Properties_frommesh.v)
* `C90_shortest_on_the_ground` (Properties_frommesh.v)
* `C90_way_is_found` (Properties_frommesh.v)
* `C90_never_shorter` (Properties_frommesh.v)
* `C90_offset_dropped_refuted` (Properties_baseoffset.v)
* `C91_detailed_path_exact` (Properties_dspots.v)
* `C93_detailed_paths_move` (Properties_detailed_alike.v)
* `C94_area_keeps_distance_from_outer_edge` (Properties_outer.v)
* `C94_path_keeps_distance_from_outer_edge` (Properties_outer.v)
* `C94_future_keeps_distance_from_outer_edge` (Properties_clear.v)
* `C94_detailed_keeps_distance_from_outer_edge` (Properties_clear.v)
