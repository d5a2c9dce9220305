-Q theories Verif
theories/Base.v
theories/Arith.v
theories/U32.v
theories/Mesh.v
theories/Helpers.v
theories/Locate.v
theories/Bake.v
theories/Search.v
theories/AsyncPath.v
theories/F32.v
theories/StdLib.v
theories/Tests.v
theories/Spec.v
theories/Search_facts.v
theories/Search_props.v
theories/RealArith.v
theories/Locate_facts.v
theories/Closest_facts.v
theories/Search_cost.v
theories/Search_hist.v
theories/F32_facts.v
theories/Checkers.v
theories/Bake_facts.v
theories/Search_safe.v
theories/F32_finite.v
theories/Islands_facts.v
theories/Properties_search.v
theories/Properties_mesh.v
theories/Properties_locate.v
theories/Properties_safe.v
theories/Properties_async.v
theories/Geometry.v
theories/Properties_geometry.v
theories/Properties_contain.v
theories/Heuristic.v
theories/Properties_heuristic.v
theories/Properties_rings.v
theories/Properties_findings.v
theories/Cleanup.v
theories/Stitch.v
theories/Tests_stitch.v
theories/Spec_mesh.v
theories/Cleanup_facts.v
theories/Stitch_facts.v
theories/StitchPoints_facts.v
theories/Properties_stitch.v
theories/Properties_cleanup.v
theories/Merger.v
theories/Tests_merge.v
theories/Spec_merge.v
theories/Merger_facts.v
theories/Rings.v
theories/Properties_merge.v
theories/Trimesh.v
theories/Tests_trimesh.v
theories/Properties_trimesh.v
theories/Properties_trisort.v
theories/PolyFile.v
theories/Decimal32.v
theories/Tests_file.v
theories/Spec_file.v
theories/File_facts.v
theories/Decimal32_facts.v
theories/Decimal32_real.v
theories/Properties_file.v
theories/Triangulation.v
theories/Triangulation_facts.v
theories/Spec_triangulation.v
theories/Tests_triangulation.v
theories/Properties_triangulation.v
theories/Inflate_facts.v
theories/Properties_inflate.v
theories/Properties_expand.v
theories/Segment.v
theories/Properties_segment.v
theories/Detailed.v
theories/Spec_detailed.v
theories/Detailed_facts.v
theories/Detailed_sim.v
theories/Tests_detailed.v
theories/Properties_detailed.v
theories/Examples_exact.v
theories/Spec_inside.v
theories/Sight.v
theories/Sight_search.v
theories/Sight_final.v
theories/Sight_static.v
theories/Properties_inside.v
theories/Examples_inside.v
theories/Spec_shortest.v
theories/Shortest_exists.v
theories/Shortest_routes.v
theories/Shortest_bend.v
theories/Shortest_pieces.v
theories/Shortest_nodes.v
theories/Shortest_cover.v
theories/Shortest_search.v
theories/Shortest_run.v
theories/Properties_shortest.v
theories/Zmesh.v
theories/Examples_shortest.v
theories/Shortest_end.v
theories/Shortest_finish.v
theories/Shortest_always.v
theories/Properties_complete.v
theories/Examples_complete.v
theories/Spec_area.v
theories/Area.v
theories/Properties_area.v
theories/Zarea.v
theories/Examples_area.v
theories/Spec_alike.v
theories/Alike.v
theories/Alike_locate.v
theories/Properties_alike.v
theories/Examples_alike.v
theories/Spec_merge_area.v
theories/Merge_area.v
theories/Merge_cover.v
theories/Properties_merge_area.v
theories/Examples_merge_area.v
theories/Spec_relayer.v
theories/Relayer.v
theories/Properties_relayer.v
theories/Spec_split.v
theories/Split.v
theories/Properties_split.v
theories/Examples_split.v
theories/Spec_f32.v
theories/F32_real.v
theories/Side32.v
theories/Length32.v
theories/Reach32.v
theories/End32.v
theories/Properties_f32.v
theories/Properties_length32.v
theories/Examples_f32.v
theories/Finder_gen.v
theories/Properties_finder32.v
theories/Examples_finder32.v
theories/Properties_layer.v
theories/Spec_outline.v
theories/Enclose.v
theories/Capsule.v
theories/Circle.v
theories/Properties_outline.v
theories/Spec_free.v
theories/Properties_free.v
theories/Examples_free.v
theories/Properties_dsafe.v
theories/Properties_dsafe32.v
theories/Properties_stitched.v
theories/Properties_adjacent.v
theories/Examples_adjacent.v
theories/Properties_builder.v
theories/Properties_text.v
theories/Properties_blocking.v
theories/Zlayers.v
theories/Examples_layers.v
theories/Spec_moved.v
theories/Properties_moved.v
theories/Examples_moved.v
theories/Properties_future.v
theories/Examples_future.v
theories/Spec_decimal.v
theories/Properties_decimal.v
theories/Spec_layered.v
theories/View.v
theories/Shadow.v
theories/Properties_layered.v
theories/Properties_labels.v
theories/Properties_units.v
theories/Hashed.v
theories/Properties_hashed.v
theories/Examples_layered.v
theories/Area32.v
theories/Spec_history.v
theories/History_facts.v
theories/Properties_history.v
theories/Properties_history32.v
theories/Spec_freespace.v
theories/Properties_freespace.v
theories/Examples_freespace.v
theories/Properties_order.v
theories/Examples_order.v
theories/Examples_outer.v
theories/Spec_outer.v
theories/Properties_outer.v
theories/Properties_clear.v
theories/Examples_clear.v
theories/Examples_cleared.v
theories/Spec_frommesh.v
theories/Properties_frommesh.v
theories/Examples_frommesh.v
theories/Properties_baseoffset.v
theories/Properties_manylayers.v
theories/Hashed_detailed.v
theories/Properties_hashed_detailed.v
theories/Properties_spots.v
theories/Properties_spotty.v
theories/Properties_dspots.v
theories/Properties_steps.v
theories/Properties_defaults.v
theories/Detailed_alike.v
theories/Properties_detailed_alike.v
theories/Examples_detailed_alike.v
theories/Properties_restitch.v
theories/Properties_nearly.v
theories/Examples_nearly.v
theories/Properties_compare.v
theories/Examples_compare.v
