# property -> (status, note).  Theorems are found by name: every `Theorem Cxx_...` in rocq/theories.
NOTES = {
 "C01": ("proved", "for all N"),
 "C02": ("proved", "any arithmetic"),
 "C03": ("proved", "any arithmetic, any polygon finder answers; at most 256 layers (C03_many_layers_refuted shows that the limit is needed)"),
 "C04": ("proved", "any arithmetic, unbaked meshes; baked meshes are C05"),
 "C07": ("proved", "any arithmetic"),
 "C09": ("proved", "any arithmetic"),
 "C10": ("proved", "any arithmetic"),
 "C11": ("proved", "any arithmetic with sane NaN tests"),
 "C12": ("proved", "any arithmetic"),
 "C13": ("proved", "any arithmetic"),
 "C14": ("proved", "accumulated cost for any arithmetic; equality with the polyline length in exact arithmetic"),
 "C05": ("partial", "proved in exact arithmetic (layers whose polygons are not empty) and in binary32 where the rounding error about the edges stays below the tolerance (C05_..._in_binary32, C05_same_in_small_worlds); in general it is false in binary32: C05_in_binary32_refuted exhibits a thin triangle that contains, without the finder, a point 276 units outside its bounding box"),
 "C06": ("proved", "exact arithmetic; that the tolerance is needed in the converse is shown by C06_complete_refuted"),
 "C08": ("partial", "proved for the sampled part of each circle; refuted for the rest (unit square, query 0.05 east of it)"),
 "C15": ("partial", "exact arithmetic, root and goal clear of the tolerance of the intervals; refuted in general (binary32 witness: reported length 0 for points at distance 2); in general position C67_at_least_the_distance proves it without a condition on the nodes of the search"),
 "C16": ("proved", "exact arithmetic; inside the tolerance it is refuted by C16_in_tolerance_refuted"),
 "C24": ("partial", "refuted (comb mesh: connected polygons, no path); proved: the only reasons for no path are unlocated ends, islands, an exhausted queue and the step limit; on meshes without defects C64 proves that only the step limit is left"),
 "C45": ("proved", "exact arithmetic"),
 "C46": ("proved", "exact arithmetic"),
 "C48": ("proved", "exact arithmetic"),
 "C17": ("proved", "any arithmetic"),
 "C18": ("proved", "any arithmetic (numbers as squared distances); binary32 with finite coordinates; at most 256 layers (C18_many_layers_refuted)"),
 "C19": ("partial", "queries: proved; search: proved unless a polygon uses the index len; refuted in general (the guard is > instead of >=)"),
 "C20": ("proved", "any arithmetic"),
 "C21": ("proved", "any arithmetic"),
 "C22": ("proved", "any arithmetic with lawful total_cmp; binary32 is an instance"),
 "C23": ("proved", "any arithmetic with lawful comparisons; binary32 is an instance"),
 "C25": ("partial", "any number of layers, both ends located alike and, on several layers, not separated by the islands of layer 0: proved in both directions up to the step limit (separated ends: the future answers None at once); refuted in general by two witnesses"),
 "C26": ("proved", "any arithmetic"),
 "C44": ("proved", "any arithmetic; binary32. C44_any_seed runs the whole search on a bucketed hash table with an arbitrary hasher, capacity and growth (Hashed.v) and is equal to the search of the model; C44_detailed_* the same with detailed-layers."),
 "C49": ("proved", "any arithmetic; binary32. C49_settings_of_a_new_mesh: the settings a new mesh starts with"),
 "C50": ("proved", "any arithmetic"),
 "C27": ("proved", "any arithmetic, any sort"),
 "C28": ("proved", "any arithmetic, any sort; stitching twice is refuted by C28_stitching_twice_refuted"),
 "C29": ("proved", "any arithmetic, any sort"),
 "C30": ("proved", "any arithmetic, any sort: neighbour sets; corner flags not restored and not idempotent: refuted"),
 "C31": ("proved", "any arithmetic, any sort; for stitch vertices and for stitch points"),
 "C32": ("proved", "any arithmetic with symmetric equality; binary32 and exact reals are instances; layer offsets are ignored (C32_offsets_refuted)"),
 "C33": ("proved", "any arithmetic"),
 "C34": ("partial", "the claim is refuted; proved what one call does, and that repeating remove_useless_vertices reaches all layers"),
 "C51": ("partial", "proved in any arithmetic: stitching makes the edge a crossing; proved in exact arithmetic for meshes in general position (the hypotheses of C64): a chain of such edges to the goal is found by the future, and by path_on_layers up to its limit of steps; refuted without these hypotheses: binary32 witness"),
 "C35": ("proved", "any arithmetic, any area function, sort and convexity test; never fails on unstitched layers; stitched meshes make it panic (C35_stitched_refuted)"),
 "C36": ("partial", "every result passed the convexity test: proved for any test; area: exact arithmetic, gluings along single edges; refuted in general (2x2 grid: the merged ring contains no point any more)"),
 "C37": ("proved", "any arithmetic, any sort that permutes"),
 "C38": ("partial", "refuted in any arithmetic (not reflexive; circular; changes the neighbours, binary32 witness); proved: in exact arithmetic it orders different directions inside an open half plane, and there the converted mesh lists the triangles of the vertex counterclockwise whatever their order in the input (C38_convex_corner_partial); missing: vertices inside the mesh, where the listing matters"),
 "C39": ("proved", "reading the documented format: any number parser; writing and reading: any printer and parser that agree, and binary32 with six digits (within a millionth, exact from 16 on, stable); flags, offsets, other layers and empty polygons: refuted"),
 "C40": ("proved", "any arithmetic"),
 "C52": ("partial", "cut off files: refuted for every file and cut between lines; extra lines: proved"),
 "C41": ("proved", "any arithmetic, any triangulator and geometry library that return consistent subdivisions"),
 "C42": ("proved", "any arithmetic"),
 "C43": ("proved", "any arithmetic; at most one prebuild (any number on meshes); prebuild twice is refuted by C43_prebuild_twice_refuted; without prebuild C43_lines says exactly which lines are constraints; rings with NaN coordinates excluded"),
 "C47": ("proved", "any arithmetic"),
 "C53": ("proved", "exact arithmetic with exact trigonometry, before simplify_vw; for a whole obstacle geo's union is an oracle with the contract union_ok (Spec_outline.v); one or two segments: no clearance (C53_one_segment_refuted)"),
 "C54": ("proved", "any arithmetic; from_mesh with the radius on the outer edge: _refuted"),
 "C55": ("partial", "the claim is refuted for every outer edge and tolerance"),
 "C56": ("proved", "any arithmetic with a lawful <; binary32 and exact reals are instances; what the tolerance means is C56_exact and C56_tolerance_refuted"),
 "C57": ("proved", "any arithmetic in which a NaN coordinate makes the cost NaN; binary32 and exact reals are instances"),
 "C58": ("partial", "any such arithmetic, for ends in different polygons; same polygon and dropped turns: refuted by binary32 witnesses"),
 "C59": ("proved", "exact arithmetic; C59_number_and_not_shorter does not assume that the length is a number"),
 "C60": ("partial", "any arithmetic with a lawful <; that it is the cheapest path is refuted, as is equality with the future"),
 "C61": ("proved", "any arithmetic with x * 1 = x, layers of at most 2^24 vertices; exact reals are an instance"),
 "C62": ("proved", "exact arithmetic; convex polygons, neighbours with the same edge, start / goal / corners in general position (at least 1/100 away from lines through two others unless exactly on them, edges shorter than 100): a static condition on the mesh, met by the example"),
 "C63": ("proved", "exact arithmetic; hypotheses: convex polygons with shared edges, no pinched vertices, corner flags where a turn is needed, start / goal / corners in general position (Spec_shortest.v)"),
 "C64": ("proved", "exact arithmetic; hypotheses as for C63, and turnable vertices at the border of the mesh (not surrounded); islands must not separate the ends"),
 "C65": ("proved", "exact arithmetic; hypotheses of C63 (C64 for the future) and polygons side by side (Spec_area.v: seamless)"),
 "C66": ("proved", "exact arithmetic; both meshes meet the hypotheses of C65"),
 "C68": ("proved", "any arithmetic; the heap may do anything that depends on the costs of the nodes only (pop_blind, met by std_pop)"),
 "C69": ("proved", "exact arithmetic (rounding makes it false in binary32)"),
 "C70": ("proved", "exact arithmetic; the convexity test never accepts a right turn (never_right, met by the exact form of is_ccw_convex); with three vertices on a line it is false (C36_refuted)"),
 "C71": ("proved", "any arithmetic; islands must not separate the ends (the one layer mesh for path, layer 0 for the future: C25)"),
 "C72": ("proved", "any arithmetic; distinct sort keys around every vertex, equal layer offsets"),
 "C73": ("proved", "binary32; coordinates up to 2^60; the finite set of probes of point_in_mesh is named by the soundness theorem"),
 "C74": ("proved", "binary32; mesh coordinates up to 2^46; the length theorems ask for clear positions at the end of the path, as in C14 and C15"),
 "C75": ("proved", "any arithmetic; distances and the ray in exact arithmetic; completeness for layers without polygon finder"),
 "C76": ("proved", "exact arithmetic; contracts of spade (faces_ok) and geo (finds_enclosed, union_ok, simplify_keeps) in Spec_free.v and Spec_outline.v; the outer edge with the agent radius kept from it or not (edge_used in Spec_free.v; what shape the shrunk edge has is C53's subject, not said here); paths for positions in general position as in C62"),
 "C77": ("proved", "any arithmetic: an answer, or a found path whose length is not a number and the sort panics; exact arithmetic: always an answer; refuted for finite scales that overflow (C77_overflowing_scale_refuted)"),
 "C78": ("proved", "any arithmetic with the order laws of the heap and where a distance is never less than 0 (instantiated for binary32 and reals); the exception, the limit of steps of path_on_layers, is part of the statement"),
 "C79": ("proved", "any reader of numbers that takes a plus sign before a digit; instantiated for the reader of binary32"),
 "C80": ("proved", "the first two in any arithmetic; the two comparisons in exact arithmetic for faultless meshes and positions in general position, as C63 and C64"),
 "C81": ("proved", "exact arithmetic; hypotheses of C65 for the query (and for the moved one unless it is a rotation); C81_small_units_refuted shows that they are needed for a scaled mesh: with squares of side 1/32 the path around a U is not found"),
 "C82": ("proved", "the theorems of C13, C14, C15, C22, C62, C74 and C76 for the future; in exact arithmetic and general position where those are"),
 "C83": ("proved", "the conversions of Rust's core as modelled in Decimal32.v and PolyFile.v; exponents below 65536 for the value"),
 "C84": ("proved", "exact arithmetic and general position, as C62; the comparison with the default path under the hypotheses of C65; distances under those of C76"),
 "C85": ("proved", "exact arithmetic and general position, as C62; scales of one under the hypotheses of C65"),
 "C86": ("proved", "exact arithmetic and general position, as C62; paths that run along an edge between two layers are excepted, C86_along_border_refuted shows that they have to be (found in the code: the change of layer is dropped, and the rest of the leg counts with the scale of the wrong layer)"),
 "C67": ("proved", "exact arithmetic; hypotheses of C65 for each of the queries"),
 "C87": ("proved", "any arithmetic; the merger's areas are numbers (proved for binary32 coordinates up to 2^40); the area, convexity and sort functions of the dependencies are parameters; C87_conditions_needed_refuted shows that baking, merging and stitching after stitching panic"),
 "C88": ("proved", "exact arithmetic; contracts of spade (faces_ok, faces_cover) and geo (finds_free) in Spec_free.v and Spec_freespace.v; the outer edge as it is or with the agent radius kept from it (edge_used in Spec_free.v), a builder not made from a mesh; the comparison and the future under the hypotheses of C65"),
 "C89": ("proved", "exact arithmetic; the contracts of C76 and C88 for spade and geo; the outer edge as it is or with the agent radius kept from it (edge_used), a builder not made from a mesh; lengths and futures under the hypotheses of C65 for both meshes"),
 "C90": ("proved", "exact arithmetic, layer coordinates; contracts of spade (faces_ok, faces cover the layer, their centres are not within the tolerance of point_in_polygon of an edge of the layer), geo and the polygon finder in Spec_frommesh.v and Spec_free.v; an agent radius for obstacles only; lengths and futures under the hypotheses of C65; C90_offset_dropped_refuted shows that the mesh is not where the layer is if the layer has an offset"),
 "C91": ("proved", "any arithmetic in which nothing is above the greatest number and below zero (no_box, proved for binary32); a finder that, made of two or more boxes, only offers boxes that hold the point; layers with an empty polygon have another polygon. C91_point_in_mesh_iff assumes, as C05, that what a polygon contains is in its bounding box. C91_unbaked_refuted: without the finder queries panic, although Polygon::EMPTY is documented for this use"),
 "C92": ("proved", "any arithmetic; no condition on the mesh"),
 "C93": ("proved", "any arithmetic for the unused vertices; exact arithmetic for moving; at most 2^24 vertices per layer; any priority queue that only compares costs"),
 "C94": ("proved", "exact arithmetic; contracts of spade (faces_ok in Spec_free.v) and geo (union_ok, holes_ok in Spec_outline.v and Spec_outer.v; finds_only_enclosed); a builder not made from a mesh; no hole before the last side is drawn is a hypothesis on the outer edge; paths for positions in general position as in C62"),
}
