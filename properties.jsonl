{"id": "C01", "title": "Polygon ids: packing of layer and polygon is lossless and never means 'outside'", "statement": "A global polygon id built from a layer number (0..255) and a polygon index (< 2^24) decodes to exactly that layer and that index, two different pairs never get the same id, and - because a layer accepted by Layer::new has at most 2^24-1 polygons - no polygon of an accepted layer ever gets the id u32::MAX that means 'outside the mesh'.", "quantifier": "every layer number and every polygon index / every polygon count", "why_tests_cant": "2^32 ids; the collision with u32::MAX occurs at one id only", "anchors": ["src/instance.rs: U32Layer::{layer,polygon,from_layer_and_polygon}", "src/layers.rs: Layer::new"]}
{"id": "C02", "title": "Layer::new / Mesh::new accept exactly the non-empty, small enough inputs and keep the data", "statement": "Layer::new returns EmptyMesh iff there is no vertex or no polygon, TooManyPolygons iff there are at least 2^24 polygons (and some vertex), otherwise a layer with exactly the given vertices and polygons and zero offset; Mesh::new makes a one layer mesh of it with search_delta 0.1 and search_steps 2.", "quantifier": "every vertex list and polygon list", "why_tests_cant": "the boundary 2^24-1 cannot be enumerated by tests", "anchors": ["src/layers.rs: Layer::new", "src/lib.rs: Mesh::new, MeshError"]}
{"id": "C03", "title": "Point location only answers with a polygon that contains one of the probed positions", "statement": "If a point is reported in the mesh (point_in_mesh, get_point_layer), the reported layer exists, the reported polygon exists in it, and that polygon contains the point or one of its eight neighbours at distance search_delta, in the coordinates of that layer.", "quantifier": "every mesh, baked or not, every point, every search_delta", "why_tests_cant": "all geometric configurations", "anchors": ["src/layers.rs: get_point_location, get_point_location_unit, get_point_location_unit_baked, point_in_polygon", "src/lib.rs: get_point_location(s), point_in_mesh, get_point_layer"]}
{"id": "C04", "title": "Point location finds every point that some polygon contains", "statement": "On an unbaked mesh a point is reported outside only if no polygon of any (requested) layer contains any of the nine probed positions; get_point_layer lists exactly the layers that contain the point, in layer order, once each.", "quantifier": "every mesh of at most 256 layers, every point", "why_tests_cant": "all geometric configurations", "anchors": ["src/layers.rs: get_point_location", "src/lib.rs: get_point_layer, get_point_locations"]}
{"id": "C05", "title": "Baking the polygon finder never changes whether a point is in the mesh", "statement": "After bake_polygon_finder a point is found in a layer iff it was found before baking; if exactly one polygon contains the point the same polygon is reported.", "quantifier": "every layer, every point, every order in which the BVH enumerates its candidates", "why_tests_cant": "depends on all coordinates incl. negative ones and BVH traversal order", "anchors": ["src/layers.rs: bake_polygon_finder, get_point_location_unit_baked", "src/lib.rs: BoundedPolygon"]}
{"id": "C06", "title": "A point reported inside a polygon is geometrically inside it (up to the documented tolerance)", "statement": "In exact arithmetic: a polygon is said to contain a point only if the point is strictly to the left of all its edges (hence inside its convex hull), or it lies within the bounding box of one edge and within the side tolerance of that edge's line; conversely every point at cross-product distance at least the tolerance to the left of every edge is contained.", "quantifier": "every counter clockwise polygon with any number of vertices and every point", "why_tests_cant": "infinite geometric domain", "anchors": ["src/layers.rs: point_in_polygon", "src/helpers.rs: Vec2Helper::{side,on_segment}"]}
{"id": "C07", "title": "get_closest_point returns a mesh point within the search radius, and the query itself when it is on the mesh", "statement": "A returned point lies in an existing polygon of the returned layer and at distance at most search_delta*(search_steps-1) of the query; when the query is on the mesh the result is the query; no smaller ring contains a sampled mesh point.", "quantifier": "every mesh, point, delta, steps", "why_tests_cant": "all geometric configurations", "anchors": ["src/lib.rs: get_closest_point", "src/layers.rs: get_closest_point_inner, get_closest_point"]}
{"id": "C08", "title": "get_closest_point searches all around the query point", "statement": "If an arc of one of the searched circles (radius k*search_delta around the query, k < search_steps), at least as long as the sampling distance of that circle, lies in the mesh, a point is found, whatever the direction of the arc. (Expected by the documentation 'search in circles'; violated by the code: circle k is only sampled over k/(k+1) of its circumference, the first ring over the eastern half. Proved for arcs in the sampled part.)", "quantifier": "every mesh and point", "why_tests_cant": "direction dependent", "anchors": ["src/layers.rs: get_closest_point_inner"]}
{"id": "C09", "title": "get_closest_point_towards only moves along the given direction", "statement": "A returned point is point + k*delta*direction for some step k < search_steps, lies in the reported polygon, and no smaller step hits the mesh.", "quantifier": "every mesh, point, direction, delta, steps", "why_tests_cant": "all geometric configurations", "anchors": ["src/lib.rs: get_closest_point_towards", "src/layers.rs: get_closest_point_towards_inner"]}
{"id": "C10", "title": "A returned path ends at the requested destination", "statement": "Whenever path / path_on_layers / get_path produce a path, its list of points is not empty and its last point is exactly the requested destination; if both ends are located in the same polygon the path is that single point and its length the straight distance.", "quantifier": "every mesh, baked or not, well formed or not, every pair of points, every set of blocked layers", "why_tests_cant": "every search history", "anchors": ["src/lib.rs: path_on_layers", "src/instance.rs: next", "src/async_helpers.rs: poll"]}
{"id": "C11", "title": "A returned path is supported by a chain of adjacent polygons", "statement": "A path is only returned if there is a finite chain of polygons from the one containing the start to the one containing the destination in which each polygon has a boundary edge whose two end vertices both list the next polygon as neighbour, never stepping back to the outside marker.", "quantifier": "every mesh, every pair of points, every heap tie breaking", "why_tests_cant": "every search history of any length", "anchors": ["src/instance.rs: setup, successors, next, add_node"]}
{"id": "C12", "title": "Blocked layers are never entered", "statement": "For path_on_layers with a set of blocked layers, no polygon of the supporting chain after the first lies in a blocked layer; in particular if the destination polygon is in a blocked layer and is not the start polygon no path is returned.", "quantifier": "every mesh, every pair of points, every blocked set", "why_tests_cant": "every search history", "anchors": ["src/instance.rs: setup, successors (blocked_layers)", "src/lib.rs: path_on_layers"]}
{"id": "C13", "title": "Paths only turn at corner vertices of crossed edges", "statement": "Every intermediate point of a returned path, except possibly the last turn before the destination, is (within 1e-5) an end vertex of an edge crossed by the supporting chain, in order, and that vertex is marked as a corner (or touches a blocked layer); the last turn is an end point of the last crossed interval.", "quantifier": "every mesh, every pair of points", "why_tests_cant": "every search history", "anchors": ["src/instance.rs: successors, next", "src/helpers.rs: turning_point"]}
{"id": "C14", "title": "The accumulated length is exactly the length of the walked polyline", "statement": "For every search node ever queued the accumulated cost equals the left-to-right floating point sum of the distances along start, turning points, root; the length of a returned path is that sum plus the final heuristic value, and in exact arithmetic - when the destination is seen from the last root consistently by heuristic and turning point - it is the length of the returned polyline.", "quantifier": "every mesh, every pair of points, every search history; bit exact in f32 for the accumulated cost", "why_tests_cant": "every search history", "anchors": ["src/instance.rs: add_node, next", "src/helpers.rs: heuristic, turning_point"]}
{"id": "C15", "title": "No returned path is shorter than the straight line", "statement": "The reported length of any returned path is at least the distance between the start and the destination. (Violated when an edge is so short that points far from it count as collinear with it; proved in exact arithmetic when start and destination are outside of the side tolerance of the crossed intervals.)", "quantifier": "every mesh (even invalid), every pair of points", "why_tests_cant": "infinite geometric domain", "anchors": ["src/helpers.rs: heuristic", "src/instance.rs: add_node, next"]}
{"id": "C16", "title": "The heuristic never overestimates", "statement": "In exact arithmetic the heuristic of a node is at most dist(root,x)+dist(x,goal) for every point x of its interval, and it is attained by some point of the interval (whenever root and goal are not inside the side tolerance of the interval's line without lying on it).", "quantifier": "every root, goal, interval", "why_tests_cant": "infinite geometric domain", "anchors": ["src/helpers.rs: heuristic, mirror, intersection_time"]}
{"id": "C17", "title": "Path search always terminates", "statement": "path / path_on_layers terminate on every mesh: the outer loop is bounded and every expansion, including the chain of single-successor expansions, performs at most (number of neighbour entries in the mesh + 1) rounds.", "quantifier": "every mesh (even malformed), every pair of points", "why_tests_cant": "termination over all inputs", "anchors": ["src/instance.rs: successors", "src/lib.rs: path_on_layers"]}
{"id": "C18", "title": "Path search never panics nor reads out of bounds on a consistent mesh", "statement": "On a mesh whose polygon and vertex indices are in range, whose polygons are not empty and whose coordinates are finite of moderate size, path and path_on_layers return normally; no unwrap, indexing or unchecked access fails.", "quantifier": "every such mesh, every pair of points, every blocked set", "why_tests_cant": "every search history", "anchors": ["src/instance.rs: setup, edges_between, successors", "src/primitives.rs: edges_index"]}
{"id": "C19", "title": "Unchecked accesses are guarded by a correct bound", "statement": "No input mesh makes the library read outside of a vertex array through get_unchecked. (Holds for point_in_polygon; violated by edges_between whose guard is > instead of >=.)", "quantifier": "every mesh including malformed ones", "why_tests_cant": "needs adversarial meshes", "anchors": ["src/instance.rs: edges_between", "src/layers.rs: point_in_polygon"]}
{"id": "C20", "title": "Baking islands never changes the answer of path", "statement": "On a single layer mesh whose vertex/polygon incidences agree, path returns the same result with and without baked islands.", "quantifier": "every consistent single layer mesh, every pair of points", "why_tests_cant": "every graph shape", "anchors": ["src/layers.rs: bake_islands_detection", "src/lib.rs: path_on_layers"]}
{"id": "C21", "title": "Island labels are the connected components", "statement": "bake_islands_detection terminates, gives every polygon a label, and two polygons get the same label iff they are connected through shared vertices (on a consistent mesh).", "quantifier": "every layer", "why_tests_cant": "every graph shape", "anchors": ["src/layers.rs: bake_islands_detection"]}
{"id": "C22", "title": "The best open node is always expanded first and the returned path is minimal among what is left", "statement": "When a path is returned its length is at most the estimate (cost + heuristic) of every node still in the queue, whichever of several equally good nodes the heap returns first; the node order is a total preorder.", "quantifier": "every mesh, query and heap implementation", "why_tests_cant": "every search history and tie break", "anchors": ["src/lib.rs: impl Ord for SearchNode", "src/instance.rs: next, pop_node"]}
{"id": "C23", "title": "Nodes are only pruned when strictly dominated", "statement": "At every moment the recorded best cost of a root is a lower bound of the costs of all queued nodes with that root and is attained by a generated node; a node is dropped by history only if another generated node has the same root and a strictly smaller cost.", "quantifier": "every mesh and query", "why_tests_cant": "every search history", "anchors": ["src/instance.rs: add_node, next (root_history)"]}
{"id": "C24", "title": "path finds a path whenever the polygons are connected", "statement": "If the start and the destination polygons of a valid mesh are connected, path returns a path. (Violated: the search gives up after 10 x polygons steps.)", "quantifier": "every valid mesh", "why_tests_cant": "needs large or adversarial meshes", "anchors": ["src/lib.rs: path_on_layers (limit)"]}
{"id": "C25", "title": "get_path (async) agrees with path", "statement": "Polling the future to completion gives the same answer as path. (Violated by the island test on layer 0 of multi-layer meshes and by the different point location; proved when both locate the ends in the same polygons, the islands of layer 0 do not separate them and the step limit of path is not hit; when they separate them the future answers 'no path' at once.)", "quantifier": "every mesh, every pair of points", "why_tests_cant": "two different front ends over all meshes", "anchors": ["src/async_helpers.rs: poll", "src/lib.rs: path_on_layers, get_path"]}
{"id": "C26", "title": "The future obeys the poll contract", "statement": "The waker is woken exactly on the polls that return Pending; the result does not depend on the executor: the k-th poll is determined and the outcome equals running the search to its first Found/NotFound step.", "quantifier": "every mesh, every number and timing of polls", "why_tests_cant": "every schedule", "anchors": ["src/async_helpers.rs: poll"]}
{"id": "C27", "title": "One-way stitches are one way", "statement": "After stitching with one_way=true no vertex of the 'to' layer lists a polygon of the 'from' layer, so a path starting in a layer that only has incoming one-way stitches never leaves it.", "quantifier": "every multi-layer mesh, every stitch list, every pair of points", "why_tests_cant": "every search history", "anchors": ["src/stitching.rs: stitch_internals", "src/instance.rs: successors"]}
{"id": "C28", "title": "Stitching adds exactly the stitched neighbours", "statement": "After stitch_at_points / stitch_at_vertices the neighbours of a vertex are its own polygons (tagged with its layer) plus, for each stitch pair it takes part in, the own-layer polygons of the other vertex (in the allowed direction); coordinates, polygons, offsets and layer count are unchanged.", "quantifier": "every mesh of at most 256 layers and every stitch list", "why_tests_cant": "every list of stitches, order, duplicates", "anchors": ["src/stitching.rs: stitch_internals, stitch_at_points, stitch_at_vertices"]}
{"id": "C29", "title": "Reordering neighbours never loses or invents a neighbour and recomputes corners", "statement": "reorder_neighbors_ccw_and_fix_corners keeps the set of neighbouring polygons of each vertex, marks a vertex as corner iff the outside marker is in its list, and changes nothing else.", "quantifier": "every mesh, every angle function and every (unstable) sort", "why_tests_cant": "sort instability and floating point angles", "anchors": ["src/mesh_cleanup.rs: reorder_neighbors_ccw_and_fix_corners"]}
{"id": "C30", "title": "remove_stitches undoes stitching", "statement": "Stitching an unstitched mesh and removing the stitches gives back each vertex the set of polygons it had. (The corner flags and outside markers are not restored, and remove_stitches is not idempotent: both refuted.)", "quantifier": "every unstitched mesh and stitch list", "why_tests_cant": "every list of stitches", "anchors": ["src/stitching.rs: remove_stitches, stitch_internals"]}
{"id": "C31", "title": "Removing and redoing the stitches of one layer gives the fully stitched neighbour sets back", "statement": "For a mesh stitched with S, remove_stitches_to_layer(t) followed by restitch_layer(t, S) gives every vertex the same set of neighbours as stitching with S.", "quantifier": "every mesh, layer and stitch list", "why_tests_cant": "every list of stitches", "anchors": ["src/stitching.rs: remove_stitches_to_layer, restitch_layer_at_vertices"]}
{"id": "C32", "title": "find_stitch_points finds exactly the shared coordinates and its result can be stitched", "statement": "The result lists, in increasing order of layer pairs (a<b), exactly the coordinates common to a vertex of a and a vertex of b, and stitch_at_points never panics on it.", "quantifier": "every mesh of at most 256 layers", "why_tests_cant": "all vertex coincidences", "anchors": ["src/stitching.rs: find_stitch_points, stitch_at_points"]}
{"id": "C33", "title": "remove_useless_vertices keeps the geometry", "statement": "It removes exactly the vertices without polygon, keeps the order of the others, renumbers polygons so that each corner still is the same vertex, and returns true iff something was removed; running it again changes nothing.", "quantifier": "every consistent layer", "why_tests_cant": "every renumbering", "anchors": ["src/mesh_cleanup.rs: Layer::remove_useless_vertices"]}
{"id": "C34", "title": "Mesh level cleanup handles every layer", "statement": "Mesh::remove_useless_vertices and Mesh::merge_polygons apply the layer operation to every layer. (Violated: they stop at the first layer that changed; proved that repeating until false reaches all layers.)", "quantifier": "every multi-layer mesh", "why_tests_cant": "needs several changing layers", "anchors": ["src/mesh_cleanup.rs: Mesh::remove_useless_vertices", "src/merger.rs: Mesh::merge_polygons"]}
{"id": "C35", "title": "merge_polygons: bookkeeping of the merged polygons", "statement": "It returns true iff the number of polygons decreased, never increases it, so `while merge_polygons() {}` terminates; vertices and coordinates are untouched except for neighbour ids, all of which are valid afterwards, and each vertex lists exactly the merged polygons of the polygons it listed.", "quantifier": "every consistent unstitched layer", "why_tests_cant": "every merge history", "anchors": ["src/merger.rs: Layer::merge_polygons, UnionFind"]}
{"id": "C36", "title": "merge_polygons preserves area and convexity", "statement": "Every polygon after merging is either an unchanged polygon or the union of polygons glued along shared edges that passed the convexity test; the sum of the signed areas of all polygons is preserved in exact arithmetic.", "quantifier": "every consistent layer", "why_tests_cant": "every merge history", "anchors": ["src/merger.rs: Layer::merge_polygons"]}
{"id": "C37", "title": "Converting a triangle list keeps triangles and incidences", "statement": "For a Trimesh whose triangle indices are in range, conversion fails with InvalidMesh iff some vertex is in no triangle (EmptyMesh iff nothing is given); otherwise polygon i is triangle i and the neighbours of a vertex are exactly the triangles using it, plus outside markers exactly between cyclically consecutive triangles that do not share an edge.", "quantifier": "every trimesh, every permutation produced by the sort", "why_tests_cant": "every mesh and sort behaviour", "anchors": ["src/input/trimesh.rs: TryFrom<Trimesh> for Mesh"]}
{"id": "C38", "title": "The comparator used to sort triangles around a vertex is an ordering", "statement": "The comparison closure given to sort_by is a total order as sort_by requires. (Violated.)", "quantifier": "every vertex with incident triangles", "why_tests_cant": "depends on std's sort implementation", "anchors": ["src/input/trimesh.rs: sort_by closure"]}
{"id": "C39", "title": "Saving and loading a mesh file preserves the navmesh", "statement": "from_bytes(to_bytes(f)) succeeds and yields the same vertices (coordinates as rounded by the 6 digit printer, same neighbours) and the same polygons' vertex lists, if no vertex has an empty neighbour list and no polygon is empty. (The one-way flags are lost; files with empty polygons cannot be read back.)", "quantifier": "every mesh file value", "why_tests_cant": "every list of numbers", "anchors": ["src/input/polyanya_file.rs: to_bytes, from_bytes", "src/primitives.rs: Polygon::using"]}
{"id": "C40", "title": "The one-way flag read from a file is right", "statement": "A polygon read with neighbour information is flagged one way iff at most one of its neighbours is not -1.", "quantifier": "every polygon line", "why_tests_cant": "every neighbour list", "anchors": ["src/primitives.rs: Polygon::using"]}
{"id": "C41", "title": "A triangulation turns into a consistent layer", "statement": "Given a consistent planar subdivision from the triangulator, as_layer keeps exactly the accepted faces as polygons, in order; every neighbour id is valid, a vertex lists polygon p iff p uses the vertex, and it is a corner iff one of the faces around it is rejected or outside.", "quantifier": "every triangulation and acceptance predicate", "why_tests_cant": "every face pattern around a vertex", "anchors": ["src/input/triangulation.rs: as_layer"]}
{"id": "C42", "title": "Agent radius settings are independent of the order of the calls", "statement": "set_agent_radius, set_agent_radius_segments, set_agent_radius_simplification and agent_radius_on_outer_edge each change only their own setting, so the final settings only depend on the last call of each.", "quantifier": "every sequence of calls", "why_tests_cant": "every history of calls", "anchors": ["src/input/triangulation.rs: AgentRadius, set_agent_radius*, agent_radius_on_outer_edge"]}
{"id": "C43", "title": "Obstacles are all taken into account, however they are added", "statement": "add_obstacles is equivalent to adding the obstacles one by one, and every obstacle added before or after prebuild constrains the triangulation. (Violated when prebuild is called twice: the edges of the first batch are dropped.)", "quantifier": "every sequence of add_obstacle(s)/prebuild calls", "why_tests_cant": "every history of calls", "anchors": ["src/input/triangulation.rs: add_obstacle, add_obstacles, prebuild, as_layer"]}
{"id": "C44", "title": "Answers do not depend on the random seed of the hash tables", "statement": "The hash of a search root is consistent with its equality, including signed zeros, so the history lookup is a lookup by equality: two runs of the same query with differently seeded (or sized) hash tables give the same answer, for path and for the future.", "quantifier": "every pair of f32 coordinates, every hasher, capacity and growth policy, every mesh and query", "why_tests_cant": "2^64 coordinates; the seed changes at every run", "anchors": ["src/instance.rs: Root (Eq, Hash)"]}
{"id": "C45", "title": "Mirroring is a reflection", "statement": "In exact arithmetic mirror is an involution, fixes the line, and keeps distances to every point of the line; side is antisymmetric under swapping the line's ends.", "quantifier": "every point and non degenerate line", "why_tests_cant": "infinite geometric domain", "anchors": ["src/helpers.rs: mirror, side"]}
{"id": "C46", "title": "line_intersect_segment returns a point of both lines", "statement": "In exact arithmetic a returned point lies on the line and on the segment (extended by the tolerance at both ends); if the line properly crosses the segment a point is returned.", "quantifier": "every line and segment", "why_tests_cant": "infinite geometric domain", "anchors": ["src/helpers.rs: intersection_time, line_intersect_segment"]}
{"id": "C47", "title": "Expanding a node covers the whole far boundary of the polygon", "statement": "The successors computed for a node cut every boundary edge of the polygon, except the one it entered by, into consecutive pieces from the first to the last vertex, leaving no gap, in boundary order.", "quantifier": "every polygon, root and interval, any arithmetic", "why_tests_cant": "every geometry", "anchors": ["src/instance.rs: edges_between", "src/primitives.rs: circular_edges_index, edges_index"]}
{"id": "C48", "title": "Interval end points lie on the crossed edge", "statement": "In exact arithmetic both ends of every successor interval lie on the line of the polygon edge it is attached to, within the segment up to the intersection tolerance.", "quantifier": "every polygon, root and interval", "why_tests_cant": "every geometry", "anchors": ["src/instance.rs: edges_between", "src/helpers.rs: line_intersect_segment"]}
{"id": "C49", "title": "search parameters are guarded", "statement": "set_search_delta accepts exactly the non-negative deltas (not NaN) and set_search_steps exactly non-zero steps; accepted values are what the getters return. A mesh that was just made (Mesh::new, a file, a triangle mesh or a triangulation) searches 2 steps of 0.1.", "quantifier": "every value", "why_tests_cant": "f32 special values", "anchors": ["src/lib.rs: set_search_delta, set_search_steps"]}
{"id": "C50", "title": "Queries located beforehand give the same path", "statement": "Using the Coords returned by get_closest_point for an endpoint gives the same start/end polygon as the plain query, and path never searches again for located coordinates.", "quantifier": "every mesh and point", "why_tests_cant": "every geometry", "anchors": ["src/lib.rs: path_on_layers, get_closest_point, Coords"]}
{"id": "C51", "title": "Stitched polygons can be crossed", "statement": "If consecutive polygons of a stitched mesh share stitched edges from the polygon of the start to the polygon of the destination, a path is found. (Violated: polygons flagged one way because they have at most one neighbour in their own layer keep the flag and are not crossed.)", "quantifier": "every multi-layer mesh and stitch list", "why_tests_cant": "depends on the flags of every polygon of every layer", "anchors": ["src/stitching.rs: stitch_internals", "src/instance.rs: successors, setup", "src/primitives.rs: Polygon::is_one_way"]}
{"id": "C52", "title": "A damaged mesh file is not taken for a complete one", "statement": "Reading a file that has more or fewer vertex and polygon lines than it announces fails. (Violated: a file cut off at any line after the counts is read without an error, as a mesh with the vertices and polygons that are left; with lines left over reading panics.)", "quantifier": "every file of the format and every point where it is cut off", "why_tests_cant": "every crash point of the writer", "anchors": ["src/input/polyanya_file.rs: from_bytes"]}
{"id": "C53", "title": "The rounded outline of an obstacle keeps its distance", "statement": "With an agent radius and enough segments, the outline computed around a side of an obstacle has all its corners at exactly the agent radius from an end of the side, and no point of the outline is closer to the side than radius * cos(pi / (2 m)), m being the number of segments of each half circle; that distance is reached, so the clearance is always strictly less than the radius. The outline put around a whole obstacle (the union of the outlines of its sides, the closing side included, before any simplification) encloses every point closer than that distance to a point of its boundary, so that nobody who keeps off the outline and gets away comes that close. (With one or two segments the outline passes through the ends of the side: no clearance at all.)", "quantifier": "every side, every obstacle of at least two points (repeated or not, but not just one point twice), closed or not, every radius and number of segments, exact arithmetic", "why_tests_cant": "every geometry and every number of segments", "anchors": ["src/input/triangulation.rs: inflate::Inflate, round_line, inflate_as_polygon, set_agent_radius, set_agent_radius_segments"]}
{"id": "C54", "title": "Which settings make building the mesh panic", "statement": "Building the layer panics when the agent radius is on with zero segments and a side that is not degenerate, when an obstacle to inflate has fewer than two points, when the outer edge of a triangulation made from a mesh has to be inflated, and when the agent radius on the outer edge leaves no free space; none of these are reported as errors.", "quantifier": "every outline, obstacle and setting", "why_tests_cant": "every combination of settings and geometry", "anchors": ["src/input/triangulation.rs: as_layer, inflate::Inflate, round_line, agent_radius_on_outer_edge, from_mesh_layer"]}
{"id": "C55", "title": "simplify simplifies the outer edge and the obstacles", "statement": "The documentation of simplify says that it simplifies the outer edge and the obstacles. (Violated: the edges of the outer edge all remain constraints of the triangulation whatever the tolerance.)", "quantifier": "every outer edge, obstacle list and tolerance", "why_tests_cant": "every geometry", "anchors": ["src/input/triangulation.rs: simplify"]}
{"id": "C56", "title": "The vertices on a segment are all found, once, in order", "statement": "get_vertices_on_segment returns the index of every vertex of the layer on the segment exactly once and nothing else, by increasing distance to the start of the segment (increasing index for equal distances); in exact arithmetic a vertex is on the segment iff it is inside its bounding box and the cross product with the segment is below 0.0001, so every vertex exactly on the segment is returned. (Being close is not enough: next to an axis-parallel segment no tolerance at all is applied.)", "quantifier": "every layer and segment", "why_tests_cant": "every geometry", "anchors": ["src/layers.rs: get_vertices_on_segment", "src/helpers.rs: on_segment"]}
{"id": "C57", "title": "Paths with detailed layers are proper paths", "statement": "With the feature detailed-layers, the two point lists of a returned path end exactly at the requested destination, the last entry of path_with_layers names the layer of the destination's polygon, and the path is supported by a chain of adjacent polygons from start to destination that enters no blocked layer; its turns are at corners of crossed edges.", "quantifier": "every mesh, scales, pair of points, set of blocked layers, priority queue order and arithmetic (binary32 included)", "why_tests_cant": "every geometry and every order of the queue", "anchors": ["src/lib.rs: path_on_layers", "src/instance.rs: next, add_node, successors"]}
{"id": "C58", "title": "path_with_layers lists turns and layer changes", "statement": "For ends in different polygons path_with_layers is: every turn with its layer and every layer entered with the point where the straight line between the neighbouring points meets the crossed edge, in order along the chain of polygons, then the last turn and the destination in the layer of the destination; points closer than 0.01 to the next one are left out. The length is the sum of its legs, each scaled by the layer in which the leg starts. (Violated: for ends in the same polygon the scale is ignored; leaving points out removes real turns, so that the listed line cuts through walls and the length is too small.)", "quantifier": "every mesh, scales, pair of points, set of blocked layers and arithmetic", "why_tests_cant": "every geometry", "anchors": ["src/instance.rs: next, add_node", "src/lib.rs: path_on_layers, Path::path_with_layers"]}
{"id": "C59", "title": "Scaled lengths are not below the scaled straight line", "statement": "In exact arithmetic, if all scale factors are at least k in absolute value, a path between different polygons reports a length of at least k times the straight distance; with scale factors of at least one no path is shorter than the straight line.", "quantifier": "every mesh, scales, pair of points and set of blocked layers, exact arithmetic", "why_tests_cant": "every geometry", "anchors": ["src/instance.rs: next", "src/lib.rs: path_on_layers"]}
{"id": "C60", "title": "The returned path is the shortest one found", "statement": "With detailed-layers the search goes on after the first path, up to 10 steps per polygon, and returns one of the paths found, none of the others being shorter; in particular it is not longer than what the future returns. (Violated: it is not the cheapest path: a corner reached first through a steep layer hides the cheaper way, and blocking a layer can make the result more than three times shorter; the future stops at the first path, which can be longer.)", "quantifier": "every mesh, scales, pair of points, set of blocked layers, queue order and arithmetic with a lawful <", "why_tests_cant": "every order in which paths are found", "anchors": ["src/lib.rs: path_on_layers", "src/async_helpers.rs: FuturePath::poll", "src/instance.rs: add_node"]}
{"id": "C61", "title": "With all scales one, the feature finds a path exactly when the default search does", "statement": "If every layer has scale (1, 1), the detailed search succeeds iff the search without the feature does, one of the paths it finds has the same points, and the returned one is not longer than that one.", "quantifier": "every mesh, pair of points and set of blocked layers; every arithmetic with x * 1 = x", "why_tests_cant": "the two builds are never in the same test binary", "anchors": ["src/lib.rs: path_on_layers", "src/instance.rs: add_node, next"]}
{"id": "C62", "title": "A path never leaves the polygons it goes through", "statement": "For a mesh of convex polygons in which neighbours share their edges, every leg of a returned path can be cut into parts that lie inside of the polygons of one chain of adjacent polygons, from the polygon of the start to the polygon of the goal, in order: no point of the path is outside of the mesh, so the path does not cut through obstacles.", "quantifier": "every convex mesh, start and goal in general position with respect to the tolerances of the code; exact arithmetic", "why_tests_cant": "tests compare the corners of a few paths, not the points between them; the claim is about every point of every leg on every mesh", "anchors": ["src/instance.rs: next, edges_between, successors, add_node", "src/helpers.rs: turning_point, line_intersect_segment", "src/lib.rs: path_on_layers"]}
{"id": "C63", "title": "The returned path is the shortest one", "statement": "For a mesh of convex polygons in which neighbours share their edges, the path returned by path (or path_on_layers) stays in the polygons of one chain, its reported length is the length of its polyline, and no other way from the start to the goal (moving inside of polygons, changing to a neighbour at any point of the common edge, entering no blocked layer) is shorter.", "quantifier": "every convex mesh without pinched vertices, every set of blocked layers, every priority queue order among equal nodes, start and goal in general position with respect to the tolerances of the code; exact arithmetic", "why_tests_cant": "tests compare a few paths with expected points; the claim compares with every other way through the mesh, of which there are infinitely many", "anchors": ["src/instance.rs: next, edges_between, successors, add_node, InstanceBuilder setup", "src/helpers.rs: heuristic, turning_point", "src/lib.rs: path_on_layers"]}
{"id": "C64", "title": "The search always answers, and no path means no way", "statement": "For a mesh of convex polygons in which neighbours share their edges and no vertex flagged as a corner is surrounded by polygons, the future of get_path, polled often enough, answers: with a path of the least length of all ways from start to goal or, exactly if there is no way, with no path. For path and path_on_layers the same holds but for the limit of ten steps per polygon: if there is a way, either a path is returned or the search would have found one after more steps.", "quantifier": "every such mesh without pinched vertices, with or without a way between the points, every priority queue order among equal nodes, start and goal in general position with respect to the tolerances of the code; exact arithmetic", "why_tests_cant": "termination and completeness are about unbounded runs on every mesh; tests see a few searches that end", "anchors": ["src/async_helpers.rs: FuturePath::poll", "src/instance.rs: next, successors, add_node, root_history", "src/lib.rs: path_on_layers, get_path"]}
{"id": "C65", "title": "The path returned is the shortest polyline in the walkable area", "statement": "If the polygons of the mesh lie side by side (they do not overlap, and where two of them meet one can cross), the path returned lies in the union of the polygons that are not on blocked layers, seen as a set of points of the plane, and no polyline from the start to the goal in that set is shorter - whatever polygons it goes through. The future of get_path answers with such a path or, exactly if no polyline in the set joins the two points, with no path.", "quantifier": "every such mesh, every set of blocked layers, start and goal in general position with respect to the tolerances of the code, and every competing polyline; exact arithmetic", "why_tests_cant": "the competing polylines are infinitely many and are not described by polygons at all", "anchors": ["src/lib.rs: path_on_layers, get_path", "src/instance.rs: successors, edges_between, add_node, next", "src/helpers.rs: heuristic, turning_point"]}
{"id": "C66", "title": "The length of the path does not depend on how the area is cut into polygons", "statement": "Two meshes that cover the same area, cut into polygons in different ways or with different blocked layers, give paths of the same length between the same points, and the futures find a path for both or for neither; a mesh that covers a larger area never gives a longer path. With detailed-layers and scales of one the same comparison of lengths holds up to 0.02 for every point that path_with_layers leaves out.", "quantifier": "all pairs of such meshes and sets of blocked layers, start and goal in general position for both; exact arithmetic", "why_tests_cant": "relates two meshes with nothing in common but the set of points they cover", "anchors": ["src/lib.rs: path_on_layers, get_path", "src/instance.rs", "src/merger.rs: merge_polygons (does not change the area)"]}
{"id": "C67", "title": "Path lengths are distances", "statement": "On one mesh the length of the path from start to goal is that of the path from goal to start (and one is found if and only if the other one is); it is not longer than the path from start to a third point together with the path from there to the goal; it is at least the straight distance. With detailed-layers and scales of one the same comparison of lengths holds up to 0.02 for every point that path_with_layers leaves out.", "quantifier": "every such mesh, set of blocked layers and triple of points in general position; exact arithmetic", "why_tests_cant": "relates the results of several independent searches that explore different nodes", "anchors": ["src/lib.rs: path_on_layers, get_path", "src/instance.rs"]}
{"id": "C68", "title": "Removing unused vertices never changes an answer", "statement": "After remove_useless_vertices, called once or repeated until it returns false, every query (get_point_location, get_point_locations, point_in_mesh, get_closest_point, get_closest_point_towards) and every search (path, path_on_layers, and the future of get_path at every poll) gives exactly the answer it gave before, bit by bit.", "quantifier": "every mesh whose polygons only use vertices that list a polygon, baked or not, with or without islands, every query and every pair of ends and set of blocked layers; any arithmetic, binary32 included", "why_tests_cant": "every vertex number changes and with it every interval of the search; that no decision depends on the numbers is about all runs of the search", "anchors": ["src/mesh_cleanup.rs: remove_useless_vertices", "src/instance.rs", "src/lib.rs: path_on_layers, get_path, get_point_location, get_closest_point"]}
{"id": "C69", "title": "Answers move with the mesh", "statement": "If the offsets of all layers and the points of a query are moved by the same vector, the same polygons are found, the closest points and the points of the paths are the old ones moved by the vector, and the lengths of the paths are the same; a future needs the same number of polls.", "quantifier": "every mesh with vertices in range, every vector, query, pair of ends and set of blocked layers; exact arithmetic", "why_tests_cant": "relates two runs of the search, on all meshes and for all vectors", "anchors": ["src/layers.rs: Layer.offset", "src/instance.rs", "src/lib.rs: path_on_layers, get_path, get_point_location, get_closest_point", "src/helpers.rs"]}
{"id": "C70", "title": "Merging polygons keeps the covered area", "statement": "On layers of convex polygons that do not overlap and have no three vertices on a line, merge_polygons, called once or in the loop `while mesh.merge_polygons() {}`, covers exactly the points covered before, each layer by itself; the polygons are again convex, do not overlap and have no vertex twice, the vertices only list polygons they are a corner of, and the lengths of paths stay the same.", "quantifier": "every such mesh, any areas and any order of visiting the polygons; exact arithmetic", "why_tests_cant": "the merged polygons come from any sequence of gluings chosen by areas, neighbour lists and convexity tests; that only opposite edges are glued is geometry, for all meshes", "anchors": ["src/merger.rs: merge_polygons"]}
{"id": "C71", "title": "Paths depend neither on the numbers of the polygons nor on the layers that hold them", "statement": "Two meshes that have the same polygons at the same world positions, with the same one-way flags, neighbours (in the same order) and corner flags, give the same path (same points, same length, or both none) between the same places, whatever the numbering of the polygons and their distribution over layers, with the corresponding layers blocked; and their futures answer the same at the same poll with the same wakes (when islands do not separate the ends).", "quantifier": "every pair of such meshes, every pair of positions found in corresponding polygons, every blocked set, every number of polls; any arithmetic", "why_tests_cant": "all meshes and all search histories", "anchors": ["src/instance.rs: U32Layer, setup, successors, edges_between, add_node, next", "src/lib.rs: path_on_layers, get_path", "src/async_helpers.rs: poll"]}
{"id": "C72", "title": "A mesh cut into layers and stitched together again behaves like the mesh in one piece", "statement": "Distribute the polygons of a one layer mesh over several layers, let find_stitch_points find the common vertices and stitch_at_points stitch them (both ways): every polygon has the same neighbours in the same order and the same corner flags as in the one layer mesh with ordered neighbours, so that path and get_path return the same results. (When the polygons around a vertex are seen in different directions, and the one-way flags are those of the whole mesh.)", "quantifier": "every layer with consistent incidence, every distribution over at most 256 layers, every sort that orders by key, every search", "why_tests_cant": "all meshes, all cuts and all search histories", "anchors": ["src/stitching.rs: find_stitch_points, stitch_at_points, stitch_at_vertices, stitch_internals", "src/mesh_cleanup.rs: reorder_neighbors_ccw_and_fix_corners", "src/lib.rs: path", "src/async_helpers.rs: poll"]}
{"id": "C73", "title": "In binary32 the point queries are right up to an explicit rounding error", "statement": "With the 32 bit floats of the code: side answers left, right or on the edge according to the exact orientation, except within the tolerance 1e-4 plus 5 units in the last place of the two products; a polygon is reported to contain every point that is left of all its edges by that margin and no point that is clear of it by that margin; point_in_mesh inherits both; and on coordinates that are multiples of 1/64 of at most 10 bits the answer for strictly convex polygons is exact, border included.", "quantifier": "all polygons and points with finite coordinates up to 2^60, every mesh, every float", "why_tests_cant": "quantifies over all pairs of rounding errors of about 2^200 float inputs; tests run with a few round numbers", "anchors": ["src/helpers.rs: Vec2Helper::side, on_segment, EPSILON", "src/lib.rs: Layer::point_in_polygon, get_point_location, point_in_mesh"]}
{"id": "C74", "title": "In binary32 reported paths are finite and their length is right up to an explicit rounding error", "statement": "With the 32 bit floats of the code, on a mesh with coordinates up to 2^46: all points of a returned path are finite numbers (never NaN or infinite), whatever the search computed on the way; the reported length differs from the exact length of the reported polyline of n points by at most (2n + 8) / 2^24 of it (4 / 2^24 in one polygon), when the goal and the last corner are clear of the lines that decide how the path ends; and it is not less than the straight line by more than such an error.", "quantifier": "every mesh with finite coordinates, every search, every blocked set, every number of corners up to 4 million", "why_tests_cant": "accumulated rounding over all runs of the search; equality tests of a few lengths cannot bound the error", "anchors": ["src/helpers.rs: heuristic, turning_point, intersection_time, line_intersect_segment", "src/instance.rs: add_node, edges_between, successors, next", "src/lib.rs: path_on_layers"]}
{"id": "C75", "title": "Closest point searches of a single layer are exact samples, sound, complete and total", "statement": "Layer::get_closest_point returns a point of the layer on one of the circles of radius delta * step, step = 0 .. steps included, and none of the samples of the smaller circles is in the layer; it returns nothing only if no sample of any of these circles is in the layer; a query in the layer is its own answer; a mesh made of that layer alone finds the same point with search_steps = steps + 1. get_closest_point_towards does the same along the ray to the target, for steps below `steps`. Both always answer when no polygon is empty.", "quantifier": "every layer, query, target, delta and number of steps", "why_tests_cant": "all positions and all layers; the two loops have different bounds (0..=steps and 0..steps)", "anchors": ["src/layers.rs: Layer::get_closest_point, get_closest_point_inner, get_closest_point_towards, get_closest_point_towards_inner"]}
{"id": "C76", "title": "On a triangulated mesh, paths stay inside of the outer edge and keep away from all obstacles", "statement": "Build a mesh from an outer edge (or another mesh) and obstacles, by any sequence of add_obstacle, add_obstacles and at most one prebuild. Without an agent radius, no point of the area of the mesh is in the interior of what an obstacle encloses; with an agent radius r and m >= 3 arc segments (m odd), no point of the area is closer to a side of an obstacle than r * cos(pi / 2m); the area is enclosed by the outer edge (shrunk by the agent radius if it applies to it); and so are all points of all paths that the search returns on that mesh.", "quantifier": "every outer edge, every list of obstacles (any shape), every history of calls, every radius and number of segments, every pair of positions, every answer of the triangulator that respects the constraints", "why_tests_cant": "quantifies over all obstacles, histories, triangulations and paths", "anchors": ["src/input/triangulation.rs: Triangulation (from_outer_edges, add_obstacle, add_obstacles, set_agent_radius, prebuild, as_layer, as_navmesh), inflate, round_line, create_arc", "src/lib.rs: path", "src/instance.rs"]}
{"id": "C77", "title": "With detailed-layers, queries neither panic nor read out of bounds", "statement": "With the feature detailed-layers, on a mesh without dangling references in which every layer has a scale, path_on_layers returns an answer (a path or None) and the future of get_path always makes progress: no index out of range, no unchecked read out of bounds, no endless expansion. The only possible panic is the sort of the found paths when the scaled length of one of them is not a number; this cannot happen in exact arithmetic, but does with finite scales that overflow.", "quantifier": "every mesh without dangling references, every list of scales of the right length, all positions, blocked layers and queue orders", "why_tests_cant": "quantifies over all meshes, scales and queries", "anchors": ["src/instance.rs: setup, next, successors, add_node (cfg detailed-layers)", "src/lib.rs: path_on_layers (cfg detailed-layers)", "src/async_helpers.rs: FuturePath::poll"]}
{"id": "C78", "title": "A destination in the polygon behind a clearly crossed edge is never answered with 'no path'", "statement": "If start and destination are in two polygons with a common edge that no third polygon lists, the start is clearly left of that edge (beyond the tolerance and the rounding error) and the destination clearly right of it, and the layer of the destination is not blocked, then the future of get_path never answers None; path_on_layers can only answer None if the search has not ended within its limit of 10 steps per polygon. This holds with 32 bit floats, on any mesh around these two polygons, convex or not, and for any order in which equally good nodes are taken.", "quantifier": "every mesh, every pair of polygons with a common edge, all positions up to 2^50, every queue order", "why_tests_cant": "the rest of the mesh is arbitrary, and so is the history of the search before it reaches the destination", "anchors": ["src/instance.rs: setup, edges_between, add_node, next", "src/lib.rs: path_on_layers, get_path", "src/helpers.rs: side, on_side, heuristic", "src/async_helpers.rs: poll"]}
{"id": "C79", "title": "Reading a mesh file does not depend on the line ends nor on explicit plus signs", "statement": "from_bytes gives the same result (the same mesh file, or the same failure) when lines end with CR LF instead of LF, when the end of the last line is missing, and when numbers of the counts, vertices and polygons are written with a plus sign.", "quantifier": "every list of lines, valid or not", "why_tests_cant": "all texts, including invalid ones", "anchors": ["src/input/polyanya_file.rs: PolyanyaFile::from_bytes"]}
{"id": "C80", "title": "Blocking more layers never shortens a path nor makes one appear; only which layers of the mesh are blocked matters", "statement": "Two sets of blocked layers that agree on the layers of the mesh give the same answer of path_on_layers (order, repetitions and layers that do not exist do not matter, when all vertices at the outside are flagged as corners). If b is a subset of b', the path found with b is not longer than the path found with b'; and if there is a path with b' there is one with b, that path_on_layers can miss only because of its limit of steps. With detailed-layers and scales of one the same comparison of lengths holds up to 0.02 for every point that path_with_layers leaves out.", "quantifier": "every mesh, every pair of positions, every pair of sets of blocked layers, every queue order", "why_tests_cant": "quantifies over all meshes and pairs of sets", "anchors": ["src/lib.rs: path_on_layers", "src/instance.rs: setup, successors (blocked_layers, is_corner)"]}
{"id": "C81", "title": "Turning, moving, mirroring or scaling the world scales the length of the paths by the same factor", "statement": "If a map that multiplies all distances by k takes the walkable area, the start and the goal of one query to those of another, the length of the path is multiplied by k, however the two areas are cut into polygons. In particular a mesh whose vertices are all rotated, scaled and translated gives paths of the scaled length; and for rotations and translations nothing else is asked of the moved mesh: the future of get_path finds a path of the same length, or both answer None. With detailed-layers and scales of one the same comparison of lengths holds up to 0.02 for every point that path_with_layers leaves out.", "quantifier": "every mesh, every similarity of the plane, every pair of positions, every queue order", "why_tests_cant": "quantifies over all angles, translations and meshes", "anchors": ["src/lib.rs: path, get_path", "src/instance.rs", "src/helpers.rs"]}
{"id": "C82", "title": "Whatever the future of get_path answers is a proper path with the right length", "statement": "If polling the future returned by get_path ends with a path, then, however many steps it took: the path turns only at corners of the edges crossed by a chain of adjacent polygons from the polygon of the start to that of the destination; its reported length is the length walked to the last turn plus the final estimate, the length of the reported polyline when the end is clear of the tolerance, and never below the straight line but for the tolerance; no node left in the queue has a smaller estimate; in general position it stays inside of the polygons of the chain, and so keeps the agent radius from every obstacle of a triangulated mesh; with 32 bit floats its points are finite and the length is right up to the rounding error of C74.", "quantifier": "every mesh, every pair of positions, every number of polls, every queue order", "why_tests_cant": "the future has no limit of steps, so the number of polls and the state of the search are unbounded", "anchors": ["src/lib.rs: get_path", "src/async_helpers.rs: FuturePath::poll", "src/instance.rs: next, add_node", "src/helpers.rs: turning_point, heuristic"]}
{"id": "C83", "title": "Numbers of mesh files are written and read correctly rounded, and nothing else is taken for a number", "statement": "A finite coordinate is written with exactly six digits behind the point, without leading zeros, as the nearest millionth (the even one of two equally near ones). A text is read as a coordinate exactly if it is a decimal (optional sign, digits around an optional point, optional exponent) or one of inf, infinity, nan in any case with an optional sign; a decimal is read as the nearest 32 bit float, ties to even, or as an infinity when that is too large. An integer field is read exactly from the numerals in the range of its type, with an optional plus sign (and a minus sign when it is signed).", "quantifier": "every 32 bit float, every text", "why_tests_cant": "quantifies over all floats and over texts of every length", "anchors": ["src/input/polyanya_file.rs: PolyanyaFile::from_bytes, to_bytes"]}
{"id": "C84", "title": "With detailed-layers, paths never leave the walkable area, whatever the scales", "statement": "With the feature detailed-layers and any list of scales, the path returned by path_on_layers, and the one of the future of get_path after any number of polls, goes through a chain of adjacent polygons from the polygon of the start to that of the destination without leaving them, and enters no blocked layer; on a triangulated mesh it keeps the agent radius from every obstacle; and on the plane it is never shorter than the path without the feature.", "quantifier": "every mesh, every list of scales (of any sign and size), every pair of positions in general position, every set of blocked layers, every queue order", "why_tests_cant": "scales change the order of the search and which node reaches the destination; quantifies over all of them", "anchors": ["src/lib.rs: path_on_layers, get_path (cfg detailed-layers)", "src/instance.rs: setup, next, successors, add_node (cfg detailed-layers)", "src/helpers.rs: line_intersect_segment"]}
{"id": "C85", "title": "path_with_layers is the path with the changes of layer on its legs, and the length is that of the path up to the scales", "statement": "With the feature detailed-layers, path_with_layers is the list of points of path, in order, with additional points that lie on the legs in the order in which they are walked, from which some points closer than 0.01 to the next one are left out. Between different polygons, if the factors of all scales are between k and K, the length is at most K times the length of the path and at least k times the length of the path minus 0.02 for each point left out. With scales of one it is at most the length without the feature, and below it by at most 0.02 for each point left out; and the path itself is then the shortest one in the walkable area, up to 0.02 for each point left out (exactly, if no two neighbouring points of the full list are closer than 0.01).", "quantifier": "every mesh, every list of scales, every pair of positions in general position, every set of blocked layers, every queue order", "why_tests_cant": "quantifies over all meshes, scales and queries; the points added depend on the whole search", "anchors": ["src/instance.rs: next, successors, add_node (cfg detailed-layers)", "src/lib.rs: path_on_layers, Path (path_with_layers)", "src/helpers.rs: line_intersect_segment"]}
{"id": "C86", "title": "Every label of path_with_layers is the layer in which the path goes on", "statement": "With the feature detailed-layers, the points of path_with_layers, with those left out for being closer than 0.01 to the next one, cut the path into straight legs, and every leg lies in polygons of the layer that the point it starts at is labelled with; the first one, in the layer of the start. So the part of the path walked on each layer (and the scale it counts with) can be read off. This needs that no leg of the path runs along an edge between two layers: then the change of layer is not noted.", "quantifier": "every mesh, every list of scales, every pair of positions in general position, every set of blocked layers, every queue order, and the future after any number of steps", "why_tests_cant": "the labels depend on the whole search; quantifies over all meshes, scales and queries", "anchors": ["src/instance.rs: next, successors, add_node (cfg detailed-layers)", "src/lib.rs: path_on_layers, Path (path_with_layers)", "src/helpers.rs: line_intersect_segment"]}
{"id": "C87", "title": "A mesh stays usable through any sequence of maintenance calls", "statement": "Starting from a mesh as built by Mesh::new, any sequence of calls of bake, unbake, merge_polygons, remove_useless_vertices, reorder_neighbors_ccw_and_fix_corners, set_search_delta, set_search_steps, layers.push, stitch_at_vertices, remove_stitches, remove_stitches_to_layer, restitch_layer_at_vertices, the methods of single layers, and assignments to a layer or its offset goes through without panic, if each call meets its own condition at the time (merge and bake only while the layers are not stitched, stitches between existing vertices, and so on); and whenever the layers are stitched, or there is only one, no query fails on the mesh.", "quantifier": "every mesh, every finite sequence of calls that meet their conditions, every query after it", "why_tests_cant": "quantifies over call sequences of every length", "anchors": ["src/lib.rs: Mesh (bake, unbake, set_search_delta, set_search_steps)", "src/layers.rs: Layer (bake, unbake, bake_polygon_finder, bake_islands_detection)", "src/merger.rs: merge_polygons", "src/mesh_cleanup.rs: remove_useless_vertices, reorder_neighbors_ccw_and_fix_corners", "src/stitching.rs: stitch_at_vertices, remove_stitches, remove_stitches_to_layer, restitch_layer_at_vertices"]}
{"id": "C88", "title": "On a triangulated mesh the whole free space can be walked on, and the path is the shortest one in it", "statement": "The mesh built from a Triangulation covers every point that is inside of the outer edge (shrunk by the agent radius if it applies to it) and in no obstacle (grown by the agent radius if there is one): no free room is lost. And the path between two points is not longer than any way through the free space; if there is such a way, the future of get_path finds a path. With detailed-layers and scales of one the same comparison holds up to 0.02 for each point left out of path_with_layers.", "quantifier": "every outer edge, every sequence of calls adding obstacles, every point of the free space, every way through it", "why_tests_cant": "quantifies over all points of a region and over all ways through it", "anchors": ["src/input/triangulation.rs: Triangulation (add_obstacle, add_obstacles, prebuild, as_navmesh, as_layer), is_in_polygon test of the face centres", "src/lib.rs: get_path, path", "src/async_helpers.rs: FuturePath"]}
{"id": "C89", "title": "The order in which obstacles are added does not matter, and more obstacles never make a path shorter", "statement": "The area of the mesh built from a Triangulation depends only on the outer edge, the agent radius and the set of added obstacles: not on the order of the calls, on repetitions, on prebuild, or on how the triangulator cuts the area. A mesh built with more obstacles covers a part of the area of the one with fewer; if the future of get_path finds a path on it, it finds one that is not longer on the other, and with the same obstacles in another order both find a path of the same length, or none. With detailed-layers and scales of one the same comparison of lengths holds up to 0.02 for every point that path_with_layers leaves out.", "quantifier": "every two sequences of calls on builders with the same outer edge and radius, every start and goal", "why_tests_cant": "relates two executions, for every order and every set of obstacles", "anchors": ["src/input/triangulation.rs: Triangulation (add_obstacle, add_obstacles, prebuild, as_navmesh, as_layer)", "src/lib.rs: get_path, path", "src/async_helpers.rs: FuturePath"]}
{"id": "C90", "title": "A mesh built from a layer of another mesh is that layer without the obstacles", "statement": "A Triangulation made from a mesh with from_mesh or from_mesh_layer, with obstacles added, gives a mesh whose area is the area of that layer (in the coordinates of the layer) outside of the obstacles, with its border: it never leaves the layer, loses nothing that is in no obstacle, and without obstacles covers the same points. Paths on it stay on the layer, are the shortest ways over what is left of it, and are never shorter than on the mesh of the layer; if there is a way over what is left, the future of get_path finds a path. The offset of the layer is not kept.", "quantifier": "every layer of convex polygons, every sequence of calls adding obstacles, every point, start and goal", "why_tests_cant": "quantifies over all points of a region, all ways through it and all sequences of calls", "anchors": ["src/input/triangulation.rs: Triangulation (from_mesh, from_mesh_layer, add_obstacle, add_obstacles, prebuild, as_navmesh, as_layer)", "src/layers.rs: Layer::get_point_location", "src/lib.rs: get_path, path", "src/async_helpers.rs: FuturePath"]}
{"id": "C91", "title": "Unused spots in the list of polygons are never in the way", "statement": "A layer may keep empty polygons (Polygon::EMPTY is documented as usable for an unreachable spot in the polygon list). As long as no vertex names them and the polygon finder is built, as Layer::new builds it, no point query, path or future (with detailed-layers or without) panics or reads out of bounds, and a position is reported on the mesh exactly if one of the other polygons contains one of the probed positions. (Without the finder, after unbake or with no-default-baking, every query that looks at the spot panics: C91_unbaked_refuted.)", "quantifier": "every mesh with any number of empty polygons, every query, every blocked set, any number of polls", "why_tests_cant": "all arrangements of empty spots and all positions; no test of the project uses Polygon::EMPTY", "anchors": ["src/primitives.rs: Polygon::EMPTY, edges_index", "src/layers.rs: bake_polygon_finder, get_point_location_unit, get_point_location_unit_baked, point_in_polygon"]}
{"id": "C92", "title": "Raising the number of search steps never loses or changes an answer", "statement": "After set_search_steps with a number not below the old one: a closest point (of a mesh or of a layer, towards a target or not) that was found is still the one found; a path that was found is still the one found, bit for bit, with and without detailed layers; two ends that were found and had no path have none (and a query on found ends that failed fails the same way). Point location, point_in_mesh and the future returned by get_path do not depend on the number of steps at all. Raising it can only find more: ends that were too far from the mesh.", "quantifier": "every mesh, every number of steps, every query, blocked set, scales and number of polls", "why_tests_cant": "relates the answers of all queries on two settings of the same mesh", "anchors": ["src/lib.rs: set_search_steps, get_closest_point, get_closest_point_towards, path, path_on_layers, get_path", "src/layers.rs: get_closest_point, get_closest_point_towards"]}
{"id": "C93", "title": "Detailed answers do not depend on unused vertices, and move with the mesh", "statement": "With detailed layers too, removing the unused vertices (once, or until none is left) changes no answer of path or of the future returned by get_path: neither the polyline nor the length nor the list of points with their layers. With all scales one and exact arithmetic, moving all layers and both ends by the same vector moves the polyline and the labelled points by it and keeps the length and the labels.", "quantifier": "every mesh whose polygons only use vertices with neighbours, every scales, ends, blocked set and number of polls; every vector", "why_tests_cant": "relates the answers of all searches on two meshes", "anchors": ["src/mesh_cleanup.rs: remove_useless_vertices", "src/lib.rs: path, path_on_layers, get_path", "src/instance.rs: feature detailed-layers", "src/async_helpers.rs: FuturePath"]}
{"id": "C94", "title": "With agent_radius_on_outer_edge, the mesh and the paths keep the agent radius away from the outer edge", "statement": "Build a mesh from an outer edge with an agent radius d above 0.00001 and agent_radius_on_outer_edge(true), with at least 3 segments, by any sequence of add_obstacle, add_obstacles and at most one prebuild. Then no point of the mesh, and no point of a path returned on it (by path, by a future of get_path after any number of polls, or with detailed layers and any scales), is closer to a side of the outer edge than d * cos(pi / 2m) (m segments, made odd). Only asked of the outer edge: as long as its last side is missing, drawing its sides as thick as the radius leaves no hole (the code takes the first hole that appears, and does not cut the sides that are drawn later out of it).", "quantifier": "every outer edge, radius above 0.00001, number of segments, obstacles and order of calls; every point of the mesh, every query in general position", "why_tests_cant": "infinitely many points of the area and infinitely many positions on the edge; one property of the whole pipeline from the builder to the path", "anchors": ["src/input/triangulation.rs: Triangulation::{agent_radius_on_outer_edge, set_agent_radius, as_layer, as_navmesh}, Inflate::inflate, inflate_as_polygon", "src/lib.rs: path"]}
