# Formal model of vleue/polyanya in Coq 8.16.1

`/repo` is a Rust library for any-angle path finding (Polyanya) on a navigation mesh.
The model is a shallow embedding: every Rust function that is modelled becomes a
computable Gallina function with the same control flow, and every definition carries a
comment citing file and lines (and, where it simplifies, what it simplifies).

## 1. How the code is represented

* **Numbers.** The code uses `f32` everywhere. The model is
  parametrised by a record `Arith` (file `Arith.v`): a carrier `F`, `+ - * /`, negation, `abs`,
  `sqrt`, the comparisons `<`, `<=`, `==`, `is_nan`, `total_cmp`, `as i32`, literals, `sin`, `cos`, `acos`.
  `Arith` is an ordinary record with **no laws**: a theorem "for every `A : Arith`" is a theorem about
  every possible rounding behaviour, in particular about IEEE binary32. Two instances are given:
  - `F32` (`F32.v`): IEEE-754 binary32, built from `Coq.Floats.SpecFloat` (pure Gallina, no axioms).
    `sin`/`cos`/`acos` are not given by IEEE, so `F32with` takes them as arguments.
  - `RA` (`RealArith.v`): exact real numbers (Coq's `R`). Used for the properties that
    speak of "exact arithmetic".

  Structural properties (graph, heap, state machine, bookkeeping) are proved for every `Arith`.
  Properties which are false of arbitrary arithmetic are proved for the `RA` instance and/or for `F32`, or for every
  `Arith` meeting a small list of laws (reflexive equality, transitive `<`, ...) that is proved of both instances.
* **Failure.** `res A := Ok a | Panic | Oob | NoFuel`. `Panic` is a Rust panic (indexing, `unwrap`,
  `assert!`, arithmetic overflow as in debug builds), `Oob` an out-of-bounds `get_unchecked`
  (undefined behaviour), `NoFuel` exhaustion of the model's fuel; termination theorems show it never happens.
* **Ids.** `u32`/`u8`/`usize` values are `N`; `u32::MAX = 4294967295`.
* **Libraries** are oracles: record fields or function arguments of the model, with what is assumed of them as *hypotheses*
  of the theorems that need it (never axioms), and with a concrete implementation that meets the hypotheses (`StdLib.v`, `Tests_*.v`):
  - the binary heap: a `pop` that returns some element that is maximal for `Ord` and the rest (`pop_ok`), so that theorems hold
    for each way of breaking ties;
  - `sort_by` / `sort_unstable_by_key`: any permutation; sortedness where the proof needs it;
  - `HashMap` iteration order, as an argument;
  - the BVH (`bvh2d`): a candidate iterator that lists every polygon whose box contains the point (`bvh_ok`), in any order;
  - `geo`: polygon area and `is_ccw_convex` (merger), `contains`, `unary_union`, `difference`, `simplify`, `orient` (triangulation);
  - `spade`: the constrained Delaunay triangulation, as a subdivision record with a consistency hypothesis (`Spec_triangulation.v`);
  - float printing/parsing: any pair that agrees, and a model of six digit printing and of parsing for binary32 (`Decimal32.v`).
* **Configuration.** Default features (`async`), and separately `detailed-layers` (`Detailed.v`).
  `stats`, `tracing`, `serde`, `verbose` and `no-default-baking` are not modelled (they only print, count, serialise or skip the baking call).

## 2. Files (`rocq/theories`)

| file | content | Rust |
|---|---|---|
| `Base.v` | `res` monad, list helpers with their facts | |
| `Arith.v` | `Arith` record, `Vec2` operations | glam |
| `F32.v`, `F32_facts.v`, `F32_finite.v` | binary32 instance, laws of its comparisons, finiteness | |
| `RealArith.v`, `Geometry.v` | exact instance, plane geometry | |
| `U32.v` | packing of layer and polygon | instance.rs 94-117 |
| `Mesh.v` | vertices, polygons, layers, meshes, constructors, setters | primitives.rs, layers.rs, lib.rs |
| `Helpers.v` | side, mirror, intersection, heuristic, turning point | helpers.rs |
| `Locate.v` | point location, closest point | layers.rs 160-335, lib.rs 450-610 |
| `Segment.v` | `get_vertices_on_segment` | layers.rs |
| `Bake.v` | islands, polygon finder | layers.rs 45-136 |
| `Search.v` | search instance, `path_on_layers` | instance.rs, lib.rs 190-440 |
| `Detailed.v` | the search with layer scales and `path_with_layers` | same, feature `detailed-layers` |
| `AsyncPath.v` | `get_path`, `FuturePath::poll` | async_helpers.rs |
| `Stitch.v`, `Cleanup.v`, `Merger.v` | editing of meshes | stitching.rs, mesh_cleanup.rs, merger.rs |
| `Trimesh.v`, `PolyFile.v`, `Decimal32.v`, `Triangulation.v` | inputs | input/*.rs |
| `StdLib.v` | concrete heap and BVH | |
| `Spec.v`, `Spec_mesh.v`, `Spec_merge.v`, `Spec_file.v`, `Spec_triangulation.v`, `Spec_detailed.v` | the vocabulary of the statements, independent of the model's functions | |
| `Checkers.v` | boolean deciders of the hypotheses, for the examples | |
| `Heuristic.v`, `Rings.v`, `*_facts.v`, `Search_*.v`, `Decimal32_real.v` | proofs | |
| `Properties_*.v` | the property theorems with examples and `Print Assumptions` | |
| `Examples_exact.v` | queries that return a path in exact arithmetic: the theorems about exact lengths are not vacuous | |
| `Spec_inside.v`, `Sight.v`, `Sight_search.v`, `Sight_final.v`, `Sight_static.v`, `Examples_inside.v` | polygons as point sets, visibility invariant of the search, general position | |
| `Spec_shortest.v`, `Shortest_*.v` | ways and shortest ways through a mesh; the search keeps a node on one of them | |
| `Zmesh.v`, `Examples_shortest.v` | meshes with integer coordinates whose hypotheses are checked by computation; C63 on a query whose path bends at a corner | |
| `Shortest_end.v`, `Shortest_finish.v`, `Shortest_always.v`, `Properties_complete.v`, `Examples_complete.v` | the search ends and finds a way if there is one (C64) | |
| `Spec_area.v`, `Area.v`, `Properties_area.v`, `Zarea.v`, `Examples_area.v` | the covered area as a set of points; shortest polylines in it (C65-C67) | |
| `Spec_alike.v`, `Alike.v`, `Alike_locate.v`, `Properties_alike.v`, `Examples_alike.v` | two runs of the search on meshes that differ in vertex numbers and position (C68, C69) | |
| `Detailed_alike.v`, `Properties_detailed_alike.v`, `Examples_detailed_alike.v` | the same for the search with detailed layers (C93) | |
| `Properties_restitch.v` | stitching one layer again at points (C31) | |
| `Spec_merge_area.v`, `Merge_area.v`, `Merge_cover.v`, `Properties_merge_area.v`, `Examples_merge_area.v` | the area covered by merged polygons (C70) | |
| `Spec_relayer.v`, `Relayer.v`, `Properties_relayer.v` | meshes that differ in the numbers and layers of their polygons (C71) | |
| `Spec_split.v`, `Split.v`, `Properties_split.v`, `Examples_split.v` | a layer cut into layers that are stitched together (C72) | |
| `Spec_f32.v`, `F32_real.v`, `Side32.v`, `Length32.v`, `Reach32.v`, `End32.v`, `Properties_f32.v`, `Properties_length32.v`, `Examples_f32.v`, `Finder_gen.v`, `Properties_finder32.v`, `Examples_finder32.v` | binary32 against exact arithmetic (C73, C74, C05) | Flocq's theorems about rounding; `num x r` says that the float x is finite of value r |
| `Hashed_detailed.v`, `Properties_hashed_detailed.v` | the same with `detailed-layers` (C44) | `instance.rs` 60-63, 120-340, 537-912; `lib.rs` 244-343; `async_helpers.rs` 35-112 |
| `Properties_manylayers.v` | 257 layers: the layer number is cut to 8 bits (C03, C18) | |
| `Properties_layer.v` | closest points of a layer (C75) | |
| `Spec_outline.v`, `Enclose.v`, `Capsule.v`, `Circle.v`, `Properties_outline.v` | the outline of a whole obstacle (C53) | |
| `Spec_free.v`, `Properties_free.v`, `Examples_free.v` | the area of a triangulated mesh and the paths on it keep away from the obstacles (C76) | |
| `Properties_dsafe.v`, `Properties_dsafe32.v` | the search of detailed-layers does not fail (C77) | |
| `Properties_stitched.v` | the positive part of C51 | |
| `Properties_adjacent.v`, `Examples_adjacent.v` | the search into the next polygon, any arithmetic (C78) | |
| `Properties_builder.v` | exactly the constraint lines of a triangulation (C43) | |
| `Properties_blocking.v`, `Zlayers.v`, `Examples_layers.v` | blocked layers (C80); meshes of several layers with integer coordinates, checked by computation | |
| `Hashed.v`, `Properties_hashed.v` | the search over a hash table (C44) | `instance.rs` 20-37, 60-63, 120-340, 537-912; `lib.rs` 233-343; `async_helpers.rs` 14-112 |
| `Spec_moved.v`, `Properties_moved.v`, `Examples_moved.v`, `Properties_units.v` | moved meshes (C81) | |
| `Properties_future.v`, `Examples_future.v` | the answers of the future (C82) | |
| `Spec_decimal.v`, `Properties_decimal.v` | numbers of mesh files (C83) | |
| `Spec_history.v`, `History_facts.v`, `Area32.v`, `Properties_history.v`, `Properties_history32.v` | sequences of maintenance calls on one mesh (C87); the area of a polygon in binary32 is a number | |
| `Spec_freespace.v`, `Properties_freespace.v`, `Examples_freespace.v` | the whole free space of a triangulated mesh is covered, and the path is the shortest one in it (C88) | |
| `Properties_order.v`, `Examples_order.v` | the area of a triangulated mesh is the closure of the free space; order and number of obstacles (C89) | |
| `Examples_outer.v` | C76, C88, C89 with the agent radius on the outer edge | |
| `Properties_nearly.v`, `Examples_nearly.v` | detailed paths with scales of one are the shortest up to what path_with_layers leaves out (C85, C88) | |
| `Properties_compare.v`, `Examples_compare.v` | hence the comparisons of C66, C67, C80, C81 and C89 for detailed layers with scales of one | |
| `Spec_outer.v`, `Properties_outer.v`, `Properties_clear.v`, `Examples_clear.v`, `Examples_cleared.v` | the distance from the outer edge (C94) | |
| `Spec_frommesh.v`, `Properties_frommesh.v`, `Examples_frommesh.v`, `Properties_baseoffset.v` | builders made from a layer of a mesh: the area is the layer without the obstacles; the offset of the layer is dropped (C90) | |
| `Properties_spots.v`, `Properties_spotty.v`, `Properties_dspots.v` | empty polygons in the list (C91); the specification is at the head of `Properties_spots.v` | |
| `Properties_steps.v`, `Properties_defaults.v` | more search steps (C92), settings of a new mesh (C49) | |
| `View.v`, `Shadow.v`, `Spec_layered.v`, `Properties_layered.v`, `Properties_labels.v`, `Examples_layered.v` | paths of detailed-layers on the plane (C84, C85, C86) | |
| `Properties_text.v` | line ends and plus signs (C79) | |
| `Tests*.v` | replays of expected outputs of the Rust unit tests in the model (F32 instance) | |

## 3. Properties

"any A" = for every `Arith`; "R" = exact reals; "F32" = binary32 instance. A theorem with the suffix `_refuted`
shows that the English claim (or the part of it named in the theorem's comment) is false of the code: it exhibits a
concrete input in the model. Such claims are `partial` in the manifest unless the refuted part is outside the claim itself.

| id | model, theorem file, proof |
|---|---|
| C01 | `U32.v`; `Properties_mesh.v`; N bit arithmetic, from the bound of `Layer::new`. |
| C02 | `Mesh.v`; `Properties_mesh.v`; case analysis. |
| C03, C04 | `Locate.v`; `Properties_locate.v`; any A: induction over polygons, layers and probes against the declarative `contains`. |
| C05 | `Bake.v`, BVH oracle; `Properties_contain.v`; R: a contained point is in the polygon's box (slope argument, needs exact arithmetic). In binary32: `Finder_gen.v` (any arithmetic, given that containing polygons have the position in their box), `Properties_finder32.v` (the box condition from the rounding bound of C73; the refutation is a hair-thin triangle evaluated in the model), `Examples_finder32.v`. |
| C06 | `Properties_contain.v`; R: cross products, convexity; the tolerance is necessary (`C06_complete_refuted`). |
| C07, C09 | `Properties_locate.v` (any A: membership, minimality of the ring), `Properties_rings.v` (R: distance bound). |
| C08 | `Properties_rings.v`; R: mean value for the sampled arc; refuted for the rest of the circle for every sin, cos with `sin >= 0` on [0, pi]. |
| C10-C13 | `Search.v`; `Properties_search.v`; any A, any heap: invariant "every queued node has a supporting corridor of valid crossings" by induction over the steps. |
| C14 | same invariant with the fold of distances (any A); R for the polyline (`Properties_heuristic.v`). |
| C15 | `Properties_heuristic.v`: R, triangle inequality along the corridor; `Properties_findings.v`: F32 witness that refutes the rest. |
| C16 | `Heuristic.v`, `Properties_heuristic.v`: R, reflection and convexity. |
| C17 | any A: `visited` is duplicate free within a finite set; fuel measure. |
| C18 | `Search_safe.v`, `Properties_safe.v`: any A whose squared distances are numbers (that is what the `partial_cmp().unwrap()` needs), F32 with finite coordinates. `C18_many_layers_refuted`: the limit of 256 layers is needed. |
| C19 | any A for `point_in_polygon`; the search stays in bounds unless a polygon uses index `len`; refuted in that case (guard `>` for `>=`). |
| C20, C21 | `Bake_facts.v`, `Islands_facts.v`: flood fill invariants; the search only moves along shared vertices. |
| C22, C23 | `Search_hist.v`: any A with lawful `total_cmp`; heap specification; history invariant. |
| C24 | refuted by a comb mesh in F32; proved: the complete list of reasons for "no path". |
| C25 | `AsyncPath.v`, `Properties_async.v`: simulation of poll by path, on one layer or on several whose layer 0 islands do not separate the ends; refuted witnesses for the rest. |
| C26 | any A: poll is a deterministic function; wake log. |
| C27-C31 | `Stitch.v`, `Properties_stitch.v`: any A, any sort: characterisation of the neighbour sets after stitching. |
| C32 | any A with symmetric `==`. |
| C33, C34 | `Cleanup.v`, `Properties_cleanup.v`: any A: list renumbering. |
| C35, C36 | `Merger.v`, `Properties_merge.v`: any A: gluing of rings, compaction; area in R (shoelace). |
| C37, C38 | `Trimesh.v`, `Properties_trimesh.v`: any A: any permuting sort; comparator refuted. `Properties_trisort.v`: with a sort that sorts what a strict order orders (exact arithmetic), the triangles of a vertex whose incoming edges lie in an open half plane are in counterclockwise order in the mesh, however they were listed. |
| C39, C40, C52 | `PolyFile.v`, `Decimal32.v`, `Properties_file.v`: text level printer and parser. |
| C41-C43 | `Triangulation.v`, `Properties_triangulation.v`, `Properties_builder.v`: any A, any consistent subdivision. |
| C44 | any A with conversions respecting `==`; F32. `Hashed.v` is the search over a bucketed hash table (arbitrary hasher, capacity, growth), `Properties_hashed.v` a simulation with the lookup by equality: every root is in its slot, and equal roots share one. `Properties_hashed_detailed.v` the same for the searches with `detailed-layers`. |
| C45, C46, C48 | `Properties_geometry.v`: R. |
| C47 | `Properties_expand.v`: any A: induction on the loop of `edges_between`. |
| C49, C50 | any A: case analysis (`Properties_mesh.v`, `Properties_defaults.v`). |
| C51 | F32 witness (refuted). `Properties_stitched.v`: stitching makes the edge a valid crossing (from C28); on meshes in general position a chain of crossings is a way, so that C64 applies. |
| C53-C55 | `Triangulation.v` (inflation), `Properties_inflate.v`: R with exact trigonometry; panics any A. Whole obstacles: `Spec_outline.v` (enclosed, contract of geo's union), `Enclose.v` (a convex clockwise line encloses the points right of its sides: first crossing of a walk), `Capsule.v` (the outline of a side is convex and clockwise), `Circle.v` (the circle around a repeated point), `Properties_outline.v` (induction over the sides; consecutive ones share a disc). |
| C56 | `Segment.v`, `Properties_segment.v`: any A with lawful `<`; sorted by (distance, index). |
| C57 | `Detailed.v`, `Detailed_facts.v`, `Properties_detailed.v`: the invariant of a search node (chain of crossings, turns, marks) carried through the search with scales; any A in which NaN coordinates make the cost NaN. |
| C58 | `Spec_detailed.v` (marks, placing, thinning, scaled walk), `dpath_spec`; any A. Same polygon and dropped turns: binary32 witnesses against. |
| C59 | C58 + triangle inequality, exact arithmetic; `C59_number_and_not_shorter` (with C77) that the length is a number without assuming it. |
| C60 | induction over the bounded loop; any A with lawful `<`. Cheapest path: binary32 witness against. |
| C61 | `Detailed_sim.v`: step-by-step simulation with the default search; any A with x * 1 = x. |
| C62 | `Spec_inside.v` (what it says), `Sight.v`, `Sight_search.v`: the visibility invariant (root sees the interval through the polygons of the chain; both ends of the interval are on the two view lines or corners) preserved by `successors`; `Sight_final.v`: the last leg; `Sight_static.v`: general position of the mesh implies that no tolerance of the code is hit; `Properties_inside.v`; RA. `Examples_inside.v`: two squares meet all hypotheses. |
| C63 | `Spec_shortest.v`: ways through a mesh and their lengths, meshes without defects (`faultless`), general position (`generic`). `Shortest_exists.v`, `Shortest_routes.v`: a shortest way exists (compactness along each of finitely many chains of polygons) and visits no polygon twice; `Shortest_bend.v`: it is straight but at turnable vertices; `Shortest_pieces.v`, `Shortest_nodes.v`, `Shortest_cover.v`: the intervals produced by one expansion cover what is visible, and the non-observable parts next to a corner; `Shortest_search.v`: if a node is on a shortest way, so is one of its successors, and it is not dropped; `Shortest_run.v`: the queue always holds a node on a shortest way, whose estimate is not above its length, so the first final node taken is shortest; `Properties_shortest.v`; RA. Non-vacuity: `Examples_shortest.v`. |
| C64 | `Shortest_end.v`: between two turns the search first goes around the root and then straight on, entering no polygon twice (`stage`), so a chain of nodes with estimates below a bound is of bounded length; `Shortest_finish.v`: multiset order on the depths in the queue, so a search that keeps a node on a shortest way (C63) finds it; `Shortest_always.v`: the root history admits no chain of nodes that turns twice at the same point, so the search ends also if there is no way; `Properties_complete.v`; RA. Non-vacuity: `Examples_complete.v` (a way over a corner; two separate triangles). |
| C65 | `Spec_area.v`: the area is a set of points, polylines in it know nothing of polygons. `Area.v`: a segment in a union of finitely many convex sets is cut into finitely many pieces, each in one of them (intervals given by linear inequalities), and where two pieces meet one can cross by `seamless` and C63's fans; so every polyline in the area is a way of the same length, and C63 / C64 apply; conversely a way is a polyline in the area; RA. Non-vacuity: `Examples_area.v` (`seamless` is checked by computation on integer meshes, `Zarea.v`: a point of two convex polygons on both sides of a separating edge is in the hull of the corners on it). |
| C66 | from C65: the minimum over the same set of polylines. Examples: a corner pushed outwards (larger area), a quadrilateral cut along either diagonal, a pentagon as three triangles or two polygons; RA. `Properties_compare.v`: the same for detailed layers with scales of one, up to 0.02 for every point left out (C85). |
| C67 | from C65: reversed and concatenated polylines; RA. `Properties_compare.v`: the same for detailed layers with scales of one, up to 0.02 for every point left out (C85). |
| C68 | Simulation: `Alike.v` relates every function of the search on two meshes whose polygons correspond and whose vertices agree in position, neighbours and corner flag, but not in number; the heap is any function that only looks at costs (`pop_blind`). `Alike_locate.v` does the queries, path_on_layers and the future. Any arithmetic. |
| C69 | The same simulation with a translation instead of the identity: the search only uses differences of points. RA. |
| C70 | `Merge_area.v`: two convex rings that meet in one edge glue to a convex ring that covers both (plane geometry, RA). `Merge_cover.v`: induction over the gluings of `merged` (C35_merge): the ring of a group is simple, convex, covers its polygons, and each edge of a member is an edge of the ring or glued to another member; two polygons that lie on the same side of a common chord overlap, so the polygon found by its neighbour lists has the opposite edge. Then lifted to the layer, the mesh, the loop, the area of Spec_area and (C66) the length of paths. |
| C71 | `Relayer.v`: two searches run in lock step; the nodes of one are the nodes of the other with the ids mapped by `new`; every step of setup, successors and next preserves this (relational simulation, as C68/C69), the pop oracle being blind to ids. |
| C72 | `Split.v`: C28 gives the ids each vertex lists after stitching = the ids of the whole vertex, mapped; sort keys and gaps depend on coordinates only; a strictly increasing list is determined by its elements, hence the ordered lists are equal. `Properties_split.v`: so the meshes are `renumbered` (C71), and find_stitch_points yields exactly the common vertices (C32). |
| C73 | `Side32.v`: standard error analysis of the cross product (three roundings per product and one for the difference, no overflow below 2^60), exact on small grids; then point_in_polygon_spec edge by edge (`Properties_f32.v`). |
| C74 | `Length32.v`: error of a distance (4u) and of a sum of distances by induction over the legs; `Reach32.v`: invariant of the search, roots and interval ends are finite (the time of a cut is never NaN and at most 1 + 1e-4); `End32.v`: signs of intersection_time and side agree outside the margins, so the estimate and the inserted corner agree. |
| C75 | `Properties_layer.v`: the lemmas of `Closest_facts.v` for one layer, totality by induction over the loops, equality with the mesh search by a simulation of the two loops. |
| C76 | `Spec_free.v` (contracts of the triangulator and of geo's point in polygon test, the area of a mesh), `Properties_free.v`: the face a polygon comes from was accepted (C41, C43), so its centre is not enclosed by the outline; inside of a face no outline is met, so no point of it is (walk to the centre); outlines enclose the surroundings of obstacles (C53); paths stay in the polygons (C62). |
| C77 | `Properties_dsafe.v`: the invariant of C18 for the nodes of Detailed.v, extended by "every layer listed by a node exists"; the expansion loop visits each polygon at most once; in exact arithmetic all points of a path are real (from C58), so lengths are. `Properties_dsafe32.v`: a query on the mesh of the tests that panics with a scale of 2^127. |
| C78 | `Properties_adjacent.v`: setup pushes a final node for the common edge, whose cost is a number (cost_law), and final nodes are never dropped before they are taken: the heap is not empty until then, so the search cannot answer None. The side tests are decided in binary32 by C73. |
| C79 | `Properties_text.v`: lines gives the same list of lines; each reader of a line gives the same result for the same words up to plus signs. |
| C80 | `Properties_blocking.v`: every step of the search asks only whether a listed neighbour is in a blocked layer, and whether a vertex is a corner; ways with more blocked layers are ways with less, then C63 and C64. `Properties_compare.v`: the same for detailed layers with scales of one, up to 0.02 for every point left out (C85). |
| C81 | `Properties_moved.v`: a similarity keeps straight segments, so it maps polylines in one area to polylines in the other, then C65; for a rotation every hypothesis of C65 is carried over to the moved mesh. `Properties_units.v`: in binary32 a mesh divided by 32 loses its path (fixed tolerances), so the hypotheses cannot be dropped for scaling. `Properties_compare.v`: the same for detailed layers with scales of one, up to 0.02 for every point left out (C85). |
| C82 | `Properties_future.v`: the future answers with the final path of a generated node (`poll_times_found`), whatever the number of polls; then the lemmas about generated nodes behind C13, C14, C15, C62, C74, C76. For C22, the states between the polls are search states. |
| C83 | `Properties_decimal.v`: the six digits come from an integer division with ties to even, the value read from the correctly rounded division of Flocq; the grammar by induction on the texts, in both directions. |
| C84 | `Shadow.v`: every node of the detailed search has the geometry of a reachable node of the default one (scales only change lengths and estimates), so `node_walks` (C62) applies; the comparison from the minimality of C65, distances from C76. |
| C85 | `View.v`: each step looks through the interval before; `Shadow.v`: hence the straight legs meet all the intervals noted on the way, in order, and the points filled in are on the legs; the lengths by the triangle inequality over `thinned` and `walked`; scales of one with C61 and C84. `Properties_nearly.v`: with scales of one the path is the shortest one up to 0.02 for every point left out, and exactly if no two points noted on the way are closer than 0.01. |
| C86 | `Shadow.v`: `lanes` strengthens the legs of C85 with the layer of every part: a node's interval lies in the polygon it leaves and in the one it enters (`node_place`), so each part between two noted intervals is in the polygons of one layer; an interval is only dropped when the leg is parallel to it, that is, along the border. The excepted case is refuted in `Properties_labels.v` (binary32, stitched mesh). |
| C87 | any A, library functions that sort. Calls and what they need are in `Spec_history.v`; `usable` is an invariant (`step_call`, by the phases apart / stitched / one layer taken out), from the theorems of C21, C28, C30, C31, C32, C33 and C35; the queries then follow from C18. A history of 17 calls in binary32 and the need of the conditions in `Properties_history32.v`; the merger's keys are numbers for coordinates up to 2^40 (`Area32.v`). |
| C88 | `Spec_freespace.v` (the faces cover what is inside of the outer edge, geo's test accepts what is in no hole; the free space from the edge and the outlines of the obstacles). `Properties_freespace.v`: the builder only holds outlines of added obstacles (invariant over every sequence of calls, also in what it has prebuilt), so the face around a free point has a centre that is accepted (a rejected centre would be enclosed by an outline, and walking to the point would leave it without meeting a constraint), and becomes a polygon (C41); then C65 for the comparison and the future. The outer edge is `edge_used` (`Spec_free.v`): as given, or the first hole of the outer edge drawn with the thickness of the agent radius, so agent_radius_on_outer_edge is covered in C76, C88 and C89. `Properties_nearly.v`: the comparison for detailed layers with scales of one. |
| C89 | `Properties_order.v`: the area of a mesh is closed (finitely many rings, each of whose complements is open), the interior of each polygon is free (C76) and free points are covered (C88), so the area is the closure of the free space, which is given by the outer edge and the set of obstacle outlines alone; the order of the calls, repetitions, prebuilding and the choice of the triangulation do not matter, and a larger set of obstacles gives a smaller area; then C65/C66 for the lengths and the futures. `Properties_compare.v`: the same for detailed layers with scales of one, up to 0.02 for every point left out (C85). |
| C90 | `Spec_frommesh.v` (the ground of a layer in its own coordinates, centres of faces that are clear of the tolerance of point_in_polygon, the finder offers the polygons that contain the point, the faces cover the ground). `Properties_frommesh.v`: the border of a convex polygon is made of its edges (extremal corner on the line of an edge), so that who crosses no edge stays inside; the edges of the polygons of the layer are constraints, so that a face lies in one polygon or in none; a kept face is on the ground and in no outline (C76), a face with a point in the interior of a polygon and outside of the outlines is kept; the area is closed (C89), with every point of the ground there are interior points near it. `Properties_baseoffset.v`: the refutation for the offset. |
| C91 | `Properties_spots.v`: any arithmetic; the proofs of C18 with a weaker consistency of the mesh (`spots_wf`: the polygons the vertices name are not empty) and a finder that only offers boxes holding the point; the box of an empty polygon, from f32::MAX down to 0, holds none. `C91_unbaked_refuted` in `Properties_spotty.v`. `Properties_dspots.v`: the same for the search with detailed layers (as in C77, it panics at most if the length of a path found is not a number; not so in exact arithmetic). |
| C92 | `Properties_steps.v`: any arithmetic; the steps tried with fewer steps are a prefix of those tried with more, and nothing else looks at the number of steps (induction on the loops of the search and of the poll). |
| C93 | `Properties_detailed_alike.v`: simulation of two runs of the detailed search, step by step, on meshes whose polygons are the same but for vertex numbers and a motion (`Detailed_alike.v`). |
| C94 | `Spec_outer.v` (what geo's union leaves as holes; the sides drawn thick one after the other), `Properties_outer.v`: the sides drawn so far are enclosed with their surroundings (invariant of C53), so the holes of the last union are clear of all sides; the area is enclosed by that hole (C76). `Properties_clear.v`: the paths of futures (C82) and of detailed layers, whatever the scales (C84). Without the hypothesis about early holes the code keeps a hole from which later sides are not cut out. |

## 4. Trusted base

* Coq 8.16.1's kernel (`coqc`; the theorems were also accepted by `vcheck`).
* What `Print Assumptions` lists: see `ASSUMPTIONS.md` (generated, one line per theorem). Theorems for any arithmetic and for binary32
  are closed under the global context, with few exceptions. Theorems about exact reals depend on the standard library's
  `ClassicalDedekindReals.sig_forall_dec`, `ClassicalDedekindReals.sig_not_dec`, `FunctionalExtensionality.functional_extensionality_dep` and
  `Classical_Prop.classic`. No axiom is added; Flocq is used for facts about binary32 and adds none beyond these.
* The reading of Rust, glam and std semantics in the model's comments, of which the important ones are:
  - integer overflow panics (debug profile); in release builds the modelled panics at overflow are wrapping instead;
  - `Vec2` is a pair of `f32`, `distance`, `length`, `perp_dot`, `lerp` are glam's scalar formulas without fused multiply-add;
  - `f32` literals are rounded to nearest from the decimal;
  - `HashMap`/`HashSet` are finite maps/sets, `SmallVec` is a list, `Rc`/`Arc`/`RwLock` bookkeeping is absent;
  - file contents are ASCII characters; `{:.06}` and `f32::from_str` are those of `Decimal32.v` (C83 says what they compute);
  - the `Triangulation` builder's `added_vertices` cache is not modelled.

**Not modelled:** the `stats`, `tracing`, `serde` and `verbose` features and their output; `Debug`/`Display` implementations; the
`aabb` helper; benchmarks and examples; the internals of spade, geo, bvh2d, glam's SIMD paths; memory exhaustion.

## 5. Testing the theorems

`seeded/LOG.jsonl` has one line per seeded bug: the definition edited, the edit, the claim it breaks, the theorems that no longer prove
and the theorems that were tightened. The harness replaces a definition in a scratch copy, rebuilds, admits each broken proof in turn and asks
`Print Assumptions` which of the property theorems depend on an admitted proof.
