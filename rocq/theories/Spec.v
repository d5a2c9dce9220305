(** The vocabulary of the statements: what the properties talk about, defined on the data of the mesh only
    (no function of the model except the u32 packing of C01, which is proved correct there). *)
From Coq Require Import List NArith ZArith Bool.
From Verif Require Import Base Arith U32 Mesh Helpers.
Import ListNotations.
Open Scope N_scope.

(** [b] follows [a] in the cyclic list [vs]: the boundary edges of a polygon. *)
Definition boundary_edge (vs : list N) (a b : N) : Prop :=
  exists i, nth_error vs i = Some a /\ nth_error vs (S i mod length vs) = Some b.

(** The vertex shared by all statements about one polygon: *)
Section Spec.
Context {A : Arith}.

(** Polygon [id] (a global id) of the mesh. *)
Definition polygon_at (m : Mesh A) (id : N) (l : Layer A) (p : Polygon) : Prop :=
  nthN (layers m) (id_layer id) = Some l /\ nthN (polygons l) (id_polygon id) = Some p.

(** A crossing: from polygon [cr_from] through its boundary edge [cr_a, cr_b] (vertex indices in the layer of
    [cr_from]) into polygon [cr_to], which both end vertices list as a neighbour. *)
Record Crossing := mkCross { cr_from : N; cr_a : N; cr_b : N; cr_to : N }.

Definition valid_crossing (m : Mesh A) (x : Crossing) : Prop :=
  exists l p va vb,
    polygon_at m (cr_from x) l p /\
    boundary_edge (pverts p) (cr_a x) (cr_b x) /\
    nthN (vertices l) (cr_a x) = Some va /\ nthN (vertices l) (cr_b x) = Some vb /\
    In (cr_to x) (vpolys va) /\ In (cr_to x) (vpolys vb) /\
    cr_to x <> MAX /\ cr_to x <> cr_from x.

(** A corridor from polygon [p] to polygon [q]: consecutive valid crossings. *)
Inductive corridor (m : Mesh A) : N -> list Crossing -> N -> Prop :=
| corridor_nil p : corridor m p [] p
| corridor_snoc p xs x :
    corridor m p xs (cr_from x) -> valid_crossing m x -> corridor m p (xs ++ [x]) (cr_to x).

(** Position of a vertex of a layer in the world. *)
Definition world (l : Layer A) (v : Vertex A) : vec2 A := vadd (coords v) (offset l).

(** The path may turn at [pt] when leaving crossing [x]: [pt] is (up to the squared distance 1e-10) the position of
    one of the two end vertices of the crossed edge, and that vertex is a corner of the mesh,
    or touches the outside or a blocked layer. *)
Definition turn_at (m : Mesh A) (blocked : list N) (x : Crossing) (pt : vec2 A) : Prop :=
  exists l p v i,
    polygon_at m (cr_from x) l p /\
    (i = cr_a x \/ i = cr_b x) /\
    nthN (vertices l) i = Some v /\
    flt (vdist2 (world l v) pt) (flit 1 10000000000) = true /\
    (is_corner v = true \/
     (blocked <> [] /\ exists q, In q (vpolys v) /\ (q = MAX \/ In (id_layer q) blocked))).

(** [pts] are turns made along [xs], in order, at most one for each crossing. *)
Inductive turns_along (m : Mesh A) (blocked : list N) : list Crossing -> list (vec2 A) -> Prop :=
| turns_nil : turns_along m blocked [] []
| turns_skip xs pts x : turns_along m blocked xs pts -> turns_along m blocked (xs ++ [x]) pts
| turns_turn xs pts x pt :
    turns_along m blocked xs pts -> turn_at m blocked x pt -> turns_along m blocked (xs ++ [x]) (pts ++ [pt]).

(** Length of the polyline start, p1, ..., pk: the sum of the distances from left to right. *)
Fixpoint walk_length (acc : F A) (start : vec2 A) (pts : list (vec2 A)) : F A :=
  match pts with
  | [] => acc
  | p :: r => walk_length (fadd acc (vdist start p)) p r
  end.
Definition polyline_length (start : vec2 A) (pts : list (vec2 A)) : F A := walk_length (fz 0) start pts.

(** Consistency of a mesh, as built by every constructor of the library:
    vertex indices in range, polygons not empty, neighbour ids existing. *)
Definition layer_wf (l : Layer A) : Prop :=
  forall p, In p (polygons l) -> pverts p <> [] /\ (forall v, In v (pverts p) -> v < lengthN (vertices l)).
Definition ids_wf (m : Mesh A) : Prop :=
  forall l v id, In l (layers m) -> In v (vertices l) -> In id (vpolys v) -> id <> MAX ->
    exists l' p, polygon_at m id l' p.
Definition mesh_wf (m : Mesh A) : Prop :=
  (forall l, In l (layers m) -> layer_wf l) /\ ids_wf m.

End Spec.

Section Spec2.
Context {A : Arith}.
(** Layers built by Layer::new have at most 2^24-1 polygons, and layer numbers are u8. *)
Definition mesh_small (m : Mesh A) : Prop :=
  lengthN (layers m) <= 256 /\
  forall l, In l (layers m) -> lengthN (polygons l) <= 2^24 - 1.
End Spec2.

(** ** Containment *)
(** The boundary edges of a polygon in order: each vertex with the next one, the last with the first. *)
Definition edge_list (vs : list N) : list (N * N) := combine vs (tl vs ++ firstn 1 vs).

Section Spec3.
Context {A : Arith}.

(** [pt] (in the coordinates of the layer) is on the left side of the edge (helpers.rs `side`). *)
Definition left_of (l : Layer A) (pt : vec2 A) (e : N * N) : Prop :=
  exists va vb, nthN (vertices l) (fst e) = Some va /\ nthN (vertices l) (snd e) = Some vb /\
    side pt (coords va, coords vb) = SLeft.

(** [pt] is on the edge: in its bounding box and within the tolerance of its line (helpers.rs `on_segment`). *)
Definition touches (l : Layer A) (pt : vec2 A) (e : N * N) : Prop :=
  exists va vb, nthN (vertices l) (fst e) = Some va /\ nthN (vertices l) (snd e) = Some vb /\
    on_segment pt (coords va, coords vb) = true.

(** A polygon contains [pt]: [pt] is left of all the edges, or on an edge and left of all those before it. *)
Definition contains (l : Layer A) (p : Polygon) (pt : vec2 A) : Prop :=
  pverts p <> [] /\
  (Forall (left_of l pt) (edge_list (pverts p)) \/
   exists pre e post, edge_list (pverts p) = pre ++ e :: post /\
     Forall (left_of l pt) pre /\ touches l pt e).

(** The nine probed displacements: none, and the eight neighbours at distance [d] along the axes and diagonals. *)
Definition probed (d : F A) (v : vec2 A) : Prop :=
  exists x y, (x = fz 0 \/ x = d \/ x = fneg d) /\ (y = fz 0 \/ y = d \/ y = fneg d) /\ v = V x y.

(** Some polygon of the layer contains one of the nine probes around [pt] (a position in the world). *)
Definition layer_near (l : Layer A) (d : F A) (pt : vec2 A) (k : N) : Prop :=
  exists p v, nthN (polygons l) k = Some p /\ probed d v /\ contains l p (vadd (vsub pt (offset l)) v).

(** The [i]-th of the sampled points of the circle of radius [delta * step] around [pt]; sampled every
    [TAU / (10 * (step + 1))]. *)
Definition circle_sample (pt : vec2 A) (delta : F A) (step i : N) : vec2 A :=
  let a := fdiv (fmul (fz (Z.of_N i)) ftau) (fz (Z.of_N (10 * (step + 1)))) in
  vadd pt (vscale (vscale (V (fsin a) (fcos a)) delta) (fz (Z.of_N step))).

(** The point reached from [pt] after [step] steps of length [delta] in direction [dir]. *)
Definition line_sample (pt : vec2 A) (delta : F A) (dir : vec2 A) (step : N) : vec2 A :=
  vadd pt (vscale (vscale dir delta) (fz (Z.of_N step))).

(** Layer [l] has number [li] in the mesh and is a layer the query [c] asks about. *)
Definition queried (m : Mesh A) (c : Coords A) (li : N) (l : Layer A) : Prop :=
  nthN (layers m) li = Some l /\ forall x, clayer c = Some x -> x = li.

(** Some polygon of the layer contains [pt] (given in the coordinates of the layer). *)
Definition in_layer (l : Layer A) (pt : vec2 A) : Prop := exists p, In p (polygons l) /\ contains l p pt.

(** No layer has a polygon finder. *)
Definition unbaked (m : Mesh A) : Prop := forall l, In l (layers m) -> baked l = None.
End Spec3.
