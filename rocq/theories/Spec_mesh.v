(** The vocabulary of the statements about operations that change meshes (stitching, cleanup, merging). *)
From Coq Require Import List NArith ZArith Bool.
From Verif Require Import Base Arith U32 Mesh Helpers Spec.
Import ListNotations.
Open Scope N_scope.

Section SpecMesh.
Context {A : Arith}.

(** Vertex [vi] of layer [li] of the mesh is [v]. *)
Definition vertex_at (m : Mesh A) (li vi : N) (v : Vertex A) : Prop :=
  exists l, nthN (layers m) li = Some l /\ nthN (vertices l) vi = Some v.

(** The two meshes have the same layers, polygons, vertex positions and parameters: they differ at most in the neighbours
    and corner flags of the vertices. *)
Definition same_vertex (v v' : Vertex A) : Prop := coords v' = coords v.
Definition same_layer (l l' : Layer A) : Prop :=
  polygons l' = polygons l /\ offset l' = offset l /\ baked l' = baked l /\ islands l' = islands l /\
  Forall2 same_vertex (vertices l) (vertices l').
Definition same_geometry (m m' : Mesh A) : Prop :=
  search_delta m' = search_delta m /\ search_steps m' = search_steps m /\ Forall2 same_layer (layers m) (layers m').

(** A vertex of a layer is near a position of the world (squared distance below 1e-4). *)
Definition near (l : Layer A) (pos : vec2 A) (i : N) : Prop :=
  exists v, nthN (vertices l) i = Some v /\ flt (vdist2 (world l v) pos) (flit 1 10000) = true.
(** In the cyclic list [vs], [w] comes right after the first vertex that is near [pos]. *)
Definition next_near (l : Layer A) (pos : vec2 A) (vs : list N) (w : N) : Prop :=
  exists pre v post, vs ++ vs = pre ++ v :: w :: post /\ near l pos v /\ forall u, In u pre -> ~ near l pos u.
(** Around [pos], polygon [b] follows polygon [a] without a hole: the vertex of [a] before [pos] and the vertex of [b]
    after [pos] are at the same position. *)
Definition glued (m : Mesh A) (pos : vec2 A) (a b : N) : Prop :=
  exists la pa lb pb w0 w1 v0 v1,
    polygon_at m a la pa /\ polygon_at m b lb pb /\
    next_near la pos (rev (pverts pa)) w0 /\ next_near lb pos (pverts pb) w1 /\
    nthN (vertices la) w0 = Some v0 /\ nthN (vertices lb) w1 = Some v1 /\
    veq (world la v0) (world lb v1) = true.

(** A stitch: vertex [vi] of layer [li] gets the polygons of vertex [vj] of layer [lj]. *)
Definition linked (S : list ((N * N) * list (N * N))) (one_way : bool) (li vi lj vj : N) : Prop :=
  (exists ps, In ((li, lj), ps) S /\ In (vi, vj) ps) \/
  (one_way = false /\ exists ps, In ((lj, li), ps) S /\ In (vj, vi) ps).

(** [p] is one of the polygons listed by vertex [vi] of layer [li]. *)
Definition lists (m : Mesh A) (li vi p : N) : Prop :=
  exists v, vertex_at m li vi v /\ In p (vpolys v) /\ p <> MAX.

(** Not stitched yet: all neighbour ids are plain indices of polygons of the layer itself. *)
Definition plain (m : Mesh A) : Prop :=
  lengthN (layers m) <= 256 /\
  (forall l, In l (layers m) -> lengthN (polygons l) <= 2^24 - 1) /\
  (forall l v id, In l (layers m) -> In v (vertices l) -> In id (vpolys v) -> id <> MAX -> id < lengthN (polygons l)).

(** The stitches mention existing layers and vertices, and no layer is stitched to itself. *)
Definition stitches_ok (m : Mesh A) (S : list ((N * N) * list (N * N))) : Prop :=
  forall from to ps, In ((from, to), ps) S ->
    from <> to /\ (exists l, nthN (layers m) from = Some l) /\ (exists l, nthN (layers m) to = Some l) /\
    forall f t, In (f, t) ps -> (exists v, vertex_at m from f v) /\ (exists v, vertex_at m to t v).

End SpecMesh.
