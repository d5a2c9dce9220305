(** The vocabulary of C72: a layer cut into several layers. *)
From Coq Require Import List NArith ZArith Bool.
From Verif Require Import Base Arith U32 Mesh Helpers Cleanup Spec Spec_mesh Spec_relayer Properties_mesh.
Import ListNotations.
Open Scope N_scope.

Section Split.
Context {A : Arith}.

(** Vertex [i] of layer [l] and vertex [i'] of layer [l'] have the same coordinates. *)
Definition same_point (l l' : Layer A) (i i' : N) : Prop :=
  exists v v', nthN (vertices l) i = Some v /\ nthN (vertices l') i' = Some v' /\ coords v' = coords v.

(** No two vertices have the same coordinates, the polygons have corners, and vertices and polygons know each other. *)
Record sound (l : Layer A) : Prop := {
  so_incidence : incidence_ok l;
  so_corners : forall p, In p (polygons l) -> pverts p <> [];
  so_points : forall i j, same_point l l i j -> i = j
}.

(** The polygons of the layer [whole] are distributed over the layers of [parts]; polygon [k] gets the number [new k]. *)
Record cut (whole : Layer A) (parts : Mesh A) (new : N -> N) : Prop := {
  cu_whole : sound whole;
  cu_parts : forall l, In l (layers parts) -> sound l /\ offset l = offset whole;
  cu_small : lengthN (polygons whole) <= 2^24 - 1 /\ mesh_small parts;
  cu_polygon : forall k p, nthN (polygons whole) k = Some p -> exists li pi l p',
    new k = id_make li pi /\ nthN (layers parts) li = Some l /\ nthN (polygons l) pi = Some p' /\
    is_one_way p' = is_one_way p /\ Forall2 (same_point whole l) (pverts p) (pverts p');
  cu_onto : forall li pi l p', nthN (layers parts) li = Some l -> nthN (polygons l) pi = Some p' ->
    exists k, k < lengthN (polygons whole) /\ new k = id_make li pi;
  cu_inj : forall k k', k < lengthN (polygons whole) -> k' < lengthN (polygons whole) -> new k = new k' -> k = k';
  cu_none : new MAX = MAX
}.

(** Exactly the vertices of different layers that have the same coordinates are stitched together. *)
Definition sewn (parts : Mesh A) (S : list ((N * N) * list (N * N))) : Prop :=
  stitches_ok parts S /\
  forall li vi lj vj, linked S false li vi lj vj <->
    li <> lj /\ exists l l', nthN (layers parts) li = Some l /\ nthN (layers parts) lj = Some l' /\ same_point l l' vi vj.

(** Around every vertex, the centers of the polygons are seen in different directions (different sort keys: 1e-5 radian). *)
Definition directions_differ (m : Mesh A) : Prop :=
  forall l v a b, In l (layers m) -> In v (vertices l) -> In a (vpolys v) -> In b (vpolys v) -> a <> MAX -> b <> MAX ->
    angle_key m (world l v) a = angle_key m (world l v) b -> a = b.
End Split.
