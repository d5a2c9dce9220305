(** The vocabulary of C68-C70: meshes that only differ in the numbers of their vertices and in their position. *)
From Coq Require Import List NArith ZArith Bool.
From Verif Require Import Base Arith U32 Mesh Helpers Search Spec.
Import ListNotations.
Open Scope N_scope.

Section Alike.
Context {A : Arith}.

(** [f] keeps everything the search computes from points: distances, sides, intersections. *)
Record motion (f : vec2 A -> vec2 A) : Prop := {
  mo_eq : forall a b, veq (f a) (f b) = veq a b;
  mo_dist : forall a b, vdist (f a) (f b) = vdist a b;
  mo_dist2 : forall a b, vdist2 (f a) (f b) = vdist2 a b;
  mo_side : forall p a b, side (f p) (f a, f b) = side p (a, b);
  mo_cut : forall a b s e, line_intersect_segment (f a, f b) (f s, f e) = option_map f (line_intersect_segment (a, b) (s, e));
  mo_heuristic : forall r g a b, heuristic (f r) (f g) (f a, f b) = heuristic r g (a, b);
  mo_turning : forall r g a b, turning_point (f r) (f g) (f a, f b) = option_map f (turning_point r g (a, b))
}.

(** Vertex [i] of [l] and vertex [i'] of [l'] have the same neighbours and the same corner flag, and the second one is where [f]
    moves the first one. *)
Definition vertex_alike (f : vec2 A -> vec2 A) (l l' : Layer A) (i i' : N) : Prop :=
  exists v v', nthN (vertices l) i = Some v /\ nthN (vertices l') i' = Some v' /\
    world l' v' = f (world l v) /\ vpolys v' = vpolys v /\ is_corner v' = is_corner v.
(** The polygons of the two layers are the same, but for the numbers of their vertices. *)
Definition layer_alike (f : vec2 A -> vec2 A) (l l' : Layer A) : Prop :=
  islands l' = islands l /\
  Forall2 (fun p p' => is_one_way p' = is_one_way p /\ Forall2 (vertex_alike f l l') (pverts p) (pverts p')) (polygons l) (polygons l').
Definition mesh_alike (f : vec2 A -> vec2 A) (m m' : Mesh A) : Prop := Forall2 (layer_alike f) (layers m) (layers m').

(** The path [p], moved. *)
Definition path_moved (f : vec2 A -> vec2 A) (p : Path A) : Path A := mkPath (plength p) (map f (ppath p)).

(** BinaryHeap::pop only compares elements: what it does with two heaps whose elements are pairwise related by [R] is related, if
    related elements have the same costs. *)
Definition pop_blind (pop : list (Node A) -> option (Node A * list (Node A))) : Prop :=
  forall R : Node A -> Node A -> Prop, (forall n n', R n n' -> ng n' = ng n /\ nh n' = nh n) ->
  forall q q', Forall2 R q q' ->
    match pop q, pop q' with
    | None, None => True
    | Some (n, r), Some (n', r') => R n n' /\ Forall2 R r r'
    | _, _ => False
    end.
End Alike.
