(** The vocabulary of C70: what a layer covers, and the layers of which merge_polygons keeps the area.  Exact arithmetic only. *)
From Coq Require Import List NArith ZArith Bool Reals.
From Verif Require Import Base Arith U32 Mesh Helpers Spec RealArith Geometry Spec_inside.
Import ListNotations.
Open Scope R_scope.

(** The corners of the polygon [p] of the layer, in the order of its vertices. *)
Definition ring_at (l : Layer RA) (p : Polygon) (qs : list P2) : Prop := Forall2 (at_world l) (pverts p) qs.
(** The points of the polygons of the layer. *)
Definition covered (l : Layer RA) (x : P2) : Prop := exists p qs, In p (polygons l) /\ ring_at l p qs /\ inside qs x.
(** A point is inside of a polygon and not on its boundary. *)
Definition strictly_inside (qs : list P2) (x : P2) : Prop := forall a b, In (a, b) (poly_edges qs) -> 0 < orient a b x.

(** The test geo::IsConvex::is_ccw_convex: a ring that passes it never turns right. *)
Definition never_right (test : list (vec2 RA) -> bool) : Prop :=
  forall qs, test (map vp qs) = true -> forall x a b c y, qs ++ firstn 2 qs = x ++ a :: b :: c :: y -> 0 <= orient a b c.

(** Convex polygons that do not overlap, with vertices of which no three are on a line; the vertices only list polygons that they
    are a corner of, and no polygon has a vertex twice. *)
Record tiling (l : Layer RA) : Prop := {
  ti_convex : forall p, In p (polygons l) -> exists qs, ring_at l p qs /\ qs <> [] /\ convex qs;
  ti_once : forall p, In p (polygons l) -> NoDup (pverts p);
  ti_apart : forall i j p q qs qs' x, i <> j -> nthN (polygons l) i = Some p -> nthN (polygons l) j = Some q -> ring_at l p qs -> ring_at l q qs' ->
    strictly_inside qs x -> ~ inside qs' x;
  ti_general : forall i j k a b c, i <> j -> i <> k -> j <> k -> (exists p, In p (polygons l) /\ In i (pverts p)) -> (exists p, In p (polygons l) /\ In j (pverts p)) ->
    (exists p, In p (polygons l) /\ In k (pverts p)) -> at_world l i a -> at_world l j b -> at_world l k c -> orient a b c <> 0;
  ti_listed : forall i v id p, nthN (vertices l) i = Some v -> In id (vpolys v) -> nthN (polygons l) id = Some p -> In i (pverts p)
}.
