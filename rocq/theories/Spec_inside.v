(** The vocabulary of C62: polygons as lists of points of the plane, what it means for a segment or a polyline to stay
    inside of polygons of the mesh.  Exact arithmetic only. *)
From Coq Require Import List NArith ZArith Bool Reals.
From Verif Require Import Base Arith U32 Mesh Helpers Search Spec RealArith Geometry.
Import ListNotations.
Open Scope R_scope.

(** Vertex number [i] of the layer is at the point [q] of the world. *)
Definition at_world (l : Layer RA) (i : N) (q : P2) : Prop :=
  exists v, nthN (vertices l) i = Some v /\ world l v = vp q.
(** The corners of polygon [id], in the order of its vertices. *)
Definition corners (m : Mesh RA) (id : N) (qs : list P2) : Prop :=
  exists l p, polygon_at m id l p /\ Forall2 (at_world l) (pverts p) qs.

(** A point is inside of a polygon, or on its boundary: it is not on the right side of any of its edges
    ([poly_edges]: each corner with the next one, the last with the first). *)
Definition inside (qs : list P2) (x : P2) : Prop := forall a b, In (a, b) (poly_edges qs) -> 0 <= orient a b x.
(** A convex polygon, counterclockwise; three successive corners on one line are allowed, but not a flat polygon. *)
Definition convex (qs : list P2) : Prop :=
  (forall x a y b z c w, qs = x ++ a :: y ++ b :: z ++ c :: w -> 0 <= orient a b c) /\
  (forall a b, In (a, b) (poly_edges qs) -> exists c, In c qs /\ 0 < orient a b c).
(** Any two corners are at least sqrt(0.001) apart. *)
Definition spaced (qs : list P2) : Prop :=
  forall x a y b z, qs = x ++ a :: y ++ b :: z -> 1 / 1000 <= pdot (psub a b) (psub a b).

(** Polygon numbers are u32. *)
Definition u32_ids (m : Mesh RA) : Prop :=
  forall l v id, In l (layers m) -> In v (vertices l) -> In id (vpolys v) -> (id < 2^32)%N.
Definition u32_crossing (m : Mesh RA) (x : Crossing) : Prop := valid_crossing m x /\ (cr_from x < 2^32)%N.
(** The polygon entered by a crossing has the crossed edge on its own boundary, in the other direction. *)
Definition glued (m : Mesh RA) : Prop :=
  forall x l p a b qs, u32_crossing m x -> polygon_at m (cr_from x) l p ->
    at_world l (cr_a x) a -> at_world l (cr_b x) b -> corners m (cr_to x) qs -> In (b, a) (poly_edges qs).

(** The straight segment from [a] to [b] goes through the polygons [ids], in this order, and is inside of one of them
    everywhere: it can be cut into as many parts, each in the polygon of the same rank. *)
Inductive goes (m : Mesh RA) : P2 -> P2 -> list N -> Prop :=
| goes_one a b id qs : corners m id qs -> inside qs a -> inside qs b -> goes m a b [id]
| goes_more a b t ids id qs : 0 <= t <= 1 -> goes m a (lerp a b t) ids -> corners m id qs ->
    inside qs (lerp a b t) -> inside qs b -> goes m a b (ids ++ [id]).
(** The polyline from [a] through the points [pts] goes through the polygons [ids], in this order. *)
Inductive walks (m : Mesh RA) : P2 -> list P2 -> list N -> Prop :=
| walks_nil a : walks m a [] []
| walks_cons a q pts ids ids' : goes m a q ids -> walks m q pts ids' -> walks m a (q :: pts) (ids ++ ids').

(** ** Outside of the tolerances of the search *)
(** The line through [r] and [i] and the segment from [s] to [e]: each end is on the line or outside of the tolerance of
    [side]; the line meets the segment at an end or more than 1e-3 away from both ends, and it does not meet the extension of
    the segment by 1e-4 of its length. *)
Definition sharp (r i s e : P2) : Prop :=
  (orient r i s = 0 \/ eps <= Rabs (orient r i s)) /\
  (orient r i e = 0 \/ eps <= Rabs (orient r i e)) /\
  (orient r i s <> orient r i e -> forall t, - eps <= t <= 1 + eps -> orient r i (lerp s e t) = 0 ->
     t = 0 \/ t = 1 \/ (0 < t < 1 /\ 1 / 1000 < dist (lerp s e t) s /\ 1 / 1000 < dist (lerp s e t) e)).

(** The view of a search node [n] (the straight lines from its root through the two ends of its interval) is outside of
    the tolerances: for the edges of the polygon that is entered, except the one that is crossed.  If the root is exactly on
    the line of the crossed edge, it is on the interval, or no other corner of the polygon is on that line. *)
Definition clear_view (m : Mesh RA) (n : Node RA) : Prop :=
  forall r i0 i1 l p a b qs, nroot n = vp r -> ninterval n = (vp i0, vp i1) ->
    polygon_at m (nfrom n) l p -> at_world l (fst (nedge n)) a -> at_world l (snd (nedge n)) b -> corners m (nto n) qs ->
    (forall s e, In (s, e) (poly_edges qs) -> s <> b -> sharp r i0 s e /\ sharp r i1 s e) /\
    (orient a b r = 0 -> (exists t, 0 <= t <= 1 /\ r = lerp i0 i1 t) \/ forall v, In v qs -> v <> a -> v <> b -> orient a b v <> 0).
(** The goal is outside of the tolerances of the last crossed interval and of the lines from the last corner through its ends,
    or exactly on these lines (but goal and corner are not both on the line of the interval). *)
Definition clear_goal (n : Node RA) (goal : P2) : Prop :=
  forall r i0 i1, nroot n = vp r -> ninterval n = (vp i0, vp i1) ->
    (orient i0 i1 goal = 0 \/ eps <= Rabs (orient i0 i1 goal)) /\
    (orient r i0 goal = 0 \/ eps <= Rabs (orient r i0 goal)) /\
    (orient r i1 goal = 0 \/ eps <= Rabs (orient r i1 goal)) /\
    (orient i0 i1 r <> 0 \/ orient i0 i1 goal <> 0).

(** A mesh of convex polygons of the plane: all positions real, all polygons convex with well separated corners, and
    neighbours share their edges exactly. *)
Definition plane_mesh (m : Mesh RA) : Prop :=
  (forall id l p, polygon_at m id l p -> exists qs, Forall2 (at_world l) (pverts p) qs /\ convex qs /\ spaced qs) /\ glued m.

(** ** General position, without the search *)
(** The points a line of the search can go through: the start and the corners of the polygons. *)
Definition place (m : Mesh RA) (start x : P2) : Prop := x = start \/ exists id qs, corners m id qs /\ In x qs.
(** A corner of an edge, or a point of the edge where the line through two places crosses it. *)
Definition cut_point (m : Mesh RA) (start s e i : P2) : Prop :=
  i = s \/ i = e \/ exists t u w, 0 <= t <= 1 /\ i = lerp s e t /\ place m start u /\ place m start w /\ u <> w /\
    orient u w i = 0 /\ (orient u w s <> 0 \/ orient u w e <> 0).
(** [x] is on the line through [u] and [w], or at least 1/100 away from it ([orient u w x] is the distance from the line, times
    the distance of [u] and [w]). *)
Definition off_line (u w x : P2) : Prop := orient u w x = 0 \/ dist u w / 100 <= Rabs (orient u w x).
(** General position: no three corners of a polygon are on a line; places are at least 1/100 apart; no place is close to, but
    not on, the line through two places; edges are shorter than 100. *)
Record steady (m : Mesh RA) (start : P2) : Prop := {
  st_strict : forall id qs a b c, corners m id qs -> In a qs -> In b qs -> In c qs -> a <> b -> b <> c -> a <> c -> orient a b c <> 0;
  st_apart : forall u w, place m start u -> place m start w -> u <> w -> 1 / 100 <= dist u w;
  st_off : forall u w x, place m start u -> place m start w -> place m start x -> u <> w -> off_line u w x;
  st_edges : forall id qs s e, corners m id qs -> In (s, e) (poly_edges qs) -> dist s e < 100
}.
(** The same for the goal, strictly inside of polygon [pe]: it is not close to the line through two places, and two different
    points where such lines cross an edge of [pe] are at least 1/100 apart. *)
Record steady_goal (m : Mesh RA) (start : P2) (pe : N) (goal : P2) : Prop := {
  sg_in : exists qs, corners m pe qs /\ forall s e, In (s, e) (poly_edges qs) -> 0 < orient s e goal;
  sg_off : forall u w, place m start u -> place m start w -> u <> w -> off_line u w goal;
  sg_cuts : forall qs s e i j, corners m pe qs -> In (s, e) (poly_edges qs) -> cut_point m start s e i -> cut_point m start s e j -> i <> j ->
    1 / 100 <= dist i j
}.
