(** The vocabulary of C63: the ways through a mesh of convex polygons, and the meshes and positions for which the search finds
    a shortest one.  Exact arithmetic only. *)
From Coq Require Import List NArith ZArith Bool Reals.
From Verif Require Import Base Arith U32 Mesh Helpers Search Spec RealArith Geometry Spec_inside.
Import ListNotations.
Open Scope R_scope.

(** ** Ways *)
(** The edge crossed by [x] goes from the point [a] to the point [b]. *)
Definition ends (m : Mesh RA) (x : Crossing) (a b : P2) : Prop :=
  exists l p, polygon_at m (cr_from x) l p /\ at_world l (cr_a x) a /\ at_world l (cr_b x) b.
(** [y] is a point of the edge crossed by [x]. *)
Definition on_edge (m : Mesh RA) (x : Crossing) (y : P2) : Prop :=
  exists a b t, ends m x a b /\ 0 <= t <= 1 /\ y = lerp a b t.
(** A crossing that does not enter a blocked layer. *)
Definition open_crossing (m : Mesh RA) (blocked : list N) (x : Crossing) : Prop :=
  u32_crossing m x /\ ~ In (id_layer (cr_to x)) blocked.

(** One can go from the point [x] of polygon [P] to the point [y] of polygon [Q], over a length of [L]: by moving along straight
    segments inside of a polygon, and by changing to a neighbour at a point of the common edge. *)
Inductive way (m : Mesh RA) (blocked : list N) : N -> P2 -> N -> P2 -> R -> Prop :=
| way_here P qs x : corners m P qs -> inside qs x -> way m blocked P x P x 0
| way_move P x Q y L qs z : way m blocked P x Q y L -> corners m Q qs -> inside qs z -> way m blocked P x Q z (L + dist y z)
| way_cross P x c y L : way m blocked P x (cr_from c) y L -> open_crossing m blocked c -> on_edge m c y ->
    way m blocked P x (cr_to c) y L.

(** ** Meshes without defects *)
(** A vertex at which a path may turn: flagged as a corner or, if layers are blocked, next to a blocked layer or the outside. *)
Definition turnable (blocked : list N) (v : Vertex RA) : Prop :=
  is_corner v = true \/ (blocked <> [] /\ exists q, In q (vpolys v) /\ (q = MAX \/ In (id_layer q) blocked)).
(** [v] is a vertex of polygon [id], at the point [q]. *)
Definition vertex_of (m : Mesh RA) (id : N) (v : Vertex RA) (q : P2) : Prop :=
  exists l p i, polygon_at m id l p /\ In i (pverts p) /\ nthN (vertices l) i = Some v /\ world l v = vp q.

(** Around the point [v]: from any point of a polygon with corner [v] to any point of another one, at most [d] away from [v],
    one can go straight. *)
Definition around (m : Mesh RA) (blocked : list N) (ps : N) (v : P2) (d : R) : Prop :=
  forall id id' qs qs' x y, (id < 2 ^ 32)%N -> (id' < 2 ^ 32)%N -> (id = ps \/ ~ In (id_layer id) blocked) -> (id' = ps \/ ~ In (id_layer id') blocked) ->
    corners m id qs -> In v qs -> corners m id' qs' -> In v qs' ->
    inside qs x -> inside qs' y -> dist v x <= d -> dist v y <= d -> way m blocked id x id' y (dist x y).

Record faultless (m : Mesh RA) (blocked : list N) (ps : N) : Prop := {
  (* an edge has one other side *)
  fl_side : forall x y, u32_crossing m x -> u32_crossing m y ->
    cr_from x = cr_from y -> cr_a x = cr_a y -> cr_b x = cr_b y -> cr_to x = cr_to y;
  (* and that is where one comes from *)
  fl_back : forall x y a b, u32_crossing m x -> u32_crossing m y -> cr_from y = cr_to x ->
    ends m x a b -> ends m y b a -> cr_to y = cr_from x;
  (* a polygon flagged as a dead end has only one neighbour *)
  fl_dead : forall l p x y, polygon_at m (cr_to x) l p -> is_one_way p = true ->
    open_crossing m blocked x -> open_crossing m blocked y -> cr_from y = cr_to x -> cr_to y = cr_from x;
  (* vertices at the same point are turnable or not together *)
  fl_same : forall id id' v v' q, vertex_of m id v q -> vertex_of m id' v' q -> turnable blocked v -> turnable blocked v';
  (* the polygons at a point hang together: the mesh is not pinched *)
  fl_fan : forall id v q, vertex_of m id v q -> around m blocked ps q 0;
  (* where no turn is allowed, nothing is in the way *)
  fl_inner : forall id v q, vertex_of m id v q -> ~ turnable blocked v -> exists d, 0 < d /\ around m blocked ps q d
}.

(** ** General position *)
(** No three of the places (start and corners) are on a line, nor closer to that than 1/100; the same for two places and the
    goal.  Places are at least 1/100 apart, and so are the points where the lines through two places cross an edge.  Start and
    goal are strictly inside of their polygons. *)
Record generic (m : Mesh RA) (start : P2) (ps pe : N) (goal : P2) : Prop := {
  ge_places : forall u w x, place m start u -> place m start w -> place m start x -> u <> w -> u <> x -> w <> x ->
    dist u w / 100 <= Rabs (orient u w x);
  ge_goal : forall u w, place m start u -> place m start w -> u <> w -> dist u w / 100 <= Rabs (orient u w goal);
  ge_apart : forall u w, place m start u -> place m start w -> u <> w -> 1 / 100 <= dist u w;
  ge_cuts : forall id qs s e i j, corners m id qs -> In (s, e) (poly_edges qs) -> cut_point m start s e i -> cut_point m start s e j ->
    i <> j -> 1 / 100 <= dist i j;
  ge_edges : forall id qs s e, corners m id qs -> In (s, e) (poly_edges qs) -> dist s e < 100;
  ge_start : exists qs, corners m ps qs /\ forall s e, In (s, e) (poly_edges qs) -> 0 < orient s e start;
  ge_corner : forall id qs, corners m id qs -> ~ In start qs;
  ge_in : exists qs, corners m pe qs /\ forall s e, In (s, e) (poly_edges qs) -> 0 < orient s e goal
}.

(** ** Corners are at the border *)
(** A chain of open crossings that turns around the point [q]: every crossed edge ends there, all on the same hand. *)
Inductive turning (m : Mesh RA) (blocked : list N) (q : P2) : bool -> N -> list Crossing -> N -> Prop :=
| turning_one right x : open_crossing m blocked x -> (exists o, if right : bool then ends m x q o else ends m x o q) ->
    turning m blocked q right (cr_from x) [x] (cr_to x)
| turning_more right x xs Q : open_crossing m blocked x -> (exists o, if right : bool then ends m x q o else ends m x o q) ->
    turning m blocked q right (cr_to x) xs Q -> turning m blocked q right (cr_from x) (x :: xs) Q.
(** No vertex at which a path may turn is surrounded by polygons: there is no way around it that comes back. *)
Definition at_border (m : Mesh RA) (blocked : list N) : Prop :=
  forall id v q right P xs, vertex_of m id v q -> turnable blocked v -> ~ turning m blocked q right P xs P.
