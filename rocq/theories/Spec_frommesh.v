(** The vocabulary of C90: a builder made from a layer of a mesh (from_mesh, from_mesh_layer), and what is expected of the layer, the triangulator and geo. *)
From Coq Require Import List NArith Reals.
From Verif Require Import Base Arith Mesh Helpers Spec Triangulation Spec_triangulation RealArith Geometry Spec_inside Spec_outline Spec_free.
Import ListNotations.
Open Scope R_scope.

(** The corners of polygon [p] are at the points [qs], in the coordinates of the layer (without its offset). *)
Definition laid (l : Layer RA) (p : Polygon) (qs : list P2) : Prop :=
  Forall2 (fun i q => exists v, nthN (vertices l) i = Some v /\ coords v = vp q) (pverts p) qs.
(** The ground: the points of the polygons of the layer. *)
Definition ground (l : Layer RA) (x : P2) : Prop := exists p qs, In p (polygons l) /\ laid l p qs /\ inside qs x.
(** A layer of convex polygons with real corners. *)
Definition ground_ok (l : Layer RA) : Prop := forall p, In p (polygons l) -> exists qs, laid l p qs /\ qs <> [] /\ convex qs.
(** The point is outside of the tolerance of point_in_polygon: for each polygon, clearly inside, or outside and not close to the border. *)
Definition clear_of (l : Layer RA) (x : P2) : Prop :=
  forall p qs, In p (polygons l) -> laid l p qs ->
    (forall a b, In (a, b) (poly_edges qs) -> eps <= orient a b x) \/
    ((exists a b, In (a, b) (poly_edges qs) /\ orient a b x <= 0) /\
     forall a b, In (a, b) (poly_edges qs) -> Rmin (px a) (px b) <= px x <= Rmax (px a) (px b) /\ Rmin (py a) (py b) <= py x <= Rmax (py a) (py b) ->
       eps <= Rabs (orient a b x)).
(** If the layer has a polygon finder, it offers the polygons in which the point is. *)
Definition finder_ok (lib : TriLib RA) (l : Layer RA) : Prop :=
  forall boxes k p qs x, baked l = Some boxes -> nthN (polygons l) k = Some p -> laid l p qs -> inside qs x -> In k (finder lib boxes (vp x)).
(** The faces cover the ground. *)
Definition faces_cover_ground (s : Subdivision RA) (l : Layer RA) : Prop :=
  forall x, ground l x -> exists f qs, In f (inner_faces s) /\
    Forall2 (fun i q => exists around, nthN (sites s) i = Some (vp q, around)) (fverts f) qs /\ inside qs x.
(** What is left of the ground: not enclosed by the outline of an obstacle. *)
Definition left_over (lib : TriLib RA) (a : AgentRadius RA) (l : Layer RA) (obstacles : list (ring RA)) (x : P2) : Prop :=
  ground l x /\ forall o r, In o obstacles -> outline lib a o (map vp r) -> ~ enclosed r x.
