(** The vocabulary of C65-C67: the area covered by the polygons of a mesh, as a set of points, and the polylines in it; nothing is
    said about polygons being neighbours.  Exact arithmetic only. *)
From Coq Require Import List NArith ZArith Bool Reals.
From Verif Require Import Base Arith U32 Mesh Helpers Search Spec RealArith Geometry Spec_inside Spec_shortest.
Import ListNotations.
Open Scope R_scope.

(** Polygon [id] may be walked on when starting in polygon [ps]: it is not on a blocked layer. *)
Definition usable (blocked : list N) (ps id : N) : Prop := (id < 2 ^ 32)%N /\ (id = ps \/ ~ In (id_layer id) blocked).
(** The area: all the points of the polygons that may be walked on. *)
Definition area (m : Mesh RA) (blocked : list N) (ps : N) (x : P2) : Prop :=
  exists id qs, usable blocked ps id /\ corners m id qs /\ inside qs x.

(** The straight segment from [a] to [b] lies in the set of points [W]. *)
Definition segment_in (W : P2 -> Prop) (a b : P2) : Prop := forall t, 0 <= t <= 1 -> W (lerp a b t).
(** The polyline from [a] through the points [pts] lies in [W]. *)
Fixpoint polyline_in (W : P2 -> Prop) (a : P2) (pts : list P2) : Prop :=
  match pts with
  | [] => W a
  | q :: r => segment_in W a q /\ polyline_in W q r
  end.
(** Its length. *)
Fixpoint total (a : P2) (pts : list P2) : R :=
  match pts with
  | [] => 0
  | q :: r => dist a q + total q r
  end.

(** The polygons lie side by side: two polygons (that may be walked on) with a common point are the same, or it is a corner of both,
    or it is on an edge at which one can cross from one to the other.  (So polygons do not overlap and there are no one-way edges.) *)
Definition seamless (m : Mesh RA) (blocked : list N) (ps : N) : Prop :=
  forall id id' qs qs' x, usable blocked ps id -> usable blocked ps id' -> corners m id qs -> corners m id' qs' -> inside qs x -> inside qs' x ->
    id = id' \/ (In x qs /\ In x qs') \/ exists c, open_crossing m blocked c /\ cr_from c = id /\ cr_to c = id' /\ on_edge m c x.
