(** The vocabulary of C84 and C85: the points that detailed-layers adds to a path.  Exact arithmetic only. *)
From Coq Require Import List NArith ZArith Bool Reals.
From Verif Require Import Base Arith U32 Mesh Helpers Search Spec RealArith Geometry Spec_area Spec_inside Spec_outline.
Import ListNotations.
Open Scope R_scope.

(** The points [ys] are on the segment from [a] to [z], in this order. *)
Fixpoint in_order (a z : P2) (ys : list P2) : Prop :=
  match ys with
  | [] => True
  | y :: r => (exists t, 0 <= t <= 1 /\ y = lerp a z t) /\ in_order y z r
  end.
(** [qs] is the polyline from [a] through [pts], with more points on its legs. *)
Inductive refines : P2 -> list P2 -> list P2 -> Prop :=
| refines_nil a : refines a [] []
| refines_leg a z pts ys qs : in_order a z ys -> refines z pts qs -> refines a (z :: pts) (ys ++ z :: qs).

(** A point of the plane with the number of a layer, as path_with_layers has them. *)
Definition labelled (q : P2 * N) : vec2 RA * N := (vp (fst q), snd q).
(** All scales are pairs of real numbers between [k] and [K]. *)
Definition scales_within (k K : R) (scales : list (vec2 RA)) : Prop :=
  forall sc, In sc scales -> exists x y, sc = vp (P x y) /\ k <= x <= K /\ k <= y <= K.

(** The polygons of layer [l]. *)
Definition layer_area (m : Mesh RA) (l : N) (x : P2) : Prop := exists id qs, id_layer id = l /\ corners m id qs /\ inside qs x.
(** The polyline from [a], which is left in layer [l], through the points of [full]: every leg is in the polygons of the layer that the point
    it starts at is labelled with. *)
Fixpoint in_layers (m : Mesh RA) (l : N) (a : P2) (full : list (P2 * N)) : Prop :=
  match full with
  | [] => True
  | (q, k) :: r => segment_in (layer_area m l) a q /\ in_layers m k q r
  end.
(** The edge from [a] to [b] leads from a layer into another one. *)
Definition layer_border (m : Mesh RA) (a b : P2) : Prop :=
  exists x l p, valid_crossing m x /\ id_layer (cr_from x) <> id_layer (cr_to x) /\ polygon_at m (cr_from x) l p /\ at_world l (cr_a x) a /\ at_world l (cr_b x) b.
(** The segment from [u] to [w] is on the line of the segment from [s] to [e], and meets it. *)
Definition along (u w s e : P2) : Prop :=
  orient s e u = 0 /\ orient s e w = 0 /\ exists t k, 0 <= t <= 1 /\ 0 <= k <= 1 /\ lerp u w t = lerp s e k.
(** No leg of the polyline from [a] through [pts] runs along an edge that leads into another layer. *)
Definition off_borders (m : Mesh RA) (a : P2) (pts : list P2) : Prop :=
  forall u w s e, In (u, w) (pairs (a :: pts)) -> u <> w -> layer_border m s e -> ~ along u w s e.
