(** What it means for an outline to enclose a point, and what is asked of geo's union of two polygons. *)
From Coq Require Import List NArith Reals.
From Verif Require Import Base Arith RealArith Mesh Triangulation Geometry.
Import ListNotations.
Open Scope R_scope.

(** consecutive points *)
Fixpoint pairs (l : list P2) : list (P2 * P2) :=
  match l with
  | a :: ((b :: _) as r) => (a, b) :: pairs r
  | _ => []
  end.
(** the segments [u, v] and [a, b] have a common point *)
Definition meet (u v a b : P2) : Prop := exists s t, 0 <= s <= 1 /\ 0 <= t <= 1 /\ lerp u v s = lerp a b t.

(** The point [x] is enclosed by the closed line through the points [r]: whoever walks from [x] to a point outside of the convex hull of the line,
    on straight legs, meets the line. *)
Definition enclosed (r : list P2) (x : P2) : Prop :=
  forall stops z, ~ in_hull r z ->
    exists u v a b, In (u, v) (pairs (x :: stops ++ [z])) /\ In (a, b) (pairs r) /\ meet u v a b.

(** the last point is the first one again *)
Definition closed (r : list P2) : Prop := exists a r', r = a :: r' /\ last r a = a.

(** geo's union of two polygons whose interiors have a disc in common: the first polygon of the result has an exterior that encloses all that one
    of the two encloses. *)
Definition union_ok (lib : TriLib RA) : Prop :=
  forall a b y rad, closed a -> closed b -> 0 < rad -> (forall x, dist x y < rad -> enclosed a x /\ enclosed b x) ->
    exists ext holes others, union lib (map vp a) (map vp b) = (map vp ext, holes) :: others /\ closed ext /\
      forall x, enclosed a x \/ enclosed b x -> enclosed ext x.
