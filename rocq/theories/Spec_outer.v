(** The vocabulary of C94: an outer edge whose sides are drawn thick, one after the other.  Exact arithmetic only. *)
From Coq Require Import List NArith Reals.
From Verif Require Import Base Arith Mesh Helpers Spec Triangulation RealArith Geometry Spec_inside Spec_outline.
Import ListNotations.
Open Scope R_scope.

(** geo's union of two polygons: its holes are made of numbers and closed, and they contain nothing that is inside of one of the polygons (a point with a disc
    around it that the two polygons cover). *)
Definition holes_ok (lib : TriLib RA) : Prop :=
  forall a b ext holes others, closed a -> closed b -> union lib (map vp a) (map vp b) = (ext, holes) :: others ->
    forall h, In h holes -> exists h', h = map vp h' /\ closed h' /\
      forall x rad, 0 < rad -> (forall y, dist x y < rad -> enclosed a y \/ enclosed b y) -> ~ enclosed h' x.

(** Drawing the sides [l] one after the other, each as thick as [d] asks for, leaves the line [e] around all of them and the holes [hs]
    (triangulation.rs 696-739, the loop). *)
Definition drawn (lib : TriLib RA) (d : R) (n : N) (l : list (P2 * P2)) (e : ring RA) (hs : list (ring RA)) : Prop :=
  match l with
  | [] => False
  | s :: rest => exists first, round_line lib (vp (fst s), vp (snd s)) (rr d) n = Ok first /\
      foldM (fun acc ab => union_with lib acc ab (rr d) n) (first, []) (map (fun s => (vp (fst s), vp (snd s))) rest) = Ok (e, hs)
  end.
