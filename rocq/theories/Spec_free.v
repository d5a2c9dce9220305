(** The vocabulary of C76: what is expected of the triangulator and of geo's point in polygon test, and the area of a mesh.  Exact arithmetic only. *)
From Coq Require Import List NArith Reals.
From Verif Require Import Base Arith Mesh Helpers Spec Triangulation RealArith Geometry Spec_inside Spec_outline.
Import ListNotations.
Open Scope R_scope.

(** a point of the closed line through the points [r] *)
Definition on_outline (r : list P2) (x : P2) : Prop := exists a b t, In (a, b) (pairs r) /\ 0 <= t <= 1 /\ x = lerp a b t.
Definition strictly_inside (qs : list P2) (x : P2) : Prop := forall a b, In (a, b) (poly_edges qs) -> 0 < orient a b x.

(** The triangulator respects the constraints [c]: the interior of a face does not meet a constraint.  The centre of a face is in its interior. *)
Definition faces_ok (s : Subdivision RA) (c : list (vec2 RA * vec2 RA)) : Prop :=
  forall f, In f (inner_faces s) -> exists qs centre,
    Forall2 (fun i q => exists around, nthN (sites s) i = Some (vp q, around)) (fverts f) qs /\
    fcenter f = vp centre /\ strictly_inside qs centre /\
    forall p q t, In (vp p, vp q) c -> 0 <= t <= 1 -> ~ strictly_inside qs (lerp p q t).

(** geo's test finds the points that are enclosed by the line [r], if they are not on it. *)
Definition finds_enclosed (lib : TriLib RA) (r : list P2) : Prop :=
  forall x, ~ on_outline r x -> enclosed r x -> contains lib (mkGeo (map vp r) []) (vp x) = true.
(** geo's test only finds points that are enclosed by the exterior. *)
Definition finds_only_enclosed (lib : TriLib RA) : Prop :=
  forall r holes x, contains lib (mkGeo (map vp r) holes) (vp x) = true -> enclosed r x.
(** The simplification with the tolerance [p] does not uncover points: what was enclosed before is enclosed afterwards.  (With the default of 0 only
    points on straight parts of the line are removed.) *)
Definition simplify_keeps (lib : TriLib RA) (p : R) : Prop :=
  forall r, closed r -> exists r', simplify_vw lib (Some p) (map vp r) = map vp r' /\ closed r' /\ forall x, enclosed r x -> enclosed r' x.

(** [r] is the closed line of the obstacle with the points [l]: these points, and the first one again if it is not the last one. *)
Definition closing (l r : list P2) : Prop := (closed l /\ r = l) \/ (~ closed l /\ exists a l', l = a :: l' /\ r = l ++ [a]).

(** The points of the polygons of a mesh. *)
Definition covered (m : Mesh RA) (x : P2) : Prop := exists id qs, corners m id qs /\ inside qs x.

(** The edge that bounds the mesh, given the outer edge [ext] of the builder: that edge, or, if the agent radius is to be kept from the outer edge as
    well, the first of the holes that are left inside of the line when it is drawn as thick as the agent radius asks for. *)
Definition edge_used (lib : TriLib RA) (a : AgentRadius RA) (ext e : ring RA) : Prop :=
  match a with
  | REverything radius n _ =>
      if enough radius then exists i hole, inflate_ring lib ext radius n = Ok i /\ nthN (snd i) 0 = Some hole /\ e = close hole else e = ext
  | _ => e = ext
  end.
