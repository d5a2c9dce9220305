(** The vocabulary of C88: what else is expected of the triangulator and of geo, and the free space the user has described. *)
From Coq Require Import List NArith Reals.
From Verif Require Import Base Arith Mesh Helpers Spec Triangulation Spec_triangulation RealArith Geometry Spec_inside Spec_outline Spec_free.
Import ListNotations.
Open Scope R_scope.

(** The faces cover what is inside of the outer edge. *)
Definition faces_cover (s : Subdivision RA) (outer : list P2) : Prop :=
  forall x, enclosed outer x -> exists f qs, In f (inner_faces s) /\
    Forall2 (fun i q => exists around, nthN (sites s) i = Some (vp q, around)) (fverts f) qs /\ inside qs x.
(** geo's test finds the points that are enclosed by the exterior and by no hole, if they are not on the exterior. *)
Definition finds_free (lib : TriLib RA) (outer : list P2) : Prop :=
  forall holes x, ~ on_outline outer x -> enclosed outer x -> (forall h, In h holes -> ~ enclosed h x) ->
    contains lib (mkGeo (map vp outer) (map (map vp) holes)) (vp x) = true.

(** The free space: inside of the outer edge, and not in an obstacle, that is, not enclosed by its outline (which is the obstacle grown by the agent
    radius if there is one). *)
Definition in_free_space (lib : TriLib RA) (a : AgentRadius RA) (outer : list P2) (obstacles : list (ring RA)) (x : P2) : Prop :=
  enclosed outer x /\ ~ on_outline outer x /\
  forall o r, In o obstacles -> outline lib a o (map vp r) -> ~ enclosed r x.

(** Arbitrarily close to [x] there are points of [W]. *)
Definition near (W : P2 -> Prop) (x : P2) : Prop := forall rad, 0 < rad -> exists y, dist x y < rad /\ W y.
