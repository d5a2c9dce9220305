(** C81 needs general position of the scaled mesh as well: the answer depends on the unit of length.  Binary32. *)
From Coq Require Import List NArith ZArith Bool.
From Coq.Floats Require Import SpecFloat.
From Verif Require Import Base Arith F32 U32 Mesh Helpers Locate Bake Search StdLib Tests Spec Checkers Properties_mesh.
Import ListNotations.
Open Scope N_scope.

(** The point (x, y) / d. *)
Definition ptd (d : positive) (x y : Z) : vec2 F32 := @V F32 (q x d) (q y d).
Definition vtd (d : positive) (x y : Z) (ps : list N) : Vertex F32 := vertex_new (ptd d x y) ps.
(** The mesh of lib.rs 688-717 (five squares that form a U) with squares of side 1/d. *)
Definition u_cells (d : positive) : Mesh F32 := mkMesh [mkLayer
  [vtd d 0 0 [0; MAX]; vtd d 1 0 [0; 1; MAX]; vtd d 2 0 [1; 2; MAX]; vtd d 3 0 [2; MAX];
   vtd d 0 1 [3; 0; MAX]; vtd d 1 1 [3; 1; 0; MAX]; vtd d 2 1 [4; 2; 1; MAX]; vtd d 3 1 [4; 2; MAX];
   vtd d 0 2 [3; MAX]; vtd d 1 2 [3; MAX]; vtd d 2 2 [4; MAX]; vtd d 3 2 [4; MAX]]
  [mkPolygon [0; 1; 5; 4] false; mkPolygon [1; 2; 6; 5] false; mkPolygon [2; 3; 7; 6] false;
   mkPolygon [4; 5; 9; 8] true; mkPolygon [6; 7; 11; 10] true] vzero None None] (q 1 (10 * d)) 2.
(** the middles of the two upper squares *)
Definition u_start (d : positive) : vec2 F32 := ptd (2 * d) 1 3.
Definition u_goal (d : positive) : vec2 F32 := ptd (2 * d) 5 3.

(** With squares of side 1 the path around the U is found.  With everything divided by 32 (exactly: these are all binary fractions) both ends
    are still located in their polygons, but there is no path; divided by 128, the middle of a square is not even in the mesh.  The search
    takes corners of a polygon that are closer than sqrt(0.001) for the same, and points closer to an edge than the tolerance of [side] for
    points on it. *)
Theorem C81_small_units_refuted :
  (exists p, path lib32 (u_cells 1) (at_ (u_start 1)) (at_ (u_goal 1)) = Ok (Some p) /\ ppath p = [ptd 1 1 1; ptd 1 2 1; u_goal 1]) /\
  mesh_wf (u_cells 32) /\
  get_point_location std_bvh (u_cells 32) (at_ (u_start 32)) = Ok 3 /\ get_point_location std_bvh (u_cells 32) (at_ (u_goal 32)) = Ok 4 /\
  path lib32 (u_cells 32) (at_ (u_start 32)) (at_ (u_goal 32)) = Ok None /\
  point_in_mesh std_bvh (u_cells 128) (at_ (u_start 128)) = Ok false.
Proof.
  split.
  - assert (G : match path lib32 (u_cells 1) (at_ (u_start 1)) (at_ (u_goal 1)) with Ok (Some p) => ppath p | _ => [] end = [ptd 1 1 1; ptd 1 2 1; u_goal 1]) by vmc.
    destruct (path lib32 (u_cells 1) (at_ (u_start 1)) (at_ (u_goal 1))) as [[p|]| | |]; try discriminate G. exists p. split; [reflexivity|exact G].
  - split; [apply mesh_wfb_ok; vmc|]. split; [vmc|]. split; [vmc|]. split; [vmc|vmc].
Qed.

Print Assumptions C81_small_units_refuted.
