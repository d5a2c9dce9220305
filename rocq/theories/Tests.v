(** The expected results of the Rust unit tests, replayed in the model with binary32 arithmetic.
    These are tests of the model's faithfulness, not proofs of properties. *)
From Coq Require Import List NArith ZArith Bool.
From Coq.Floats Require Import SpecFloat.
From Verif Require Import Base Arith F32 U32 Mesh Helpers Locate Bake Search StdLib.
Import ListNotations.
Open Scope N_scope.

Definition q (n : Z) (d : positive) : F F32 := @flit F32 n d.
Definition pt (x y : Z) : vec2 F32 := @V F32 (q x 1) (q y 1).
Definition pt10 (x y : Z) : vec2 F32 := @V F32 (q x 10) (q y 10).
Definition pt100 (x y : Z) : vec2 F32 := @V F32 (q x 100) (q y 100).
Definition vtx (x y : Z) (ps : list N) : Vertex F32 := vertex_new (pt x y) ps.
Definition mesh1 (vs : list (Vertex F32)) (ps : list Polygon) : Mesh F32 :=
  mkMesh [mkLayer vs ps vzero None None] (q 1 10) 2.
Definition lib32 : Lib F32 := std_lib.
Definition at_ (p : vec2 F32) : Coords F32 := coords_on_mesh p.

(** lib.rs 688-717 *)
Definition mesh_u_grid : Mesh F32 := mesh1
  [vtx 0 0 [0; MAX]; vtx 1 0 [0; 1; MAX]; vtx 2 0 [1; 2; MAX]; vtx 3 0 [2; MAX];
   vtx 0 1 [3; 0; MAX]; vtx 1 1 [3; 1; 0; MAX]; vtx 2 1 [4; 2; 1; MAX]; vtx 3 1 [4; 2; MAX];
   vtx 0 2 [3; MAX]; vtx 1 2 [3; MAX]; vtx 2 2 [4; MAX]; vtx 3 2 [4; MAX]]
  [mkPolygon [0; 1; 5; 4] false; mkPolygon [1; 2; 6; 5] false; mkPolygon [2; 3; 7; 6] false;
   mkPolygon [4; 5; 9; 8] true; mkPolygon [6; 7; 11; 10] true].

(** lib.rs 911-953 *)
Definition mesh_from_paper : Mesh F32 := mesh1
  [vtx 0 6 [0; MAX]; vtx 2 5 [0; MAX; 2]; vtx 5 7 [0; 2; MAX]; vtx 5 8 [0; MAX]; vtx 0 8 [0; MAX];
   vtx 1 4 [1; MAX]; vtx 2 1 [1; MAX]; vtx 4 1 [1; MAX]; vtx 4 2 [1; MAX; 2]; vtx 2 4 [1; 2; MAX];
   vtx 7 4 [2; MAX; 4]; vtx 10 7 [2; 4; 6; MAX; 3]; vtx 7 7 [2; 3; MAX]; vtx 11 8 [3; MAX];
   vtx 7 8 [3; MAX]; vtx 7 0 [5; 4; MAX]; vtx 11 3 [4; 5; MAX]; vtx 11 5 [4; MAX; 6];
   vtx 12 0 [5; MAX]; vtx 12 3 [5; MAX]; vtx 13 5 [6; MAX]; vtx 13 7 [6; MAX]; vtx 1 3 [1; MAX]]
  [mkPolygon [0; 1; 2; 3; 4] true; mkPolygon [5; 22; 6; 7; 8; 9] true;
   mkPolygon [1; 9; 8; 10; 11; 12; 2] false; mkPolygon [12; 11; 13; 14] true;
   mkPolygon [10; 15; 16; 17; 11] false; mkPolygon [15; 18; 19; 16] true;
   mkPolygon [11; 17; 20; 21] true].

Definition baked_of (m : Mesh F32) : Mesh F32 :=
  match mesh_bake m with Ok m' => m' | _ => m end.
Definition loc (m : Mesh F32) (p : vec2 F32) : res N := get_point_location std_bvh m (at_ p).

(** lib.rs 720-728 *)
Example t_point_in_polygon :
  map (loc (baked_of mesh_u_grid)) [pt10 5 5; pt10 15 5; pt10 5 15; pt10 15 15; pt10 25 15]
  = [Ok 0; Ok 1; Ok 3; Ok MAX; Ok 4].
Proof. vmc. Qed.

(** lib.rs 956-964 *)
Example t_paper_point_in_polygon :
  map (loc (baked_of mesh_from_paper)) [pt10 5 5; pt 2 6; pt10 20 51; pt10 20 15; pt10 40 21]
  = [Ok MAX; Ok 0; Ok 0; Ok 1; Ok 2].
Proof. vmc. Qed.

Definition start_node (m : Mesh F32) (root : vec2 F32) (i : vec2 F32 * vec2 F32) (e : N * N) (pf pto : N) (g h : F F32)
  : Node F32 := mkNode [] root i e pf pto 0 g h.
(** lib.rs 377-410 *)
Definition test_successors (m : Mesh F32) (n : Node F32) (to : vec2 F32) : res (list (Node F32)) :=
  let* pe := loc m to in
  let* st := successors (succ_fuel m) (mkCtx m to pe []) [] n (mkState [] [] []) in
  Ok (squeue st).

(** lib.rs 731-770: successors_straight_line_ahead *)
Definition f1 := pt10 1 1.
Definition t1 := pt10 29 9.
Example t_straight_ahead :
  test_successors mesh_u_grid
     (start_node mesh_u_grid f1 (pt 1 0, pt 1 1) (1, 5) 0 1 (vdist f1 t1) (q 0 1)) t1
  = Ok [mkNode [] f1 (pt 2 0, pt 2 1) (2, 6) 1 2 0 (vdist f1 t1) (vdist f1 t1)]
  /\ path lib32 mesh_u_grid (at_ f1) (at_ t1) = Ok (Some (mkPath (vdist f1 t1) [t1])).
Proof. split; vmc. Qed.

(** lib.rs 773-811 *)
Example t_straight_reversed :
  test_successors mesh_u_grid
     (start_node mesh_u_grid t1 (pt 2 1, pt 2 0) (6, 2) 2 1 (q 0 1) (vdist t1 f1)) f1
  = Ok [mkNode [] t1 (pt 1 1, pt 1 0) (5, 1) 1 0 0 (q 0 1) (vdist f1 t1)]
  /\ path lib32 mesh_u_grid (at_ t1) (at_ f1) = Ok (Some (mkPath (vdist t1 f1) [f1])).
Proof. split; vmc. Qed.

(** lib.rs 814-857 *)
Definition f2 := pt10 1 19.
Definition t2 := pt10 21 19.
Example t_corner_first_step :
  test_successors mesh_u_grid
     (start_node mesh_u_grid f2 (pt 0 1, pt 1 1) (4, 5) 3 0 (q 0 1) (vdist f2 t2)) t2
  = Ok [mkNode [pt 1 1; pt 2 1] (pt 2 1) (pt 3 1, pt 2 1) (7, 6) 2 4 0
               (fadd (vdist f2 (pt 1 1)) (vdist (pt 1 1) (pt 2 1))) (vdist (pt 2 1) t2)]
  /\ path lib32 mesh_u_grid (at_ f2) (at_ t2)
     = Ok (Some (mkPath (fadd (fadd (vdist f2 (pt 1 1)) (vdist (pt 1 1) (pt 2 1))) (vdist (pt 2 1) t2))
                        [pt 1 1; pt 2 1; t2])).
Proof. split; vmc. Qed.

(** lib.rs 967-1014: paper_straight (the queue order of the two successors is the heap's business) *)
Example t_paper_straight :
  test_successors mesh_from_paper
     (start_node mesh_from_paper (pt 12 0) (pt 11 3, pt 7 0) (16, 15) 5 4 (q 0 1) (vdist (pt 12 0) (pt10 70 69)))
     (pt10 70 69)
  = Ok [mkNode [pt 11 3] (pt 11 3) (pt 10 7, pt100 975 675) (11, 10) 4 2 0 (vdist (pt 12 0) (pt 11 3))
               (fadd (vdist (pt 11 3) (pt100 975 675)) (vdist (pt100 975 675) (pt10 70 69)));
        mkNode [] (pt 12 0) (pt100 975 675, pt 7 4) (11, 10) 4 2 0 (q 0 1) (vdist (pt 12 0) (pt10 70 69))]
  /\ path lib32 mesh_from_paper (at_ (pt 12 0)) (at_ (pt10 70 69))
     = Ok (Some (mkPath (vdist (pt 12 0) (pt10 70 69)) [pt10 70 69])).
Proof. split; vmc. Qed.

Definition path_points (r : res (option (Path F32))) : option (list (vec2 F32)) :=
  match r with Ok (Some p) => Some (ppath p) | _ => None end.

(** lib.rs 1017-1091, 1094-1147, 1150-1162, 1165-1229: the resulting paths *)
Example t_paper_paths :
  path_points (path lib32 mesh_from_paper (at_ (pt 12 0)) (at_ (pt 13 6))) = Some [pt 11 3; pt 11 5; pt 13 6]
  /\ path_points (path lib32 mesh_from_paper (at_ (pt 12 0)) (at_ (pt 5 3))) = Some [pt 7 4; pt 5 3]
  /\ path_points (path lib32 mesh_from_paper (at_ (pt 11 0)) (at_ (pt 9 3))) = Some [pt 9 3]
  /\ path_points (path lib32 mesh_from_paper (at_ (pt 9 3)) (at_ (pt 11 0))) = Some [pt 11 0]
  /\ path_points (path lib32 mesh_from_paper (at_ (pt 12 0)) (at_ (pt 3 1))) = Some [pt 7 4; pt 4 2; pt 3 1].
Proof. repeat split; vmc. Qed.

(** the same answers on the baked mesh *)
Example t_paper_paths_baked :
  path_points (path lib32 (baked_of mesh_from_paper) (at_ (pt 12 0)) (at_ (pt 13 6))) = Some [pt 11 3; pt 11 5; pt 13 6].
Proof. vmc. Qed.

(** helpers.rs 191-334 *)
Example t_side :
  side (pt10 0 5) (pt 0 0, pt 1 0) = SLeft /\ side (pt10 0 (-5)) (pt 0 0, pt 1 0) = SRight
  /\ side (pt 1 0) (pt 0 0, pt 1 1) = SRight /\ side (pt 0 1) (pt 0 0, pt 1 1) = SLeft
  /\ side (pt 2 2) (pt 0 0, pt 1 1) = SEdge.
Proof. repeat split; vmc. Qed.
Example t_mirror :
  veq (mirror (pt 1 0) (pt 0 0, pt 0 1)) (pt (-1) 0) = true
  /\ veq (mirror (pt (-1) 0) (pt 0 0, pt 0 1)) (pt 1 0) = true.
Proof. split; vmc. Qed.
Definition sqrt2 : F F32 := @fsqrt F32 (q 2 1).
Example t_heuristic :
  heuristic (pt 0 0) (pt 1 1) (pt 1 0, pt 0 1) = sqrt2
  /\ heuristic (pt 0 0) (pt 2 (-1)) (pt 1 0, pt 0 1) = @fadd F32 (q 1 1) sqrt2
  /\ heuristic (pt 0 0) (pt (-1) 2) (pt 1 0, pt 0 1) = @fadd F32 (q 1 1) sqrt2
  /\ heuristic (pt 0 0) (pt 1 (-1)) (pt 1 0, pt 0 1) = q 2 1.
Proof. repeat split; vmc. Qed.
Example t_line_intersect :
  line_intersect_segment (pt10 0 5, pt10 5 5) (pt 1 0, pt 1 1) = Some (pt10 10 5)
  /\ line_intersect_segment (pt 0 0, pt10 5 8) (pt 1 0, pt10 10 2) = None
  /\ line_intersect_segment (pt10 0 8, pt10 5 0) (pt 1 0, pt10 10 2) = None
  /\ line_intersect_segment (pt10 0 5, pt10 5 5) (pt10 (-10) 5, pt10 10 5) = None.
Proof. repeat split; vmc. Qed.
