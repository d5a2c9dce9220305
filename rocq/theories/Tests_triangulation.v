(** Replays of the tests of triangulation.rs in binary32, with the subdivision spade computes for them given (faithfulness tests,
    not proofs). *)
From Coq Require Import List NArith ZArith Bool.
From Coq.Floats Require Import SpecFloat.
From Verif Require Import Base Arith F32 U32 Mesh Helpers Locate Bake Search StdLib Tests Tests_stitch Triangulation.
Import ListNotations.
Open Scope N_scope.

(** Is the point in the ring: parity of the crossings of a ray. *)
Definition in_ring {A} (r : ring A) (x : vec2 A) : bool :=
  fold_left (fun b e => let '(s, e) := e in
               if xorb (fgt (vy s) (vy x)) (fgt (vy e) (vy x)) then
                 if flt (vx x) (fadd (vx s) (fmul (fdiv (fsub (vy x) (vy s)) (fsub (vy e) (vy s))) (fsub (vx e) (vx s))))
                 then negb b else b
               else b) (ring_lines r) false.
Definition std_contains {A} (g : GeoPolygon A) (x : vec2 A) : bool :=
  in_ring (exterior g) x && forallb (fun r => negb (in_ring r x)) (interiors g).
(** A library: no simplification, a union that keeps the first polygon, any triangulator. *)
Definition std_tri {A} (atan2' hypot' : F A -> F A -> F A) (cdt' : list (vec2 A * vec2 A) -> Subdivision A) : TriLib A :=
  mkTriLib (fun _ r => r) (fun a _ => [(a, [])]) std_contains (fun p => veq p p) cdt' atan2' hypot'
           (fun x => flt x (fz 0)) std_bvh.

(** The triangulation of the unit square with a square obstacle in two corners. *)
Definition test_sub : Subdivision F32 := mkSub
  [mkFace 1 (V (q 50 300) (q 25 300)) [0; 6; 5];
   mkFace 2 (V (q 200 300) (q 100 300)) [5; 1; 8];
   mkFace 3 (V (q 25 300) (q 150 300)) [4; 5; 3];
   mkFace 4 (V (q 25 300) (q 50 300)) [0; 5; 4];
   mkFace 5 (V (q 150 300) (q 25 300)) [5; 6; 1];
   mkFace 6 (V (q 100 300) (q 200 300)) [8; 3; 5];
   mkFace 7 (V (q 275 300) (q 250 300)) [8; 7; 2];
   mkFace 8 (V (q 275 300) (q 150 300)) [7; 8; 1];
   mkFace 9 (V (q 150 300) (q 275 300)) [8; 9; 3];
   mkFace 10 (V (q 250 300) (q 275 300)) [8; 2; 9]]
  [(pt100 0 0, [1; 4; 0]);
   (pt100 100 0, [8; 2; 5; 0]);
   (pt100 100 100, [10; 7; 0]);
   (pt100 0 100, [3; 6; 9; 0]);
   (pt100 0 25, [3; 0; 4]);
   (pt100 25 25, [6; 3; 4; 1; 5; 2]);
   (pt100 25 0, [5; 1; 0]);
   (pt100 100 75, [7; 8; 0]);
   (pt100 75 75, [7; 10; 9; 6; 2; 8]);
   (pt100 75 100, [9; 10; 0])].
Definition tri32 : TriLib F32 := std_tri (A := F32) (fun _ x => x) (fun x _ => x) (fun _ => test_sub).

Definition square_outer : ring F32 := [pt 0 0; pt 1 0; pt 1 1; pt 0 1].
Definition obstacle1 : ring F32 := [pt100 0 25; pt100 25 25; pt100 25 0; pt 0 0].
Definition obstacle2 : ring F32 := [pt100 100 75; pt100 75 75; pt100 75 100; pt 1 1].
Definition layer_view (r : res (Layer F32)) : list (list N) * list (list N) :=
  match r with Ok l => (map pverts (polygons l), map (fun v : Vertex F32 => vpolys v) (vertices l)) | _ => ([], []) end.
Definition expected_view : list (list N) * list (list N) :=
  ([[5; 1; 8]; [4; 5; 3]; [5; 6; 1]; [8; 3; 5]; [7; 8; 1]; [8; 9; 3]],
   [[MAX]; [4; 0; 2; MAX]; [MAX]; [1; 3; 5; MAX]; [1; MAX]; [3; 1; MAX; 2; 0]; [2; MAX]; [4; MAX]; [5; 3; 0; 4; MAX]; [5; MAX]]).

(** triangulation.rs 437-491: triangulation *)
Definition test_built : Triangulation F32 := add_obstacle (add_obstacle (from_outer_edges square_outer) obstacle1) obstacle2.
Example t_triangulation : layer_view (as_layer tri32 test_built) = expected_view.
Proof. vmc. Qed.
(** triangulation.rs 494-549: triangulation_prebuilt *)
Definition test_prebuilt : res (Triangulation F32) :=
  let* t := prebuild tri32 (add_obstacle (from_outer_edges square_outer) obstacle1) in Ok (add_obstacle t obstacle2).
Example t_triangulation_prebuilt : layer_view (let* t := test_prebuilt in as_layer tri32 t) = expected_view.
Proof. vmc. Qed.
(** A path on the mesh that was built. *)
Definition test_path : res (list (vec2 F32)) :=
  let* m := as_navmesh tri32 test_built in
  let* o := path lib32 m (at_ (pt100 5 30)) (at_ (pt100 30 5)) in
  Ok match o with Some p => ppath p | None => [] end.
Example t_path : test_path = Ok [pt100 25 25; pt100 30 5].
Proof. vmc. Qed.
