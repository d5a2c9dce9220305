(** Replays of the tests of stitching.rs and mesh_cleanup.rs in binary32 (faithfulness tests, not proofs). *)
From Coq Require Import List NArith ZArith Bool.
From Coq.Floats Require Import SpecFloat.
From Verif Require Import Base Arith F32 U32 Mesh Helpers Locate Bake Search StdLib Tests Cleanup Stitch.
Import ListNotations.
Open Scope N_scope.

(** insertion sort by key: one possible sort_unstable_by_key *)
Fixpoint ins (x : Z * N) (l : list (Z * N)) : list (Z * N) :=
  match l with
  | [] => [x]
  | y :: r => if (fst x <=? fst y)%Z then x :: l else y :: ins x r
  end.
Definition std_sort (l : list (Z * N)) : list (Z * N) := fold_right ins [] l.

Definition layer0 (vs : list (Vertex F32)) (ps : list Polygon) : Layer F32 := mkLayer vs ps vzero None None.
Definition mesh_of (ls : list (Layer F32)) : Mesh F32 := mkMesh ls (q 1 10) 2.
(** stitching.rs 248-284 *)
Definition basic_layers : Mesh F32 := mesh_of
  [layer0 [vtx 1 0 [0; MAX]; vtx 2 0 [0; MAX]; vtx 1 1 [0; MAX]; vtx 2 1 [0; MAX]] [mkPolygon [0; 1; 3; 2] true];
   layer0 [vtx 0 0 [0; MAX]; vtx 1 0 [0; MAX]; vtx 0 1 [0; MAX]; vtx 1 1 [0; MAX]] [mkPolygon [0; 1; 3; 2] true];
   layer0 [vtx 1 1 [0; MAX]; vtx 2 1 [0; MAX]; vtx 1 2 [0; MAX]; vtx 2 2 [0; MAX]] [mkPolygon [0; 1; 3; 2] true]].
Definition basic_points : StitchPoints (A:=F32) :=
  [((0, 1), [pt 1 0; pt 1 1]); ((0, 2), [pt 1 1; pt 2 1]); ((1, 2), [pt 1 1])].
Definition neighbours (m : Mesh F32) : list (list (list N)) := map (fun l => map (fun v => vpolys v) (vertices l)) (layers m).
Definition res_neighbours (r : res (Mesh F32)) : list (list (list N)) := match r with Ok m => neighbours m | _ => [] end.
Definition L1 : N := 16777216.
Definition L2 : N := 33554432.

(** stitching.rs 286-344 *)
Example t_stitch_at_points :
  res_neighbours (stitch_at_points std_sort basic_layers basic_points false) =
  [[[0; L1; MAX]; [0; MAX]; [0; L2; MAX; L1]; [L2; 0; MAX]];
   [[L1; MAX]; [0; L1; MAX]; [L1; MAX]; [0; L2; MAX; L1]];
   [[0; L2; MAX; L1]; [L2; 0; MAX]; [L2; MAX]; [L2; MAX]]].
Proof. vmc. Qed.
(** stitching.rs 346-373 *)
Example t_remove_stitches :
  match stitch_at_points std_sort basic_layers basic_points false with Ok m => neighbours (remove_stitches m) | _ => [] end =
  [[[0; MAX]; [0; MAX]; [0; MAX]; [0; MAX]];
   [[0; MAX]; [0; MAX]; [0; MAX]; [MAX; 0]];
   [[0; MAX]; [0; MAX]; [0; MAX]; [0; MAX]]].
Proof. vmc. Qed.
(** stitching.rs 374-418 *)
Example t_unstitch_layer :
  match stitch_at_points std_sort basic_layers basic_points false with Ok m => neighbours (remove_stitches_to_layer m 1) | _ => [] end =
  [[[0; MAX]; [0; MAX]; [0; L2; MAX]; [L2; 0; MAX]];
   [[0; MAX]; [0; MAX]; [0; MAX]; [MAX; 0]];
   [[0; L2; MAX]; [L2; 0; MAX]; [L2; MAX]; [L2; MAX]]].
Proof. vmc. Qed.
(** stitching.rs 419-469 *)
Example t_stitch_single_layer :
  res_neighbours (restitch_layer_at_points std_sort basic_layers 1 basic_points false) =
  [[[0; L1; MAX]; [0; MAX]; [0; MAX; L1]; [0; MAX]];
   [[L1; MAX]; [0; L1; MAX]; [L1; MAX]; [0; MAX; L1]];
   [[0; MAX; L1]; [0; MAX]; [0; MAX]; [0; MAX]]].
Proof. vmc. Qed.
