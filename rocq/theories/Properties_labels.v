(** C86 has to except paths that run along an edge between two layers: binary32, the mesh is built with stitch_at_vertices. *)
From Coq Require Import List NArith ZArith Bool.
From Coq.Floats Require Import SpecFloat.
From Verif Require Import Base Arith F32 U32 Mesh Helpers Locate Bake Search StdLib Tests Stitch Tests_stitch Detailed Tests_detailed.
Import ListNotations.
Open Scope N_scope.

(** Layer 0 has three squares, layer 1 has two polygons; they share the edge from (1, 1) to (2, 1), and (1, 1) is a corner of the mesh. *)
Definition along_layers : Mesh F32 := mesh_of
  [mkLayer [vt10 0 10 [0; 1; MAX]; vt10 10 10 [0; 1; 2; MAX]; vt10 10 20 [0; MAX]; vt10 0 20 [0; MAX]; vt10 0 0 [1; MAX]; vt10 10 0 [1; 2; MAX]; vt10 20 0 [2; MAX]; vt10 20 10 [2; MAX]]
     [mkPolygon [0; 1; 2; 3] false; mkPolygon [4; 5; 1; 0] false; mkPolygon [5; 6; 7; 1] false] (pt 0 0) None None;
   mkLayer [vt10 10 10 [0; MAX]; vt10 20 10 [0; 1; MAX]; vt10 20 20 [0; 1; MAX]; vt10 15 20 [0; MAX]; vt10 30 5 [1; MAX]; vt10 30 20 [1; MAX]]
     [mkPolygon [0; 1; 2; 3] false; mkPolygon [1; 4; 5; 2] false] (pt 0 0) None None].
Definition along_mesh : Mesh F32 :=
  match stitch_at_vertices std_sort along_layers [((0, 1), [(1, 0); (7, 1)])] false with Ok m => m | _ => along_layers end.
Definition along_path : DPath F32 := mkDPath (q 9257277 4194304) [pt10 10 10; pt10 25 10] [(pt10 10 10, 0); (pt10 25 10, 1)].

(** C86 without its exception is false: from (0.5, 1.5) to (2.5, 1), the path turns at (1, 1) and then runs along the edge between the layers.
    The leg from (1, 1) to the goal is labelled with layer 0, but its point (2.25, 1) is in layer 1 and not in layer 0; and the length is the
    same whether layer 1 has scale 1 or scale 10. *)
Theorem C86_along_border_refuted :
  stitch_at_vertices std_sort along_layers [((0, 1), [(1, 0); (7, 1)])] false = Ok along_mesh /\
  dpath_on_layers dlib32 along_mesh [one; one] (at_ (pt10 5 15)) (at_ (pt10 25 10)) [] = Ok (Some along_path) /\
  dpath_on_layers dlib32 along_mesh [one; pt 10 10] (at_ (pt10 5 15)) (at_ (pt10 25 10)) [] = Ok (Some along_path) /\
  get_point_location std_bvh along_mesh (coords_on_layer (pt100 225 100) 0) = Ok MAX /\
  get_point_location std_bvh along_mesh (coords_on_layer (pt100 225 100) 1) = Ok (id_make 1 1).
Proof.
  split; [vmc|]. split; [vmc|]. split; [vmc|]. split; [vmc|vmc].
Qed.

Print Assumptions C86_along_border_refuted.
