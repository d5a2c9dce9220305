(** Replays of the tests of trimesh.rs in binary32 (faithfulness tests, not proofs). *)
From Coq Require Import List NArith ZArith Bool.
From Coq.Floats Require Import SpecFloat.
From Verif Require Import Base Arith F32 U32 Mesh Helpers Locate Bake Search StdLib Tests Tests_stitch Trimesh.
Import ListNotations.
Open Scope N_scope.

(** insertion from the right, as core's insertion_sort_shift_left does for at most 20 elements: the sorted part is kept reversed *)
Fixpoint insert_right {T} (cmp : T -> T -> comparison) (x : T) (rev_sorted : list T) : list T :=
  match rev_sorted with
  | [] => [x]
  | y :: r => match cmp x y with Lt => y :: insert_right cmp x r | _ => x :: rev_sorted end
  end.
Definition small_sort {T} (cmp : T -> T -> comparison) (l : list T) : res (list T) :=
  Ok (rev (fold_left (fun acc x => insert_right cmp x acc) l [])).

Definition tri_neighbours (t : Trimesh F32) : list (list (list N)) :=
  match mesh_of_trimesh small_sort t with Ok (Done m) => neighbours m | _ => [] end.
(** trimesh.rs 172-250: the test compares up to rotation; here is the rotation the code produces *)
Definition test_trimesh : Trimesh F32 := mkTrimesh [pt 1 1; pt 5 1; pt 5 4; pt 1 4; pt 2 2; pt 4 3]
  [(0, 1, 4); (1, 2, 5); (5, 2, 3); (1, 5, 3); (0, 4, 3)].
Example t_trimesh :
  tri_neighbours test_trimesh =
  [[[4; MAX; 0]; [3; MAX; 0; MAX; 1]; [1; MAX; 2]; [MAX; 3; 2; MAX; 4]; [0; MAX; 4]; [2; 3; 1]]].
Proof. vmc. Qed.
(** trimesh.rs 252-260: isolated_vertex_fails *)
Example t_isolated : mesh_of_trimesh small_sort (@mkTrimesh F32 [pt 1 1] []) = Ok (Err InvalidMesh).
Proof. vmc. Qed.
