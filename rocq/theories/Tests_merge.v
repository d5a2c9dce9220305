(** Replays of the tests of merger.rs in binary32 (faithfulness tests, not proofs). *)
From Coq Require Import List NArith ZArith Bool.
From Coq.Floats Require Import SpecFloat.
From Verif Require Import Base Arith F32 U32 Mesh Helpers Locate Bake Search StdLib Tests Cleanup Stitch Tests_stitch Merger.
Import ListNotations.
Open Scope N_scope.

Section Std.
Context {A : Arith}.
(** one possible unsigned_area: the absolute value of the shoelace sum, relative to the first point, divided by two *)
Fixpoint shoelace (o : vec2 A) (l : list (vec2 A)) : F A :=
  match l with
  | a :: ((b :: _) as r) => fadd (perp_dot (vsub a o) (vsub b o)) (shoelace o r)
  | _ => fz 0
  end.
Definition std_area (l : list (vec2 A)) : F A :=
  match l with
  | [] => fz 0
  | o :: r => fabs (fdiv (shoelace o (o :: r)) (fz 2))
  end.
(** one possible sort_by: insertion, stable, decreasing *)
Fixpoint ins_area (x : N * F A) (l : list (N * F A)) : list (N * F A) :=
  match l with
  | [] => [x]
  | y :: r => if fge (snd x) (snd y) then x :: l else y :: ins_area x r
  end.
Definition std_sort_area (l : list (N * F A)) : list (N * F A) := fold_right ins_area [] l.
(** the test of geo 0.29 (is_convex_shaped, collinear allowed, counter clockwise required) in the arithmetic at hand: no three
    consecutive points of the ring turn right and some three turn left.  geo computes the orientations exactly. *)
Fixpoint triples (l : list (vec2 A)) : list (vec2 A * vec2 A * vec2 A) :=
  match l with
  | a :: ((b :: c :: _) as r) => (a, b, c) :: triples r
  | _ => []
  end.
Definition ring_triples (l : list (vec2 A)) : list (vec2 A * vec2 A * vec2 A) :=
  match l with
  | a :: b :: _ => triples (l ++ [a; b])
  | _ => []
  end.
Definition turn (t : vec2 A * vec2 A * vec2 A) : F A :=
  perp_dot (vsub (snd (fst t)) (fst (fst t))) (vsub (snd t) (snd (fst t))).
Definition std_convex (l : list (vec2 A)) : bool :=
  forallb (fun t => fle (fz 0) (turn t)) (ring_triples l) && existsb (fun t => flt (fz 0) (turn t)) (ring_triples l).
End Std.

Definition merge32 (m : Mesh F32) : res (Mesh F32) := merge_all std_area std_sort_area std_convex 100 m.

(** merger.rs 189-222 *)
Definition merge_u_grid : Mesh F32 := mesh1
  [vtx 0 0 [0; MAX]; vtx 1 0 [0; 1; MAX]; vtx 2 0 [1; 2; MAX]; vtx 3 0 [2; MAX];
   vtx 0 1 [3; 0; MAX]; vtx 1 1 [3; 1; 0; MAX]; vtx 2 1 [4; 2; 1; MAX]; vtx 3 1 [4; 2; MAX];
   vtx 0 2 [5; 3; MAX]; vtx 1 2 [5; 3; MAX]; vtx 2 2 [6; 4; MAX]; vtx 3 2 [6; 4; MAX];
   vtx 0 3 [5; MAX]; vtx 1 3 [5; MAX]; vtx 2 3 [6; MAX]; vtx 3 3 [6; MAX]]
  [mkPolygon [0; 1; 5; 4] false; mkPolygon [1; 2; 6; 5] false; mkPolygon [2; 3; 7; 6] false; mkPolygon [4; 5; 9; 8] false;
   mkPolygon [6; 7; 11; 10] false; mkPolygon [8; 9; 13; 12] false; mkPolygon [10; 11; 15; 14] false].

Definition all_polygons (r : res (Mesh F32)) : list (list Polygon) := match r with Ok m => map (fun l => polygons l) (layers m) | _ => [] end.
(** merger.rs 233-290: merge_and_path *)
Example t_merge_polygons :
  all_polygons (merge32 merge_u_grid) =
  [[mkPolygon [5; 4; 0; 1; 2; 6] false; mkPolygon [10; 6; 2; 3; 7; 11; 15; 14] false; mkPolygon [8; 4; 5; 9; 13; 12] false]].
Proof. vmc. Qed.
Example t_merge_vertices :
  map (firstn 9) (res_neighbours (merge32 merge_u_grid)) =
  [[[0; MAX]; [0; MAX]; [0; 1; MAX]; [1; MAX]; [2; 0; MAX]; [2; 0; MAX]; [1; 0; MAX]; [1; MAX]; [2; MAX]]].
Proof. vmc. Qed.
