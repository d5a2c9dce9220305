(** Replays of the tests with the feature `detailed-layers` in binary32 (faithfulness tests, not proofs). *)
From Coq Require Import List NArith ZArith Bool.
From Coq.Floats Require Import SpecFloat.
From Verif Require Import Base Arith F32 U32 Mesh Helpers Locate Bake Search StdLib Tests Stitch Tests_stitch Detailed.
Import ListNotations.
Open Scope N_scope.

(** pop the first greatest element *)
Fixpoint std_dpop {A} (q : list (DNode A)) : option (DNode A * list (DNode A)) :=
  match q with
  | [] => None
  | n :: r =>
      match std_dpop r with
      | None => Some (n, r)
      | Some (m, r') =>
          match node_cmp (dnode n) (dnode m) with
          | Lt => Some (m, n :: r')
          | _ => Some (n, r)
          end
      end
  end.
Definition std_dlib {A} : DLib A := mkDLib std_bvh std_dpop.
Definition dlib32 : DLib F32 := std_dlib.

(** stitching.rs 898-974 *)
Definition flat (vs : list (Vertex F32)) (p : list N) (x y : Z) : Layer F32 :=
  mkLayer vs [mkPolygon p false] (pt x y) None None.
Definition four (h : Z) : list (Vertex F32) := [vtx 0 0 [0; MAX]; vtx 1 0 [0; MAX]; vtx 0 h [0; MAX]; vtx 1 h [0; MAX]].
Definition hill_layers : Mesh F32 := mesh_of
  [flat [vtx 0 0 [0; MAX]; vtx 2 0 [0; MAX]; vtx 0 1 [0; MAX]; vtx 1 1 [0; MAX]; vtx 2 1 [0; MAX]] [0; 1; 4; 3; 2] 0 0;
   flat (four 1) [0; 1; 3; 2] 0 1;
   flat (four 1) [0; 1; 3; 2] 0 2;
   flat (four 2) [0; 1; 3; 2] 1 1;
   flat [vtx 0 0 [0; MAX]; vtx 1 0 [0; MAX]; vtx 2 0 [0; MAX]; vtx 0 1 [0; MAX]; vtx 2 1 [0; MAX]] [0; 1; 2; 4; 3] 0 3].
Definition hill_mesh : Mesh F32 :=
  match stitch_at_vertices std_sort hill_layers
    [((0, 1), [(2, 0); (3, 1)]); ((1, 2), [(2, 0); (3, 1)]); ((0, 3), [(3, 0); (4, 1)]);
     ((2, 4), [(2, 0); (3, 1)]); ((3, 4), [(2, 1); (3, 2)])] false with
  | Ok m => m | _ => hill_layers end.
Definition one : vec2 F32 := pt 1 1.
Definition hill_scales : list (vec2 F32) := [one; pt10 10 11; pt10 10 11; one; one].

Definition dquery (m : Mesh F32) (sc : list (vec2 F32)) (a b : vec2 F32) : res (option (DPath F32)) :=
  dpath_on_layers dlib32 m sc (at_ a) (at_ b) [].
(** |x - n/100| < 1/100 *)
Definition about (x : F F32) (n : Z) : bool := flt (fabs (fsub x (q n 100))) (q 1 100).
Definition close_to (r : res (option (DPath F32))) (len : F F32) (ys : list (vec2 F32 -> bool)) (ls : list N) (tol : F F32) : bool :=
  match r with
  | Ok (Some p) =>
      flt (fabs (fsub (dlength p) len)) tol
      && (length (dlayers p) =? length ys)%nat
      && forallb (fun c => fst c (fst (snd c))) (combine ys (dlayers p))
      && (if list_eq_dec N.eq_dec (map snd (dlayers p)) ls then true else false)
  | _ => false
  end.
Definition y_is (n : Z) (p : vec2 F32) : bool := feq (vy p) (q n 10).
Definition tenth (i : nat) : Z := Z.of_nat i.
Definition long_way (i : nat) : F F32 :=
  fadd (fmul (vdist (pt10 (tenth i) 1) one) (q 2 1)) (q 2 1).

(** stitching.rs 990-1063: there *)
Definition hill_there (i : nat) : bool :=
  let r := dquery hill_mesh hill_scales (pt10 (tenth i) 1) (pt10 (tenth i) 39) in
  if (i <? 6)%nat then close_to r (q 4 1) [y_is 10; y_is 20; y_is 30; y_is 39] [1; 2; 4; 4] (q 1 10)
  else if (i <? 10)%nat then close_to r (long_way i) [y_is 10; y_is 30; y_is 39] [3; 4; 4] (q 1 100)
  else close_to r (q 38 10) [y_is 10; y_is 30; y_is 39] [3; 4; 4] (q 1 100).
(** stitching.rs 1064-1137: and back *)
Definition hill_back (i : nat) : bool :=
  let r := dquery hill_mesh hill_scales (pt10 (tenth i) 39) (pt10 (tenth i) 1) in
  if (i <? 6)%nat then close_to r (q 4 1) [y_is 30; y_is 20; y_is 10; y_is 1] [2; 1; 0; 0] (q 1 100)
  else if (i <? 10)%nat then close_to r (long_way i) [y_is 30; y_is 10; y_is 1] [3; 0; 0] (q 1 100)
  else close_to r (q 38 10) [y_is 30; y_is 10; y_is 1] [3; 0; 0] (q 1 100).
Example t_hill_there : forallb hill_there (seq 0 20) = true.
Proof. vmc. Qed.
Example t_hill_back : forallb hill_back (seq 0 20) = true.
Proof. vmc. Qed.

(** stitching.rs 779-893: three unit squares side by side, the middle one with scale (0.5, 1).  The layers of the test are
    unit squares with the same vertices in some order. *)
Definition row_layers : Mesh F32 := mesh_of
  [flat (four 1) [0; 1; 3; 2] 0 0; flat (four 1) [0; 1; 3; 2] 1 0; flat (four 1) [0; 1; 3; 2] 2 0].
Definition row_mesh : Mesh F32 :=
  match stitch_at_vertices std_sort row_layers [((0, 1), [(1, 0); (3, 2)]); ((1, 2), [(1, 0); (3, 2)])] false with
  | Ok m => m | _ => row_layers end.
Definition row_scales : list (vec2 F32) := [one; @V F32 (q 1 2) (q 1 1); one].
Definition is_path (r : res (option (DPath F32))) (len : F F32) (pth : list (vec2 F32)) (lay : list (vec2 F32 * N)) : bool :=
  match r with
  | Ok (Some p) =>
      feq (dlength p) len
      && (length (dpath p) =? length pth)%nat && forallb (fun c : vec2 F32 * vec2 F32 => veq (fst c) (snd c)) (combine (dpath p) pth)
      && (length (dlayers p) =? length lay)%nat
      && forallb (fun c : (vec2 F32 * N) * (vec2 F32 * N) => veq (fst (fst c)) (fst (snd c)) && N.eqb (snd (fst c)) (snd (snd c)))
                 (combine (dlayers p) lay)
  | _ => false
  end.
Example t_row_1 : is_path (dquery row_mesh row_scales (pt100 50 50) (pt100 125 50))
  (q 625 1000) [pt100 125 50] [(pt100 100 50, 1); (pt100 125 50, 1)] = true.
Proof. vmc. Qed.
Example t_row_2 : is_path (dquery row_mesh row_scales (pt100 125 50) (pt100 175 50)) (q 1 2) [pt100 175 50] [(pt100 175 50, 1)] = true.
Proof. vmc. Qed.
Example t_row_3 : is_path (dquery row_mesh row_scales (pt100 50 50) (pt100 175 50))
  (q 875 1000) [pt100 175 50] [(pt100 100 50, 1); (pt100 175 50, 1)] = true.
Proof. vmc. Qed.
Example t_row_4 : is_path (dquery row_mesh row_scales (pt100 175 50) (pt100 50 50))
  (q 875 1000) [pt100 50 50] [(pt100 100 50, 0); (pt100 50 50, 0)] = true.
Proof. vmc. Qed.

(** ** The meshes of the findings *)
Definition vt10 (x y : Z) (ps : list N) : Vertex F32 := vertex_new (pt10 x y) ps.
(** two ways from the first to the last layer: a steep one, ten times as long, and a flat one; the corner (0, 2.5) of the last
    layer is nearer by the steep one *)
Definition steep_layers : Mesh F32 := mesh_of
  [flat [vtx 0 0 [0; MAX]; vtx 2 0 [0; MAX]; vtx 0 1 [0; MAX]; vtx 1 1 [0; MAX]; vtx 2 1 [0; MAX]] [0; 1; 4; 3; 2] 0 0;
   flat (four 1) [0; 1; 3; 2] 0 1;
   flat (four 1) [0; 1; 3; 2] 1 1;
   mkLayer [vt10 0 0 [0; MAX]; vt10 10 0 [0; MAX]; vt10 20 0 [0; MAX]; vt10 20 10 [0; MAX]; vt10 0 10 [0; 1; MAX];
            vt10 0 5 [0; MAX; 1]; vt10 (-20) 5 [1; MAX]; vt10 (-20) 10 [1; MAX]]
     [mkPolygon [0; 1; 2; 3; 4; 5] false; mkPolygon [6; 5; 4; 7] false] (pt 0 2) None None].
Definition steep_mesh : Mesh F32 :=
  match stitch_at_vertices std_sort steep_layers
    [((0, 1), [(2, 0); (3, 1)]); ((0, 2), [(3, 0); (4, 1)]); ((1, 3), [(2, 0); (3, 1)]); ((2, 3), [(2, 1); (3, 2)])] false with
  | Ok m => m | _ => steep_layers end.
Definition steep_scales : list (vec2 F32) := [one; pt 1 10; one; one].

(** two rooms with a wall of thickness 0.005 between them, and a corridor above *)
Definition vmil (x y : Z) (ps : list N) : Vertex F32 := vertex_new (@V F32 (q x 1000) (q y 1000)) ps.
Definition wall_mesh : Mesh F32 := mkMesh [mkLayer
  [vmil (-1000) 0 [0; MAX]; vmil 0 0 [0; MAX]; vmil 0 1000 [0; MAX; 2]; vmil (-1000) 1000 [0; 2; MAX];
   vmil 5 0 [1; MAX]; vmil 1000 0 [1; MAX]; vmil 1000 1000 [1; MAX; 2]; vmil 5 1000 [1; 2; MAX];
   vmil 1000 2000 [2; MAX]; vmil (-1000) 2000 [2; MAX]]
  [mkPolygon [0; 1; 2; 3] false; mkPolygon [4; 5; 6; 7] false; mkPolygon [3; 2; 7; 6; 8; 9] false] vzero None None] (q 1 10) 2.
