(** Baking: src/layers.rs 45-157, src/lib.rs 158-209. *)
From Coq Require Import List NArith ZArith Bool.
From Verif Require Import Base Arith U32 Mesh Helpers.
Import ListNotations.
Open Scope N_scope.

(** [usize::MAX] (64 bit), the "no island yet" marker of layers.rs 70 *)
Definition UMAX : N := 18446744073709551615.

Section Bake.
Context {A : Arith}.

(** layers.rs 112-131: bounding box of a polygon, a fold starting from ((MAX,MAX),(0,0)) *)
Definition aabb_step (vs : list (Vertex A)) (bb : vec2 A * vec2 A) (i : N) : vec2 A * vec2 A :=
  match nthN vs i with
  | None => bb
  | Some v =>
      let c := coords v in
      let lo := fst bb in let hi := snd bb in
      (V (if flt (vx c) (vx lo) then vx c else vx lo)
         (if flt (vy c) (vy lo) then vy c else vy lo),
       V (if fgt (vx c) (vx hi) then vx c else vx hi)
         (if fgt (vy c) (vy hi) then vy c else vy hi))
  end.
Definition polygon_aabb (vs : list (Vertex A)) (p : Polygon) : vec2 A * vec2 A :=
  fold_left (aabb_step vs) (pverts p) (V fmaxval fmaxval, vzero).

(** layers.rs 107-136: bake_polygon_finder *)
Definition bake_polygon_finder (l : Layer A) : Layer A :=
  mkLayer (vertices l) (polygons l) (offset l)
          (Some (map (polygon_aabb (vertices l)) (polygons l))) (islands l).

(** layers.rs 82-94: the polygons pushed on [to_visit] when [next] gets its label;
    [self.vertices\[*v\]] panics when out of range *)
Definition island_neighbours (l : Layer A) (p : Polygon) : res (list N) :=
  let* vs := mapM (index (vertices l)) (pverts p) in
  Ok (filter (fun i => negb (N.eqb i MAX)) (flat_map vpolys vs)).

(** layers.rs 78-96: the inner loop.  [to_visit] is the Vec used as a stack: [pop] takes the last element,
    the model keeps the stack with its top first. *)
Fixpoint flood (fuel : nat) (l : Layer A) (root : N) (stack : list N) (isl : list N) : res (list N) :=
  match fuel with
  | O => NoFuel
  | S fuel =>
      match stack with
      | [] => Ok isl
      | next :: rest =>
          let* label := index isl next in
          if N.eqb label UMAX then
            let* poly := index (polygons l) next in
            let* ns := island_neighbours l poly in
            flood fuel l root (rev ns ++ rest) (updN isl next (fun _ => root))
          else flood fuel l root rest isl
      end
  end.

(** layers.rs 71-74: first index still unlabelled *)
Definition first_unlabelled (isl : list N) : option N :=
  option_map fst (find (fun iv => N.eqb (snd iv) UMAX) (enumerate isl)).

(** layers.rs 71-97: the outer loop *)
Fixpoint flood_all (fuel inner : nat) (l : Layer A) (isl : list N) : res (list N) :=
  match fuel with
  | O => NoFuel
  | S fuel =>
      match first_unlabelled isl with
      | None => Ok isl
      | Some root => let* isl := flood inner l root [root] isl in flood_all fuel inner l isl
      end
  end.

(** Fuel: one outer round per polygon, and for the inner loop one step per polygon and per neighbour entry
    (C21 proves that it suffices). *)
Definition flood_fuel (l : Layer A) : nat :=
  S (S (length (polygons l)) +
  fold_right (fun p n => fold_right (fun i k => match nthN (vertices l) i with
                                                | Some v => length (vpolys v) + k
                                                | None => k end) 0 (pverts p) + n) 0 (polygons l))%nat.

(** layers.rs 69-99: bake_islands_detection *)
Definition bake_islands_detection (l : Layer A) : res (Layer A) :=
  let* isl := flood_all (S (length (polygons l))) (flood_fuel l) l
                        (repeat UMAX (length (polygons l))) in
  Ok (mkLayer (vertices l) (polygons l) (offset l) (baked l) (Some isl)).

(** layers.rs 59-62: Layer::bake *)
Definition layer_bake (l : Layer A) : res (Layer A) :=
  bake_islands_detection (bake_polygon_finder l).

(** lib.rs 197-201: Mesh::bake *)
Definition mesh_bake (m : Mesh A) : res (Mesh A) :=
  let* ls := mapM layer_bake (layers m) in
  Ok (mkMesh ls (search_delta m) (search_steps m)).

(** layers.rs 139-157: Layer::new (default features: the layer is baked) *)
Definition layer_new (vs : list (Vertex A)) (ps : list Polygon) : res (outcome (Layer A)) :=
  if (match vs with [] => true | _ => false end) || (match ps with [] => true | _ => false end)
  then Ok (Err EmptyMesh)
  else if 2^24 - 1 <? lengthN ps then Ok (Err TooManyPolygons)
  else let* l := layer_bake (mkLayer vs ps vzero None None) in Ok (Done l).

(** lib.rs 160-166: Mesh::new *)
Definition mesh_new (vs : list (Vertex A)) (ps : list Polygon) : res (outcome (Mesh A)) :=
  let* o := layer_new vs ps in
  Ok (match o with
      | Err e => Err e
      | Done l => Done (mkMesh [l] (search_delta (mesh_default (A:=A))) (search_steps (mesh_default (A:=A))))
      end).

End Bake.
