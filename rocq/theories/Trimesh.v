(** Conversion of a list of triangles: src/input/trimesh.rs. *)
From Coq Require Import List NArith ZArith Bool.
From Verif Require Import Base Arith U32 Mesh Helpers Bake.
Import ListNotations.
Open Scope N_scope.

Section Trimesh.
Context {A : Arith}.

(** `as u32` of a usize *)
Definition as_u32 (n : N) : N := n mod 2^32.

(** trimesh.rs 42-48 *)
Record Trimesh := mkTrimesh {
  tri_vertices : list (vec2 A);
  triangles : list (N * N * N)
}.
Definition tri_list (t : N * N * N) : list N := [fst (fst t); snd (fst t); snd t].

(** trimesh.rs 37-39: position of an index in the vertices of a polygon, unwrapped *)
Fixpoint position_from (k : N) (vs : list N) (i : N) : option N :=
  match vs with
  | [] => None
  | x :: r => if N.eqb x i then Some k else position_from (k + 1) r i
  end.
Definition position (vs : list N) (i : N) : res N := unwrap (position_from 0 vs i).
(** trimesh.rs 28-31: the next vertex around the polygon *)
Definition cw_neighbor (vs : list N) (i : N) : res N :=
  let* p := position vs i in index vs ((p + 1) mod lengthN vs).
(** trimesh.rs 33-36: the previous vertex around the polygon *)
Definition ccw_neighbor (vs : list N) (i : N) : res N :=
  let* p := position vs i in index vs ((p + (lengthN vs - 1)) mod lengthN vs).

(** slice::sort_by, given the comparison of the polygons through their edges: an oracle.  It may panic, as the documentation of
    sort_by allows when the comparison is not a total order. *)
Variable sort_by : (N * vec2 A -> N * vec2 A -> comparison) -> list (N * vec2 A) -> res (list (N * vec2 A)).

(** trimesh.rs 73-79: the comparison *)
Definition tri_cmp (a b : N * vec2 A) : comparison :=
  if fgt (perp_dot (snd a) (snd b)) (fz 0) then Lt else Gt.

(** trimesh.rs 63-72: the edge to the previous vertex of the polygon *)
Definition ccw_edge (ts : Trimesh) (ps : list Polygon) (vi : N) (vc : vec2 A) (i : N) : res (N * vec2 A) :=
  let* p := index ps i in
  let* n := ccw_neighbor (pverts p) vi in
  let* c := index (tri_vertices ts) n in
  Ok (i, vsub c vc).

(** trimesh.rs 62-80.  No comparison is made for less than two polygons; with more of them every one is compared. *)
Definition sort_around (ts : Trimesh) (ps : list Polygon) (vi : N) (vc : vec2 A) (ids : list N) : res (list N) :=
  match ids with
  | [] | [_] => Ok ids
  | _ => let* es := mapM (ccw_edge ts ps vi vc) ids in
         let* s := sort_by tri_cmp es in
         Ok (map fst s)
  end.

(** trimesh.rs 88-117: outside markers between polygons that do not share an edge *)
Fixpoint add_obstacles (ps : list Polygon) (vi : N) (acc : list N) (ids : list N) : res (list N) :=
  match ids with
  | [] => Ok acc
  | i :: r =>
      let l := last acc MAX in
      if N.eqb l MAX then add_obstacles ps vi (acc ++ [i]) r
      else
        let* pl := index ps l in
        let* a := ccw_neighbor (pverts pl) vi in
        let* pi := index ps i in
        let* b := cw_neighbor (pverts pi) vi in
        add_obstacles ps vi (acc ++ (if N.eqb a b then [i] else [MAX; i])) r
  end.

(** trimesh.rs 130-148: to_vertices, the polygons of vertex vi *)
Definition incident (ts : Trimesh) (vi : N) : list N :=
  map (fun it => as_u32 (fst it)) (filter (fun it => memN vi (tri_list (snd it))) (enumerate (triangles ts))).

(** trimesh.rs 150-166: to_polygons *)
Definition to_polygons (ts : list (N * N * N)) : list Polygon :=
  map (fun t => mkPolygon (map as_u32 (tri_list t)) (N.eqb (lengthN ts) 1)) ts.

(** trimesh.rs 60-120: one vertex; None for the error InvalidMesh *)
Definition tri_vertex (ts : Trimesh) (ps : list Polygon) (ic : N * vec2 A) : res (option (list N)) :=
  let* ids := sort_around ts ps (fst ic) (snd ic) (incident ts (fst ic)) in
  match ids with
  | [] => Ok None
  | i0 :: r => let* acc := add_obstacles ps (fst ic) [i0] (r ++ [i0]) in Ok (Some (tl acc))
  end.

(** trimesh.rs 60-120: the vertices in order, stopping at the first error *)
Fixpoint tri_vertices_loop (ts : Trimesh) (ps : list Polygon) (vs : list (N * vec2 A)) : res (option (list (Vertex A))) :=
  match vs with
  | [] => Ok (Some [])
  | ic :: r =>
      let* o := tri_vertex ts ps ic in
      match o with
      | None => Ok None
      | Some ids => let* os := tri_vertices_loop ts ps r in
                    Ok (option_map (cons (vertex_new (snd ic) ids)) os)
      end
  end.

(** trimesh.rs 50-127: TryFrom<Trimesh> for Mesh *)
Definition mesh_of_trimesh (ts : Trimesh) : res (outcome (Mesh A)) :=
  let ps := to_polygons (triangles ts) in
  let* o := tri_vertices_loop ts ps (enumerate (tri_vertices ts)) in
  match o with
  | None => Ok (Err InvalidMesh)
  | Some vs => mesh_new vs ps
  end.
End Trimesh.

Arguments Trimesh A : clear implicits.
