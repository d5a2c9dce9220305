(** Mesh maintenance: src/mesh_cleanup.rs. *)
From Coq Require Import List NArith ZArith Bool.
From Verif Require Import Base Arith U32 Mesh Helpers.
Import ListNotations.
Open Scope N_scope.

Section Cleanup.
Context {A : Arith}.

(** slice::sort_unstable_by_key on (key, element) pairs: an oracle, see [sort_ok] in Cleanup_facts.v
    (a permutation, increasing keys; the order of elements with equal keys is not specified). *)
Variable sort : list (Z * N) -> list (Z * N).

(** mesh_cleanup.rs 16, 26-34, 48-49: the polygon with a global id *)
Definition polygon_of (m : Mesh A) (id : N) : res (Layer A * Polygon) :=
  let* l := index (layers m) (id_layer id) in
  let* p := index (polygons l) (id_polygon id) in
  Ok (l, p).

(** mesh_cleanup.rs 25-38: the sort key of a polygon around a vertex *)
Definition angle_key (m : Mesh A) (vc : vec2 A) (id : N) : res Z :=
  let* lp := polygon_of m id in
  let* vs := mapM (index (vertices (fst lp))) (pverts (snd lp)) in
  let center := vadd (vdivs (vsum (map (fun v => coords v) vs)) (fz (Z.of_N (lengthN (pverts (snd lp)))))) (offset (fst lp)) in
  Ok (fi32 (fmul (angle_to (V (fz 0) (fz 1)) (vsub center vc)) (fz 100000))).

(** mesh_cleanup.rs 25: the sort itself.  No key is computed for less than two elements. *)
Definition sort_by_key (key : N -> res Z) (ps : list N) : res (list N) :=
  match ps with
  | [] | [_] => Ok ps
  | _ => let* ks := mapM (fun p => let* k := key p in Ok (k, p)) ps in Ok (map snd (sort ks))
  end.

(** Vec::dedup / dedup_by_key(|p| *p): consecutive equal elements are reduced to the first *)
Fixpoint dedup (l : list N) : list N :=
  match l with
  | a :: ((b :: _) as r) => if N.eqb a b then dedup r else a :: dedup r
  | _ => l
  end.

(** mesh_cleanup.rs 57-69 and 77-89: the element after the first one that is near the vertex *)
Fixpoint after_near (l : Layer A) (vc : vec2 A) (found : bool) (vs : list N) : res (option N) :=
  match vs with
  | [] => Ok None
  | v :: r =>
      if found then Ok (Some v)
      else let* vt := index (vertices l) v in
           after_near l vc (flt (vdist2 (vadd (coords vt) (offset l)) vc) (flit 1 10000)) r
  end.

(** mesh_cleanup.rs 50-100: is there a hole between two polygons that follow each other around the vertex *)
Definition gap (m : Mesh A) (vc : vec2 A) (a b : N) : res bool :=
  let* lp0 := polygon_of m a in
  let* l1 := index (layers m) (id_layer b) in
  let vs0 := rev (pverts (snd lp0)) in
  let* previous0 := after_near (fst lp0) vc false (vs0 ++ vs0) in
  match previous0 with
  | None => Ok true
  | Some p0 =>
      let* p1 := index (polygons l1) (id_polygon b) in
      let* next1 := after_near l1 vc false (pverts p1 ++ pverts p1) in
      match next1 with
      | None => Ok true
      | Some n1 =>
          let* v0 := index (vertices (fst lp0)) p0 in
          let* v1 := index (vertices l1) n1 in
          Ok (negb (veq (vadd (coords v0) (offset (fst lp0))) (vadd (coords v1) (offset l1))))
      end
  end.

(** mesh_cleanup.rs 46-51: consecutive pairs, then (last, first) *)
Definition cyclic_pairs (l : list N) : list (N * N) :=
  match l with
  | [] => []
  | a :: r => windows2 (a :: r) ++ [(last r a, a)]
  end.

(** mesh_cleanup.rs 14-106: the new neighbour list of a vertex *)
Definition reorder_vertex (m : Mesh A) (l : Layer A) (v : Vertex A) : res (list N) :=
  let vc := vadd (coords v) (offset l) in
  let* ps := sort_by_key (angle_key m vc) (filter (fun p => negb (N.eqb p MAX)) (vpolys v)) in
  match dedup ps with
  | [] => Ok [MAX]
  | first :: r =>
      if N.eqb first (last r first) then Ok ((first :: r) ++ [MAX])
      else let* ls := mapM (fun ab => let* g := gap m vc (fst ab) (snd ab) in
                                      Ok (if g then [fst ab; MAX] else [fst ab])) (cyclic_pairs (first :: r)) in
           Ok (concat ls)
  end.

(** mesh_cleanup.rs 9-117: reorder_neighbors_ccw_and_fix_corners.
    All the new lists are computed from the old mesh, then written back. *)
Definition reorder (m : Mesh A) : res (Mesh A) :=
  let* ls := mapM (fun l =>
      let* vs := mapM (fun v => let* new := reorder_vertex m l v in
                                Ok (mkVertex (coords v) new (memN MAX new))) (vertices l) in
      Ok (mkLayer vs (polygons l) (offset l) (baked l) (islands l))) (layers m) in
  Ok (mkMesh ls (search_delta m) (search_steps m)).

(** mesh_cleanup.rs 137-139: a vertex without polygon *)
Definition useless (v : Vertex A) : bool :=
  match vpolys v with
  | [] => true
  | [p] => N.eqb p MAX
  | _ => false
  end.

(** mesh_cleanup.rs 134-144: the table of the new indices *)
Fixpoint kept_indexes (vs : list (Vertex A)) (kept : N) : list N :=
  match vs with
  | [] => []
  | v :: r => if useless v then MAX :: kept_indexes r kept else kept :: kept_indexes r (kept + 1)
  end.

(** mesh_cleanup.rs 132-163: Layer::remove_useless_vertices.
    It does not touch the polygon finder nor the islands. *)
Definition layer_remove_useless (l : Layer A) : res (Layer A * bool) :=
  let idx := kept_indexes (vertices l) 0 in
  let* ps := mapM (fun p => let* vs := mapM (index idx) (pverts p) in Ok (mkPolygon vs (is_one_way p))) (polygons l) in
  Ok (mkLayer (map snd (filter (fun iv => negb (N.eqb (fst iv) MAX)) (combine idx (vertices l)))) ps
              (offset l) (baked l) (islands l),
      existsb useless (vertices l)).

(** `!iter.map(f).all(|m| !m)`: stops at the first layer for which f returns true (mesh_cleanup.rs 121-127,
    merger.rs 12-18) *)
Fixpoint until_true (f : Layer A -> res (Layer A * bool)) (ls : list (Layer A)) : res (list (Layer A) * bool) :=
  match ls with
  | [] => Ok ([], false)
  | l :: r =>
      let* lb := f l in
      if snd lb then Ok (fst lb :: r, true)
      else let* rb := until_true f r in Ok (fst lb :: fst rb, snd rb)
  end.

(** mesh_cleanup.rs 121-127: Mesh::remove_useless_vertices *)
Definition mesh_remove_useless (m : Mesh A) : res (Mesh A * bool) :=
  let* lb := until_true layer_remove_useless (layers m) in
  Ok (mkMesh (fst lb) (search_delta m) (search_steps m), snd lb).

End Cleanup.
