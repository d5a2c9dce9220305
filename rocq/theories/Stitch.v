(** Stitching layers together: src/stitching.rs. *)
From Coq Require Import List NArith ZArith Bool.
From Verif Require Import Base Arith U32 Mesh Helpers Cleanup.
Import ListNotations.
Open Scope N_scope.

(** stitching.rs 7: StitchVertices *)
Definition StitchVertices := list ((N * N) * list (N * N)).

(** u32 `+=`: overflow panics (debug profile; a release build would wrap) *)
Definition add_u32 (a b : N) : res N := if a + b <? 2^32 then Ok (a + b) else Panic.

Section Stitch.
Context {A : Arith}.
Variable sort : list (Z * N) -> list (Z * N).

(** stitching.rs 8: StitchPoints *)
Definition StitchPoints := list ((N * N) * list (vec2 A)).

Definition set_vpolys (v : Vertex A) (ps : list N) : Vertex A := mkVertex (coords v) ps (is_corner v).
Definition set_vertices (l : Layer A) (vs : list (Vertex A)) : Layer A :=
  mkLayer vs (polygons l) (offset l) (baked l) (islands l).
Definition set_layers (m : Mesh A) (ls : list (Layer A)) : Mesh A := mkMesh ls (search_delta m) (search_steps m).

(** stitching.rs 24-30: add the layer number to the ids of all the vertices of a layer;
    `(layer_index as u32) << 24` keeps the low 8 bits of the layer number *)
Definition tag_layer (li : N) (l : Layer A) : res (Layer A) :=
  let* vs := mapM (fun v => let* ps := mapM (fun p => if N.eqb p MAX then Ok p else add_u32 p ((li mod 256) * 2^24)) (vpolys v) in
                            Ok (set_vpolys v ps)) (vertices l) in
  Ok (set_vertices l vs).

(** stitching.rs 18-31 *)
Definition tag_layers (target : option N) (ls : list (Layer A)) : res (list (Layer A)) :=
  mapM (fun il => match target with
                  | Some t => if N.eqb t (fst il mod 256) then tag_layer (fst il) (snd il) else Ok (snd il)
                  | None => tag_layer (fst il) (snd il)
                  end) (enumerate ls).

(** stitching.rs 44-49 and 57-62: the polygons of a vertex in its own layer *)
Definition own_ids (li : N) (v : Vertex A) : list N :=
  filter (fun n => negb (N.eqb n MAX) && N.eqb (id_layer n) li) (vpolys v).

(** vertex.polygons.append(ids) *)
Definition append_at (ls : list (Layer A)) (li vi : N) (ids : list N) : list (Layer A) :=
  updN ls li (fun l => set_vertices l (updN (vertices l) vi (fun v => set_vpolys v (vpolys v ++ ids)))).

(** stitching.rs 39-76: one stitch *)
Definition stitch_one (one_way : bool) (from to : N) (ls : list (Layer A)) (ft : N * N) : res (list (Layer A)) :=
  let* lf := index ls from in
  let* vf := unwrap (nthN (vertices lf) (fst ft)) in
  let* lt := unwrap (nthN ls to) in
  let* vt := unwrap (nthN (vertices lt) (snd ft)) in
  let ls1 := if one_way then ls else append_at ls to (snd ft) (own_ids from vf) in
  (* lines 70-76 look up the same layer and vertex again: they exist *)
  Ok (append_at ls1 from (fst ft) (own_ids to vt)).

(** stitching.rs 32-38: the pairs of layers that do not concern the target layer are skipped *)
Definition concerns (target : option N) (from to : N) : bool :=
  match target with
  | None => true
  | Some t => N.eqb t from || N.eqb t to
  end.
Definition stitch_pair (target : option N) (one_way : bool) (ls : list (Layer A)) (s : (N * N) * list (N * N)) : res (list (Layer A)) :=
  if concerns target (fst (fst s)) (snd (fst s)) then foldM (stitch_one one_way (fst (fst s)) (snd (fst s))) ls (snd s)
  else Ok ls.

(** stitching.rs 11-79: stitch_internals *)
Definition stitch_internals (m : Mesh A) (target : option N) (S : StitchVertices) (one_way : bool) : res (Mesh A) :=
  let* ls := tag_layers target (layers m) in
  let* ls := foldM (stitch_pair target one_way) ls S in
  reorder sort (set_layers m ls).

(** iter().position(|v| v.coords == point) *)
Fixpoint position (vs : list (Vertex A)) (p : vec2 A) (i : N) : option N :=
  match vs with
  | [] => None
  | v :: r => if veq (coords v) p then Some i else position r p (i + 1)
  end.

(** stitching.rs 84-103, and 177-196: the vertices of the points *)
Definition points_to_vertices (m : Mesh A) (S : StitchPoints) : res StitchVertices :=
  mapM (fun s =>
    let* ps := mapM (fun p => let* lf := index (layers m) (fst (fst s)) in
                              let* f := unwrap (position (vertices lf) p 0) in
                              let* lt := index (layers m) (snd (fst s)) in
                              let* t := unwrap (position (vertices lt) p 0) in
                              Ok (f, t)) (snd s) in
    Ok (fst s, ps)) S.

(** stitching.rs 83-105: stitch_at_points *)
Definition stitch_at_points (m : Mesh A) (S : StitchPoints) (one_way : bool) : res (Mesh A) :=
  let* sv := points_to_vertices m S in stitch_internals m None sv one_way.

(** stitching.rs 109-111: stitch_at_vertices *)
Definition stitch_at_vertices (m : Mesh A) (S : StitchVertices) (one_way : bool) : res (Mesh A) :=
  stitch_internals m None S one_way.

(** stitching.rs 119-129 and 142-152: keep the markers and the ids of the layer itself, without layer number *)
Definition drop_foreign (li : N) (ps : list N) : list N :=
  flat_map (fun p => if N.eqb p MAX then [p]
                     else if N.eqb (id_layer p) (li mod 256) then [id_polygon p] else []) ps.

Definition map_vpolys (f : list N -> list N) (l : Layer A) : Layer A :=
  set_vertices l (map (fun v => set_vpolys v (f (vpolys v))) (vertices l)).

(** stitching.rs 116-132: remove_stitches *)
Definition remove_stitches (m : Mesh A) : Mesh A :=
  set_layers m (map (fun il => map_vpolys (drop_foreign (fst il)) (snd il)) (enumerate (layers m))).

(** stitching.rs 137-164: remove_stitches_to_layer *)
Definition remove_stitches_to_layer (m : Mesh A) (t : N) : Mesh A :=
  set_layers m (map (fun il =>
    map_vpolys (if N.eqb (fst il mod 256) t then drop_foreign (fst il)
                else filter (fun p => N.eqb p MAX || negb (N.eqb (id_layer p) t))) (snd il)) (enumerate (layers m))).

(** stitching.rs 171-199: restitch_layer_at_points *)
Definition restitch_layer_at_points (m : Mesh A) (t : N) (S : StitchPoints) (one_way : bool) : res (Mesh A) :=
  let* sv := points_to_vertices m S in stitch_internals m (Some t) sv one_way.

(** stitching.rs 206-213: restitch_layer_at_vertices *)
Definition restitch_layer_at_vertices (m : Mesh A) (t : N) (S : StitchVertices) (one_way : bool) : res (Mesh A) :=
  stitch_internals m (Some t) S one_way.

(** HashMap::entry(k).or_default().push(p), the map being a list of (key, values) with distinct keys *)
Fixpoint entry_push (k : N * N) (p : vec2 A) (h : list ((N * N) * list (vec2 A))) : list ((N * N) * list (vec2 A)) :=
  match h with
  | [] => [(k, [p])]
  | (k', ps) :: r => if N.eqb (fst k) (fst k') && N.eqb (snd k) (snd k') then (k', ps ++ [p]) :: r
                     else (k', ps) :: entry_push k p r
  end.

(** sort_by_key(|((a, b), _)| ( *a, *b)): insertion sort; the keys of a map are distinct, so the result does not
    depend on the sort used nor on the iteration order of the HashMap *)
Definition key_le (a b : N * N) : bool := (fst a <? fst b) || (N.eqb (fst a) (fst b) && (snd a <=? snd b)).
Fixpoint insert_key (x : (N * N) * list (vec2 A)) (l : list ((N * N) * list (vec2 A))) : list ((N * N) * list (vec2 A)) :=
  match l with
  | [] => [x]
  | y :: r => if key_le (fst x) (fst y) then x :: l else y :: insert_key x r
  end.
Definition sort_keys (l : list ((N * N) * list (vec2 A))) : list ((N * N) * list (vec2 A)) := fold_right insert_key [] l.

(** stitching.rs 222-235: the pushes, in the order of the nested loops; layer numbers are cast to u8 *)
Definition common_points (ls : list (Layer A)) : list ((N * N) * vec2 A) :=
  flat_map (fun il =>
    flat_map (fun v =>
      flat_map (fun jl =>
        flat_map (fun w => if veq (coords v) (coords w) then [((fst il mod 256, fst jl mod 256), coords v)] else [])
                 (vertices (snd jl)))
        (skipn (N.to_nat (fst il + 1)) (enumerate ls)))
      (vertices (snd il)))
    (enumerate ls).

(** stitching.rs 220-240: find_stitch_points *)
Definition find_stitch_points (m : Mesh A) : StitchPoints :=
  sort_keys (fold_left (fun h kp => entry_push (fst kp) (snd kp) h) (common_points (layers m)) []).

End Stitch.
