(** Point location: src/layers.rs 160-335 and src/lib.rs 449-610. *)
From Coq Require Import List NArith ZArith Bool.
From Verif Require Import Base Arith U32 Mesh Helpers.
Import ListNotations.
Open Scope N_scope.

(** [0..n] *)
Definition rangeN (n : N) : list N := map N.of_nat (seq 0 (N.to_nat n)).

Section Locate.
Context {A : Arith}.
(** Oracle for BVH2d::contains_iterator: the indices of the boxes (of the list the BVH was built from)
    that are candidates for containing the point, in the order of the iterator. *)
Context (bvh : list (vec2 A * vec2 A) -> vec2 A -> list N).

(** layers.rs 182-210: point_in_polygon, the loop over the edges; [edged] as in the code *)
Fixpoint pip_loop (vs : list (Vertex A)) (p : vec2 A) (es : list (N * N)) (edged : bool) : res bool :=
  match es with
  | [] => Ok edged
  | (a, b) :: r =>
      if lengthN vs <=? N.max a b then Ok false
      else
        let* va := get_unchecked vs a in
        let* vb := get_unchecked vs b in
        let s := side p (coords va, coords vb) in
        if side_eqb s SEdge && on_segment p (coords va, coords vb) then Ok true
        else if negb (side_eqb s SLeft) then Ok false
        else pip_loop vs p r true
  end.

Definition point_in_polygon (l : Layer A) (p : vec2 A) (poly : Polygon) : res bool :=
  let* es := edges_index poly in
  pip_loop (vertices l) p es false.

(** layers.rs 160-167: get_point_location_unit ([i as u32]: the model keeps i, layers have < 2^24 polygons) *)
Definition loc_unit (l : Layer A) (p : vec2 A) : res N :=
  let* o := findM (fun ip => point_in_polygon l p (snd ip)) (enumerate (polygons l)) in
  Ok (match o with Some (i, _) => i | None => MAX end).

(** layers.rs 170-178: get_point_location_unit_baked; [self.polygons\[*index\]] may panic on a stale BVH *)
Definition loc_unit_baked (l : Layer A) (boxes : list (vec2 A * vec2 A)) (p : vec2 A) : res N :=
  let* o := findM (fun i => let* poly := index (polygons l) i in point_in_polygon l p poly)
                  (bvh boxes p) in
  Ok (match o with Some i => i | None => MAX end).

(** the test [self.baked_polygons.is_none()] of layers.rs 227, 284, 326 *)
Definition loc_any (l : Layer A) (p : vec2 A) : res N :=
  match baked l with
  | None => loc_unit l p
  | Some boxes => loc_unit_baked l boxes p
  end.

(** layers.rs 214-224: the nine probes *)
Definition probes (d : F A) : list (vec2 A) :=
  let z := fz 0 in let n := fneg d in
  [V z z; V d z; V d d; V z d; V n d; V n z; V n n; V z n; V d n].

(** layers.rs 213-234: Layer::get_point_location; lazily probes until one polygon is found *)
Fixpoint probe_loop (l : Layer A) (p : vec2 A) (ds : list (vec2 A)) : res (option N) :=
  match ds with
  | [] => Ok None
  | d :: r =>
      let* i := loc_any l (vadd p d) in
      if N.eqb i MAX then probe_loop l p r else Ok (Some i)
  end.
Definition layer_get_point_location (l : Layer A) (p : vec2 A) (delta : F A) : res (option N) :=
  probe_loop l p (probes delta).

(** lib.rs 484-494: first layer with an answer; [index as u8] is [mod 256] *)
Fixpoint gpl_loop (m : Mesh A) (p : vec2 A) (ls : list (N * Layer A)) : res N :=
  match ls with
  | [] => Ok MAX
  | (i, l) :: r =>
      let* o := layer_get_point_location l (vsub p (offset l)) (search_delta m) in
      match o with
      | None => gpl_loop m p r
      | Some k => let id := id_make (i mod 256) k in
                  if N.eqb id MAX then gpl_loop m p r else Ok id
      end
  end.

(** lib.rs 471-496: Mesh::get_point_location *)
Definition get_point_location (m : Mesh A) (c : Coords A) : res N :=
  match clayer c with
  | Some li =>
      match nthN (layers m) li with
      | None => Ok MAX
      | Some l =>
          let* o := layer_get_point_location l (vsub (cpos c) (offset l)) (search_delta m) in
          Ok (match o with None => MAX | Some k => id_make li k end)
      end
  | None => gpl_loop m (cpos c) (enumerate (layers m))
  end.

(** lib.rs 450-452: point_in_mesh *)
Definition point_in_mesh (m : Mesh A) (c : Coords A) : res bool :=
  let* id := get_point_location m c in Ok (negb (N.eqb id MAX)).

(** lib.rs 513-523 *)
Fixpoint gpls_loop (m : Mesh A) (p : vec2 A) (ls : list (N * Layer A)) : res (list N) :=
  match ls with
  | [] => Ok []
  | (i, l) :: r =>
      let* o := layer_get_point_location l (vsub p (offset l)) (search_delta m) in
      let* rest := gpls_loop m p r in
      Ok (match o with
          | None => rest
          | Some k => let id := id_make (i mod 256) k in
                      if N.eqb id MAX then rest else id :: rest
          end)
  end.

(** lib.rs 499-525: Mesh::get_point_locations *)
Definition get_point_locations (m : Mesh A) (c : Coords A) : res (list N) :=
  match clayer c with
  | Some li =>
      match nthN (layers m) li with
      | None => Ok []
      | Some l =>
          let* o := layer_get_point_location l (vsub (cpos c) (offset l)) (search_delta m) in
          Ok (match o with None => [] | Some k => [id_make li k] end)
      end
  | None => gpls_loop m (cpos c) (enumerate (layers m))
  end.

(** lib.rs 458-468: get_point_layer *)
Definition get_point_layer (m : Mesh A) (c : Coords A) : res (list (Coords A)) :=
  let* ids := get_point_locations m c in
  Ok (map (fun id => mkCoords (cpos c) (Some (id_layer id)) id) ids).

(** layers.rs 281-283: the i-th sampled point of ring [step] *)
Definition ring_point (p : vec2 A) (delta : F A) (step i : N) : vec2 A :=
  let angle := fdiv (fmul (fz (Z.of_N i)) ftau) (fz (Z.of_N (10 * (step + 1)))) in
  vadd p (vscale (vscale (V (fsin angle) (fcos angle)) delta) (fz (Z.of_N step))).

(** layers.rs 280-293 *)
Fixpoint ring_loop (l : Layer A) (p : vec2 A) (delta : F A) (step : N) (is : list N)
  : res (option (vec2 A * N)) :=
  match is with
  | [] => Ok None
  | i :: r =>
      let np := ring_point p delta step i in
      let* k := loc_any l np in
      if N.eqb k MAX then ring_loop l p delta step r else Ok (Some (np, k))
  end.

(** layers.rs 273-294: get_closest_point_inner.  [sample * step] and [sample * (step + 1)] are u32
    multiplications: overflow panics (debug build). *)
Definition get_closest_point_inner (l : Layer A) (p : vec2 A) (delta : F A) (step : N)
  : res (option (vec2 A * N)) :=
  if 2^32 <=? 10 * (step + 1) then Panic
  else ring_loop l p delta step (rangeN (10 * step + 1)).

(** lib.rs 547-559: one ring over all the layers *)
Fixpoint gcp_layers (p : vec2 A) (delta : F A) (step : N) (ls : list (N * Layer A))
  : res (option (Coords A)) :=
  match ls with
  | [] => Ok None
  | (i, l) :: r =>
      let* o := get_closest_point_inner l (vsub p (offset l)) delta step in
      match o with
      | Some (np, k) =>
          Ok (Some (mkCoords (vadd np (offset l)) (Some (i mod 256)) (id_make (i mod 256) k)))
      | None => gcp_layers p delta step r
      end
  end.

(** generic "for step in .. { if let Some(..) = .. { return } }" *)
Fixpoint first_step {T} (f : N -> res (option T)) (steps : list N) : res (option T) :=
  match steps with
  | [] => Ok None
  | s :: r => let* o := f s in
              match o with Some t => Ok (Some t) | None => first_step f r end
  end.

(** lib.rs 530-563: Mesh::get_closest_point; [self.layers\[layer_index\]] panics for an unknown layer *)
Definition get_closest_point (m : Mesh A) (c : Coords A) : res (option (Coords A)) :=
  match clayer c with
  | Some li =>
      let* l := index (layers m) li in
      first_step (fun step => gcp_layers (cpos c) (search_delta m) step [(li, l)])
                 (rangeN (search_steps m))
  | None =>
      first_step (fun step => gcp_layers (cpos c) (search_delta m) step (enumerate (layers m)))
                 (rangeN (search_steps m))
  end.

(** layers.rs 263-270: Layer::get_closest_point ([0..=steps]) *)
Definition layer_get_closest_point (l : Layer A) (p : vec2 A) (delta : F A) (steps : N)
  : res (option (vec2 A)) :=
  let* o := first_step (fun step => get_closest_point_inner l p delta step) (rangeN (steps + 1)) in
  Ok (option_map fst o).

(** layers.rs 318-335: get_closest_point_towards_inner *)
Definition towards_point (p : vec2 A) (delta : F A) (dir : vec2 A) (step : N) : vec2 A :=
  vadd p (vscale (vscale dir delta) (fz (Z.of_N step))).
Definition get_closest_point_towards_inner (l : Layer A) (p : vec2 A) (delta : F A) (dir : vec2 A) (step : N)
  : res (option (vec2 A * N)) :=
  let np := towards_point p delta dir step in
  let* k := loc_any l np in
  Ok (if N.eqb k MAX then None else Some (np, k)).

(** layers.rs 306 and lib.rs 574: [-(point - towards).normalize()] *)
Definition direction (p towards : vec2 A) : vec2 A := vneg (vnormalize (vsub p towards)).

(** layers.rs 299-315: Layer::get_closest_point_towards *)
Definition layer_get_closest_point_towards (l : Layer A) (p : vec2 A) (delta : F A) (steps : N) (towards : vec2 A)
  : res (option (vec2 A)) :=
  let* o := first_step (fun step => get_closest_point_towards_inner l p delta (direction p towards) step)
                       (rangeN steps) in
  Ok (option_map fst o).

(** lib.rs 593-606 *)
Fixpoint gcpt_layers (p : vec2 A) (delta : F A) (dir : vec2 A) (step : N) (ls : list (N * Layer A))
  : res (option (Coords A)) :=
  match ls with
  | [] => Ok None
  | (i, l) :: r =>
      let* o := get_closest_point_towards_inner l (vsub p (offset l)) delta dir step in
      match o with
      | Some (np, k) =>
          Ok (Some (mkCoords (vadd np (offset l)) (Some (i mod 256)) (id_make (i mod 256) k)))
      | None => gcpt_layers p delta dir step r
      end
  end.

(** lib.rs 568-610: Mesh::get_closest_point_towards *)
Definition get_closest_point_towards (m : Mesh A) (c : Coords A) (towards : vec2 A)
  : res (option (Coords A)) :=
  let dir := direction (cpos c) towards in
  match clayer c with
  | Some li =>
      let* l := index (layers m) li in
      first_step (fun step => gcpt_layers (cpos c) (search_delta m) dir step [(li, l)])
                 (rangeN (search_steps m))
  | None =>
      first_step (fun step => gcpt_layers (cpos c) (search_delta m) dir step (enumerate (layers m)))
                 (rangeN (search_steps m))
  end.

(** layers.rs 237-258: get_vertices_on_segment, before the sort by distance; the sort is an oracle that
    panics on NaN distances and returns a permutation otherwise *)
Definition vertices_on_segment_unsorted (l : Layer A) (a b : vec2 A) : list N :=
  map fst (filter (fun iv => on_segment (coords (snd iv)) (a, b)) (enumerate (vertices l))).

End Locate.
