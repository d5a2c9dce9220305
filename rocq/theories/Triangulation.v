(** Triangulations: src/input/triangulation.rs.  The triangulator (spade), the polygon operations of geo (union, contains,
    simplification) and two functions of libm are oracles, gathered in the record [TriLib]. *)
From Coq Require Import List NArith ZArith Bool.
From Verif Require Import Base Arith U32 Mesh Helpers Locate Cleanup.
Import ListNotations.
Open Scope N_scope.

Section Triangulation.
Context {A : Arith}.

(** geo::LineString<f32> *)
Definition ring := list (vec2 A).
(** geo::Polygon<f32>: exterior and interiors *)
Record GeoPolygon := mkGeo { exterior : ring; interiors : list ring }.

(** What spade's triangulation exposes to as_layer: its inner faces in order (index, centre converted to f32, vertices) and
    its vertices in order (position converted to f32, index of the face of each outgoing edge, in order).  The index of the
    outer face is not the index of an inner face. *)
Record Face := mkFace { findex : N; fcenter : vec2 A; fverts : list N }.
Record Subdivision := mkSub {
  inner_faces : list Face;
  sites : list (vec2 A * list N)
}.

Record TriLib := mkTriLib {
  simplify_vw : F A -> ring -> ring;                        (* geo SimplifyVwPreserve *)
  union : ring -> ring -> list (ring * list ring);          (* geo BooleanOps::union of two polygons without interiors *)
  contains : GeoPolygon -> vec2 A -> bool;                  (* geo Contains<Coord> *)
  insertable : vec2 A -> bool;                              (* spade accepts the coordinates of the point *)
  cdt : list (vec2 A * vec2 A) -> Subdivision;              (* spade, after adding these constraint edges in this order *)
  atan2 : F A -> F A -> F A;                                (* f32::atan2 *)
  hypot : F A -> F A -> F A;                                (* f32::hypot *)
  sign_negative : F A -> bool;                              (* f32::is_sign_negative *)
  finder : list (vec2 A * vec2 A) -> vec2 A -> list N       (* the BVH of a baked base layer, see Locate.v *)
}.
Context (lib : TriLib).

(** geo LineString::is_closed: first() == last() *)
Definition is_closed (r : ring) : bool :=
  match r with
  | [] => true
  | a :: _ => veq a (last r a)
  end.
(** geo LineString::close *)
Definition close (r : ring) : ring :=
  match r with
  | [] => []
  | a :: _ => if is_closed r then r else r ++ [a]
  end.
(** geo Polygon::new closes the rings *)
Definition geo_new (ext : ring) (ints : list ring) : GeoPolygon := mkGeo (close ext) (map close ints).
(** geo Polygon::interiors_push *)
Definition interiors_push (g : GeoPolygon) (r : ring) : GeoPolygon := mkGeo (exterior g) (interiors g ++ [close r]).
(** geo LineString::lines *)
Fixpoint ring_lines (r : ring) : list (vec2 A * vec2 A) :=
  match r with
  | a :: ((b :: _) as r') => (a, b) :: ring_lines r'
  | _ => []
  end.

(** triangulation.rs 14-19 *)
Inductive AgentRadius :=
| RNone
| RObstacles (radius : F A) (segments : N) (simplification : F A)
| REverything (radius : F A) (segments : N) (simplification : F A).

(** triangulation.rs 22-31.  The triangulation under construction is the list of the constraint edges added to it. *)
Record Triangulation := mkTri {
  inner : GeoPolygon;
  prebuilt : option (GeoPolygon * list (vec2 A * vec2 A));
  base_layer : option (Layer A);
  agent_radius : AgentRadius
}.

(** 47-54: from_geo_polygon *)
Definition from_geo_polygon (g : GeoPolygon) : Triangulation := mkTri g None None RNone.
(** 57-67: from_outer_edges *)
Definition from_outer_edges (edges : ring) : Triangulation := mkTri (geo_new edges []) None None RNone.
(** 80-87: from_mesh_layer *)
Definition from_mesh_layer (l : Layer A) : Triangulation := mkTri (geo_new [] []) None (Some l) RNone.
(** 70-77: from_mesh *)
Definition from_mesh (m : Mesh A) (layer : N) : res Triangulation :=
  let* l := index (layers m) layer in Ok (from_mesh_layer l).

Definition with_radius (t : Triangulation) (r : AgentRadius) : Triangulation :=
  mkTri (inner t) (prebuilt t) (base_layer t) r.
(** 90-100: set_agent_radius *)
Definition set_agent_radius (t : Triangulation) (radius : F A) : Triangulation :=
  with_radius t match agent_radius t with
                | RNone => RObstacles radius 5 (fz 0)
                | RObstacles _ s p => RObstacles radius s p
                | REverything _ s p => REverything radius s p
                end.
(** 103-113: set_agent_radius_segments *)
Definition set_agent_radius_segments (t : Triangulation) (segments : N) : Triangulation :=
  with_radius t match agent_radius t with
                | RNone => RObstacles (fz 0) segments (fz 0)
                | RObstacles r _ p => RObstacles r segments p
                | REverything r _ p => REverything r segments p
                end.
(** 119-129: set_agent_radius_simplification *)
Definition set_agent_radius_simplification (t : Triangulation) (simplification : F A) : Triangulation :=
  with_radius t match agent_radius t with
                | RNone => RObstacles (fz 0) 5 simplification
                | RObstacles r s _ => RObstacles r s simplification
                | REverything r s _ => REverything r s simplification
                end.
(** 132-145: agent_radius_on_outer_edge *)
Definition agent_radius_on_outer_edge (t : Triangulation) (enabled : bool) : Triangulation :=
  with_radius t match agent_radius t, enabled with
                | RNone, true => REverything (fz 0) 5 (fz 0)
                | RNone, false => RObstacles (fz 0) 5 (fz 0)
                | RObstacles r s p, true | REverything r s p, true => REverything r s p
                | RObstacles r s p, false | REverything r s p, false => RObstacles r s p
                end.

Definition with_inner (t : Triangulation) (g : GeoPolygon) : Triangulation :=
  mkTri g (prebuilt t) (base_layer t) (agent_radius t).
(** 148-151: add_obstacle *)
Definition add_obstacle (t : Triangulation) (edges : ring) : Triangulation :=
  with_inner t (interiors_push (inner t) edges).
(** 154-172: add_obstacles *)
Definition add_obstacles (t : Triangulation) (obstacles : list ring) : Triangulation :=
  with_inner t (geo_new (exterior (inner t)) (interiors (inner t) ++ obstacles)).
(** 179-185: simplify; interiors_mut closes the rings afterwards *)
Definition simplify (t : Triangulation) (epsilon : F A) : Triangulation :=
  with_inner t (mkGeo (exterior (inner t)) (map (fun r => close (simplify_vw lib epsilon r)) (interiors (inner t)))).

(** 187-214: add_constraint_edges; insert(..).unwrap() panics on coordinates spade refuses *)
Definition add_constraint_edges (c : list (vec2 A * vec2 A)) (r : ring) : res (list (vec2 A * vec2 A)) :=
  foldM (fun c ab => if insertable lib (fst ab) && insertable lib (snd ab) then Ok (c ++ [ab]) else Panic) c (ring_lines r).

(** ** mod inflate *)

(** 619-630: segment_normal *)
Definition segment_normal (s e : vec2 A) : option (vec2 A) :=
  let len := hypot lib (fsub (vx e) (vx s)) (fsub (vy e) (vy s)) in
  if feq len (fz 0) then None
  else Some (V (fdiv (fneg (fsub (vy e) (vy s))) len) (fdiv (fsub (vx e) (vx s)) len)).

(** 784-789 and 791-796: the angle, made positive *)
Definition positive_angle (c p : vec2 A) : F A :=
  let a := atan2 lib (fsub (vy p) (vy c)) (fsub (vx p) (vx c)) in
  if sign_negative lib a then fadd a ftau else a.

(** 775-821: create_arc, the vertices pushed; `segment_count - 1` panics (debug overflow) for 0 *)
Definition create_arc (c : vec2 A) (radius : F A) (s e : vec2 A) (segment_count : N) (outwards : bool) : res ring :=
  let start_angle := positive_angle c s in
  let end_angle := positive_angle c e in
  let* n := if N.even segment_count then (if N.eqb segment_count 0 then Panic else Ok (segment_count - 1)) else Ok segment_count in
  let angle := if fgt start_angle end_angle then fsub start_angle end_angle else fsub (fadd start_angle ftau) end_angle in
  let segment_angle := fdiv (if outwards then fneg angle else fsub ftau angle) (fz (Z.of_N n)) in
  Ok (s :: map (fun i => let a := fadd start_angle (fmul segment_angle (fz (Z.of_N i))) in
                         V (fadd (vx c) (fmul (fcos a) radius)) (fadd (vy c) (fmul (fsin a) radius)))
               (map N.succ (rangeN (n - 1)))
        ++ [e]).

(** 741-773: round_line *)
Definition round_line (ab : vec2 A * vec2 A) (distance : F A) (arc_segments : N) : res ring :=
  let (s, e) := ab in
  match segment_normal s e with
  | None =>
      Ok (map (fun i => let a := fdiv (fmul (fz (Z.of_N i)) ftau) (fz (Z.of_N (arc_segments * 2))) in
                        V (fadd (vx s) (fmul (fcos a) distance)) (fadd (vy s) (fmul (fsin a) distance)))
              (rangeN (arc_segments * 2)))
  | Some n =>
      let* a1 := create_arc s distance (vsub s (vscale n distance)) (vadd s (vscale n distance)) arc_segments true in
      let* a2 := create_arc e distance (vadd e (vscale n distance)) (vsub e (vscale n distance)) arc_segments true in
      Ok (a1 ++ a2)
  end.

(** 676-681, 686-690, 709-719, 724-735: one union; the first polygon of the result, unwrapped *)
Definition union_with (acc : ring * list ring) (ab : vec2 A * vec2 A) (distance : F A) (arc_segments : N) : res (ring * list ring) :=
  let* r := round_line ab distance arc_segments in
  match union lib (close (fst acc)) (close r) with
  | [] => Panic
  | (ext, holes) :: _ => Ok (ext, snd acc ++ holes)
  end.

(** 668-694 inflate and 696-739 inflate_as_polygon: the same loop, the second also gathers the holes.
    `lines.next().unwrap()` panics on less than two points. *)
Definition inflate_ring (r : ring) (distance : F A) (arc_segments : N) : res (ring * list ring) :=
  match ring_lines r with
  | [] => Panic
  | ab :: rest =>
      let* first := round_line ab distance arc_segments in
      let* acc := foldM (fun acc ab => union_with acc ab distance arc_segments) (first, []) rest in
      if is_closed r then Ok acc
      else let* r0 := index r 0 in
           union_with acc (snd (last rest ab), r0) distance arc_segments
  end.

(** 640-654: inflate_obstacles *)
Definition inflate_obstacles (g : GeoPolygon) (distance : F A) (arc_segments : N) (minimum_surface : F A) : res GeoPolygon :=
  let* ints := mapM (fun r => let* i := inflate_ring r distance arc_segments in Ok (simplify_vw lib minimum_surface (fst i))) (interiors g) in
  Ok (geo_new (exterior g) ints).

(** 656-665: inflate; `interiors()[0]` panics when no hole is left *)
Definition inflate (g : GeoPolygon) (distance : F A) (arc_segments : N) (minimum_surface : F A) : res GeoPolygon :=
  let* e := inflate_ring (exterior g) distance arc_segments in
  let* o := inflate_obstacles g distance arc_segments minimum_surface in
  let* hole := index (map close (snd e)) 0 in
  Ok (mkGeo (close hole) (interiors o)).

(** `radius > 1.0e-5` *)
Definition enough (radius : F A) : bool := fgt radius (flit 1 100000).

(** 226-234 and 324-333: the polygon with the agent radius applied *)
Definition inflated (t : Triangulation) : res GeoPolygon :=
  match agent_radius t with
  | RObstacles r s p => if enough r then inflate_obstacles (inner t) r s p else Ok (inner t)
  | REverything r s p => if enough r then inflate (inner t) r s p else Ok (inner t)
  | RNone => Ok (inner t)
  end.

(** 219-251: prebuild *)
Definition prebuild (t : Triangulation) : res Triangulation :=
  match base_layer t with
  | Some _ => Ok t
  | None =>
      let* g := inflated t in
      let* c := add_constraint_edges [] (exterior g) in
      let* c := foldM add_constraint_edges c (interiors g) in
      let used := match prebuilt t with
                  | None => g
                  | Some (previous, _) => fold_left interiors_push (interiors previous) g
                  end in
      Ok (mkTri (geo_new (exterior (inner t)) []) (Some (used, c)) None (agent_radius t))
  end.

(** 281-293: the triangulation as_layer starts from *)
Definition initial_constraints (t : Triangulation) : res (list (vec2 A * vec2 A)) :=
  match prebuilt t with
  | Some (_, c) => Ok c
  | None =>
      match agent_radius t with
      | REverything r s _ =>
          if enough r then let* d := inflate (inner t) r s (fz 0) in add_constraint_edges [] (exterior d)
          else add_constraint_edges [] (exterior (inner t))
      | _ => add_constraint_edges [] (exterior (inner t))
      end
  end.

(** HashSet<(u32, u32)> membership *)
Definition edge_mem (e : N * N) (l : list (N * N)) : bool := existsb (fun x => N.eqb (fst x) (fst e) && N.eqb (snd x) (snd e)) l.

(** 300-320: one edge of the base layer; an edge seen in either direction is skipped, and so is (p, p) *)
Definition base_edge (l : Layer A) (st : list (N * N) * list (vec2 A * vec2 A)) (e : N * N)
  : res (list (N * N) * list (vec2 A * vec2 A)) :=
  let (seen, c) := st in
  if edge_mem e seen then Ok st
  else
    let seen := e :: seen in
    if edge_mem (snd e, fst e) seen then Ok (seen, c)
    else
      let seen := (snd e, fst e) :: seen in
      let* a := index (vertices l) (fst e) in
      let* _ := if insertable lib (coords a) then Ok tt else Panic in
      let* b := index (vertices l) (snd e) in
      let* _ := if insertable lib (coords b) then Ok tt else Panic in
      Ok (seen, c ++ [(coords a, coords b)]).
(** 296-322: the edges of the base layer.  The cache of inserted vertices (added_vertices) only avoids inserting the same
    position again and is not modelled. *)
Definition base_constraints (l : Layer A) (c : list (vec2 A * vec2 A)) : res (list (vec2 A * vec2 A)) :=
  let* st := foldM (fun st p => let* es := edges_index p in foldM (base_edge l) st es) ([], c) (polygons l) in
  Ok (snd st).

(** 281-338: everything added to the triangulation *)
Definition constraints (t : Triangulation) : res (list (vec2 A * vec2 A)) :=
  let* c := initial_constraints t in
  let* c := match base_layer t with Some l => base_constraints l c | None => Ok c end in
  let* g := inflated t in
  foldM add_constraint_edges c (interiors g).

(** 352-370: is a face with this centre kept? *)
Definition accepted (t : Triangulation) (g : GeoPolygon) (c : vec2 A) : res bool :=
  if match prebuilt t with Some (used, _) => contains lib used c | None => true end && contains lib g c then Ok true
  else match base_layer t with
       | None => Ok false
       | Some l =>
           let* o := layer_get_point_location (finder lib) l c (fz 0) in
           match o with
           | None => Ok false
           | Some _ => Ok (negb (existsb (fun r => contains lib (geo_new r []) c) (interiors g)))
           end
       end.

(** 343-387: the faces in order, with the table face_to_polygon; `face_to_polygon[face.index()] = i; i += 1` *)
Definition list_face (accept : vec2 A -> res bool) (st : list N * list Polygon) (f : Face) : res (list N * list Polygon) :=
  let (table, ps) := st in
  let* ok := accept (fcenter f) in
  if ok then
    let* _ := index table (findex f) in
    if N.leb (2^32 - 1) (lengthN ps) then Panic
    else Ok (updN table (findex f) (fun _ => lengthN ps), ps ++ [mkPolygon (fverts f) false])
  else Ok (table, ps).

(** 409-411: rotate_left(1) while the first is u32::MAX; [n] bounds the number of rotations *)
Fixpoint rotate_front (n : nat) (l : list N) : res (list N) :=
  match l with
  | [] => Panic
  | x :: r => if N.eqb x MAX then (match n with O => NoFuel | S n' => rotate_front n' (r ++ [x]) end) else Ok l
  end.

(** 401-415: the neighbours of one vertex *)
Definition site_polygons (table : list N) (around : list N) : res (list N) :=
  let* ps := mapM (index table) around in
  if forallb (N.eqb MAX) ps then Ok [MAX]
  else let* r := rotate_front (length ps) ps in Ok (dedup r).

(** 343-428: from the triangulation to the layer.  all_faces: the inner faces and the outer one. *)
Definition layer_of_subdivision (accept : vec2 A -> res bool) (s : Subdivision) : res (Layer A) :=
  let* st := foldM (list_face accept) (repeat MAX (S (length (inner_faces s))), []) (inner_faces s) in
  let* vs := mapM (fun site => let* ps := site_polygons (fst st) (snd site) in Ok (vertex_new (fst site) ps)) (sites s) in
  Ok (mkLayer vs (snd st) vzero None None).

(** 280-429: as_layer *)
Definition as_layer (t : Triangulation) : res (Layer A) :=
  let* c := constraints t in
  let* g := inflated t in
  layer_of_subdivision (accepted t g) (cdt lib c).

(** 271-276: as_navmesh *)
Definition as_navmesh (t : Triangulation) : res (Mesh A) :=
  let* l := as_layer t in Ok (mkMesh [l] (search_delta (A := A) mesh_default) (search_steps (A := A) mesh_default)).
End Triangulation.

Arguments ring A : clear implicits.
Arguments GeoPolygon A : clear implicits.
Arguments Face A : clear implicits.
Arguments Subdivision A : clear implicits.
Arguments TriLib A : clear implicits.
Arguments AgentRadius A : clear implicits.
Arguments Triangulation A : clear implicits.
