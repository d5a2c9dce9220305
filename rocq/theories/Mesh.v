(** Data types of the navigation mesh: src/primitives.rs, src/layers.rs, src/lib.rs. *)
From Coq Require Import List NArith ZArith Bool.
From Verif Require Import Base Arith U32.
Import ListNotations.
Open Scope N_scope.

Section Mesh.
Context {A : Arith}.

(** primitives.rs 17-26 *)
Record Vertex := mkVertex {
  coords : vec2 A;
  vpolys : list N;          (* field `polygons` *)
  is_corner : bool
}.

(** primitives.rs 30-36: Vertex::new *)
Definition vertex_new (c : vec2 A) (ps : list N) : Vertex :=
  mkVertex c ps (memN MAX ps).

(** primitives.rs 42-48 *)
Record Polygon := mkPolygon {
  pverts : list N;          (* field `vertices` *)
  is_one_way : bool
}.

(** primitives.rs 54-57: Polygon::EMPTY *)
Definition polygon_EMPTY : Polygon := mkPolygon [] false.

(** layers.rs 15-28.  [baked] is the polygon finder (`baked_polygons`): the model of the BVH is the list of
    bounding boxes it was built from; its query is the oracle [bvh] of Locate.v.
    The field `scale` only exists with feature detailed-layers, which is not modelled here. *)
Record Layer := mkLayer {
  vertices : list Vertex;
  polygons : list Polygon;
  offset : vec2 A;
  baked : option (list (vec2 A * vec2 A));
  islands : option (list N)
}.

(** layers.rs 30-42: Default for Layer *)
Definition layer_default : Layer := mkLayer [] [] vzero None None.

(** lib.rs 74-83 *)
Record Mesh := mkMesh {
  layers : list Layer;
  search_delta : F A;
  search_steps : N
}.

(** lib.rs 146-156: Default for Mesh (search_delta 0.1, search_steps 2) *)
Definition mesh_default : Mesh := mkMesh [] (flit 1 10) 2.

(** lib.rs 87-98 *)
Record Coords := mkCoords {
  cpos : vec2 A;
  clayer : option N;
  cpoly : N
}.

(** lib.rs 100-108: From<Vec2> for Coords, and 112-114 Coords::on_mesh *)
Definition coords_on_mesh (p : vec2 A) : Coords := mkCoords p None MAX.

(** lib.rs 117-123: Coords::on_layer *)
Definition coords_on_layer (p : vec2 A) (l : N) : Coords := mkCoords p (Some l) MAX.

(** lib.rs 181-191: MeshError *)
Inductive MeshError := EmptyMesh | InvalidMesh | TooManyPolygons.

(** Rust's Result<T, MeshError> *)
Inductive outcome (T : Type) := Done (t : T) | Err (e : MeshError).
Arguments Done {T}. Arguments Err {T}.

(** layers.rs 47-50: Layer::unbake *)
Definition layer_unbake (l : Layer) : Layer :=
  mkLayer (vertices l) (polygons l) (offset l) None None.

(** lib.rs 205-209: Mesh::unbake *)
Definition mesh_unbake (m : Mesh) : Mesh :=
  mkMesh (map layer_unbake (layers m)) (search_delta m) (search_steps m).

(** lib.rs 354-358: set_search_delta, [assert!(delta >= 0.0)] *)
Definition set_search_delta (m : Mesh) (d : F A) : res Mesh :=
  if fge d (fz 0) then Ok (mkMesh (layers m) d (search_steps m)) else Panic.

(** lib.rs 369-373: set_search_steps, [assert!(steps != 0)] *)
Definition set_search_steps (m : Mesh) (s : N) : res Mesh :=
  if N.eqb s 0 then Panic else Ok (mkMesh (layers m) (search_delta m) s).

(** lib.rs 315: [layers.iter().map(|l| l.polygons.len()).sum()] *)
Definition count_polygons (m : Mesh) : nat :=
  fold_right (fun l n => (length (polygons l) + n)%nat) 0%nat (layers m).

(** primitives.rs 94-102: edges_index.  The pair of consecutive vertices, then (last, first).
    `self.vertices[self.vertices.len() - 1]` is evaluated when the iterator is created: an empty
    polygon panics. *)
Fixpoint windows2 (l : list N) : list (N * N) :=
  match l with
  | a :: ((b :: _) as r) => (a, b) :: windows2 r
  | _ => []
  end.

Definition edges_index (p : Polygon) : res (list (N * N)) :=
  match pverts p with
  | [] => Panic
  | a :: r => Ok (windows2 (a :: r) ++ [(last r a, a)])
  end.

(** primitives.rs 121-129: circular_edges_index *)
Definition circular_edges_index (p : Polygon) (lo hi : N) : res (list (N * N)) :=
  let* es := edges_index p in
  Ok (firstn (N.to_nat (hi + 1 - lo)) (skipn (N.to_nat lo) (es ++ es))).

End Mesh.

Arguments Vertex A : clear implicits.
Arguments Layer A : clear implicits.
Arguments Mesh A : clear implicits.
Arguments Coords A : clear implicits.
Arguments Done {T}. Arguments Err {T}.
