(** The vocabulary of the statements about sequences of calls on one mesh: the calls, what they need, and what a mesh that can be
    queried looks like. *)
From Coq Require Import List NArith ZArith Bool.
From Verif Require Import Base Arith U32 Mesh Helpers Bake Cleanup Merger Stitch Spec Spec_mesh.
Import ListNotations.
Open Scope N_scope.

Section SpecHistory.
Context {A : Arith}.
(** the library functions the calls use: the sort of f32 keys of the merger with the area and convexity functions, and the stable
    sort of the neighbour order *)
Variables (area_of : list (vec2 A) -> F A) (sort_area : list (N * F A) -> list (N * F A)) (convex : list (vec2 A) -> bool).
Variable sort : list (Z * N) -> list (Z * N).
(** which offsets and vertex coordinates are accepted, for example: their sum is finite *)
Variable pos_ok : vec2 A -> vec2 A -> Prop.

(** The methods of a mesh and of its layers that change it. [On li c] is `mesh.layers[li].c`. *)
Inductive layer_call :=
| LBake | LUnbake | LBakeFinder | LBakeIslands | LMerge | LClean
| LMove (o : vec2 A)          (* layer.offset = o *)
| LReplace (l : Layer A).     (* mesh.layers[li] = l *)
Inductive call :=
| Bake | Unbake | Merge | Clean | Reorder
| SetDelta (d : F A) | SetSteps (s : N)
| Push (l : Layer A)          (* mesh.layers.push(l) *)
| On (li : N) (c : layer_call)
| StitchAt (ss : list ((N * N) * list (N * N))) (one_way : bool)
| RemoveStitches
| RemoveStitchesTo (t : N)
| RestitchAt (t : N) (ss : list ((N * N) * list (N * N))) (one_way : bool).

Definition apply_layer (c : layer_call) (l : Layer A) : res (Layer A) :=
  match c with
  | LBake => layer_bake l
  | LUnbake => Ok (layer_unbake l)
  | LBakeFinder => Ok (bake_polygon_finder l)
  | LBakeIslands => bake_islands_detection l
  | LMerge => let* r := layer_merge area_of sort_area convex l in Ok (fst r)
  | LClean => let* r := layer_remove_useless l in Ok (fst r)
  | LMove o => Ok (mkLayer (vertices l) (polygons l) o (baked l) (islands l))
  | LReplace l' => Ok l'
  end.

Definition apply (c : call) (m : Mesh A) : res (Mesh A) :=
  match c with
  | Bake => mesh_bake m
  | Unbake => Ok (mesh_unbake m)
  | Merge => let* r := mesh_merge area_of sort_area convex m in Ok (fst r)
  | Clean => let* r := mesh_remove_useless m in Ok (fst r)
  | Reorder => reorder sort m
  | SetDelta d => set_search_delta m d
  | SetSteps s => set_search_steps m s
  | Push l => Ok (mkMesh (layers m ++ [l]) (search_delta m) (search_steps m))
  | On li c => let* l := index (layers m) li in
               let* l' := apply_layer c l in
               Ok (mkMesh (updN (layers m) li (fun _ => l')) (search_delta m) (search_steps m))
  | StitchAt ss ow => stitch_at_vertices sort m ss ow
  | RemoveStitches => Ok (remove_stitches m)
  | RemoveStitchesTo t => Ok (remove_stitches_to_layer m t)
  | RestitchAt t ss ow => restitch_layer_at_vertices sort m t ss ow
  end.

(** the whole history *)
Fixpoint run (cs : list call) (m : Mesh A) : res (Mesh A) :=
  match cs with
  | [] => Ok m
  | c :: r => let* m1 := apply c m in run r m1
  end.

(** ** Layers and meshes that can be used *)
(** everything but the ids of neighbours *)
Definition shaped (l : Layer A) : Prop :=
  lengthN (vertices l) < 2^32 /\ lengthN (polygons l) <= 2^24 - 1 /\ layer_wf l /\
  (forall boxes, baked l = Some boxes -> length boxes = length (polygons l)) /\
  (forall v, In v (vertices l) -> pos_ok (offset l) (coords v)) /\
  (forall cs, incl cs (map (fun v => coords v) (vertices l)) -> fnan (area_of cs) = false).

(** a layer on its own: neighbours are indices of its polygons, and a corner of a polygon has a neighbour *)
Definition local_ids (l : Layer A) : Prop :=
  (forall v id, In v (vertices l) -> In id (vpolys v) -> id = MAX \/ id < lengthN (polygons l)) /\
  (forall p i v, In p (polygons l) -> In i (pverts p) -> nthN (vertices l) i = Some v -> exists id, In id (vpolys v) /\ id <> MAX).

(** a layer of a stitched mesh: neighbours carry layer numbers, none of them in a layer that [without] excludes, and a corner of a
    polygon has a neighbour in its own layer *)
Definition global_ids (m : Mesh A) (without : N -> Prop) (li : N) (l : Layer A) : Prop :=
  (forall v id, In v (vertices l) -> In id (vpolys v) -> id <> MAX ->
     id < 2^32 /\ ~ without (id_layer id) /\ exists l' p, polygon_at m id l' p) /\
  (forall p i v, In p (polygons l) -> In i (pverts p) -> nthN (vertices l) i = Some v ->
     exists id, In id (vpolys v) /\ id <> MAX /\ id_layer id = li).

(** The layers are apart (as built), all stitched, or all stitched but layer [t]. *)
Inductive phase := Apart | Joined | Detached (t : N).

Definition usable (ph : phase) (m : Mesh A) : Prop :=
  lengthN (layers m) <= 256 /\ 10 * search_steps m < 2^32 /\
  (forall t, ph = Detached t -> t < lengthN (layers m)) /\
  forall li l, nthN (layers m) li = Some l -> shaped l /\
    match ph with
    | Apart => local_ids l
    | Joined => global_ids m (fun _ => False) li l
    | Detached t => if N.eqb li t then local_ids l else global_ids m (eq t) li l
    end.

(** ** Which calls are allowed when *)
(** the stitches that concern layer [t] mention existing layers and vertices *)
Definition stitches_to_ok (m : Mesh A) (t : N) (ss : list ((N * N) * list (N * N))) : Prop :=
  forall from to ps, In ((from, to), ps) ss -> from = t \/ to = t ->
    from <> to /\ forall f g, In (f, g) ps -> (exists v, vertex_at m from f v) /\ (exists v, vertex_at m to g v).

(** the layer is not part of the stitched ones *)
Definition free (ph : phase) (li : N) : Prop :=
  match ph with Apart => True | Joined => False | Detached t => li = t end.

Definition layer_permitted (ph : phase) (li : N) (l : Layer A) (c : layer_call) : Prop :=
  match c with
  | LBake | LBakeIslands | LMerge => free ph li
  | LUnbake | LBakeFinder | LClean => True
  | LMove o => forall v, In v (vertices l) -> pos_ok o (coords v)
  | LReplace l' => free ph li /\ shaped l' /\ local_ids l'
  end.

Definition permitted (ph : phase) (m : Mesh A) (c : call) : Prop :=
  match c with
  | Bake | Merge => ph = Apart
  | Unbake | Clean => True
  | Reorder => ph = Joined \/ (ph = Apart /\ lengthN (layers m) <= 1)
  | SetDelta d => fge d (fz 0) = true
  | SetSteps s => s <> 0 /\ 10 * s < 2^32
  | Push l => ph = Apart /\ lengthN (layers m) < 256 /\ shaped l /\ local_ids l
  | On li c => exists l, nthN (layers m) li = Some l /\ layer_permitted ph li l c
  | StitchAt ss _ => ph = Apart /\ stitches_ok m ss
  | RemoveStitches => ph = Joined
  | RemoveStitchesTo t => ph = Joined /\ t < lengthN (layers m)
  | RestitchAt t ss _ => ph = Detached t /\ stitches_to_ok m t ss
  end.

Definition next_phase (ph : phase) (c : call) : phase :=
  match c with
  | StitchAt _ _ | RestitchAt _ _ _ => Joined
  | RemoveStitches => Apart
  | RemoveStitchesTo t => Detached t
  | _ => ph
  end.

(** every call of the history is allowed at the time it is made *)
Fixpoint legal (ph : phase) (m : Mesh A) (cs : list call) : Prop :=
  match cs with
  | [] => True
  | c :: r => permitted ph m c /\ forall m1, apply c m = Ok m1 -> legal (next_phase ph c) m1 r
  end.
Definition last_phase (ph : phase) (cs : list call) : phase := fold_left next_phase cs ph.
End SpecHistory.
