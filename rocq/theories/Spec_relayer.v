(** The vocabulary of C71, C72: meshes that only differ in the numbers of their polygons and in the layers that hold them. *)
From Coq Require Import List NArith ZArith Bool.
From Verif Require Import Base Arith U32 Mesh Helpers Search Spec.
Import ListNotations.
Open Scope N_scope.

Section Relayer.
Context {A : Arith}.

(** [id] is the number of a polygon of the mesh *)
Definition is_polygon (m : Mesh A) (id : N) : Prop := id < 2^32 /\ exists l p, polygon_at m id l p.

(** Vertex [i] of layer [l] and vertex [i'] of layer [l'] are at the same place, have the same corner flag, and list the same
    neighbours, in the same order, up to their new numbers. *)
Definition vertex_same (new : N -> N) (l l' : Layer A) (i i' : N) : Prop :=
  exists v v', nthN (vertices l) i = Some v /\ nthN (vertices l') i' = Some v' /\
    world l' v' = world l v /\ vpolys v' = map new (vpolys v) /\ is_corner v' = is_corner v.

(** Mesh [m'] has every polygon of [m] under the number [new id], in whatever layer, with the same corners. *)
Record renumbered (new : N -> N) (m m' : Mesh A) : Prop := {
  rn_none : new MAX = MAX;
  rn_small : forall id, is_polygon m id -> new id < 2^32 /\ new id <> MAX;
  rn_inj : forall a b, is_polygon m a -> is_polygon m b -> new a = new b -> a = b;
  rn_polygon : forall id l p, id < 2^32 -> polygon_at m id l p ->
    exists l' p', polygon_at m' (new id) l' p' /\ is_one_way p' = is_one_way p /\ Forall2 (vertex_same new l l') (pverts p) (pverts p')
}.

(** The ids listed by the vertices are u32, and numbers of polygons. *)
Definition ids_known (m : Mesh A) : Prop :=
  forall l v id, In l (layers m) -> In v (vertices l) -> In id (vpolys v) -> id = MAX \/ is_polygon m id.

(** The polygons of the blocked layers are the same. *)
Definition same_blocked (new : N -> N) (m : Mesh A) (blocked blocked' : list N) : Prop :=
  (blocked = [] <-> blocked' = []) /\
  forall id, id = MAX \/ is_polygon m id -> (In (id_layer id) blocked <-> In (id_layer (new id)) blocked').

(** Both meshes have as many polygons. *)
Definition as_many (m m' : Mesh A) : Prop :=
  list_sum (map (fun l => length (polygons l)) (layers m)) = list_sum (map (fun l => length (polygons l)) (layers m')).
End Relayer.
