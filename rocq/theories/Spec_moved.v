(** The vocabulary of C81: maps of the plane that change all distances by the same factor, and a mesh moved by such a map. *)
From Coq Require Import List NArith ZArith Bool Reals.
From Verif Require Import Base Arith U32 Mesh Helpers Search Spec RealArith Geometry.
Import ListNotations.
Open Scope R_scope.

(** [f] multiplies every distance by [k] (rotations, translations, mirrors, scalings and what is composed of them). *)
Definition similarity (k : R) (f : P2 -> P2) : Prop := 0 < k /\ forall a b, dist (f a) (f b) = k * dist a b.

(** Turn and scale by the complex number c + s i, then translate by [t].  It is a rotation if c^2 + s^2 = 1. *)
Definition turned (c s : R) (t x : P2) : P2 := P (c * px x - s * py x + px t) (s * px x + c * py x + py t).

(** [m'] is [m] with all vertices moved by [f]: the same layers, polygons, neighbours and corner flags, and every vertex, whose
    position in the world is [q] in [m], is at [f q] in [m']. *)
Definition vertex_moved (f : P2 -> P2) (l l' : Layer RA) (v v' : Vertex RA) : Prop :=
  vpolys v' = vpolys v /\ is_corner v' = is_corner v /\ exists q, world l v = vp q /\ world l' v' = vp (f q).
Definition layer_moved (f : P2 -> P2) (l l' : Layer RA) : Prop :=
  polygons l' = polygons l /\ Forall2 (vertex_moved f l l') (vertices l) (vertices l').
Definition moved (f : P2 -> P2) (m m' : Mesh RA) : Prop := Forall2 (layer_moved f) (layers m) (layers m').
