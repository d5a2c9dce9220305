(** The vocabulary of the statements about merging polygons. *)
From Coq Require Import List NArith ZArith Bool.
From Verif Require Import Base Arith U32 Mesh Helpers Spec Merger.
Import ListNotations.
Open Scope N_scope.

(** Going around the ring [r] from [x] (included) to the next [y] (excluded) *)
Definition arc (r : list N) (x y : N) : list N := take_until y (skip_until x (r ++ r)).

Section SpecMerge.
Context {A : Arith}.
Variable convex : list (vec2 A) -> bool.

(** the positions of the vertices with these indices *)
Definition at_positions (vs : list (Vertex A)) (is : list N) (cs : list (vec2 A)) : Prop :=
  Forall2 (fun i c => exists v, nthN vs i = Some v /\ coords v = c) is cs.

(** [merged vs ps c r]: the ring [r] is made of the rings of the polygons [c] of [ps], by gluing pairs of rings along an edge (a, b)
    of the first one whose ends both list a polygon of the second one, each time with a result that passed the convexity test *)
Inductive merged (vs : list (Vertex A)) (ps : list Polygon) : list N -> list N -> Prop :=
| merged_one i p : nthN ps i = Some p -> merged vs ps [i] (pverts p)
| merged_two c1 r1 c2 r2 a b va vb o cs :
    merged vs ps c1 r1 -> merged vs ps c2 r2 ->
    In (a, b) (edge_list r1) -> nthN vs a = Some va -> nthN vs b = Some vb ->
    In o c2 -> In o (vpolys va) -> In o (vpolys vb) ->
    at_positions vs (arc r1 b a ++ arc r2 a b) cs -> convex cs = true ->
    merged vs ps (c1 ++ c2) (arc r1 b a ++ arc r2 a b).

(** [first_common va vb i o]: [o] is the first polygon listed by [va] that [vb] also lists, besides [i] and the outside *)
Definition first_common (va vb : Vertex A) (i o : N) : Prop :=
  o <> MAX /\ o <> i /\ In o (vpolys vb) /\
  exists pre post, vpolys va = pre ++ o :: post /\ forall x, In x pre -> x = MAX \/ x = i \/ ~ In x (vpolys vb).

(** A layer that is not stitched: vertices of polygons and neighbours of vertices exist, polygons have vertices, and areas are
    numbers. *)
Definition merge_ready (area_of : list (vec2 A) -> F A) (l : Layer A) : Prop :=
  lengthN (polygons l) <= MAX /\
  (forall p, In p (polygons l) -> pverts p <> [] /\ forall i, In i (pverts p) -> i < lengthN (vertices l)) /\
  (forall v id, In v (vertices l) -> In id (vpolys v) -> id = MAX \/ id < lengthN (polygons l)) /\
  (forall cs, incl cs (map (fun v => coords v) (vertices l)) -> fnan (area_of cs) = false).
End SpecMerge.
