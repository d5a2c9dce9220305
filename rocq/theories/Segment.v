(** Vertices on a segment: src/layers.rs 236-258 (Layer::get_vertices_on_segment). *)
From Coq Require Import List NArith ZArith Bool.
From Verif Require Import Base Arith U32 Mesh Helpers Locate.
Import ListNotations.
Open Scope N_scope.

Section Segment.
Context {A : Arith}.

(** layers.rs 251-256: the distance of a vertex to the start of the segment; `self.vertices[..]` panics when out of range *)
Definition start_distance (l : Layer A) (start : vec2 A) (i : N) : res (F A) :=
  let* v := index (vertices l) i in Ok (vdist (coords v) start).

(** slice::sort_by, which is stable: elements are moved before the later elements that are not less.  For a comparison that
    is a total preorder the result of a stable sort does not depend on the algorithm. *)
Fixpoint insert_by (x : N * F A) (l : list (N * F A)) : list (N * F A) :=
  match l with
  | [] => [x]
  | y :: r => if flt (snd y) (snd x) then y :: insert_by x r else x :: l
  end.
Definition stable_sort (l : list (N * F A)) : list (N * F A) := fold_right insert_by [] l.

(** layers.rs 237-258.  partial_cmp(..).unwrap() panics on NaN; a sort of two elements or more compares every element. *)
Definition get_vertices_on_segment (l : Layer A) (start fin : vec2 A) : res (list N) :=
  let is := vertices_on_segment_unsorted l start fin in
  let* ds := mapM (fun i => let* d := start_distance l start i in Ok (i, d)) is in
  if (1 <? lengthN ds) && existsb (fun d => fnan (snd d)) ds then Panic
  else Ok (map fst (stable_sort ds)).
End Segment.
