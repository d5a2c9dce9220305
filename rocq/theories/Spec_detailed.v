(** The vocabulary of the statements about the feature `detailed-layers` (C57-C61). *)
From Coq Require Import List NArith ZArith Bool.
From Verif Require Import Base Arith U32 Mesh Helpers Spec Search_props.
Import ListNotations.
Open Scope N_scope.

Section Spec_detailed.
Context {A : Arith}.

(** What happens on the way that path_with_layers has to list: a turn in a layer, and entering a layer somewhere between two
    points. *)
Inductive Mark := Turn (t : vec2 A) (layer : N) | Enter (a b : vec2 A) (layer : N).

(** Crossing [x] leads into another layer, between two points of the crossed edge, or stays in the layer. *)
Inductive entry (m : Mesh A) : Crossing -> list Mark -> Prop :=
| entry_same x : id_layer (cr_to x) = id_layer (cr_from x) -> entry m x []
| entry_other x a b : id_layer (cr_to x) <> id_layer (cr_from x) -> crossing_point m x a -> crossing_point m x b ->
    entry m x [Enter a b (id_layer (cr_to x))].

(** [marks] is what happens along the crossings [xs] when turning at [turns]: before a crossing there may be a turn at an end
    of the previous crossing, in the layer that was entered there; a crossing that leads into another layer is an entry into that
    layer, between two points of the crossed edge. *)
Inductive marks_along (m : Mesh A) (blocked : list N) : list Crossing -> list Mark -> list (vec2 A) -> Prop :=
| marks_first x e : entry m x e -> marks_along m blocked [x] e []
| marks_straight xs x marks turns e :
    marks_along m blocked xs marks turns -> entry m x e ->
    marks_along m blocked (xs ++ [x]) (marks ++ e) turns
| marks_turn xs y x marks turns e t :
    marks_along m blocked (xs ++ [y]) marks turns -> entry m x e -> turn_at m blocked y t ->
    marks_along m blocked ((xs ++ [y]) ++ [x]) (marks ++ Turn t (id_layer (cr_from x)) :: e) (turns ++ [t]).

(** Where the path goes after a mark: the next turn (an entry through a single point counts as one), or else [final]. *)
Fixpoint next_stop (final : vec2 A) (marks : list Mark) : vec2 A :=
  match marks with
  | [] => final
  | Turn t _ :: _ => t
  | Enter a b _ :: r => if veq a b then a else next_stop final r
  end.

(** The points of the marks: turns are themselves; an entry is where the straight line from the previous point to the next stop
    meets the interval, if it does. *)
Inductive placed (final : vec2 A) : vec2 A -> list Mark -> list (vec2 A * N) -> Prop :=
| placed_nil prev : placed final prev [] []
| placed_turn prev t l r out : placed final t r out -> placed final prev (Turn t l :: r) ((t, l) :: out)
| placed_point prev a b l r out :
    veq a b = true -> placed final a r out -> placed final prev (Enter a b l :: r) ((a, l) :: out)
| placed_enter prev a b l r out q :
    veq a b = false -> line_intersect_segment (prev, next_stop final r) (a, b) = Some q ->
    placed final q r out -> placed final prev (Enter a b l :: r) ((q, l) :: out)
| placed_missed prev a b l r out :
    veq a b = false -> line_intersect_segment (prev, next_stop final r) (a, b) = None ->
    placed final prev r out -> placed final prev (Enter a b l :: r) out.

(** [out] is [pts] without the points closer than 0.01 to the next one. *)
Inductive thinned : list (vec2 A * N) -> list (vec2 A * N) -> Prop :=
| thinned_nil : thinned [] []
| thinned_last p : thinned [p] [p]
| thinned_drop p n r out :
    flt (vdist2 (fst p) (fst n)) (flit 1 10000) = true -> thinned (n :: r) out -> thinned (p :: n :: r) out
| thinned_keep p n r out :
    flt (vdist2 (fst p) (fst n)) (flit 1 10000) = false -> thinned (n :: r) out -> thinned (p :: n :: r) (p :: out).

(** A point in the scale of a layer. *)
Definition scaled (p sc : vec2 A) : vec2 A := V (fmul (vx p) (vx sc)) (fmul (vy p) (vy sc)).

(** [total] is [acc] plus the lengths of the legs from [p] (left in layer [l]) along [pts], each in the scale of the layer in
    which it starts. *)
Inductive walked (scales : list (vec2 A)) : F A -> vec2 A -> N -> list (vec2 A * N) -> F A -> Prop :=
| walked_nil acc p l : walked scales acc p l [] acc
| walked_leg acc p l q lq r total sc :
    nthN scales l = Some sc ->
    walked scales (fadd acc (vdist (scaled p sc) (scaled q sc))) q lq r total ->
    walked scales acc p l ((q, lq) :: r) total.

End Spec_detailed.
Arguments Mark A : clear implicits.
