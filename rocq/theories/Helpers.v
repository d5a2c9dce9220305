(** src/helpers.rs *)
From Coq Require Import List NArith ZArith Bool.
From Verif Require Import Base Arith.
Import ListNotations.

(** instance.rs 39-44 *)
Inductive EdgeSide := SLeft | SRight | SEdge.

Definition side_eqb (a b : EdgeSide) : bool :=
  match a, b with
  | SLeft, SLeft | SRight, SRight | SEdge, SEdge => true
  | _, _ => false
  end.

Lemma side_eqb_eq a b : side_eqb a b = true <-> a = b.
Proof. destruct a, b; simpl; split; intro; congruence. Qed.

Section Helpers.
Context {A : Arith}.

(** helpers.rs 8: EPSILON = 1e-4 *)
Definition EPS : F A := flit 1 10000.

(** helpers.rs 21-30: side *)
Definition side (p : vec2 A) (line : vec2 A * vec2 A) : EdgeSide :=
  let local_point := vsub p (fst line) in
  let local_line := vsub (snd line) (fst line) in
  let x := perp_dot local_line local_point in
  if flt (fabs x) EPS then SEdge
  else if fgt x (fz 0) then SLeft
  else SRight.

(** helpers.rs 36-43: mirror *)
Definition mirror (p : vec2 A) (line : vec2 A * vec2 A) : vec2 A :=
  let local_point := vsub p (fst line) in
  let local_line := vsub (snd line) (fst line) in
  let pr := project_onto local_point local_line in
  (* [2.0 * v]: f32 * Vec2 multiplies each component, 2.0 * x *)
  let twice := V (fmul (fz 2) (vx pr)) (fmul (fz 2) (vy pr)) in
  vadd (fst line) (vsub twice local_point).

(** helpers.rs 74-80 and 98-104 *)
Definition hmin (x y : F A) : F A := if flt x y then x else y.
Definition hmax (x y : F A) : F A := if fgt x y then x else y.

(** RangeInclusive::contains: start <= x && x <= end *)
Definition in_range (lo hi x : F A) : bool := fle lo x && fle x hi.

(** helpers.rs 48-55: on_segment *)
Definition on_segment (p : vec2 A) (s : vec2 A * vec2 A) : bool :=
  in_range (hmin (vx (fst s)) (vx (snd s))) (hmax (vx (fst s)) (vx (snd s))) (vx p)
  && in_range (hmin (vy (fst s)) (vy (snd s))) (hmax (vy (fst s)) (vy (snd s))) (vy p)
  && side_eqb (side p s) SEdge.

(** helpers.rs 158-167: intersection_time *)
Definition intersection_time (line segment : vec2 A * vec2 A) : F A :=
  let local_line := vsub (fst line) (snd line) in
  fdiv (perp_dot (vsub (fst line) (fst segment)) local_line)
       (perp_dot local_line (vsub (fst segment) (snd segment))).

(** helpers.rs 111-115 and 136-140: the goal, mirrored when it is on the same side as the root *)
Definition mirrored_goal (root goal : vec2 A) (i : vec2 A * vec2 A) : vec2 A :=
  if side_eqb (side root i) (side goal i) then mirror goal i else goal.

(** helpers.rs 109-130: heuristic *)
Definition heuristic (root goal : vec2 A) (i : vec2 A * vec2 A) : F A :=
  let goal := mirrored_goal root goal i in
  if veq root (fst i) || veq root (snd i) then vdist root goal
  else
    let t := intersection_time (root, goal) i in
    if flt t (fz 0) then fadd (vdist root (fst i)) (vdist (fst i) goal)
    else if fgt t (fz 1) then fadd (vdist root (snd i)) (vdist (snd i) goal)
    else vdist root goal.

(** helpers.rs 135-151: turning_point *)
Definition turning_point (root goal : vec2 A) (i : vec2 A * vec2 A) : option (vec2 A) :=
  let goal := mirrored_goal root goal i in
  if veq root (fst i) then None
  else if side_eqb (side goal (root, fst i)) SRight then Some (fst i)
  else if side_eqb (side goal (root, snd i)) SLeft then Some (snd i)
  else None.

(** helpers.rs 172-180: line_intersect_segment *)
Definition line_intersect_segment (line segment : vec2 A * vec2 A) : option (vec2 A) :=
  let t := intersection_time line segment in
  if negb (in_range (fneg EPS) (fadd (fz 1) EPS) t) || fnan t then None
  else
    let d := vsub (snd segment) (fst segment) in
    (* [t * Vec2] multiplies each component, t * x *)
    Some (vadd (fst segment) (V (fmul t (vx d)) (fmul t (vy d)))).

End Helpers.
