(** Binary32 numbers and the real numbers they stand for. *)
From Coq Require Import List NArith ZArith Bool Reals.
From Coq.Floats Require Import SpecFloat.
From Flocq Require Import Core BinarySingleNaN.
From Verif Require Import Base Arith RealArith F32 Mesh Geometry.
Import ListNotations.
Open Scope R_scope.

(** [x] is a finite binary32 number, of value [r] *)
Definition num (x : spec_float) (r : R) : Prop := valid_binary prec32 emax32 x = true /\ is_finite_SF x = true /\ SF2R radix2 x = r.

Section Spec.
Context {sn cs ac : spec_float -> spec_float}.
Notation A := (F32with sn cs ac).

(** the vector [v] of two binary32 numbers is the point [p] of the plane *)
Definition at32 (v : vec2 A) (p : P2) : Prop := num (vx v) (px p) /\ num (vy v) (py p).

(** The corners of polygon [p] (in the coordinates of the layer) are [qs]. *)
Definition corners32 (l : Layer A) (p : Polygon) (qs : list P2) : Prop :=
  Forall2 (fun i q => exists v, nthN (vertices l) i = Some v /\ at32 (coords v) q) (pverts p) qs.
End Spec.

(** both coordinates are at most [r] away from 0 *)
Definition within (r : R) (p : P2) : Prop := Rabs (px p) <= r /\ Rabs (py p) <= r.
(** far from the range where binary32 overflows: 2^60 is about 10^18 *)
Definition moderate (p : P2) : Prop := within 1152921504606846976 p.

(** The two products whose difference tells on which side of [a, b] the point [x] is, in absolute value. *)
Definition spread (a b x : P2) : R :=
  Rabs ((px b - px a) * (py x - py a)) + Rabs ((py b - py a) * (px x - px a)).
(** How much binary32 can be wrong about [orient a b x] compared with the tolerance 1/10000: five units in the last place
    of the two products, and the rounding of the constant. *)
Definition slack (a b x : P2) : R := 5 / 16777216 * spread a b x + / 137438953472.

(** both coordinates are multiples of 1/2^k, with at most 10 bits *)
Definition on_grid (k : Z) (p : P2) : Prop :=
  exists m n : Z, p = P (IZR m / IZR (2 ^ k)) (IZR n / IZR (2 ^ k)) /\ (Z.abs m <= 1024)%Z /\ (Z.abs n <= 1024)%Z.

(** [qs] are the corners of a strictly convex polygon, counterclockwise. *)
Definition strictly_convex (qs : list P2) : Prop :=
  (3 <= length qs)%nat /\ NoDup qs /\ forall a b c, In (a, b) (poly_edges qs) -> In c qs -> c <> a -> c <> b -> 0 < orient a b c.

(** The exact length of the walk from [a] through the points. *)
Fixpoint walked (a : P2) (l : list P2) : R :=
  match l with
  | [] => 0
  | b :: r => dist a b + walked b r
  end.
(** A bound on the error of a length made of [n] legs: 2n + 8 units in the last place, and 2n / 2^72. *)
Definition length_error (n : nat) (exact : R) : R := (2 * INR n + 8) / 16777216 * exact + 2 * INR n / 4722366482869645213696.

(** Every vertex of the mesh, put where its layer is, is a point of finite coordinates, at most 2^46 (7 * 10^13) away from the axes. *)
Definition mesh32 {sn cs ac : spec_float -> spec_float} (m : Mesh (F32with sn cs ac)) : Prop :=
  forall l v, In l (layers m) -> In v (vertices l) ->
    exists q, at32 (vadd (coords v) (offset l)) q /\ within 70368744177664 q.

(** The rounding errors in the four orientations that decide how a path ends, twice. *)
Definition rounding (root i0 i1 goal : P2) : R :=
  2 * (slack root i0 goal + slack root i1 goal + slack i0 i1 root + slack i0 i1 goal).
(** The goal is clearly behind the last crossed interval [i0, i1], and the last corner [root] is an end of that interval, or clearly in
    front of it and the goal clearly to one side of both lines of sight through the ends. *)
Definition clear_end (root i0 i1 goal : P2) : Prop :=
  let margin := eps + rounding root i0 i1 goal in
  orient i0 i1 goal <= - margin /\
  (root = i0 \/ root = i1 \/
   (margin <= orient i0 i1 root /\ margin <= Rabs (orient root i0 goal) /\ margin <= Rabs (orient root i1 goal))).
