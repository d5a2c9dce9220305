(** Abstract arithmetic and glam's Vec2 (glam 0.29, scalar implementation).

    The code of /repo uses [f32] everywhere.  The model is parametrised by an
    arbitrary record of operations, *without laws*: what is proved for every [Arith]
    holds for every rounding behaviour, in particular for IEEE binary32. *)
From Coq Require Import List NArith ZArith Bool.
Import ListNotations.

Record Arith : Type := mkArith {
  F : Type;                             (* f32 *)
  fadd : F -> F -> F;                   (* +  *)
  fsub : F -> F -> F;                   (* -  *)
  fmul : F -> F -> F;                   (* *  *)
  fdiv : F -> F -> F;                   (* /  *)
  fneg : F -> F;                        (* unary - *)
  fabs : F -> F;                        (* f32::abs *)
  fsqrt : F -> F;                       (* f32::sqrt *)
  flt : F -> F -> bool;                 (* <  *)
  fle : F -> F -> bool;                 (* <= *)
  feq : F -> F -> bool;                 (* == *)
  fnan : F -> bool;                     (* f32::is_nan *)
  ftotal : F -> F -> comparison;        (* f32::total_cmp *)
  flit : Z -> positive -> F;            (* the literal n/d, correctly rounded; also `as f32` of an integer *)
  fi32 : F -> Z;                        (* `as i32`: truncating, saturating, NaN -> 0 *)
  fsin : F -> F;                        (* f32::sin *)
  fcos : F -> F;                        (* f32::cos *)
  facos : F -> F;                       (* glam's acos_approx *)
  fmaxval : F;                          (* f32::MAX *)
  ftau : F                              (* std::f32::consts::TAU *)
}.

Arguments fadd {a}. Arguments fsub {a}. Arguments fmul {a}. Arguments fdiv {a}.
Arguments fneg {a}. Arguments fabs {a}. Arguments fsqrt {a}. Arguments flt {a}.
Arguments fle {a}. Arguments feq {a}. Arguments fnan {a}. Arguments ftotal {a}.
Arguments flit {a}. Arguments fi32 {a}. Arguments fsin {a}. Arguments fcos {a}.
Arguments facos {a}. Arguments fmaxval {a}. Arguments ftau {a}.

Record vec2 (A : Arith) : Type := V { vx : F A; vy : F A }.
Arguments V {A}. Arguments vx {A}. Arguments vy {A}.

Section Ops.
Context {A : Arith}.

(** integer literal *)
Definition fz (n : Z) : F A := flit n 1.

(** [>] and [>=] are the flipped comparisons in Rust as well *)
Definition fgt (x y : F A) : bool := flt y x.
Definition fge (x y : F A) : bool := fle y x.

(** glam Vec2: Add, Sub, Neg, Mul<f32>, f32 * Vec2 (all component-wise) *)
Definition vadd (a b : vec2 A) : vec2 A := V (fadd (vx a) (vx b)) (fadd (vy a) (vy b)).
Definition vsub (a b : vec2 A) : vec2 A := V (fsub (vx a) (vx b)) (fsub (vy a) (vy b)).
Definition vneg (a : vec2 A) : vec2 A := V (fneg (vx a)) (fneg (vy a)).
Definition vscale (a : vec2 A) (k : F A) : vec2 A := V (fmul (vx a) k) (fmul (vy a) k).
Definition vdivs (a : vec2 A) (k : F A) : vec2 A := V (fdiv (vx a) k) (fdiv (vy a) k).
(** Vec2 == Vec2 is component-wise f32 == *)
Definition veq (a b : vec2 A) : bool := feq (vx a) (vx b) && feq (vy a) (vy b).
(** dot, perp_dot, length_squared, length, distance_squared, distance, project_onto, normalize *)
Definition vdot (a b : vec2 A) : F A := fadd (fmul (vx a) (vx b)) (fmul (vy a) (vy b)).
Definition perp_dot (a b : vec2 A) : F A := fsub (fmul (vx a) (vy b)) (fmul (vy a) (vx b)).
Definition vlen2 (a : vec2 A) : F A := vdot a a.
Definition vlen (a : vec2 A) : F A := fsqrt (vdot a a).
Definition vdist2 (a b : vec2 A) : F A := vlen2 (vsub a b).
Definition vdist (a b : vec2 A) : F A := vlen (vsub a b).
(** self.project_onto(rhs) = rhs * self.dot(rhs) * rhs.dot(rhs).recip() *)
Definition project_onto (a b : vec2 A) : vec2 A :=
  vscale (vscale b (vdot a b)) (fdiv (fz 1) (vdot b b)).
(** self.normalize() = self.mul(self.length_recip()) *)
Definition vnormalize (a : vec2 A) : vec2 A := vscale a (fdiv (fz 1) (vlen a)).
(** f32::signum, for a number; glam's angle_to uses it on perp_dot.
    Simplification: signum of -0.0 is -1 in Rust; the model has no sign bit test and returns 1,
    which only matters for the sort key of C29, where every key function is allowed. *)
Definition fsignum (x : F A) : F A :=
  if fnan x then x else if flt x (fz 0) then fz (-1) else fz 1.
(** Vec2::angle_to (glam 0.29): acos_approx(dot / sqrt(len2 * len2)) * signum(perp_dot) *)
Definition angle_to (a b : vec2 A) : F A :=
  fmul (facos (fdiv (vdot a b) (fsqrt (fmul (vlen2 a) (vlen2 b))))) (fsignum (perp_dot a b)).
Definition vzero : vec2 A := V (fz 0) (fz 0).
(** iter().sum::<Vec2>(): left fold from zero *)
Definition vsum (l : list (vec2 A)) : vec2 A := fold_left vadd l vzero.
End Ops.
