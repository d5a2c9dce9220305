(** IEEE-754 binary32 as an [Arith], from the standard library's executable specification of floats
    (Coq.Floats.SpecFloat, round to nearest even).  No axioms, and everything computes. *)
From Coq Require Import List NArith ZArith Bool.
From Coq.Floats Require Import SpecFloat.
From Verif Require Import Base Arith.
Import ListNotations.
Open Scope Z_scope.

Definition prec32 := 24%Z.
Definition emax32 := 128%Z.

Definition s_add := SFadd prec32 emax32.
Definition s_sub := SFsub prec32 emax32.
Definition s_mul := SFmul prec32 emax32.
Definition s_div := SFdiv prec32 emax32.
Definition s_sqrt := SFsqrt prec32 emax32.
(** integer to f32, rounded to nearest even *)
Definition s_ofZ (n : Z) : spec_float := binary_normalize prec32 emax32 n 0 false.

Definition s_isnan (x : spec_float) : bool := match x with S754_nan => true | _ => false end.

(** position in the order of [f32::total_cmp], as an integer pair: all the negative values, -0, +0, the positive
    values, and NaN last.  Simplification: SpecFloat has a single NaN, taken as a positive NaN. *)
Definition s_total (x y : spec_float) : comparison :=
  match x, y with
  | S754_nan, S754_nan => Eq
  | S754_nan, _ => Gt
  | _, S754_nan => Lt
  | S754_zero sx, S754_zero sy =>
      match sx, sy with true, false => Lt | false, true => Gt | _, _ => Eq end
  | _, _ => match SFcompare x y with Some c => c | None => Eq end
  end.

(** [x as i32] *)
Definition s_i32 (x : spec_float) : Z :=
  match x with
  | S754_zero _ | S754_nan => 0
  | S754_infinity s => if s then -2147483648 else 2147483647
  | S754_finite s m e =>
      let a := if 0 <=? e then Zpos m * 2 ^ e else Zpos m / 2 ^ (- e) in
      if s then Z.max (-2147483648) (- a) else Z.min 2147483647 a
  end.

(** n/d for n, d exactly representable (all the literals of the code are) *)
Definition s_lit (n : Z) (d : positive) : spec_float :=
  match d with
  | xH => s_ofZ n
  | _ => s_div (s_ofZ n) (s_ofZ (Zpos d))
  end.

(** binary32 with the given sin, cos and acos_approx *)
Definition F32with (sin cos acos : spec_float -> spec_float) : Arith :=
  mkArith spec_float s_add s_sub s_mul s_div SFopp SFabs s_sqrt
          SFltb SFleb SFeqb s_isnan s_total s_lit s_i32 sin cos acos
          (S754_finite false 16777215 104)          (* f32::MAX *)
          (S754_finite false 13176795 (-21)).       (* TAU = 0x40C90FDB *)

(** For concrete runs only: power series (not bit exact with a libm). *)
Fixpoint series (k : nat) (n : Z) (x2 term acc : spec_float) : spec_float :=
  match k with
  | O => acc
  | S k =>
      let term := SFopp (s_div (s_mul term x2) (s_ofZ (n * (n + 1)))) in
      series k (n + 2) x2 term (s_add acc term)
  end.
Definition t_sin (x : spec_float) : spec_float :=
  match x with S754_zero _ => x | _ => series 11 2 (s_mul x x) x x end.
Definition t_cos (x : spec_float) : spec_float :=
  match x with S754_zero _ => s_ofZ 1 | _ => series 11 1 (s_mul x x) (s_ofZ 1) (s_ofZ 1) end.
(** acos x = pi/2 - atan-like polynomial (Abramowitz-Stegun 4.4.45), for runs only *)
Definition t_acos (x : spec_float) : spec_float :=
  let a := SFabs x in
  let p := s_sub (s_lit 15707963 10000000)
             (s_mul a (s_sub (s_lit 2121144 10000000)
                (s_mul a (s_sub (s_lit 742610 10000000) (s_mul a (s_lit 187293 10000000)))))) in
  let r := s_mul (s_sqrt (s_sub (s_ofZ 1) a)) p in
  if SFltb x (s_ofZ 0) then s_sub (s_lit 31415926 10000000) r else r.

Definition F32 : Arith := F32with t_sin t_cos t_acos.
