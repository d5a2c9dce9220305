(** Specification of C83: decimal texts and the real numbers they stand for. *)
From Coq Require Import List NArith ZArith Bool Ascii Reals.
From Coq.Floats Require Import SpecFloat.
From Flocq Require Import Core.
From Verif Require Import Base PolyFile Spec_file F32.
Import ListNotations.
Open Scope N_scope.

(** An optional sign. *)
Definition sign_of (t : text) (negative : bool) : Prop :=
  t = [] /\ negative = false \/ t = ["+"]%char /\ negative = false \/ t = ["-"]%char /\ negative = true.
(** Digits, or digits around a point, not all missing: n without the point, k digits behind it. *)
Definition mantissa_of (t : text) (n k : N) : Prop :=
  numeral t n /\ k = 0 \/ exists a b, t = a ++ ["."]%char ++ b /\ numeral (a ++ b) n /\ k = N.of_nat (length b).
(** Nothing, or e or E followed by an integer with an optional sign. *)
Definition exponent_of (t : text) (negative : bool) (j : N) : Prop :=
  t = [] /\ negative = false /\ j = 0 \/
  exists c sg d, t = c :: sg ++ d /\ (c = "e"%char \/ c = "E"%char) /\ sign_of sg negative /\ numeral d j.
(** [t] is a decimal: minus (if s) n 10^-k 10^(-j or j) *)
Definition decimal (t : text) (s : bool) (n k : N) (e : bool) (j : N) : Prop :=
  exists sg m w, t = sg ++ m ++ w /\ sign_of sg s /\ mantissa_of m n k /\ exponent_of w e j.
Definition decimal_value (n k : N) (e : bool) (j : N) : R :=
  (IZR (Z.of_N n) * powerRZ 10 ((if e then - Z.of_N j else Z.of_N j) - Z.of_N k))%R.
(** inf, infinity, nan in any case *)
Definition same_letter (c d : ascii) : Prop := c = d \/ (97 <= N_of_ascii d <= 122 /\ N_of_ascii c + 32 = N_of_ascii d).
Definition word_of (t : text) (w : text) : Prop := Forall2 same_letter t w.
Definition inf_word : text := ["i"; "n"; "f"]%char.
Definition infinity_word : text := ["i"; "n"; "f"; "i"; "n"; "i"; "t"; "y"]%char.
Definition nan_word : text := ["n"; "a"; "n"]%char.

(** Rounding to binary32, to nearest and ties to even. *)
Definition nearest32 (x : R) : R := round radix2 (FLT_exp (-149) 24) ZnearestE x.
