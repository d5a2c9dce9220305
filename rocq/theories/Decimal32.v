(** Printing and reading of f32 as decimals, as Rust's core does: `{:.06}` (core/src/fmt/float.rs: exact mode, six digits after the point,
    correctly rounded, ties to even) and f32::from_str (core/src/num/dec2flt/parse.rs: the grammar; the result is correctly rounded). *)
From Coq Require Import List NArith ZArith Bool Ascii.
From Coq.Floats Require Import SpecFloat.
From Verif Require Import Base Arith F32 PolyFile.
Import ListNotations.
Open Scope N_scope.

(** n / d rounded to the nearest integer, ties to even *)
Definition div_even (n d : N) : N :=
  let q := n / d in let r := n mod d in
  match N.compare (2 * r) d with Lt => q | Gt => q + 1 | Eq => if N.even q then q else q + 1 end.
(** m 2^e in millionths *)
Definition millionths (m : positive) (e : Z) : N :=
  if (0 <=? e)%Z then Npos m * 2 ^ Z.to_N e * 1000000 else div_even (Npos m * 1000000) (2 ^ Z.to_N (- e)).

(** the last k digits of n *)
Fixpoint last_digits (k : nat) (n : N) : text :=
  match k with O => [] | S k => last_digits k (n / 10) ++ [digit_char (n mod 10)] end.
Definition sign_text (s : bool) : text := if s then ["-"]%char else [].
Definition fixed6 (n : N) : text := print_N (n / 1000000) ++ "."%char :: last_digits 6 n.
Definition inf_text : text := ["i"; "n"; "f"]%char.
Definition nan_text : text := ["N"; "a"; "N"]%char.
Definition print_f32 (x : spec_float) : text :=
  match x with
  | S754_nan => nan_text
  | S754_infinity s => sign_text s ++ inf_text
  | S754_zero s => sign_text s ++ fixed6 0
  | S754_finite s m e => sign_text s ++ fixed6 (millionths m e)
  end.

(** p / q rounded to binary32, p q > 0 *)
Definition round_ratio (s : bool) (p q : positive) : spec_float :=
  let '(mz, ez, lz) := SFdiv_core_binary prec32 emax32 (Zpos p) 0 (Zpos q) 0 in
  binary_round_aux prec32 emax32 s mz ez lz.
Definition of_ratio (s : bool) (p : N) (q : positive) : spec_float :=
  match p with N0 => S754_zero s | Npos p => round_ratio s p q end.

Definition lower (c : ascii) : ascii :=
  let n := N_of_ascii c in if (65 <=? n) && (n <=? 90) then ascii_of_N (n + 32) else c.
(** parse_partial_number: digits, a point and digits; one of the two may be missing, and the point too.
    Result: the number without its point, and how many digits are behind the point. *)
Definition mantissa (t : text) : option (N * N) :=
  match split_once "." t with
  | Some (a, b) => match a ++ b with [] => None | ab => option_map (fun n => (n, lengthN b)) (digits_from 0 ab) end
  | None => option_map (fun n => (n, 0)) (digits t)
  end.
(** parse_scientific: an optional sign and digits; digits are ignored once the exponent is 65536 or more *)
Fixpoint exponent_from (acc : N) (t : text) : option N :=
  match t with
  | [] => Some acc
  | c :: r => match digit_of c with Some d => exponent_from (if acc <? 65536 then 10 * acc + d else acc) r | None => None end
  end.
Definition exponent_digits (t : text) : option N := match t with [] => None | _ => exponent_from 0 t end.
Definition exponent (t : text) : option Z :=
  match t with
  | [] => None
  | c :: r => if Ascii.eqb c "-" then option_map (fun n => (- Z.of_N n)%Z) (exponent_digits r)
              else if Ascii.eqb c "+" then option_map Z.of_N (exponent_digits r)
              else option_map Z.of_N (exponent_digits t)
  end.
(** the mantissa, and what follows the first e or E *)
Fixpoint cut_exponent (t : text) : text * option text :=
  match t with
  | [] => ([], None)
  | c :: r => if Ascii.eqb (lower c) "e" then ([], Some r) else (c :: fst (cut_exponent r), snd (cut_exponent r))
  end.
(** n 10^(x - k), rounded *)
Definition of_decimal (s : bool) (n k : N) (x : Z) : spec_float :=
  of_ratio s (n * 10 ^ Z.to_N x) (N.succ_pos (10 ^ (k + Z.to_N (- x)) - 1)).
Definition parse_unsigned_f32 (s : bool) (t : text) : option spec_float :=
  let '(m, w) := cut_exponent t in
  match mantissa m, (match w with Some w => exponent w | None => Some 0%Z end) with
  | Some (n, k), Some x => Some (of_decimal s n k x)
  | _, _ => None
  end.
Definition parse_word_f32 (s : bool) (t : text) : option spec_float :=
  let w := map lower t in
  if text_eqb w inf_text || text_eqb w ["i"; "n"; "f"; "i"; "n"; "i"; "t"; "y"]%char then Some (S754_infinity s)
  else if text_eqb w ["n"; "a"; "n"]%char then Some S754_nan
  else parse_unsigned_f32 s t.
Definition parse_f32 (t : text) : option spec_float :=
  match t with
  | c :: r => if Ascii.eqb c "-" then parse_word_f32 true r
              else if Ascii.eqb c "+" then parse_word_f32 false r
              else parse_word_f32 false t
  | [] => None
  end.
