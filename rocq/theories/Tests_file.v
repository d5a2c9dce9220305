(** Reading and writing files in binary32 (faithfulness tests, not proofs). *)
From Coq Require Import List NArith ZArith Bool Ascii String.
From Coq.Floats Require Import SpecFloat.
From Verif Require Import Base Arith F32 U32 Mesh Helpers Locate Bake PolyFile Decimal32 Tests.
Import ListNotations.
Open Scope N_scope.

Definition str (s : string) : text := list_ascii_of_string s.
Definition eol : string := String lf EmptyString.
Definition rows (l : list string) : text := List.concat (map (fun s => str s ++ [lf])%list l).
Definition read32 (t : text) : res (PolyFile F32) := from_bytes (A := F32) parse_f32 t.
Definition write32 (f : PolyFile F32) : text := to_bytes (A := F32) print_f32 f.

(** the example of meshes/format.txt *)
Definition format_example : text := rows
  ["mesh"; "2"; "4 2"; "0.0 0.0 2 0 -1"; "1.5 0.0 3 0 1 -1"; "1.5 1.5 2 1 -1"; "0.0 1.5 3 -1 1 0"; "3 0 1 3 -1 -1 1"; "3 1 2 3 0 -1 -1"]%string.
Example t_read : read32 format_example = Ok (mkFile
  [vertex_new (pt10 0 0) [0; MAX]; vertex_new (pt10 15 0) [0; 1; MAX]; vertex_new (pt10 15 15) [1; MAX]; vertex_new (pt10 0 15) [MAX; 1; 0]]
  [mkPolygon [0; 1; 3] true; mkPolygon [1; 2; 3] true]).
Proof. vmc. Qed.

(** what to_bytes writes *)
Definition small_file : PolyFile F32 := mkFile
  [vertex_new (pt100 (-150) 12345) [0; MAX]; vertex_new (pt10 1 0) [0]; vtx 16777216 0 []] [mkPolygon [0; 1; 2] true; mkPolygon [] true].
Example t_write : write32 small_file = rows ["mesh"; "2"; "3 2"; "-1.500000 123.449997 2 0 4294967295"; "0.100000 0.000000 1 0";
   "16777216.000000 0.000000 0 "; "3 0 1 2"; "0 "]%string.
Proof. vmc. Qed.
Example t_write_special : map print_f32 [S754_nan; S754_infinity true; S754_zero true; q 1 3; q 2 3; q (-1) 10000000; q 1 64; q 1 128] =
  map str ["NaN"; "-inf"; "-0.000000"; "0.333333"; "0.666667"; "-0.000000"; "0.015625"; "0.007812"]%string.
Proof. vmc. Qed.
Example t_parse : map parse_f32 (map str ["0.1"; "-2"; "1."; ".5"; "."; ""; "+3"; "1e"; "-NaN"; "-0.000000"; "16777217"; "1.000000059604645";
    "1e3"; "-12.5E-1"; ".5e+1"; "e5"; "1e5.0"; "1e-60"; "1e60"; "1ee2"; "2e"]%string) =
  [Some (q 1 10); Some (q (-2) 1); Some (q 1 1); Some (q 1 2); None; None; Some (q 3 1); None; Some S754_nan; Some (S754_zero true);
   Some (q 16777216 1); Some (S754_finite false 8388609 (-23));
   Some (q 1000 1); Some (q (-5) 4); Some (q 5 1); None; None; Some (S754_zero false); Some (S754_infinity false); None; None].
Proof. vmc. Qed.
