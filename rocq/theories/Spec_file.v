(** The `mesh 2` format of meshes/format.txt, as a relation between a text and the numbers it stands for. *)
From Coq Require Import List NArith ZArith Bool Ascii.
From Verif Require Import Base Arith U32 Mesh Helpers PolyFile.
Import ListNotations.
Open Scope N_scope.

(** [t] is a decimal numeral of value [n]. *)
Inductive numeral : text -> N -> Prop :=
| num_digit d : d < 10 -> numeral [ascii_of_N (48 + d)] d
| num_more t n d : numeral t n -> d < 10 -> numeral (t ++ [ascii_of_N (48 + d)]) (10 * n + d).
(** A reference to a polygon: -1 stands for outside. *)
Inductive reference : text -> option N -> Prop :=
| ref_some t n : numeral t n -> reference t (Some n)
| ref_none : reference ["-"; "1"]%char None.
(** No separator inside. *)
Definition one_word (t : text) : Prop := ~ In sp t /\ ~ In lf t /\ ~ In cr t.

Section File.
Context {A : Arith}.
Variable parse_f : text -> option (F A).

(** x y n p1 .. pn *)
Definition vertex_line (t : text) (v : vec2 A * list (option N)) : Prop :=
  exists tx ty tn tids, t = join sp (tx :: ty :: tn :: tids) /\ one_word tx /\ one_word ty /\
    parse_f tx = Some (vx (fst v)) /\ parse_f ty = Some (vy (fst v)) /\ numeral tn (lengthN (snd v)) /\ Forall2 reference tids (snd v).
(** n v1 .. vn p1 .. pn *)
Definition polygon_line (t : text) (p : list N * list (option N)) : Prop :=
  exists tn tvs tps, t = join sp (tn :: tvs ++ tps) /\ numeral tn (lengthN (fst p)) /\ Forall2 numeral tvs (fst p) /\ Forall2 reference tps (snd p).
(** The file: two header lines, the counts, the vertices, the polygons. *)
Definition text_of_lines (ls : list text) : text := concat (map (fun t => t ++ [lf]) ls).
Definition counts_line (t : text) (nv np : N) : Prop := exists tv tp, t = tv ++ [sp] ++ tp /\ numeral tv nv /\ numeral tp np.
Definition mesh2_lines (nv np : N) (ls : list text) (vs : list (vec2 A * list (option N))) (ps : list (list N * list (option N))) : Prop :=
  exists tc tvs tps, ls = ["m"; "e"; "s"; "h"]%char :: ["2"]%char :: tc :: tvs ++ tps /\ counts_line tc nv np /\
    Forall2 vertex_line tvs vs /\ Forall2 polygon_line tps ps.
(** The numbers fit in the types of the code. *)
Definition fits (nv np : N) (vs : list (vec2 A * list (option N))) (ps : list (list N * list (option N))) : Prop :=
  nv < 2^31 /\ np < 2^31 /\
  Forall (fun v => Forall (fun o => forall n, o = Some n -> n < 2^32) (snd v)) vs /\
  Forall (fun p => lengthN (fst p) < 2^64 /\ Forall (fun n => n < 2^32) (fst p) /\ Forall (fun o => forall n, o = Some n -> n < 2^63) (snd p)) ps.

(** What the numbers mean. *)
Definition id_of (o : option N) : N := match o with Some n => n | None => MAX end.
Definition vertex_of (v : vec2 A * list (option N)) (r : Vertex A) : Prop :=
  coords r = fst v /\ vpolys r = map id_of (snd v) /\ (is_corner r = true <-> In MAX (vpolys r)).
(** How many of the neighbours exist. *)
Fixpoint existing (l : list (option N)) : nat := match l with [] => 0 | Some _ :: r => S (existing r) | None :: r => existing r end.
Definition polygon_of (p : list N * list (option N)) (r : Polygon) : Prop :=
  pverts r = fst p /\ (is_one_way r = true <-> snd p <> [] /\ (existing (snd p) <= 1)%nat).
End File.
