(** The `mesh 2` file format: src/input/polyanya_file.rs, and Polygon::using of src/primitives.rs.
    Simplification: the bytes are taken as one character each; `lines()` would panic on bytes that are not UTF-8. *)
From Coq Require Import List NArith ZArith Bool Ascii.
From Verif Require Import Base Arith U32 Mesh Helpers Bake.
Import ListNotations.
Open Scope N_scope.

Definition text := list ascii.
Definition sp : ascii := " "%char.
Definition lf : ascii := ascii_of_N 10.
Definition cr : ascii := ascii_of_N 13.
Definition text_eqb (a b : text) : bool := if list_eq_dec ascii_dec a b then true else false.

(** str::split(c): always at least one piece *)
Fixpoint split_on (c : ascii) (t : text) : list text :=
  match t with
  | [] => [[]]
  | x :: r =>
      if Ascii.eqb x c then [] :: split_on c r
      else match split_on c r with
           | p :: ps => (x :: p) :: ps
           | [] => [[x]]
           end
  end.
(** str::split_once(c): before and after the first c *)
Fixpoint split_once (c : ascii) (t : text) : option (text * text) :=
  match t with
  | [] => None
  | x :: r => if Ascii.eqb x c then Some ([], r)
              else option_map (fun ab => (x :: fst ab, snd ab)) (split_once c r)
  end.
(** slice::join *)
Fixpoint join (c : ascii) (ts : list text) : text :=
  match ts with
  | [] => []
  | [t] => t
  | t :: r => t ++ c :: join c r
  end.
(** BufRead::lines: the line feed is removed, with a carriage return just before it; an empty last piece is no line *)
Definition chomp (t : text) : text :=
  match rev t with
  | c :: r => if Ascii.eqb c cr then rev r else t
  | [] => t
  end.
Fixpoint finish_lines (ps : list text) : list text :=
  match ps with
  | [] => []
  | [p] => match p with [] => [] | _ => [p] end
  | p :: r => chomp p :: finish_lines r
  end.
Definition lines (t : text) : list text := finish_lines (split_on lf t).

(** Integers: ToString, and FromStr of the integer types (core/src/num): an optional sign, at least one digit, nothing else, and the
    value fits. *)
Definition digit_char (d : N) : ascii := ascii_of_N (48 + d).
Definition digit_of (c : ascii) : option N :=
  let n := N_of_ascii c in if (48 <=? n) && (n <=? 57) then Some (n - 48) else None.
Fixpoint print_digits (fuel : nat) (n : N) : text :=
  match fuel with
  | O => []
  | S k => if n <? 10 then [digit_char n] else print_digits k (n / 10) ++ [digit_char (n mod 10)]
  end.
Definition print_N (n : N) : text := print_digits (S (N.to_nat (N.log2 n))) n.
Fixpoint digits_from (acc : N) (t : text) : option N :=
  match t with
  | [] => Some acc
  | c :: r => match digit_of c with Some d => digits_from (acc * 10 + d) r | None => None end
  end.
Definition digits (t : text) : option N := match t with [] => None | _ => digits_from 0 t end.
Definition at_most (max : N) (o : option N) : option N :=
  match o with Some n => if n <=? max then Some n else None | None => None end.
(** an unsigned type with the given maximum *)
Definition parse_unsigned (max : N) (t : text) : option N :=
  match t with
  | c :: r => if Ascii.eqb c "+" then at_most max (digits r) else at_most max (digits t)
  | [] => None
  end.
(** a signed type with the given maximum *)
Definition parse_signed (max : N) (t : text) : option Z :=
  match t with
  | c :: r => if Ascii.eqb c "-" then option_map (fun n => (- Z.of_N n)%Z) (at_most (max + 1) (digits r))
              else option_map Z.of_N (parse_unsigned max t)
  | [] => None
  end.
Definition u32_max : N := 2^32 - 1.
Definition i32_max : N := 2^31 - 1.
Definition usize_max : N := 2^64 - 1.
Definition isize_max : N := 2^63 - 1.

(** isize as u32 *)
Definition isize_as_u32 (z : Z) : N := Z.to_N (z mod 2^32).

(** primitives.rs 67-90: Polygon::using.  The loop: [found_trav] and the flag. *)
Fixpoint using_loop (found_trav is_one_way : bool) (ns : list Z) : bool :=
  match ns with
  | [] => is_one_way
  | n :: r => if negb (Z.eqb n (-1)) then (if found_trav then false else using_loop true is_one_way r)
              else using_loop found_trav is_one_way r
  end.
Definition polygon_using (nb : N) (data : list Z) : res Polygon :=
  if nb <=? lengthN data then
    let neighbours := skipn (N.to_nat nb) data in
    Ok (mkPolygon (map isize_as_u32 (firstn (N.to_nat nb) data))
                  (using_loop false (match neighbours with [] => false | _ => true end) neighbours))
  else Panic.

Section File.
Context {A : Arith}.
(** `{:.06}` of f32, and f32::from_str *)
Variable print_f : F A -> text.
Variable parse_f : text -> option (F A).

(** polyanya_file.rs 11-16 *)
Record PolyFile := mkFile { file_vertices : list (Vertex A); file_polygons : list Polygon }.

(** polyanya_file.rs 56-65: a vertex line *)
Definition read_vertex (line : text) : res (Vertex A) :=
  match split_on sp line with
  | tx :: rest =>
      let* x := unwrap (parse_f tx) in
      match rest with
      | ty :: rest =>
          let* y := unwrap (parse_f ty) in
          Ok (vertex_new (V x y) (map (fun t => match parse_unsigned u32_max t with Some n => n | None => MAX end) (tl rest)))
      | [] => Panic
      end
  | [] => Panic
  end.
(** polyanya_file.rs 73-76: a polygon line *)
Definition read_polygon (line : text) : res Polygon :=
  match split_on sp line with
  | tn :: rest =>
      let* n := unwrap (parse_unsigned usize_max tn) in
      let* data := mapM (fun t => unwrap (parse_signed isize_max t)) rest in
      polygon_using n data
  | [] => Panic
  end.
(** polyanya_file.rs 46-49: the counts; their type is i32, the default of integer literals *)
Definition read_counts (line : text) : res (Z * Z) :=
  match split_once sp line with
  | Some (a, b) =>
      let* x := unwrap (parse_signed i32_max a) in
      let* y := unwrap (parse_signed i32_max b) in
      Ok (x, y)
  | None => Panic
  end.

(** polyanya_file.rs 36-38: the state of the loop; the vertices and polygons read so far *)
Record read_state := mkRead { phase : N; nb_vertices : Z; nb_polygons : Z; read_so_far : PolyFile }.

Definition mesh_word : text := ["m"; "e"; "s"; "h"]%char.
Definition two_word : text := ["2"]%char.

(** polyanya_file.rs 70-80: phase 2 *)
Definition read_line2 (s : read_state) (line : text) : res read_state :=
  if (0 <? nb_polygons s)%Z then
    let* p := read_polygon line in
    Ok (mkRead 2 (nb_vertices s) (nb_polygons s - 1) (mkFile (file_vertices (read_so_far s)) (file_polygons (read_so_far s) ++ [p])))
  else Panic.
(** polyanya_file.rs 39-81: one line *)
Definition read_line (s : read_state) (line : text) : res read_state :=
  if phase s =? 0 then
    if text_eqb line mesh_word || text_eqb line two_word then Ok s
    else let* nn := read_counts line in Ok (mkRead 1 (fst nn) (snd nn) (read_so_far s))
  else if phase s =? 1 then
    if (0 <? nb_vertices s)%Z then
      let* v := read_vertex line in
      Ok (mkRead 1 (nb_vertices s - 1) (nb_polygons s) (mkFile (file_vertices (read_so_far s) ++ [v]) (file_polygons (read_so_far s))))
    else read_line2 s line
  else read_line2 s line.

(** polyanya_file.rs 31-83 *)
Definition from_bytes (bytes : text) : res PolyFile :=
  let* s := foldM read_line (mkRead 0 0 0 (mkFile [] [])) (lines bytes) in
  Ok (read_so_far s).

(** polyanya_file.rs 97-139 *)
Definition write_vertex (v : Vertex A) : text :=
  print_f (vx (coords v)) ++ [sp] ++ print_f (vy (coords v)) ++ [sp] ++ print_N (lengthN (vpolys v)) ++ [sp]
  ++ join sp (map print_N (vpolys v)) ++ [lf].
Definition write_polygon (p : Polygon) : text :=
  print_N (lengthN (pverts p)) ++ [sp] ++ join sp (map print_N (pverts p)) ++ [lf].
Definition to_bytes (f : PolyFile) : text :=
  mesh_word ++ [lf] ++ two_word ++ [lf]
  ++ print_N (lengthN (file_vertices f)) ++ [sp] ++ print_N (lengthN (file_polygons f)) ++ [lf]
  ++ concat (map write_vertex (file_vertices f)) ++ concat (map write_polygon (file_polygons f)).

(** polyanya_file.rs 142-148: TryFrom<PolyanyaFile> for Mesh *)
Definition mesh_of_file (f : PolyFile) : res (outcome (Mesh A)) := mesh_new (file_vertices f) (file_polygons f).
(** polyanya_file.rs 150-158: From<Mesh> for PolyanyaFile *)
Definition file_of_mesh (m : Mesh A) : res PolyFile :=
  match rev (layers m) with
  | l :: _ => Ok (mkFile (vertices l) (polygons l))
  | [] => Panic
  end.
End File.

Arguments PolyFile A : clear implicits.
Arguments read_state A : clear implicits.
