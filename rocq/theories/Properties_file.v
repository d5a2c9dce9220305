(** Mesh files: C39, C40, C52. *)
From Coq Require Import List NArith ZArith Bool Ascii Lia Reals Lra.
From Coq.Floats Require Import SpecFloat.
From Flocq Require Import Core BinarySingleNaN.
From Verif Require Import Base Arith F32 U32 Mesh Helpers Bake StdLib Spec Locate_facts Islands_facts Cleanup Cleanup_facts Properties_mesh
  PolyFile Decimal32 Spec_file File_facts Decimal32_facts Decimal32_real Tests Tests_stitch Tests_file.
Import ListNotations.
Open Scope N_scope.

Lemma Forall2_map_r {S T} (R : S -> T -> Prop) (g : S -> T) l : (forall x, In x l -> R x (g x)) -> Forall2 R l (map g l).
Proof. induction l as [|x l IH]; intro H; [constructor|]. cbn [map]. constructor; [apply H; now left|apply IH; intros; apply H; now right]. Qed.

Section Any.
Context {A : Arith}.
Variable parse_f : text -> option (F A).

(** C39, reading: a text in the documented format is read as what it says, whatever the parser of numbers. *)
Theorem C39_reads_the_format nv np ls vs ps : mesh2_lines parse_f nv np ls vs ps -> fits nv np vs ps -> lengthN vs = nv -> lengthN ps = np ->
  exists f, from_bytes parse_f (text_of_lines ls) = Ok f /\ Forall2 vertex_of vs (file_vertices f) /\ Forall2 polygon_of ps (file_polygons f).
Proof.
  intros Hl Hf L1 L2. eexists. split; [apply (from_bytes_lines parse_f nv np ls vs ps); try assumption; try lia; auto|]. cbn [file_vertices file_polygons].
  split; apply Forall2_map_r.
  - intros v _. unfold vertex_of, vertex_new. cbn [coords vpolys is_corner]. repeat split; auto; intro H; [now apply memN_In in H|now apply memN_In].
  - intros p _. unfold polygon_of. cbn [pverts is_one_way]. split; [reflexivity|apply one_way_of_spec].
Qed.
(** C40: the flag of a polygon in a file with the neighbours of the polygons. *)
Theorem C40_one_way_flag nv np ls vs ps : mesh2_lines parse_f nv np ls vs ps -> fits nv np vs ps -> lengthN vs = nv -> lengthN ps = np ->
  exists f, from_bytes parse_f (text_of_lines ls) = Ok f /\
    Forall2 (fun p r => snd p <> [] -> (is_one_way r = true <-> (existing (snd p) <= 1)%nat)) ps (file_polygons f).
Proof.
  intros Hl Hf L1 L2. eexists. split; [apply (from_bytes_lines parse_f nv np ls vs ps); try assumption; try lia; auto|]. cbn [file_polygons].
  apply Forall2_map_r. intros p _ Hne. cbn [is_one_way]. rewrite one_way_of_spec. tauto.
Qed.

(** C52: a file that was cut off between two lines is read without complaint, as the mesh with what is left. *)
Theorem C52_cut_off_refuted nv np ls vs ps k : mesh2_lines parse_f nv np ls vs ps -> fits nv np vs ps -> lengthN vs = nv -> lengthN ps = np ->
  (k <= length vs + length ps)%nat ->
  exists f, from_bytes parse_f (text_of_lines (firstn (3 + k) ls)) = Ok f /\
    Forall2 vertex_of (firstn k vs) (file_vertices f) /\ Forall2 polygon_of (firstn (k - length vs) ps) (file_polygons f).
Proof.
  intros (tc & tvs & tps & -> & Hc & Hv & Hp) (B1 & B2 & B3 & B4) L1 L2 Hk.
  assert (F2n : forall S T (R : S -> T -> Prop) a b n, Forall2 R a b -> Forall2 R (firstn n a) (firstn n b)).
  { clear. intros S T R a b n H. revert n. induction H; intros [|n]; cbn [firstn]; constructor; auto. }
  assert (F2l : forall S T (R : S -> T -> Prop) a b, Forall2 R a b -> length a = length b) by (clear; induction 1; simpl; congruence).
  assert (Fn : forall S (P : S -> Prop) a n, Forall P a -> Forall P (firstn n a)).
  { clear. intros S P a n H. revert n. induction H; intros [|n]; cbn [firstn]; constructor; auto. }
  assert (ML : mesh2_lines parse_f nv np (firstn (3 + k) (["m"; "e"; "s"; "h"]%char :: ["2"%char] :: tc :: tvs ++ tps)) (firstn k vs) (firstn (k - length vs) ps)).
  { exists tc, (firstn k tvs), (firstn (k - length vs) tps). split; [|split; [assumption|]; split; apply F2n; assumption].
    pose proof (F2l _ _ _ _ _ Hv) as El. cbn [firstn Nat.add]. unfold text in *. rewrite firstn_app, El. reflexivity. }
  assert (FT : fits nv np (firstn k vs) (firstn (k - length vs) ps)) by (repeat split; auto).
  eexists. split; [apply (from_bytes_lines parse_f nv np _ _ _ ML FT)|].
  - unfold lengthN in *. rewrite firstn_length. lia.
  - unfold lengthN in *. rewrite firstn_length. lia.
  - intro Hne. unfold lengthN in *. rewrite firstn_length. destruct (Nat.le_gt_cases (length vs) k); [lia|]. exfalso. apply Hne.
    now replace (k - length vs)%nat with 0%nat by lia.
  - cbn [file_vertices file_polygons]. split; apply Forall2_map_r.
    + intros v _. unfold vertex_of, vertex_new. cbn [coords vpolys is_corner]. repeat split; auto; intro H; [now apply memN_In in H|now apply memN_In].
    + intros p _. unfold polygon_of. cbn [pverts is_one_way]. split; [reflexivity|apply one_way_of_spec].
Qed.
(** With lines left over, reading panics. *)
Theorem C52_extra_lines_panic nv np ls vs ps t more : mesh2_lines parse_f nv np ls vs ps -> fits nv np vs ps -> lengthN vs = nv -> lengthN ps = np ->
  Forall (fun t => ~ In lf t /\ ~ In cr t) (t :: more) -> from_bytes parse_f (text_of_lines (ls ++ t :: more)) = Panic.
Proof. apply from_bytes_extra. Qed.

(** C39, writing and reading, for any printer that the parser understands: [round_f x] is the number that reading the printed x gives. *)
Variable print_f : F A -> text.
Variable round_f : F A -> F A.
Hypothesis Hprint : forall x, one_word (print_f x) /\ parse_f (print_f x) = Some (round_f x).
Theorem C39_round_trip (f : PolyFile A) : u32_file f -> (forall p, In p (file_polygons f) -> pverts p <> []) ->
  exists g, from_bytes parse_f (to_bytes print_f f) = Ok g /\
    Forall2 (fun v w => coords w = V (round_f (vx (coords v))) (round_f (vy (coords v))) /\
                        (vpolys v <> [] -> vpolys w = vpolys v) /\ (vpolys v = [] -> vpolys w = [MAX]) /\
                        (is_corner w = true <-> In MAX (vpolys w))) (file_vertices f) (file_vertices g) /\
    Forall2 (fun p q => pverts q = pverts p /\ is_one_way q = false) (file_polygons f) (file_polygons g).
Proof.
  intros H1 H2. eexists. split; [exact (round_trip parse_f print_f round_f Hprint f H1 H2)|]. cbn [file_vertices file_polygons]. split; apply Forall2_map_r; [|auto].
  intros v _. unfold read_back, vertex_new. cbn [coords vpolys is_corner]. split; [reflexivity|]. split; [destruct (vpolys v); congruence|].
  split; [intros ->; reflexivity|]. apply memN_In.
Qed.
(** A file with an empty polygon cannot be read back. *)
Theorem C39_empty_polygon_refuted (f : PolyFile A) : u32_file f -> (exists p, In p (file_polygons f) /\ pverts p = []) ->
  from_bytes parse_f (to_bytes print_f f) = Panic.
Proof. exact (round_trip_empty parse_f print_f round_f Hprint f). Qed.
End Any.

(** Binary32, with the printer and the parser of Decimal32.v *)
Definition valid_file (f : PolyFile F32) : Prop :=
  Forall (fun v : Vertex F32 => valid32 (vx (coords v)) /\ valid32 (vy (coords v))) (file_vertices f).
Notation value := (SF2R radix2).
Open Scope R_scope.
(** The same coordinates, up to a millionth; exactly the same from 16 on, and for the multiples of a millionth. *)
Definition saved (x y : spec_float) : Prop :=
  Rabs (value y - value x) <= 1 / 1000000 /\ (16 <= Rabs (value x) -> y = x) /\ ((exists k : Z, value x = IZR k / 1000000) -> y = x) /\
  (is_finite_SF x = false -> y = x).
Lemma round6_saved x : valid32 x -> saved x (round6 x).
Proof.
  intro V. split; [now apply round6_close|]. split; [now apply round6_large|]. split; [now apply round6_decimal|]. now destruct x.
Qed.
Lemma print_f32_ok x : one_word (print_f32 x) /\ parse_f32 (print_f32 x) = Some (round6 x).
Proof. split; [apply print_word|apply print_parse]. Qed.
Theorem C39_round_trip_f32 (f : PolyFile F32) : u32_file f -> valid_file f -> (forall p, In p (file_polygons f) -> pverts p <> []) ->
  exists g, read32 (write32 f) = Ok g /\
    Forall2 (fun v w : Vertex F32 => saved (vx (coords v)) (vx (coords w)) /\ saved (vy (coords v)) (vy (coords w)) /\
                        (vpolys v <> [] -> vpolys w = vpolys v) /\ (is_corner w = true <-> In MAX (vpolys w))) (file_vertices f) (file_vertices g) /\
    Forall2 (fun p q => pverts q = pverts p /\ is_one_way q = false) (file_polygons f) (file_polygons g).
Proof.
  intros H1 Hv H2. eexists. split; [exact (round_trip (A := F32) parse_f32 print_f32 round6 print_f32_ok f H1 H2)|]. cbn [file_vertices file_polygons]. split; apply Forall2_map_r; [|auto].
  intros v Hin. unfold valid_file in Hv. rewrite Forall_forall in Hv. destruct (Hv v Hin) as [Vx Vy].
  unfold read_back, vertex_new. cbn [coords vpolys is_corner vx vy]. split; [now apply round6_saved|]. split; [now apply round6_saved|].
  split; [destruct (vpolys v); congruence|]. apply memN_In.
Qed.
(** What was read is written the same, and so read the same again: saving many times loses no more than saving once. *)
Theorem C39_saved_again (f : PolyFile F32) : u32_file f -> valid_file f -> (forall p, In p (file_polygons f) -> pverts p <> []) ->
  (forall v, In v (file_vertices f) -> vpolys v <> []) ->
  exists g, read32 (write32 f) = Ok g /\ write32 g = write32 f.
Proof.
  intros H1 Hv H2 H3. eexists. split; [exact (round_trip (A := F32) parse_f32 print_f32 round6 print_f32_ok f H1 H2)|].
  unfold write32, to_bytes. cbn [file_vertices file_polygons]. unfold lengthN. rewrite !map_length, !map_map.
  change (map (fun x => write_polygon (mkPolygon (pverts x) false)) (file_polygons f)) with (map write_polygon (file_polygons f)).
  enough (E : map (fun x => write_vertex (A := F32) print_f32 (read_back (A := F32) round6 x)) (file_vertices f) = map (write_vertex (A := F32) print_f32) (file_vertices f)) by now rewrite E.
  apply map_ext_in. intros v Hin. unfold valid_file in Hv. rewrite Forall_forall in Hv. destruct (Hv v Hin) as [Vx Vy].
  assert (E : vpolys (read_back (A := F32) round6 v) = vpolys v) by (cbn [read_back vertex_new vpolys]; specialize (H3 v Hin); destruct (vpolys v); congruence).
  unfold write_vertex. rewrite E. cbn [read_back vertex_new coords vx vy].
  now rewrite (proj1 (round6_stable _ Vx)), (proj1 (round6_stable _ Vy)).
Qed.
Close Scope R_scope.

(** From a mesh to a file and back: with indexes in range (and any one-way flags) the mesh comes back, with its geometry as saved;
    the flags, the offset and the search settings are those of a new mesh. *)
Theorem C39_mesh_round_trip (m : Mesh F32) l : layers m = [l] -> input_ok (vertices l) (polygons l) ->
  vertices l <> [] -> polygons l <> [] -> lengthN (vertices l) < 2^31 -> lengthN (polygons l) < 2^24 ->
  (forall v, In v (vertices l) -> vpolys v <> [] /\ valid32 (vx (coords v)) /\ valid32 (vy (coords v))) ->
  (forall p, In p (polygons l) -> pverts p <> [] /\ lengthN (pverts p) < 2^64) ->
  exists f g m' l', file_of_mesh m = Ok f /\ read32 (write32 f) = Ok g /\ mesh_of_file g = Ok (Done m') /\ layers m' = [l'] /\ offset l' = vzero /\
    Forall2 (fun v w : Vertex F32 => saved (vx (coords v)) (vx (coords w)) /\ saved (vy (coords v)) (vy (coords w)) /\ vpolys w = vpolys v /\
                        (is_corner w = true <-> In MAX (vpolys v))) (vertices l) (vertices l') /\
    Forall2 (fun p q => pverts q = pverts p /\ is_one_way q = false) (polygons l) (polygons l').
Proof.
  intros Hl [I1 I2] Nv Np Bv Bp Hv Hp.
  assert (U : u32_file (mkFile (vertices l) (polygons l))).
  { repeat split; cbn [file_vertices file_polygons]; [assumption|lia| |]; apply Forall_forall; intros x Hx.
    - apply Forall_forall. intros j Hj. destruct (N.eq_dec j MAX) as [->|Hj']; [reflexivity|]. specialize (I2 x Hx j Hj Hj'). lia.
    - split; [now apply Hp|]. apply Forall_forall. intros j Hj. specialize (I1 x Hx j Hj). lia. }
  assert (E : file_of_mesh m = Ok (mkFile (vertices l) (polygons l))) by (unfold file_of_mesh; rewrite Hl; reflexivity).
  pose proof (round_trip (A := F32) parse_f32 print_f32 round6 print_f32_ok (mkFile (vertices l) (polygons l)) U (fun p Hin => proj1 (Hp p Hin))) as R.
  cbn [file_vertices file_polygons] in R. set (vs' := map (read_back (A := F32) round6) (vertices l)) in *. set (ps' := map (fun p => mkPolygon (pverts p) false) (polygons l)) in *.
  destruct (C02_layer_new vs' ps') as (_ & _ & _ & C4 & C5). destruct (C02_mesh_new vs' ps') as [_ M2].
  destruct C5 as [l' Hl'].
  - split.
    + intros p Hin vi Hvi. unfold ps' in Hin. apply in_map_iff in Hin. destruct Hin as (p0 & <- & Hin). specialize (I1 p0 Hin vi Hvi). unfold vs', lengthN. rewrite map_length. exact I1.
    + intros v Hin j Hj Hjm. unfold vs' in Hin. apply in_map_iff in Hin. destruct Hin as (v0 & <- & Hin). cbn [read_back vertex_new vpolys] in Hj.
      destruct (Hv v0 Hin) as [Hne _]. assert (In j (vpolys v0)) as Hj' by (destruct (vpolys v0); [congruence|exact Hj]).
      specialize (I2 v0 Hin j Hj' Hjm). unfold ps', lengthN. rewrite map_length. exact I2.
  - intro H. apply map_eq_nil in H. contradiction.
  - intro H. apply map_eq_nil in H. contradiction.
  - unfold ps', lengthN. rewrite map_length. exact Bp.
  - destruct (C4 l' Hl') as (V1 & V2 & V3).
    exists (mkFile (vertices l) (polygons l)), (mkFile vs' ps'), (mkMesh [l'] (flit 1 10) 2), l'.
    split; [exact E|]. split; [exact R|]. split; [unfold mesh_of_file; cbn [file_vertices file_polygons]; apply M2; exists l'; auto|].
    split; [reflexivity|]. split; [exact V3|]. rewrite V1, V2. split; apply Forall2_map_r; [|auto].
    intros v Hin. destruct (Hv v Hin) as (Hne & Vx & Vy). unfold read_back, vertex_new. cbn [coords vpolys is_corner vx vy].
    split; [now apply round6_saved|]. split; [now apply round6_saved|]. destruct (vpolys v); [congruence|]. split; [reflexivity|]. apply memN_In.
Qed.
(** Only the last layer of a mesh goes to the file. *)
Theorem C39_other_layers_lost_refuted {A : Arith} (ls : list (Layer A)) l d s :
  file_of_mesh (mkMesh (ls ++ [l]) d s) = Ok (mkFile (vertices l) (polygons l)).
Proof. unfold file_of_mesh. cbn [layers]. rewrite rev_app_distr. reflexivity. Qed.
(** The one-way flags are not written. *)
Theorem C39_flags_lost_refuted : exists f g : PolyFile F32, u32_file f /\ valid_file f /\ read32 (write32 f) = Ok g /\
  map is_one_way (file_polygons f) = [true; false] /\ map is_one_way (file_polygons g) = [false; false].
Proof.
  exists (mkFile [vtx 0 0 [0; 1; MAX]; vtx 1 0 [0; 1; MAX]; vtx 1 1 [0; MAX]; vtx 1 (-1) [1; MAX]] [mkPolygon [0; 1; 2] true; mkPolygon [0; 3; 1] false]).
  eexists. split; [|split; [|split; [|split]]].
  5:{ instantiate (1 := mkFile [vtx 0 0 [0; 1; MAX]; vtx 1 0 [0; 1; MAX]; vtx 1 1 [0; MAX]; vtx 1 (-1) [1; MAX]] [mkPolygon [0; 1; 2] false; mkPolygon [0; 3; 1] false]). reflexivity. }
  - repeat split; repeat constructor; reflexivity.
  - repeat constructor; reflexivity.
  - vmc.
  - reflexivity.
Qed.

From Coq Require Import String.
(** Non-vacuity: the example of meshes/format.txt is in the format. *)
Lemma numeral1 c d : d < 10 -> c = ascii_of_N (48 + d) -> numeral [c] d.
Proof. intros H ->. now constructor. Qed.
Definition example_lines : list text := map str
  ["mesh"; "2"; "4 2"; "0.0 0.0 2 0 -1"; "1.5 0.0 3 0 1 -1"; "1.5 1.5 2 1 -1"; "0.0 1.5 3 -1 1 0"; "3 0 1 3 -1 -1 1"; "3 1 2 3 0 -1 -1"]%string.
Definition example_vs : list (vec2 F32 * list (option N)) :=
  [(pt10 0 0, [Some 0; None]); (pt10 15 0, [Some 0; Some 1; None]); (pt10 15 15, [Some 1; None]); (pt10 0 15, [None; Some 1; Some 0])].
Definition example_ps : list (list N * list (option N)) := [([0; 1; 3], [None; None; Some 1]); ([1; 2; 3], [Some 0; None; None])].
Ltac word := unfold one_word; repeat split; simpl; intuition discriminate.
Ltac vline tx ty tn tids := exists (str tx), (str ty), (str tn), (map str tids); split; [reflexivity|]; split; [word|]; split; [word|];
  split; [vmc|]; split; [vmc|]; split; [apply numeral1; reflexivity|]; repeat constructor; apply numeral1; reflexivity.
Ltac pline tn tvs tps := exists (str tn), (map str tvs), (map str tps); split; [reflexivity|]; split; [apply numeral1; reflexivity|]; split; repeat constructor; apply numeral1; reflexivity.
Example C39_hyps : mesh2_lines (A := F32) parse_f32 4 2 example_lines example_vs example_ps /\ fits 4 2 example_vs example_ps.
Proof.
  split.
  - exists (str "4 2"), (firstn 4 (skipn 3 example_lines)), (skipn 7 example_lines). split; [reflexivity|]. split; [|split].
    + exists (str "4"), (str "2"). split; [reflexivity|]. split; apply numeral1; reflexivity.
    + unfold example_lines, example_vs. cbn [map skipn firstn]. constructor; [|constructor; [|constructor; [|constructor; [|constructor]]]].
      * vline "0.0"%string "0.0"%string "2"%string ["0"; "-1"]%string.
      * vline "1.5"%string "0.0"%string "3"%string ["0"; "1"; "-1"]%string.
      * vline "1.5"%string "1.5"%string "2"%string ["1"; "-1"]%string.
      * vline "0.0"%string "1.5"%string "3"%string ["-1"; "1"; "0"]%string.
    + unfold example_lines, example_ps. cbn [map skipn]. constructor; [|constructor; [|constructor]].
      * pline "3"%string ["0"; "1"; "3"]%string ["-1"; "-1"; "1"]%string.
      * pline "3"%string ["1"; "2"; "3"]%string ["0"; "-1"; "-1"]%string.
  - unfold fits, example_vs, example_ps. split; [reflexivity|]. split; [reflexivity|].
    split; repeat constructor; cbn [fst snd]; try reflexivity; intros n [= <-]; reflexivity.
Qed.
(** and one tenth, a number that is not a binary fraction, comes back exactly although it is neither large nor a decimal *)
Example C39_tenth : valid32 (q 1 10) /\ round6 (q 1 10) = q 1 10.
Proof. split; [unfold valid32|]; vmc. Qed.

Print Assumptions C39_reads_the_format.
Print Assumptions C39_round_trip.
Print Assumptions C39_empty_polygon_refuted.
Print Assumptions C39_round_trip_f32.
Print Assumptions C39_saved_again.
Print Assumptions C39_mesh_round_trip.
Print Assumptions C39_other_layers_lost_refuted.
Print Assumptions C39_flags_lost_refuted.
Print Assumptions C40_one_way_flag.
Print Assumptions C52_cut_off_refuted.
Print Assumptions C52_extra_lines_panic.
