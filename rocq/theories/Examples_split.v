(** C71, C72: cases that meet the hypotheses. *)
From Coq Require Import List NArith ZArith Bool Lia SpecFloat.
From Verif Require Import Base Arith U32 Mesh Helpers Locate Cleanup Stitch Cleanup_facts Stitch_facts StitchPoints_facts Search AsyncPath StdLib F32 Spec Spec_mesh Spec_alike Spec_relayer Spec_split Checkers Tests Tests_stitch Alike Search_props Properties_mesh Properties_stitch Properties_async Properties_relayer Split Properties_split.
Import ListNotations.
Open Scope N_scope.

(** *** decidable versions of the hypotheses, for binary32 meshes *)
Definition sf_eqb (a b : spec_float) : bool :=
  match a, b with
  | S754_zero s, S754_zero t => Bool.eqb s t
  | S754_infinity s, S754_infinity t => Bool.eqb s t
  | S754_nan, S754_nan => true
  | S754_finite s m e, S754_finite t n f => Bool.eqb s t && Pos.eqb m n && Z.eqb e f
  | _, _ => false
  end.
Lemma sf_eqb_eq a b : sf_eqb a b = true <-> a = b.
Proof.
  split.
  - destruct a, b; cbn; intro H; try discriminate H; try reflexivity; try (apply Bool.eqb_prop in H; now subst).
    apply andb_prop in H. destruct H as [H1 H2]. apply andb_prop in H1. destruct H1 as [H0 H1]. apply Bool.eqb_prop in H0. apply Pos.eqb_eq in H1. apply Z.eqb_eq in H2. now subst.
  - intros <-. destruct a; cbn; rewrite ?Bool.eqb_reflx, ?Pos.eqb_refl, ?Z.eqb_refl; reflexivity.
Qed.
Definition ceqb (a b : vec2 F32) : bool := sf_eqb (vx a) (vx b) && sf_eqb (vy a) (vy b).
Lemma ceqb_eq (a b : vec2 F32) : ceqb a b = true <-> a = b.
Proof.
  unfold ceqb. rewrite andb_true_iff, !sf_eqb_eq. destruct a as [a1 a2], b as [b1 b2]. cbn [vx vy]. split; [intros [H1 H2]; now rewrite H1, H2|intro H; inversion H; split; reflexivity].
Qed.
Definition same_pointb (l l' : Layer F32) (i i' : N) : bool :=
  match nthN (vertices l) i, nthN (vertices l') i' with Some v, Some v' => ceqb (coords v') (coords v) | _, _ => false end.
Lemma same_pointb_ok l l' i i' : same_pointb l l' i i' = true <-> same_point l l' i i'.
Proof.
  unfold same_pointb, same_point. split.
  - destruct (nthN (vertices l) i) as [v|], (nthN (vertices l') i') as [v'|]; try discriminate. intro H. apply ceqb_eq in H. eauto.
  - intros (v & v' & -> & -> & H). now apply ceqb_eq.
Qed.
Definition incidenceb (l : Layer F32) : bool :=
  forallb (fun p => forallb (fun vi => vi <? lengthN (vertices l)) (pverts p)) (polygons l) &&
  forallb (fun iv => forallb (fun j => N.eqb j MAX || match nthN (polygons l) j with Some p => memN (fst iv) (pverts p) | None => false end) (vpolys (snd iv)) &&
                     forallb (fun jp => negb (memN (fst iv) (pverts (snd jp))) || memN (fst jp) (vpolys (snd iv))) (enumerate (polygons l))) (enumerate (vertices l)).
Lemma incidenceb_ok l : incidenceb l = true -> incidence_ok l.
Proof.
  unfold incidenceb. intro H. apply andb_prop in H. destruct H as [H1 H2]. rewrite forallb_forall in H1, H2. split.
  - intros p Hp vi Hv. specialize (H1 p Hp). rewrite forallb_forall in H1. apply N.ltb_lt. now apply H1.
  - intros vi v j Hv Hj. assert (Hi : In (vi, v) (enumerate (vertices l))) by now apply enumerate_spec. specialize (H2 _ Hi). cbn [fst snd] in H2.
    apply andb_prop in H2. destruct H2 as [G1 G2]. rewrite forallb_forall in G1, G2. split.
    + intro Q. specialize (G1 j Q). apply orb_prop in G1. destruct G1 as [G1|G1]; [apply N.eqb_eq in G1; contradiction|]. destruct (nthN (polygons l) j) as [p|]; [|discriminate]. exists p. split; [reflexivity|now apply memN_In].
    + intros (p & Hp & Hin). assert (Hj' : In (j, p) (enumerate (polygons l))) by now apply enumerate_spec. specialize (G2 _ Hj'). cbn [fst snd] in G2. apply memN_In in Hin. rewrite Hin in G2. now apply memN_In.
Qed.
Definition indices {X} (l : list X) : list N := map fst (enumerate l).
Lemma indices_In {X} (l : list X) i : i < lengthN l -> In i (indices l).
Proof. intro H. destruct (nthN_lt_Some _ _ H) as [x Hx]. apply in_map_iff. exists (i, x). split; [reflexivity|]. now apply enumerate_spec. Qed.
Definition soundb (l : Layer F32) : bool :=
  incidenceb l && forallb (fun p => negb (N.eqb (lengthN (pverts p)) 0)) (polygons l) &&
  forallb (fun i => forallb (fun j => N.eqb i j || negb (same_pointb l l i j)) (indices (vertices l))) (indices (vertices l)).
Lemma soundb_ok l : soundb l = true -> sound l.
Proof.
  unfold soundb. intro H. apply andb_prop in H. destruct H as [H H3]. apply andb_prop in H. destruct H as [H1 H2]. constructor.
  - now apply incidenceb_ok.
  - intros p Hp E. rewrite forallb_forall in H2. specialize (H2 p Hp). rewrite E in H2. discriminate H2.
  - intros i j HS. pose proof HS as (v & v' & V1 & V2 & _). rewrite forallb_forall in H3. specialize (H3 i (indices_In _ _ (nthN_Some_lt _ _ _ V1))).
    rewrite forallb_forall in H3. specialize (H3 j (indices_In _ _ (nthN_Some_lt _ _ _ V2))). apply same_pointb_ok in HS. rewrite HS in H3. cbn [negb] in H3. rewrite orb_false_r in H3. now apply N.eqb_eq.
Qed.
(** the new numbers, from a table of (layer, polygon) *)
Definition new_of (table : list (N * N)) (k : N) : N := match nthN table k with Some lp => id_make (fst lp) (snd lp) | None => k end.
Fixpoint all2b {X Y} (f : X -> Y -> bool) (xs : list X) (ys : list Y) : bool :=
  match xs, ys with [], [] => true | x :: xs, y :: ys => f x y && all2b f xs ys | _, _ => false end.
Lemma all2b_ok {X Y} (f : X -> Y -> bool) (R : X -> Y -> Prop) xs ys : (forall x y, f x y = true -> R x y) -> all2b f xs ys = true -> Forall2 R xs ys.
Proof. intro HR. revert ys. induction xs as [|x xs IH]; intros [|y ys] H; try discriminate H; constructor; cbn in H; apply andb_prop in H; [now apply HR|apply IH, H]. Qed.
Definition polyb (whole : Layer F32) (parts : Mesh F32) (table : list (N * N)) (kp : N * Polygon) : bool :=
  match nthN table (fst kp) with
  | Some lp => match nthN (layers parts) (fst lp) with
               | Some l => match nthN (polygons l) (snd lp) with
                           | Some p' => Bool.eqb (is_one_way p') (is_one_way (snd kp)) && all2b (same_pointb whole l) (pverts (snd kp)) (pverts p')
                           | None => false
                           end
               | None => false
               end
  | None => false
  end.
Definition cutb (whole : Layer F32) (parts : Mesh F32) (table : list (N * N)) : bool :=
  soundb whole && forallb (fun l => soundb l && ceqb (offset l) (offset whole)) (layers parts) &&
  (lengthN (polygons whole) <=? 2^24 - 1) && mesh_smallb parts && N.eqb (lengthN table) (lengthN (polygons whole)) &&
  forallb (polyb whole parts table) (enumerate (polygons whole)) &&
  forallb (fun il => forallb (fun pi => existsb (fun lp => N.eqb (fst lp) (fst il) && N.eqb (snd lp) pi) table) (indices (polygons (snd il)))) (enumerate (layers parts)) &&
  forallb (fun k => forallb (fun k' => N.eqb k k' || negb (N.eqb (new_of table k) (new_of table k'))) (indices table)) (indices table).
Lemma cutb_ok whole parts table : cutb whole parts table = true -> cut whole parts (new_of table).
Proof.
  unfold cutb. rewrite !andb_true_iff. intros (((((((H1 & H2) & H3) & H4) & H5) & H6) & H7) & H8). rewrite forallb_forall in H2, H6, H7, H8. apply N.leb_le in H3. apply mesh_smallb_ok in H4. apply N.eqb_eq in H5.
  constructor.
  - now apply soundb_ok.
  - intros l Hl. specialize (H2 l Hl). apply andb_prop in H2. destruct H2 as [G1 G2]. split; [now apply soundb_ok|now apply ceqb_eq].
  - split; assumption.
  - intros k p Hp. assert (Hi : In (k, p) (enumerate (polygons whole))) by now apply enumerate_spec. specialize (H6 _ Hi). unfold polyb in H6. cbn [fst snd] in H6. unfold new_of.
    destruct (nthN table k) as [[li pi]|]; [|discriminate]. cbn [fst snd] in *. destruct (nthN (layers parts) li) as [l|] eqn:EL; [|discriminate]. destruct (nthN (polygons l) pi) as [p'|] eqn:EP; [|discriminate].
    apply andb_prop in H6. destruct H6 as [G1 G2]. exists li, pi, l, p'. split; [reflexivity|]. split; [exact EL|]. split; [exact EP|]. split; [now apply Bool.eqb_prop|].
    revert G2. apply all2b_ok. intros x y. apply same_pointb_ok.
  - intros li pi l p' HL HP. assert (Hi : In (li, l) (enumerate (layers parts))) by now apply enumerate_spec. specialize (H7 _ Hi). cbn [fst snd] in H7. rewrite forallb_forall in H7.
    specialize (H7 pi (indices_In _ _ (nthN_Some_lt _ _ _ HP))). apply existsb_exists in H7. destruct H7 as ([a b] & G1 & G2). cbn [fst snd] in G2. apply andb_prop in G2. destruct G2 as [G2 G3].
    apply N.eqb_eq in G2, G3. apply In_nthN in G1. destruct G1 as [k Hk]. exists k. split; [rewrite <- H5; exact (nthN_Some_lt _ _ _ Hk)|]. unfold new_of. rewrite Hk. cbn [fst snd]. now rewrite G2, G3.
  - intros k k' K K' E. rewrite <- H5 in K, K'. specialize (H8 k (indices_In _ _ K)). rewrite forallb_forall in H8. specialize (H8 k' (indices_In _ _ K')). rewrite E, N.eqb_refl in H8. cbn [negb] in H8. rewrite orb_false_r in H8. now apply N.eqb_eq.
  - unfold new_of. destruct (nthN table MAX) as [lp|] eqn:E; [|reflexivity]. exfalso. apply nthN_Some_lt in E. unfold MAX in E. lia.
Qed.
Definition directionsb (m : Mesh F32) : bool :=
  forallb (fun l => forallb (fun v => forallb (fun a => forallb (fun b => N.eqb a b || N.eqb a MAX || N.eqb b MAX ||
     match angle_key m (world l v) a, angle_key m (world l v) b with Ok x, Ok y => negb (Z.eqb x y) | _, _ => false end) (vpolys v)) (vpolys v)) (vertices l)) (layers m).
Lemma directionsb_ok m : directionsb m = true -> directions_differ m.
Proof.
  unfold directionsb. intros H l v a b Hl Hv Ha Hb Na Nb E. rewrite forallb_forall in H. specialize (H l Hl). rewrite forallb_forall in H. specialize (H v Hv). rewrite forallb_forall in H. specialize (H a Ha).
  rewrite forallb_forall in H. specialize (H b Hb). rewrite (proj2 (N.eqb_neq _ _) Na), (proj2 (N.eqb_neq _ _) Nb), !orb_false_r in H. rewrite E in H. apply orb_prop in H. destruct H as [H|H]; [now apply N.eqb_eq|].
  destruct (angle_key m (world l v) b) as [y| | |]; try discriminate. rewrite Z.eqb_refl in H. discriminate.
Qed.
Definition exactb (parts : Mesh F32) : bool :=
  forallb (fun l => forallb (fun l' => forallb (fun v => forallb (fun v' => Bool.eqb (veq (coords v) (coords v')) (ceqb (coords v) (coords v'))) (vertices l')) (vertices l)) (layers parts)) (layers parts).
Lemma exactb_ok parts : exactb parts = true -> exact_points parts.
Proof.
  unfold exactb. intros H l l' v v' Hl Hl' Hv Hv'. rewrite forallb_forall in H. specialize (H l Hl). rewrite forallb_forall in H. specialize (H l' Hl'). rewrite forallb_forall in H. specialize (H v Hv).
  rewrite forallb_forall in H. specialize (H v' Hv'). apply Bool.eqb_prop in H. rewrite H. apply ceqb_eq.
Qed.

(** The U grid, its legs on another layer than its bottom row. *)
Definition legs : Mesh F32 := mkMesh
  [mkLayer [vtx 0 0 [0; MAX]; vtx 1 0 [0; 1; MAX]; vtx 2 0 [1; 2; MAX]; vtx 3 0 [2; MAX]; vtx 0 1 [0; MAX]; vtx 1 1 [1; 0; MAX]; vtx 2 1 [2; 1; MAX]; vtx 3 1 [2; MAX]]
     [mkPolygon [0; 1; 5; 4] false; mkPolygon [1; 2; 6; 5] false; mkPolygon [2; 3; 7; 6] false] vzero None None;
   mkLayer [vtx 3 2 [0; MAX]; vtx 0 1 [1; MAX]; vtx 1 1 [1; MAX]; vtx 2 1 [0; MAX]; vtx 3 1 [0; MAX]; vtx 0 2 [1; MAX]; vtx 1 2 [1; MAX]; vtx 2 2 [0; MAX]]
     [mkPolygon [3; 4; 0; 7] true; mkPolygon [1; 2; 6; 5] true] vzero None None] (q 1 10) 2.
Definition legs_table : list (N * N) := [(0, 0); (0, 1); (0, 2); (1, 1); (1, 0)].
Definition u_layer : Layer F32 := match layers mesh_u_grid with l :: _ => l | [] => mkLayer [] [] vzero None None end.
Lemma legs_cut : cut u_layer legs (new_of legs_table).
Proof. apply cutb_ok. vmc. Qed.
Lemma legs_directions : directions_differ mesh_u_grid.
Proof. apply directionsb_ok. vmc. Qed.
Lemma legs_exact : exact_points legs.
Proof. apply exactb_ok. vmc. Qed.

Definition whole : Mesh F32 := match reorder std_sort mesh_u_grid with Ok m => m | _ => mesh_u_grid end.
Definition sewed : Mesh F32 := match stitch_at_points std_sort legs (find_stitch_points legs) false with Ok m => m | _ => legs end.
Lemma okb_eq {T} (r : res T) d : match r with Ok _ => true | _ => false end = true -> r = Ok (match r with Ok x => x | _ => d end).
Proof. destruct r; intro H; [reflexivity|discriminate H..]. Qed.
Lemma whole_ok : reorder std_sort mesh_u_grid = Ok whole.
Proof. apply okb_eq. vmc. Qed.
Lemma sewed_ok : stitch_at_points std_sort legs (find_stitch_points legs) false = Ok sewed.
Proof. apply okb_eq. vmc. Qed.

Definition is_polygonb (m : Mesh F32) (id : N) : bool :=
  (id <? 2^32) && match nthN (layers m) (id_layer id) with Some l => match nthN (polygons l) (id_polygon id) with Some _ => true | None => false end | None => false end.
Lemma is_polygonb_ok m id : is_polygonb m id = true -> is_polygon m id.
Proof.
  unfold is_polygonb. intro H. apply andb_prop in H. destruct H as [H1 H2]. split; [now apply N.ltb_lt|]. destruct (nthN (layers m) (id_layer id)) as [l|] eqn:E1; [|discriminate].
  destruct (nthN (polygons l) (id_polygon id)) as [p|] eqn:E2; [|discriminate]. exists l, p. split; assumption.
Qed.
Definition no_islandsb (m : Mesh F32) : bool := forallb (fun l => match islands l with None => true | Some _ => false end) (layers m).
Lemma no_islands m ps pe : no_islandsb m = true -> ~ separated m ps pe /\ islands_fit m.
Proof.
  unfold no_islandsb. intro H. rewrite forallb_forall in H. split.
  - intros (_ & _ & l & isl & a & b & L & I & _). specialize (H l (nthN_In _ _ _ L)). rewrite I in H. discriminate.
  - intros l isl L I. specialize (H l L). rewrite I in H. discriminate.
Qed.

(** From the left leg to the right one: the whole mesh and the two stitched layers give the same path, polygon 4 being number 2^24 of
    the stitched mesh. *)
Example ex_C72 : exists p,
  path lib32 whole (at_ (pt10 1 19)) (at_ (pt10 29 19)) = Ok (Some p) /\ path lib32 sewed (at_ (pt10 1 19)) (at_ (pt10 29 19)) = Ok (Some p) /\
  located lib32 whole (at_ (pt10 29 19)) 4 /\ located lib32 sewed (at_ (pt10 29 19)) 16777216.
Proof.
  destruct (is_Ok_Some_ex (fun _ => true) (path lib32 whole (at_ (pt10 1 19)) (at_ (pt10 29 19)))) as (p & Hp & _); [vmc|].
  assert (L2 : located lib32 whole (at_ (pt10 29 19)) 4) by (apply locate_end_located; vmc). assert (L4 : located lib32 sewed (at_ (pt10 29 19)) 16777216) by (apply locate_end_located; vmc).
  exists p. split; [exact Hp|]. split; [|split; assumption].
  rewrite <- Hp. apply (C72_cut_find_stitch std_sort lib32 mesh_u_grid legs whole sewed u_layer (new_of legs_table) (at_ (pt10 1 19)) (at_ (pt10 29 19)) (at_ (pt10 1 19)) (at_ (pt10 29 19)) 3 4
     std_sort_ok std_pop_blind eq_refl legs_cut legs_exact legs_directions whole_ok sewed_ok).
  - apply is_polygonb_ok. vmc.
  - apply is_polygonb_ok. vmc.
  - intros _. apply no_islands. vmc.
  - intros _. apply no_islands. vmc.
  - reflexivity.
  - reflexivity.
  - apply locate_end_located. vmc.
  - exact L2.
  - apply locate_end_located. vmc.
  - exact L4.
Qed.

(** *** C71: the same layers in the other order *)
Definition vertex_sameb (new : N -> N) (l l' : Layer F32) (i i' : N) : bool :=
  match nthN (vertices l) i, nthN (vertices l') i' with
  | Some v, Some v' => ceqb (world l' v') (world l v) && all2b (fun a b => N.eqb (new a) b) (vpolys v) (vpolys v') && Bool.eqb (is_corner v') (is_corner v)
  | _, _ => false
  end.
Lemma vertex_sameb_ok new l l' i i' : vertex_sameb new l l' i i' = true -> vertex_same new l l' i i'.
Proof.
  unfold vertex_sameb, vertex_same. destruct (nthN (vertices l) i) as [v|], (nthN (vertices l') i') as [v'|]; try discriminate. intro H. apply andb_prop in H. destruct H as [H H3]. apply andb_prop in H. destruct H as [H1 H2].
  exists v, v'. split; [reflexivity|]. split; [reflexivity|]. split; [now apply ceqb_eq|]. split; [|now apply Bool.eqb_prop].
  apply (all2b_ok _ (fun a b => new a = b)) in H2; [|intros a b; apply N.eqb_eq]. induction H2; [reflexivity|]. cbn [map]. now f_equal.
Qed.
Definition ids_of (m : Mesh F32) : list N := all_ids (enumerate (layers m)).
Lemma ids_of_In m id : mesh_small m -> is_polygon m id -> In id (ids_of m).
Proof.
  intros [S1 S2] (H & l & p & H1 & H2). unfold ids_of, enumerate. apply all_ids_In. exists (id_layer id), l, (id_polygon id). split; [exact H1|]. split; [exact (nthN_Some_lt _ _ _ H2)|].
  pose proof (nthN_Some_lt _ _ _ H1). pose proof (nthN_Some_lt _ _ _ H2). pose proof (S2 l (nthN_In _ _ _ H1)). rewrite N.add_0_l, id_make_eq by lia. rewrite (id_parts id H) at 1. lia.
Qed.
Definition sameb (new : N -> N) (m m' : Mesh F32) (id : N) : bool :=
  match nthN (layers m) (id_layer id), nthN (layers m') (id_layer (new id)) with
  | Some l, Some l' => match nthN (polygons l) (id_polygon id), nthN (polygons l') (id_polygon (new id)) with
                       | Some p, Some p' => Bool.eqb (is_one_way p') (is_one_way p) && all2b (vertex_sameb new l l') (pverts p) (pverts p')
                       | _, _ => false
                       end
  | _, _ => false
  end.
Definition renumberedb (new : N -> N) (m m' : Mesh F32) : bool :=
  mesh_smallb m && N.eqb (new MAX) MAX &&
  forallb (fun id => (new id <? 2^32) && negb (N.eqb (new id) MAX) && sameb new m m' id) (ids_of m) &&
  forallb (fun a => forallb (fun b => N.eqb a b || negb (N.eqb (new a) (new b))) (ids_of m)) (ids_of m).
Lemma renumberedb_ok new m m' : renumberedb new m m' = true -> renumbered new m m'.
Proof.
  unfold renumberedb. rewrite !andb_true_iff. intros (((H1 & H2) & H3) & H4). apply mesh_smallb_ok in H1. apply N.eqb_eq in H2. rewrite forallb_forall in H3, H4. constructor.
  - exact H2.
  - intros id K. specialize (H3 id (ids_of_In m id H1 K)). rewrite !andb_true_iff in H3. destruct H3 as ((G1 & G2) & _). split; [now apply N.ltb_lt|]. apply negb_true_iff in G2. now apply N.eqb_neq.
  - intros a b Ka Kb E. specialize (H4 a (ids_of_In m a H1 Ka)). rewrite forallb_forall in H4. specialize (H4 b (ids_of_In m b H1 Kb)). rewrite E, N.eqb_refl in H4. cbn [negb] in H4. rewrite orb_false_r in H4. now apply N.eqb_eq.
  - intros id l p HI HP. assert (K : is_polygon m id) by (split; [exact HI|eauto]). specialize (H3 id (ids_of_In m id H1 K)). rewrite !andb_true_iff in H3. destruct H3 as (_ & G). unfold sameb in G. destruct HP as [P1 P2].
    rewrite P1 in G. destruct (nthN (layers m') (id_layer (new id))) as [l'|] eqn:E1; [|discriminate]. rewrite P2 in G. destruct (nthN (polygons l') (id_polygon (new id))) as [p'|] eqn:E2; [|discriminate].
    apply andb_prop in G. destruct G as [G1 G2]. exists l', p'. split; [split; assumption|]. split; [now apply Bool.eqb_prop|]. revert G2. apply all2b_ok. intros x y. apply vertex_sameb_ok.
Qed.
Definition knownb (m : Mesh F32) : bool := forallb (fun l => forallb (fun v => forallb (fun id => N.eqb id MAX || is_polygonb m id) (vpolys v)) (vertices l)) (layers m).
Lemma knownb_ok m : knownb m = true -> ids_known m.
Proof.
  unfold knownb. intros H l v id Hl Hv Hi. rewrite forallb_forall in H. specialize (H l Hl). rewrite forallb_forall in H. specialize (H v Hv). rewrite forallb_forall in H. specialize (H id Hi).
  apply orb_prop in H. destruct H as [H|H]; [left; now apply N.eqb_eq|right; now apply is_polygonb_ok].
Qed.
Definition blockedb (new : N -> N) (m : Mesh F32) (b b' : list N) : bool := forallb (fun id => Bool.eqb (memN (id_layer id) b) (memN (id_layer (new id)) b')) (MAX :: ids_of m).
Lemma blockedb_ok new m b b' : mesh_small m -> blockedb new m b b' = true -> (b = [] <-> b' = []) -> same_blocked new m b b'.
Proof.
  unfold blockedb. intros HS H HE. split; [exact HE|]. intros id K. rewrite forallb_forall in H. assert (Hi : In id (MAX :: ids_of m)) by (destruct K as [-> |K]; [now left|right; now apply ids_of_In]).
  specialize (H id Hi). apply Bool.eqb_prop in H. rewrite <- !memN_In, H. tauto.
Qed.
Definition swap_id (id : N) : N := if N.eqb id MAX then MAX else if id <? 2^24 then id + 2^24 else id - 2^24.
Definition swapped : Mesh F32 := match layers legs with [a; b] => mkMesh [b; a] (search_delta legs) (search_steps legs) | _ => legs end.
Definition sewed2 : Mesh F32 := match stitch_at_points std_sort swapped (find_stitch_points swapped) false with Ok m => m | _ => legs end.
Lemma swapped_renumbered : renumbered swap_id sewed sewed2.
Proof. apply renumberedb_ok. vmc. Qed.
Lemma swapped_many : as_many sewed sewed2.
Proof. unfold as_many. vmc. Qed.
Lemma sewed_small : mesh_small sewed.
Proof. apply mesh_smallb_ok. vmc. Qed.
Lemma swapped_blocked : same_blocked swap_id sewed [1] [0].
Proof. apply blockedb_ok; [exact sewed_small|vmc|split; discriminate]. Qed.
(** The layer of the legs is number 1 of the first mesh and number 0 of the other; both searches avoid it. *)
Example ex_C71 : exists p,
  path_on_layers lib32 sewed (at_ (pt10 1 1)) (at_ (pt10 29 9)) [1] = Ok (Some p) /\ path_on_layers lib32 sewed2 (at_ (pt10 1 1)) (at_ (pt10 29 9)) [0] = Ok (Some p).
Proof.
  destruct (is_Ok_Some_ex (fun _ => true) (path_on_layers lib32 sewed (at_ (pt10 1 1)) (at_ (pt10 29 9)) [1])) as (p & Hp & _); [vmc|].
  exists p. split; [exact Hp|]. rewrite <- Hp. apply (C71_same_path swap_id sewed sewed2 lib32 0 2 (at_ (pt10 1 1)) (at_ (pt10 29 9)) (at_ (pt10 1 1)) (at_ (pt10 29 9)) [1] [0] std_pop_blind).
  - constructor; [exact swapped_renumbered|apply knownb_ok; vmc|exact swapped_many|apply is_polygonb_ok; vmc|apply is_polygonb_ok; vmc].
  - exact swapped_blocked.
  - intros _. apply no_islands. vmc.
  - intros _. apply no_islands. vmc.
  - reflexivity.
  - reflexivity.
  - apply locate_end_located. vmc.
  - apply locate_end_located. vmc.
  - apply locate_end_located. vmc.
  - apply locate_end_located. vmc.
Qed.
(** The hypotheses of the future's theorem, from leg to leg. *)
Example ex_C71_future : poll_times 9 lib32 (get_path sewed2 (pt10 1 19) (pt10 29 19)) = poll_times 9 lib32 (get_path sewed (pt10 1 19) (pt10 29 19)) /\
  exists p log, poll_times 9 lib32 (get_path sewed (pt10 1 19) (pt10 29 19)) = Ok (Some (Some p), log).
Proof.
  split.
  - apply (C71_same_future swap_id sewed sewed2 lib32 (id_make 1 1) (id_make 1 0) (pt10 1 19) (pt10 29 19) 9 std_pop_blind).
    + constructor; [exact swapped_renumbered|apply knownb_ok; vmc|exact swapped_many|apply is_polygonb_ok; vmc|apply is_polygonb_ok; vmc].
    + apply no_islands. vmc.
    + apply no_islands. vmc.
    + exact sewed_small.
    + apply mesh_smallb_ok. vmc.
    + apply (no_islands _ 0 0). vmc.
    + apply (no_islands _ 0 0). vmc.
    + vmc.
    + vmc.
    + vmc.
    + vmc.
  - assert (H : match poll_times 9 lib32 (get_path sewed (pt10 1 19) (pt10 29 19)) with Ok (Some (Some _), _) => true | _ => false end = true) by vmc.
    revert H. generalize (poll_times 9 lib32 (get_path sewed (pt10 1 19) (pt10 29 19))). intros r H. destruct r as [[[[p|]|] log]| | |]; try discriminate H. eauto.
Qed.
(** The hypotheses of the C72 theorems about given stitches and about the future. *)
Example ex_C72_stitched : exists S, cut_and_stitched std_sort mesh_u_grid legs whole sewed u_layer (new_of legs_table) S /\
  lengthN (concat (map snd S)) = 4 /\ ~ separated whole 3 4 /\ ~ separated sewed (new_of legs_table 3) (new_of legs_table 4) /\ mesh_small sewed /\ islands_fit whole /\ islands_fit sewed /\
  get_point_location (lbvh lib32) whole (coords_on_mesh (pt10 1 19)) = Ok 3 /\ get_point_location (lbvh lib32) sewed (coords_on_mesh (pt10 1 19)) = Ok (new_of legs_table 3).
Proof.
  assert (HS : points_to_vertices legs (find_stitch_points legs) = Ok (match points_to_vertices legs (find_stitch_points legs) with Ok x => x | _ => [] end)) by (apply okb_eq; vmc).
  exists (match points_to_vertices legs (find_stitch_points legs) with Ok x => x | _ => [] end).
  split.
  - constructor; [exact std_sort_ok|reflexivity|exact legs_cut|exact (C72_found_points_are_the_common_ones legs u_layer _ _ legs_cut legs_exact HS)|exact legs_directions|exact whole_ok|].
    assert (G : forall S0, points_to_vertices legs (find_stitch_points legs) = Ok S0 -> stitch_at_vertices std_sort legs S0 false = Ok sewed).
    { intros S0 E0. pose proof sewed_ok as E1. unfold stitch_at_points in E1. rewrite E0 in E1. exact E1. }
    exact (G _ HS).
  - split; [vmc|]. split; [apply no_islands; vmc|]. split; [apply no_islands; vmc|]. split; [exact sewed_small|]. split; [apply (no_islands _ 0 0); vmc|]. split; [apply (no_islands _ 0 0); vmc|]. split; vmc.
Qed.
