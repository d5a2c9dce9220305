(** C65-C67 are not vacuous. *)
From Coq Require Import List NArith ZArith Bool Lia Reals Lra Psatz.
From Verif Require Import Base Arith U32 Mesh Helpers Locate Search AsyncPath StdLib Spec RealArith Geometry Heuristic F32_facts Search_props Search_safe Checkers Islands_facts Locate_facts
  Properties_geometry Properties_contain Examples_exact Rings Spec_inside Sight Sight_search Sight_static Examples_inside Spec_shortest Shortest_cover Properties_async Properties_shortest
  Zmesh Examples_shortest Properties_complete Examples_complete Spec_area Properties_area Zarea.
Import ListNotations.
Open Scope R_scope.

(** ** The hypotheses, by computation *)
Definition zsideways (vs : list (zpt * list N)) (ps : list (list N)) : bool :=
  zplaneb vs ps && zidsb vs ps && zcornersb vs && zsideb vs ps && zbackb vs ps && zfanb vs ps (length ps) && zseamb vs ps && zborderb vs ps (length ps).
Definition zgoodb (vs : list (zpt * list N)) (ps : list (list N)) (s g : zpt) (is ig : N) : bool :=
  zplacesb vs ps s g && apartb (zlist vs ps) s && zallcutsb vs ps s && shortb (zlist vs ps) && zfreeb vs ps s && zinsideb vs ps is s && zinsideb vs ps ig g.
Lemma zm_proper vs ps s g is ig : mesh_small (zmesh vs ps) -> zsideways vs ps = true -> zgoodb vs ps s g is ig = true -> (is < 2 ^ 32)%N ->
  proper std_lib (zmesh vs ps) [] (zp s) (zp g) is ig.
Proof.
  unfold zsideways, zgoodb. rewrite !andb_true_iff. intros Hsm (((((((H1 & H2) & H3) & H4) & H5) & H6) & H7) & H8) ((((((G1 & G2) & G3) & G4) & G5) & G6) & G7) L.
  split; auto.
  - apply std_pop_ok, RA_total_ok.
  - now apply zm_plane.
  - now apply zm_ids.
  - now apply zm_u32.
  - now apply zm_generic.
  - now apply (zm_faultless vs ps (length ps)).
  - now apply zm_seamless.
Qed.
Lemma zm_at_border vs ps : zsideways vs ps = true -> at_border (zmesh vs ps) [].
Proof. unfold zsideways. rewrite !andb_true_iff. intros (_ & H). exact (zm_border vs ps _ H). Qed.

Lemma bent_proper : proper std_lib bent [] bent_start bent_goal 0 1.
Proof. apply zm_proper; [apply bent_small|vm_compute; reflexivity..]. Qed.
Lemma bent_proper_back : proper std_lib bent [] bent_goal bent_start 1 0.
Proof. apply zm_proper; [apply bent_small|vm_compute; reflexivity..]. Qed.
Definition wide_vs : list (zpt * list N) := [((0, -1)%Z, [0; 1; MAX]%N); ((9, -4)%Z, [0; MAX]%N); ((1, 9)%Z, [0; 1; MAX]%N); ((-8, -5)%Z, [1; MAX]%N)].
Definition wide : Mesh RA := zmesh wide_vs bent_ps.
Lemma wide_small : mesh_small wide.
Proof. apply mesh_smallb_ok. reflexivity. Qed.
Lemma wide_proper : proper std_lib wide [] bent_start bent_goal 0 1.
Proof. apply zm_proper; [apply wide_small|vm_compute; reflexivity..]. Qed.

(** ** Paths found in the first step *)
Lemma first_step m start goal ps pe w2 w0 i2 i0 k :
  ps <> MAX -> pe <> MAX -> islands_reject m ps pe = Ok false -> (ps =? pe)%N = false -> (count_polygons m * 10)%nat = S k -> w2 <> w0 ->
  setup (mkCtx m (vp goal) pe []) (vp start) ps =
    Ok (flush_nodes (add_node (mkCtx m (vp goal) pe []) (mkState [] [] [(vp start, fz 0)]) (vp start) pe (vp w2, i2) (vp w0, i0) (empty_node (vp start) ps))) ->
  exists p, path_on_layers std_lib m (in_polygon start ps) (in_polygon goal pe) [] = Ok (Some p).
Proof.
  intros M1 M2 HI HN HK w_ne HS.
  rewrite (add_node_first (mkCtx m (vp goal) pe []) (vp start) ps pe (vp w2, i2) (vp w0, i0) (same_root _) zero_not_nan zero_not_less) in HS.
  2:{ cbn [fst cgoal]. rewrite (heuristic_vp start goal w2 w0 w_ne). reflexivity. }
  unfold flush_nodes in HS. cbn [squeue sbuffer shist app fst snd] in HS.
  eexists. eapply (path_first std_lib m (in_polygon start ps) (in_polygon goal pe) [] ps pe k).
  - unfold locate_end. cbn [cpoly in_polygon]. now rewrite (proj2 (N.eqb_neq _ _) M1).
  - unfold locate_end. cbn [cpoly in_polygon]. now rewrite (proj2 (N.eqb_neq _ _) M2).
  - exact HI.
  - exact HN.
  - exact HK.
  - exact HS.
  - eapply next_first.
    + cbn [std_lib lpop squeue std_pop]. reflexivity.
    + cbn [shist hist_get nroot ng]. rewrite same_root. intros o H. injection H as <-. exact zero_not_less.
    + cbn [nto cpto]. apply N.eqb_refl.
Qed.
Lemma bent_path_back : exists p, path_on_layers std_lib bent (in_polygon bent_goal 1) (in_polygon bent_start 0) [] = Ok (Some p).
Proof.
  apply (first_step bent bent_goal bent_start 1 0 (padd (zp (0, 0)%Z) (P 0 0)) (padd (zp (1, 9)%Z) (P 0 0)) 0 2 19); try discriminate; try reflexivity.
  intro H. unfold padd, zp in H. cbn [px py fst snd] in H. injection H as H. lra.
Qed.
Lemma wide_path : exists p, path_on_layers std_lib wide (in_polygon bent_start 0) (in_polygon bent_goal 1) [] = Ok (Some p).
Proof.
  apply (first_step wide bent_start bent_goal 0 1 (padd (zp (1, 9)%Z) (P 0 0)) (padd (zp (0, -1)%Z) (P 0 0)) 2 0 19); try discriminate; try reflexivity.
  intro H. unfold padd, zp in H. cbn [px py fst snd] in H. injection H as H. lra.
Qed.
Lemma at_polygon (m : Mesh RA) (p : P2) id : id <> MAX -> located std_lib m (in_polygon p id) id.
Proof. intro H. left. split; [exact H|reflexivity]. Qed.
Lemma M0 : 0%N <> MAX. Proof. discriminate. Qed.
Lemma M1 : 1%N <> MAX. Proof. discriminate. Qed.

(** The hypotheses of C65_shortest_in_the_area, C67_symmetric, C67_no_detour_is_shorter and C67_at_least_the_distance. *)
Example ex_C65 : exists p, proper std_lib bent [] bent_start bent_goal 0 1 /\
  located std_lib bent (in_polygon bent_start 0) 0 /\ located std_lib bent (in_polygon bent_goal 1) 1 /\
  path_on_layers std_lib bent (in_polygon bent_start 0) (in_polygon bent_goal 1) [] = Ok (Some p) /\ ppath p = [vp (zp (0, 0)%Z); vp bent_goal].
Proof.
  destruct bent_path as (p & H1 & H2). exists p. split; [exact bent_proper|]. split; [now apply at_polygon|]. split; [now apply at_polygon|]. split; [exact H1|exact H2].
Qed.
(** so no polyline in the two triangles is shorter than the one over the corner *)
Example ex_C65_length others : polyline_in (area bent [] 0) bent_start others -> last others bent_start = bent_goal ->
  dist bent_start (zp (0, 0)%Z) + dist (zp (0, 0)%Z) bent_goal <= total bent_start others.
Proof.
  destruct ex_C65 as (p & H1 & H2 & H3 & H4 & H5).
  destruct (C65_shortest_in_the_area std_lib bent (in_polygon bent_start 0) (in_polygon bent_goal 1) [] p bent_start bent_goal 0 1 H1 eq_refl eq_refl H2 H3 H4) as (pts & A1 & A2 & A3 & A4 & A5).
  intros B1 B2. specialize (A5 others B1 B2). rewrite H5 in A1. destruct pts as [|a [|b [|c r]]]; try discriminate A1. cbn [map] in A1.
  assert (Ea : a = zp (0, 0)%Z) by (apply vp_inj; congruence). assert (Eb : b = bent_goal) by (apply vp_inj; congruence). subst a b. cbn [total] in A5. lra.
Qed.
Example ex_C67 : exists p p', proper std_lib bent [] bent_start bent_goal 0 1 /\ proper std_lib bent [] bent_goal bent_start 1 0 /\
  path_on_layers std_lib bent (in_polygon bent_start 0) (in_polygon bent_goal 1) [] = Ok (Some p) /\
  path_on_layers std_lib bent (in_polygon bent_goal 1) (in_polygon bent_start 0) [] = Ok (Some p') /\ plength p = plength p'.
Proof.
  destruct bent_path as (p & H1 & _). destruct bent_path_back as (p' & H2). exists p, p'.
  split; [exact bent_proper|]. split; [exact bent_proper_back|]. split; [exact H1|]. split; [exact H2|].
  exact (C67_symmetric std_lib std_lib bent (in_polygon bent_start 0) (in_polygon bent_goal 1) (in_polygon bent_goal 1) (in_polygon bent_start 0) [] p p' bent_start bent_goal 0 1 bent_proper bent_proper_back eq_refl eq_refl (at_polygon _ _ _ M0) (at_polygon _ _ _ M1)
    eq_refl eq_refl (at_polygon _ _ _ M1) (at_polygon _ _ _ M0) H1 H2).
Qed.
(** a detour over a third point, in polygon 0 *)
Definition bent_middle : P2 := zp (1, 3)%Z.
Example ex_C67_detour : exists p1 p2 p3,
  proper std_lib bent [] bent_start bent_middle 0 0 /\ proper std_lib bent [] bent_middle bent_goal 0 1 /\ proper std_lib bent [] bent_start bent_goal 0 1 /\
  path_on_layers std_lib bent (in_polygon bent_start 0) (in_polygon bent_middle 0) [] = Ok (Some p1) /\
  path_on_layers std_lib bent (in_polygon bent_middle 0) (in_polygon bent_goal 1) [] = Ok (Some p2) /\
  path_on_layers std_lib bent (in_polygon bent_start 0) (in_polygon bent_goal 1) [] = Ok (Some p3).
Proof.
  destruct bent_path as (p3 & H3 & _).
  assert (H2 : exists p, path_on_layers std_lib bent (in_polygon bent_middle 0) (in_polygon bent_goal 1) [] = Ok (Some p)).
  { apply (first_step bent bent_middle bent_goal 0 1 (padd (zp (1, 9)%Z) (P 0 0)) (padd (zp (0, 0)%Z) (P 0 0)) 2 0 19); try discriminate; try reflexivity.
    intro H. unfold padd, zp in H. cbn [px py fst snd] in H. injection H as H. lra. }
  destruct H2 as (p2 & H2). eexists. exists p2, p3.
  split; [apply zm_proper; [apply bent_small|vm_compute; reflexivity..]|]. split; [apply zm_proper; [apply bent_small|vm_compute; reflexivity..]|]. split; [exact bent_proper|].
  split; [|split; [exact H2|exact H3]]. reflexivity.
Qed.

(** ** The area of an integer mesh *)
Lemma zm_area vs ps start x : zidsb vs ps = true -> zwfb vs ps = true ->
  area (zmesh vs ps) [] start x <-> exists p, In p ps /\ inside (map zp (map (zat vs) p)) x.
Proof.
  intros HI HW. assert (HL : (lengthN ps < 2 ^ 24)%N) by (unfold zidsb in HI; apply andb_prop in HI; now apply N.ltb_lt). split.
  - intros (id & qs & [L _] & HC & Hx). destruct (zm_corners vs ps id qs HC) as (_ & E & ->). destruct (nthN_lt_Some ps _ E) as (p & Hp). exists p. split; [now apply nthN_In in Hp|].
    unfold zs_at in Hx. now rewrite Hp in Hx.
  - intros (p & Hp & Hx). destruct (In_nth_error _ _ Hp) as (i & Hi).
    assert (HN : nthN ps (N.of_nat i) = Some p) by (rewrite nthN_nth_error, Nat2N.id; exact Hi). pose proof (nthN_Some_lt _ _ _ HN) as HLt.
    assert (H24 : (N.of_nat i < 2 ^ 24)%N) by lia. destruct (zm_id _ H24) as [E1 E2]. exists (N.of_nat i), (map zp (zs_at vs ps (N.of_nat i))). split.
    + split; [|right; intros []]. assert (2 ^ 24 < 2 ^ 32)%N by reflexivity. lia.
    + split; [apply zm_corners_at; auto; now rewrite E2|]. unfold zs_at. rewrite E2, HN. exact Hx.
Qed.
(** [x] is inside of a triangle *)
Lemma inside3 a b c x : inside [a; b; c] x <-> 0 <= orient a b x /\ 0 <= orient b c x /\ 0 <= orient c a x.
Proof.
  unfold inside. cbn [poly_edges combine tl app firstn]. split.
  - intro H. split; [apply H; left; reflexivity|]. split; [apply H; right; left; reflexivity|apply H; right; right; left; reflexivity].
  - intros (H1 & H2 & H3) u w [E|[E|[E|[]]]]; injection E as <- <-; assumption.
Qed.
Lemma inside4 a b c d x : inside [a; b; c; d] x <-> 0 <= orient a b x /\ 0 <= orient b c x /\ 0 <= orient c d x /\ 0 <= orient d a x.
Proof.
  unfold inside. cbn [poly_edges combine tl app firstn]. split.
  - intro H. split; [apply H; left; reflexivity|]. split; [apply H; right; left; reflexivity|]. split; [apply H; right; right; left; reflexivity|apply H; right; right; right; left; reflexivity].
  - intros (H1 & H2 & H3 & H4) u w [E|[E|[E|[E|[]]]]]; injection E as <- <-; assumption.
Qed.
Local Ltac coordinates := unfold orient, cross, psub, zp in *; cbn [px py fst snd] in *.

Lemma wide_larger x : area bent [] 0 x -> area wide [] 0 x.
Proof.
  unfold bent, wide. rewrite !zm_area by (vm_compute; reflexivity). intros (p & Hp & H). destruct Hp as [<-|[<-|[]]].
  - change (inside [zp (0, 0); zp (9, -4); zp (1, 9)]%Z x) in H. apply (proj1 (inside3 _ _ _ _)) in H. destruct H as (H1 & H2 & H3).
    destruct (Rle_dec 0 (orient (zp (0, -1)%Z) (zp (1, 9)%Z) x)) as [Q|Q].
    + exists [0; 2; 3]%N. split; [right; now left|]. change (inside [zp (0, -1); zp (1, 9); zp (-8, -5)]%Z x). apply (proj2 (inside3 _ _ _ _)). coordinates. repeat split; lra.
    + exists [0; 1; 2]%N. split; [now left|]. change (inside [zp (0, -1); zp (9, -4); zp (1, 9)]%Z x). apply (proj2 (inside3 _ _ _ _)). apply Rnot_le_lt in Q. coordinates. repeat split; lra.
  - change (inside [zp (0, 0); zp (1, 9); zp (-8, -5)]%Z x) in H. apply (proj1 (inside3 _ _ _ _)) in H. destruct H as (H1 & H2 & H3).
    destruct (Rle_dec 0 (orient (zp (0, -1)%Z) (zp (1, 9)%Z) x)) as [Q|Q].
    + exists [0; 2; 3]%N. split; [right; now left|]. change (inside [zp (0, -1); zp (1, 9); zp (-8, -5)]%Z x). apply (proj2 (inside3 _ _ _ _)). coordinates. repeat split; lra.
    + exists [0; 1; 2]%N. split; [now left|]. change (inside [zp (0, -1); zp (9, -4); zp (1, 9)]%Z x). apply (proj2 (inside3 _ _ _ _)). apply Rnot_le_lt in Q. coordinates. repeat split; lra.
Qed.
(** The hypotheses of C66_larger_area_not_longer: the second mesh is larger, its path is shorter. *)
Example ex_C66 : exists p1 p2 d1 d2, proper std_lib bent [] bent_start bent_goal 0 1 /\ proper std_lib wide [] bent_start bent_goal 0 1 /\
  (forall x, area bent [] 0 x -> area wide [] 0 x) /\
  path_on_layers std_lib bent (in_polygon bent_start 0) (in_polygon bent_goal 1) [] = Ok (Some p1) /\
  path_on_layers std_lib wide (in_polygon bent_start 0) (in_polygon bent_goal 1) [] = Ok (Some p2) /\
  plength p1 = Some d1 /\ plength p2 = Some d2 /\ d2 <= d1.
Proof.
  destruct bent_path as (p1 & H1 & _). destruct wide_path as (p2 & H2).
  destruct (C66_larger_area_not_longer std_lib std_lib bent wide (in_polygon bent_start 0) (in_polygon bent_goal 1) (in_polygon bent_start 0) (in_polygon bent_goal 1) [] [] p1 p2 bent_start bent_goal 0 1 0 1
    bent_proper wide_proper eq_refl eq_refl (at_polygon _ _ _ M0) (at_polygon _ _ _ M1)
    eq_refl eq_refl (at_polygon _ _ _ M0) (at_polygon _ _ _ M1) wide_larger H1 H2) as (d1 & d2 & A).
  exists p1, p2, d1, d2. split; [exact bent_proper|]. split; [exact wide_proper|]. split; [exact wide_larger|]. auto.
Qed.

(** ** The same area, cut in two ways: into three triangles, or a triangle and a quadrilateral *)
Definition fine_vs : list (zpt * list N) := [((0, 0)%Z, [0; 1; 2; MAX]%N); ((9, -4)%Z, [0; MAX]%N); ((10, 9)%Z, [0; 1; MAX]%N); ((-9, 11)%Z, [1; 2; MAX]%N); ((-8, -5)%Z, [2; MAX]%N)].
Definition fine_ps : list (list N) := [[0; 1; 2]%N; [0; 2; 3]%N; [0; 3; 4]%N].
Definition coarse_vs : list (zpt * list N) := [((0, 0)%Z, [0; 1; MAX]%N); ((9, -4)%Z, [0; MAX]%N); ((10, 9)%Z, [0; 1; MAX]%N); ((-9, 11)%Z, [1; MAX]%N); ((-8, -5)%Z, [1; MAX]%N)].
Definition coarse_ps : list (list N) := [[0; 1; 2]%N; [0; 2; 3; 4]%N].
Definition fine : Mesh RA := zmesh fine_vs fine_ps.
Definition coarse : Mesh RA := zmesh coarse_vs coarse_ps.
Definition cut_start : P2 := zp (5, -1)%Z.
Definition cut_goal : P2 := zp (-5, -2)%Z.
Lemma same_area x : area fine [] 0 x <-> area coarse [] 0 x.
Proof.
  unfold fine, coarse. rewrite !zm_area by (vm_compute; reflexivity). split; intros (p & Hp & H).
  - destruct Hp as [<-|[<-|[<-|[]]]].
    + exists [0; 1; 2]%N. split; [now left|]. exact H.
    + change (inside [zp (0, 0); zp (10, 9); zp (-9, 11)]%Z x) in H. apply (proj1 (inside3 _ _ _ _)) in H. destruct H as (H1 & H2 & H3).
      exists [0; 2; 3; 4]%N. split; [right; now left|]. change (inside [zp (0, 0); zp (10, 9); zp (-9, 11); zp (-8, -5)]%Z x). apply (proj2 (inside4 _ _ _ _ _)). coordinates. repeat split; lra.
    + change (inside [zp (0, 0); zp (-9, 11); zp (-8, -5)]%Z x) in H. apply (proj1 (inside3 _ _ _ _)) in H. destruct H as (H1 & H2 & H3).
      exists [0; 2; 3; 4]%N. split; [right; now left|]. change (inside [zp (0, 0); zp (10, 9); zp (-9, 11); zp (-8, -5)]%Z x). apply (proj2 (inside4 _ _ _ _ _)). coordinates. repeat split; lra.
  - destruct Hp as [<-|[<-|[]]].
    + exists [0; 1; 2]%N. split; [now left|]. exact H.
    + change (inside [zp (0, 0); zp (10, 9); zp (-9, 11); zp (-8, -5)]%Z x) in H. apply (proj1 (inside4 _ _ _ _ _)) in H. destruct H as (H1 & H2 & H3 & H4).
      destruct (Rle_dec 0 (orient (zp (0, 0)%Z) (zp (-9, 11)%Z) x)) as [Q|Q].
      * exists [0; 3; 4]%N. split; [right; right; now left|]. change (inside [zp (0, 0); zp (-9, 11); zp (-8, -5)]%Z x). apply (proj2 (inside3 _ _ _ _)). coordinates. repeat split; lra.
      * exists [0; 2; 3]%N. split; [right; now left|]. change (inside [zp (0, 0); zp (10, 9); zp (-9, 11)]%Z x). apply (proj2 (inside3 _ _ _ _)). apply Rnot_le_lt in Q. coordinates. repeat split; lra.
Qed.
Lemma fine_proper : proper std_lib fine [] cut_start cut_goal 0 2.
Proof. apply zm_proper; [apply mesh_smallb_ok; reflexivity|vm_compute; reflexivity..]. Qed.
Lemma coarse_proper : proper std_lib coarse [] cut_start cut_goal 0 1.
Proof. apply zm_proper; [apply mesh_smallb_ok; reflexivity|vm_compute; reflexivity..]. Qed.
Lemma polls_agree lib (f : Future RA) : forall k k' o o' log log', poll_times k lib f = Ok (Some o, log) -> poll_times k' lib f = Ok (Some o', log') -> o = o'.
Proof.
  intro k. revert f. induction k as [|k IH]; intros f k' o o' log log' H H'; [discriminate|]. destruct k' as [|k']; [discriminate|].
  cbn [poll_times] in H, H'. destruct (poll lib f) as [[[f1 w] [r|]]| | |]; cbn [bind] in H, H'; try discriminate.
  - congruence.
  - destruct (poll_times k lib f1) as [[a b]| | |] eqn:E1; cbn [bind fst snd] in H; try discriminate.
    destruct (poll_times k' lib f1) as [[a' b']| | |] eqn:E2; cbn [bind fst snd] in H'; try discriminate.
    apply (IH f1 k' o o' b b'); congruence.
Qed.
(** The hypotheses of C66_futures_agree (and of C65_future_decides): in the finer mesh the path crosses two edges, in the other one only one. *)
Example ex_C66_futures : exists k1 log1 k2 log2 p1 p2,
  poll_times k1 std_lib (get_path fine (vp cut_start) (vp cut_goal)) = Ok (Some (Some p1), log1) /\
  poll_times k2 std_lib (get_path coarse (vp cut_start) (vp cut_goal)) = Ok (Some (Some p2), log2) /\ plength p1 = plength p2.
Proof.
  assert (W1 : mesh_wf fine) by (apply (zm_wf fine_vs fine_ps); vm_compute; reflexivity). assert (W2 : mesh_wf coarse) by (apply (zm_wf coarse_vs coarse_ps); vm_compute; reflexivity).
  assert (B1 : at_border fine []) by (apply zm_at_border; vm_compute; reflexivity). assert (B2 : at_border coarse []) by (apply zm_at_border; vm_compute; reflexivity).
  assert (L1 : get_point_location (lbvh (@std_lib RA)) fine (coords_on_mesh (vp cut_start)) = Ok 0%N) by (apply (zm_location fine_vs fine_ps); vm_compute; reflexivity).
  assert (L2 : get_point_location (lbvh (@std_lib RA)) fine (coords_on_mesh (vp cut_goal)) = Ok 2%N) by (apply (zm_location fine_vs fine_ps); vm_compute; reflexivity).
  assert (L3 : get_point_location (lbvh (@std_lib RA)) coarse (coords_on_mesh (vp cut_start)) = Ok 0%N) by (apply (zm_location coarse_vs coarse_ps); vm_compute; reflexivity).
  assert (L4 : get_point_location (lbvh (@std_lib RA)) coarse (coords_on_mesh (vp cut_goal)) = Ok 1%N) by (apply (zm_location coarse_vs coarse_ps); vm_compute; reflexivity).
  assert (M2 : 2%N <> MAX) by discriminate.
  destruct (C66_futures_agree std_lib std_lib fine coarse cut_start cut_goal 0 2 0 1 fine_proper W1 (zm_real _ _) B1 eq_refl coarse_proper W2 (zm_real _ _) B2 eq_refl
    L1 M0 L2 M2 eq_refl L3 M0 L4 M1 eq_refl same_area) as (k1 & log1 & k2 & log2 & r1 & r2 & R1 & R2 & R3).
  destruct (C65_future_decides std_lib coarse cut_start cut_goal 0 1 coarse_proper W2 (zm_real _ _) B2 eq_refl L3 M0 L4 M1 eq_refl) as (k & log & [(p & pts & D1 & _)|[D1 D2]]).
  - pose proof (polls_agree _ _ _ _ _ _ _ _ R2 D1) as E. rewrite E in R2, R3. destruct r1 as [p1|]; [|discriminate R3].
    exists k1, log1, k2, log2, p1, p. split; [exact R1|]. split; [exact R2|]. cbn [option_map] in R3. congruence.
  - exfalso. apply (D2 [zp (0, 0)%Z; cut_goal]); [|reflexivity].
    assert (HA : forall x, (exists p, In p coarse_ps /\ inside (map zp (map (zat coarse_vs) p)) x) -> area coarse [] 0 x) by (intro x; apply zm_area; vm_compute; reflexivity).
    cbn [polyline_in]. split; [|split].
    + intros t Ht. apply HA. exists [0; 1; 2]%N. split; [now left|]. change (inside [zp (0, 0); zp (9, -4); zp (10, 9)]%Z (lerp cut_start (zp (0, 0)%Z) t)).
      apply (proj2 (inside3 _ _ _ _)). unfold lerp, cut_start, padd, pscale. coordinates. repeat split; lra.
    + intros t Ht. apply HA. exists [0; 2; 3; 4]%N. split; [right; now left|]. change (inside [zp (0, 0); zp (10, 9); zp (-9, 11); zp (-8, -5)]%Z (lerp (zp (0, 0)%Z) cut_goal t)).
      apply (proj2 (inside4 _ _ _ _ _)). unfold lerp, cut_goal, padd, pscale. coordinates. repeat split; lra.
    + apply HA. exists [0; 2; 3; 4]%N. split; [right; now left|]. change (inside [zp (0, 0); zp (10, 9); zp (-9, 11); zp (-8, -5)]%Z cut_goal).
      apply (proj2 (inside4 _ _ _ _ _)). unfold cut_goal. coordinates. repeat split; lra.
Qed.
(** The hypotheses of C67_futures_symmetric. *)
Example ex_C67_futures : exists k1 log1 k2 log2 r1 r2,
  poll_times k1 std_lib (get_path bent (vp bent_start) (vp bent_goal)) = Ok (Some r1, log1) /\
  poll_times k2 std_lib (get_path bent (vp bent_goal) (vp bent_start)) = Ok (Some r2, log2) /\ option_map plength r1 = option_map plength r2.
Proof.
  assert (W : mesh_wf bent) by (apply (zm_wf bent_vs bent_ps); vm_compute; reflexivity).
  assert (B : at_border bent []) by (apply zm_at_border; vm_compute; reflexivity).
  assert (L1 : get_point_location (lbvh (@std_lib RA)) bent (coords_on_mesh (vp bent_start)) = Ok 0%N) by (apply (zm_location bent_vs bent_ps); vm_compute; reflexivity).
  assert (L2 : get_point_location (lbvh (@std_lib RA)) bent (coords_on_mesh (vp bent_goal)) = Ok 1%N) by (apply (zm_location bent_vs bent_ps); vm_compute; reflexivity).
  exact (C67_futures_symmetric std_lib std_lib bent bent_start bent_goal 0 1 bent_proper bent_proper_back W (zm_real _ _) B L1 M0 L2 M1 eq_refl L2 L1 eq_refl).
Qed.

(** ** A quadrilateral, cut along one or the other diagonal: the hypotheses of C66_same_area_same_length *)
Definition cut1_vs : list (zpt * list N) := [((0, 0)%Z, [0; 1; MAX]%N); ((10, -1)%Z, [0; MAX]%N); ((12, 9)%Z, [0; 1; MAX]%N); ((-1, 10)%Z, [1; MAX]%N)].
Definition cut1_ps : list (list N) := [[0; 1; 2]%N; [0; 2; 3]%N].
Definition cut2_vs : list (zpt * list N) := [((0, 0)%Z, [0; MAX]%N); ((10, -1)%Z, [0; 1; MAX]%N); ((12, 9)%Z, [1; MAX]%N); ((-1, 10)%Z, [0; 1; MAX]%N)].
Definition cut2_ps : list (list N) := [[0; 1; 3]%N; [1; 2; 3]%N].
Definition cut1 : Mesh RA := zmesh cut1_vs cut1_ps.
Definition cut2 : Mesh RA := zmesh cut2_vs cut2_ps.
Definition low : P2 := zp (5, 1)%Z.
Definition high : P2 := zp (6, 8)%Z.
Lemma cut1_proper : proper std_lib cut1 [] low high 0 1.
Proof. apply zm_proper; [apply mesh_smallb_ok; reflexivity|vm_compute; reflexivity..]. Qed.
Lemma cut2_proper : proper std_lib cut2 [] low high 0 1.
Proof. apply zm_proper; [apply mesh_smallb_ok; reflexivity|vm_compute; reflexivity..]. Qed.
Lemma cut_area x : area cut1 [] 0 x <-> area cut2 [] 0 x.
Proof.
  unfold cut1, cut2. rewrite !zm_area by (vm_compute; reflexivity).
  set (a := zp (0, 0)%Z). set (b := zp (10, -1)%Z). set (c := zp (12, 9)%Z). set (d := zp (-1, 10)%Z).
  assert (H1 : forall x, (exists p, In p cut1_ps /\ inside (map zp (map (zat cut1_vs) p)) x) <-> inside [a; b; c] x \/ inside [a; c; d] x).
  { intro y. split; [intros (p & [<-|[<-|[]]] & H); [left; exact H|right; exact H]|].
    intros [H|H]; [exists [0; 1; 2]%N|exists [0; 2; 3]%N]; (split; [cbn; auto|exact H]). }
  assert (H2 : forall x, (exists p, In p cut2_ps /\ inside (map zp (map (zat cut2_vs) p)) x) <-> inside [a; b; d] x \/ inside [b; c; d] x).
  { intro y. split; [intros (p & [<-|[<-|[]]] & H); [left; exact H|right; exact H]|].
    intros [H|H]; [exists [0; 1; 3]%N|exists [1; 2; 3]%N]; (split; [cbn; auto|exact H]). }
  rewrite H1, H2, !inside3. subst a b c d. clear H1 H2. split.
  - intro H. destruct (Rle_dec 0 (orient (zp (10, -1)%Z) (zp (-1, 10)%Z) x)) as [Q|Q]; [left|right; apply Rnot_le_lt in Q]; coordinates; lra.
  - intro H. destruct (Rle_dec 0 (orient (zp (12, 9)%Z) (zp (0, 0)%Z) x)) as [Q|Q]; [left|right; apply Rnot_le_lt in Q]; coordinates; lra.
Qed.
Example ex_C66_same : exists p1 p2, proper std_lib cut1 [] low high 0 1 /\ proper std_lib cut2 [] low high 0 1 /\ (forall x, area cut1 [] 0 x <-> area cut2 [] 0 x) /\
  path_on_layers std_lib cut1 (in_polygon low 0) (in_polygon high 1) [] = Ok (Some p1) /\ path_on_layers std_lib cut2 (in_polygon low 0) (in_polygon high 1) [] = Ok (Some p2) /\
  plength p1 = plength p2.
Proof.
  destruct (first_step cut1 low high 0 1 (padd (zp (12, 9)%Z) (P 0 0)) (padd (zp (0, 0)%Z) (P 0 0)) 2 0 19) as (p1 & H1); try discriminate; try reflexivity.
  { intro H. unfold padd, zp in H. cbn [px py fst snd] in H. injection H as H _. lra. }
  destruct (first_step cut2 low high 0 1 (padd (zp (10, -1)%Z) (P 0 0)) (padd (zp (-1, 10)%Z) (P 0 0)) 1 3 19) as (p2 & H2); try discriminate; try reflexivity.
  { intro H. unfold padd, zp in H. cbn [px py fst snd] in H. injection H as H _. lra. }
  exists p1, p2. split; [exact cut1_proper|]. split; [exact cut2_proper|]. split; [exact cut_area|]. split; [exact H1|]. split; [exact H2|].
  exact (C66_same_area_same_length std_lib std_lib cut1 cut2 (in_polygon low 0) (in_polygon high 1) (in_polygon low 0) (in_polygon high 1) [] [] p1 p2 low high 0 1 0 1
    cut1_proper cut2_proper eq_refl eq_refl (at_polygon _ _ _ M0) (at_polygon _ _ _ M1) eq_refl eq_refl (at_polygon _ _ _ M0) (at_polygon _ _ _ M1) cut_area H1 H2).
Qed.
