(** C84, C85 and C86 are not vacuous: a path around a corner into another layer, with different scales; paths in one layer. *)
From Coq Require Import List NArith ZArith Bool Lia Reals Lra Psatz.
From Verif Require Import Base Arith U32 Mesh Helpers Locate Search AsyncPath Detailed StdLib Spec RealArith Geometry Heuristic F32_facts Search_props Search_safe Checkers Islands_facts Detailed_sim Detailed_facts Locate_facts
  Properties_geometry Tests_detailed Properties_detailed Properties_dsafe Examples_exact Rings Spec_inside Sight Sight_search Sight_static Examples_inside Spec_shortest Shortest_cover Shortest_nodes Properties_shortest Properties_complete
  Spec_area Spec_detailed Spec_layered Properties_area Zmesh Zlayers Examples_shortest Examples_complete Examples_area Examples_layers Triangulation Inflate_facts Spec_triangulation Spec_outline Spec_free Properties_free Examples_free Properties_layered.
From Verif Require Import Spec_outline.
Import ListNotations.
Open Scope R_scope.

(** ** Three layers *)
Definition scales3 : list (vec2 RA) := [vp (P 1 1); vp (P 2 3); vp (P 1 (1 / 2))].
Lemma scales3_ok : scales_within (1 / 2) 3 scales3.
Proof. intros sc [<-|[<-|[<-|[]]]]; (eexists; eexists; split; [reflexivity|]); lra. Qed.
Definition dctx3 : DCtx RA := mkDCtx (mkCtx bent3 (vp goal3) i1 []) scales3 (vp start3, 0%N).
Local Definition y0 : P2 := padd (zp (0, 0)%Z) (zp (0, 0)%Z).
Local Definition y2 : P2 := padd (zp (1, 9)%Z) (zp (0, 0)%Z).
Lemma y_ne : y2 <> y0.
Proof. unfold y0, y2, zp, padd. cbn [px py fst snd]. intro H. injection H as H. lra. Qed.
Lemma dsetup_bent3 : dsetup dctx3 (vp start3) 0 =
  (let* st := dadd_node dctx3 (mkDState [] [] [(vp start3, fz 0)]) (vp start3) i1 (vp y2, 2%N) (vp y0, 0%N) (mkDNode (empty_node (vp start3) 0) []) in Ok (dflush st)).
Proof. unfold dsetup. cbn -[dadd_node]. destruct (dadd_node _ _ _ _ _ _ _); reflexivity. Qed.
Lemma dfinal_bent3 (n : DNode RA) : dpoints n = [(vp y2, vp y0, 1%N)] -> ninterval (dnode n) = (vp y2, vp y0) -> nto (dnode n) = i1 -> exists p, dfinal dctx3 n = Ok p.
Proof.
  intros H1 H2 H3. unfold dfinal, dsum.
  assert (HR : Forall (fun q : vec2 RA * N => (exists z, fst q = vp z) /\ (snd q < lengthN (dscales dctx3))%N) (dwith_layers dctx3 n)).
  { rewrite Forall_forall. intros q Hq. unfold dwith_layers in Hq. apply thin_incl in Hq.
    assert (HE : forall e, In e (dend (dctx dctx3) (dnode n)) -> exists z, e = vp z).
    { intros e He. unfold dend in He. apply in_app_or in He. destruct He as [He|[<-|[]]]; [|exists goal3; reflexivity].
      destruct (turning_point _ _ _) as [t|] eqn:ET; [|destruct He]. destruct He as [<-|[]].
      apply turning_point_ends in ET. rewrite H2 in ET. cbn [fst snd] in ET. destruct ET as [->| ->]; eauto. }
    rewrite H1 in Hq. apply in_app_or in Hq. destruct Hq as [Hq|Hq].
    - cbn [fill find] in Hq. destruct (veq (vp y2) (vp y0)) eqn:EV; [apply veq_vp in EV; exfalso; exact (y_ne EV)|].
      destruct (line_intersect_segment _ _) as [x|] eqn:EL; [|destruct Hq].
      destruct Hq as [<-|[]]. apply lis_seg in EL. destruct EL as (t & -> & _). cbn [fst snd]. split; [eauto|reflexivity].
    - apply in_map_iff in Hq. destruct Hq as (e & <- & He). cbn [fst snd]. split; [now apply HE|]. rewrite H3. reflexivity. }
  destruct (sum_real dctx3) with (pts := dwith_layers dctx3 n) (acc := 0%R) (p := start3) (l := 0%N) as (t & last & E).
  - repeat (apply Forall_cons; [eexists; reflexivity|]). apply Forall_nil.
  - reflexivity.
  - exact HR.
  - change (fz 0 : F RA) with (Some (0 / 1)%R). replace (0 / 1)%R with 0%R by field.
    change (dfrom dctx3) with (vp start3, 0%N). rewrite E. cbn [bind fst]. eexists. reflexivity.
Qed.
Lemma bent3_dpath2 : exists p, dpath_on_layers std_dlib bent3 scales3 (in_polygon start3 0) (in_polygon goal3 i1) [] = Ok (Some p) /\ (length (dpath p) <= 2)%nat.
Proof.
  pose proof dsetup_bent3 as HS.
  rewrite (dadd_node_first dctx3 (vp start3) 0 i1 (vp y2, 2%N) (vp y0, 0%N) (vp (P 1 1)) (vp (P 1 1)) (same_root start3) zero_not_nan zero_not_less) in HS.
  - cbn [bind] in HS. unfold dflush in HS. cbn [dqueue dbuffer dhist app fst snd] in HS.
    match type of HS with _ = Ok (mkDState [?n0] _ _) => set (n := n0) in * end.
    destruct (dfinal_bent3 n) as (p & Hp); [reflexivity..|]. exists p.
    split; [|unfold dfinal in Hp; inv_bind Hp; apply Ok_eq in Hp; subst p; cbn [dpath]; change (npath (dnode n)) with (@nil (vec2 RA)); unfold dend; destruct (turning_point _ _ _); cbn [app length]; lia].
    eapply (dpath_first std_dlib bent3 scales3 (in_polygon start3 0) (in_polygon goal3 i1) [] 0 i1 29).
    + reflexivity.
    + reflexivity.
    + reflexivity.
    + reflexivity.
    + reflexivity.
    + exact HS.
    + eapply dnext_first; [reflexivity| |reflexivity|exact Hp].
      cbn [dhist hist_get]. change (nroot (dnode n)) with (vp start3). change (ng (dnode n)) with (fz 0 : F RA). rewrite same_root.
      intros o H. injection H as <-. exact zero_not_less.
    + reflexivity.
  - reflexivity.
  - reflexivity.
  - cbn [fst]. rewrite !scaled_one. change (cgoal (dctx dctx3)) with (vp goal3). rewrite (heuristic_vp start3 goal3 y2 y0 y_ne). reflexivity.
Qed.
Lemma bent3_dpath : exists p, dpath_on_layers std_dlib bent3 scales3 (in_polygon start3 0) (in_polygon goal3 i1) [] = Ok (Some p).
Proof. destruct bent3_dpath2 as (p & H & _). eauto. Qed.
(** The hypotheses of C84_walks_through_chain, C85_follows_the_path and C85_length. *)
Example ex_C84 : exists p,
  dpop_perm (dpop (@std_dlib RA)) /\ mesh_small bent3 /\ plane_mesh bent3 /\ u32_ids bent3 /\
  located (dlib_lib std_dlib) bent3 (in_polygon start3 0) 0 /\ located (dlib_lib std_dlib) bent3 (in_polygon goal3 i1) i1 /\ 0%N <> i1 /\
  (exists qs, corners bent3 0 qs /\ inside qs start3) /\ steady bent3 start3 /\ steady_goal bent3 start3 i1 goal3 /\ scales_within (1 / 2) 3 scales3 /\
  dpath_on_layers std_dlib bent3 scales3 (in_polygon start3 0) (in_polygon goal3 i1) [] = Ok (Some p).
Proof.
  destruct bent3_dpath as [p H]. exists p. split; [exact std_dpop_perm|]. split; [exact bent3_small|]. split; [exact (lm_plane _ bent3_plane_b)|].
  split; [exact (lm_u32 _ bent3_ids_b)|]. split; [left; split; [discriminate|reflexivity]|]. split; [left; split; [discriminate|reflexivity]|]. split; [discriminate|].
  split; [destruct (ge_start _ _ _ _ _ bent3_generic) as (qs & Q1 & Q2); exists qs; split; [exact Q1|]; intros a b Hab; apply Rlt_le; now apply Q2|].
  split; [exact (generic_steady _ _ _ _ _ bent3_generic)|]. split; [exact (generic_goal _ _ _ _ _ bent3_generic)|]. split; [exact scales3_ok|exact H].
Qed.
(** so the path is a polyline through a chain of polygons and its length is about that of the polyline, between half and three times *)
Example ex_C85 : exists p t pts full, dpath_on_layers std_dlib bent3 scales3 (in_polygon start3 0) (in_polygon goal3 i1) [] = Ok (Some p) /\
  dlength p = Some t /\ dpath p = map vp pts /\ (exists xs, corridor bent3 0 xs i1 /\ walks bent3 start3 pts (0%N :: map cr_to xs)) /\
  refines start3 pts (map fst full) /\ thinned (map labelled full) (dlayers p) /\
  1 / 2 * (total start3 pts - 1 / 50 * (INR (length full) - INR (length (dlayers p)))) <= t <= 3 * total start3 pts.
Proof.
  destruct ex_C84 as (p & H1 & H2 & H3 & H4 & H5 & H6 & H7 & H8 & H9 & H10 & H11 & H).
  destruct (C84_walks_through_chain std_dlib bent3 scales3 (in_polygon start3 0) (in_polygon goal3 i1) [] p start3 goal3 0 i1 H1 H2 H3 H4 eq_refl eq_refl eq_refl H5 H6 H8 H9 H10 H) as (pts & xs & W1 & W2 & W3 & _).
  destruct (C85_length std_dlib bent3 scales3 (in_polygon start3 0) (in_polygon goal3 i1) [] p start3 goal3 0 i1 (1 / 2) 3 H1 H2 H3 H4 eq_refl eq_refl eq_refl H5 H6 H8 H9 H10 H7 ltac:(lra) H11 H)
    as (t & pts' & full & L1 & L2 & L3 & L4 & _ & L5).
  assert (pts' = pts) as -> by (rewrite W1 in L2; symmetry in L2; revert L2; apply Properties_layered.map_vp_inj).
  exists p, t, pts, full. repeat (split; [assumption|]). split; [exists xs; auto|]. auto.
Qed.

(** The hypotheses of C86_labels, with that of the labels, and of C86_one_turn: the path leaves its layer, and all of its legs lie in the
    layers they are labelled with. *)
Example ex_C86 : exists p pts full, dpath_on_layers std_dlib bent3 scales3 (in_polygon start3 0) (in_polygon goal3 i1) [] = Ok (Some p) /\
  dpath p = map vp pts /\ off_borders bent3 start3 pts /\ refines start3 pts (map fst full) /\ thinned (map labelled full) (dlayers p) /\ in_layers bent3 0 start3 full.
Proof.
  destruct bent3_dpath2 as (p & H & HL).
  destruct ex_C84 as (_ & H1 & H2 & H3 & H4 & H5 & H6 & _).
  destruct (C86_one_turn std_dlib bent3 scales3 (in_polygon start3 0) (in_polygon goal3 i1) [] p start3 goal3 0 i1 H1 H2 H3 H4 eq_refl eq_refl eq_refl H5 H6 bent3_generic HL H) as (pts & full & E1 & E2 & E3 & E4).
  exists p, pts, full. split; [exact H|]. split; [exact E1|]. split; [|auto]. rewrite E1, map_length in HL. apply (few_turns_off bent3 start3 0 i1 goal3 pts H3 bent3_generic HL).
  destruct ex_C84 as (_ & _ & _ & _ & _ & _ & _ & _ & H8 & H9 & H10 & _).
  destruct (found_traced std_dlib bent3 scales3 (in_polygon start3 0) (in_polygon goal3 i1) [] p start3 goal3 0 i1 H1 H2 H3 H4 eq_refl eq_refl eq_refl H5 H6 H8 H9 H10 H) as [[E _]|[_ E]]; [discriminate|].
  destruct (traced_ends _ _ _ _ _ _ _ _ E) as (pre & EP). rewrite EP in E1. destruct (exists_last (l := pts)) as (p0 & q & ->). { intros ->. destruct pre; discriminate. }
  rewrite map_app in E1. apply app_inj_tail in E1. destruct E1 as [_ W1]. rewrite last_last. symmetry. now apply vp_inj.
Qed.

(** ** One layer, scale one *)
Lemma bent_unit : unit_scales bent [vone] /\ verts_small bent.
Proof. split; [split; [reflexivity|apply Forall_cons; [reflexivity|apply Forall_nil]]|]. intros l [<-|[]]. cbn. lia. Qed.
Lemma bent_dpath : exists p, dpath_on_layers std_dlib bent [vone] (in_polygon bent_start 0) (in_polygon bent_goal 1) [] = Ok (Some p).
Proof.
  destruct (C77_detailed_path_exact std_dlib bent [vone] (in_polygon bent_start 0) (in_polygon bent_goal 1) []) as (r & H & _).
  - exact std_bvh_ok.
  - exact std_dpop_perm.
  - apply (zm_wf bent_vs bent_ps); vm_compute; reflexivity.
  - exact bent_small.
  - exact (proj2 bent_unit).
  - reflexivity.
  - intros l [<-|[]] x Hx. discriminate.
  - apply zm_real.
  - apply Forall_cons; [eexists (P (1 / 1) (1 / 1)); reflexivity|apply Forall_nil].
  - reflexivity.
  - eexists. eexists. split; reflexivity.
  - eexists. eexists. split; reflexivity.
  - eexists; reflexivity.
  - eexists; reflexivity.
  - destruct (C61_unit_scales_exact bent [vone] (in_polygon bent_start 0) (in_polygon bent_goal 1) [] r (proj1 bent_unit) (proj2 bent_unit) H) as (r0 & R1 & R2).
    destruct bent_path as (p0 & P1 & _). rewrite P1 in R1. apply Ok_eq in R1. subst r0. destruct r as [p|]; [exists p; exact H|destruct R2].
Qed.
(** The hypotheses of C84_default_not_longer and C85_unit_scales. *)
Example ex_C85_unit : exists path p d t,
  path_on_layers std_lib bent (in_polygon bent_start 0) (in_polygon bent_goal 1) [] = Ok (Some path) /\
  dpath_on_layers std_dlib bent [vone] (in_polygon bent_start 0) (in_polygon bent_goal 1) [] = Ok (Some p) /\
  plength path = Some d /\ dlength p = Some t /\ t <= d.
Proof.
  destruct bent_path as (path & H1 & _). destruct bent_dpath as (p & H2). exists path, p.
  assert (N0 : 0%N <> MAX) by discriminate. assert (N1 : 1%N <> MAX) by discriminate. assert (N2 : 0%N <> 1%N) by discriminate.
  destruct (C85_unit_scales std_lib std_dlib bent [vone] (in_polygon bent_start 0) (in_polygon bent_goal 1) [] path p bent_start bent_goal 0 1 bent_proper std_dpop_perm eq_refl std_pops_agree
    (proj1 bent_unit) (proj2 bent_unit) eq_refl eq_refl (at_polygon _ _ _ N0) (at_polygon _ _ _ N1) N2 H1 H2) as (d & t & pts & full & D1 & D2 & _ & _ & _ & _ & D3).
  exists d, t. repeat (split; [assumption|]). lra.
Qed.
(** The hypotheses of C84_keeps_distance. *)
Example ex_C84_distance : exists path pts,
  dpath_on_layers std_dlib bent [vone] (in_polygon bent_start 0) (in_polygon bent_goal 1) [] = Ok (Some path) /\ dpath path = map vp pts /\
  polyline_in (fun x => forall a b k, In (a, b) (pairs far_ring) -> 0 <= k <= 1 -> 1 / 2 * cos (PI / (2 * IZR (Z.of_N (arc_count 5)))) <= dist x (lerp a b k)) bent_start pts.
Proof.
  destruct bent_dpath as (p & H1). destruct far_built as [c HB].
  destruct (C84_keeps_distance far_lib far0 _ far_t c bent (1 / 2) 0 5 (P 100 0) (P 103 4) [P 103 0] std_dlib [vone] (in_polygon bent_start 0) (in_polygon bent_goal 1) [] p
    bent_start bent_goal 0 1 HB (or_introl far_radius)) as (pts & E & HP).
  - lra.
  - lia.
  - apply free_trig.
  - apply free_union.
  - apply free_simplify.
  - now left.
  - discriminate.
  - intros r _. apply free_finds.
  - exact std_dpop_perm.
  - exact bent_small.
  - exact (pr_plane _ _ _ _ _ _ _ bent_proper).
  - exact (pr_u32 _ _ _ _ _ _ _ bent_proper).
  - reflexivity.
  - reflexivity.
  - reflexivity.
  - left. split; [discriminate|reflexivity].
  - left. split; [discriminate|reflexivity].
  - destruct (ge_start _ _ _ _ _ bent_generic) as (qs & Q1 & Q2). exists qs. split; [exact Q1|]. intros a b Hab. apply Rlt_le. now apply Q2.
  - exact (generic_steady _ _ _ _ _ bent_generic).
  - exact (generic_goal _ _ _ _ _ bent_generic).
  - exact H1.
  - exists p, pts. auto.
Qed.

(** ** The future, with a scale *)
Definition bent_dctx : DCtx RA := mkDCtx (mkCtx bent (vp bent_goal) 1 []) [vp (P 2 3)] (vp bent_start, 0%N).
Local Definition u0 : P2 := padd (zp (0, 0)%Z) (P 0 0).
Local Definition u2 : P2 := padd (zp (1, 9)%Z) (P 0 0).
Local Definition s0 : P2 := P (px u0 * 2) (py u0 * 3).
Local Definition s2 : P2 := P (px u2 * 2) (py u2 * 3).
Lemma s_ne : s2 <> s0.
Proof. unfold s0, s2, u0, u2, zp, padd. cbn [px py fst snd]. intro H. injection H as H. lra. Qed.
Lemma dsetup_bent : dsetup bent_dctx (vp bent_start) 0 =
  (let* st := dadd_node bent_dctx (mkDState [] [] [(vp bent_start, fz 0)]) (vp bent_start) 1 (vp u2, 2%N) (vp u0, 0%N) (mkDNode (empty_node (vp bent_start) 0) []) in Ok (dflush st)).
Proof. unfold dsetup. cbn -[dadd_node]. destruct (dadd_node _ _ _ _ _ _ _); reflexivity. Qed.
Lemma dfinal_bent (n : DNode RA) : dpoints n = [] -> ninterval (dnode n) = (vp u2, vp u0) -> nto (dnode n) = 1%N -> exists p, dfinal bent_dctx n = Ok p.
Proof.
  intros H1 H2 H3. unfold dfinal, dsum.
  assert (HR : Forall (fun q : vec2 RA * N => (exists z, fst q = vp z) /\ (snd q < lengthN (dscales bent_dctx))%N) (dwith_layers bent_dctx n)).
  { rewrite Forall_forall. intros q Hq. unfold dwith_layers in Hq. apply thin_incl in Hq. rewrite H1 in Hq. cbn [fill app] in Hq.
    apply in_map_iff in Hq. destruct Hq as (e & <- & He). cbn [fst snd]. rewrite H3. split; [|reflexivity].
    unfold dend in He. apply in_app_or in He. destruct He as [He|[<-|[]]]; [|exists bent_goal; reflexivity].
    destruct (turning_point _ _ _) as [t|] eqn:ET; [|destruct He]. destruct He as [<-|[]].
    apply turning_point_ends in ET. rewrite H2 in ET. cbn [fst snd] in ET. destruct ET as [->| ->]; eauto. }
  destruct (sum_real bent_dctx) with (pts := dwith_layers bent_dctx n) (acc := 0%R) (p := bent_start) (l := 0%N) as (t & last & E).
  - apply Forall_cons; [eexists; reflexivity|]. apply Forall_nil.
  - reflexivity.
  - exact HR.
  - change (fz 0 : F RA) with (Some (0 / 1)%R). replace (0 / 1)%R with 0%R by field.
    change (dfrom bent_dctx) with (vp bent_start, 0%N). rewrite E. cbn [bind fst]. eexists. reflexivity.
Qed.
Lemma bent_dfuture : exists p, dget_path 1 std_dlib bent [vp (P 2 3)] (vp bent_start) (vp bent_goal) = Ok (Some (Some p)).
Proof.
  assert (L0 : get_point_location std_bvh bent (coords_on_mesh (vp bent_start)) = Ok 0%N) by (apply zm_location; vm_compute; reflexivity).
  assert (L1 : get_point_location std_bvh bent (coords_on_mesh (vp bent_goal)) = Ok 1%N) by (apply zm_location; vm_compute; reflexivity).
  pose proof dsetup_bent as HS.
  rewrite (dadd_node_first bent_dctx (vp bent_start) 0 1 (vp u2, 2%N) (vp u0, 0%N) (vp (P 2 3)) (vp (P 2 3)) (same_root bent_start) zero_not_nan zero_not_less) in HS.
  - cbn [bind] in HS. unfold dflush in HS. cbn [dqueue dbuffer dhist app fst snd] in HS.
    match type of HS with _ = Ok (mkDState [?n0] _ _) => set (n := n0) in * end.
    destruct (dfinal_bent n) as (p & Hp); [reflexivity..|]. exists p.
    unfold dget_path. change (dbvh std_dlib) with (@std_bvh RA). rewrite L0. cbn [bind]. change (0 =? MAX)%N with false. cbn iota. rewrite L1. cbn [bind].
    change (1 =? MAX)%N with false. cbn iota. change (async_islands_reject bent 0 1) with (Ok false). cbn [bind]. change (0 =? 1)%N with false. cbn iota. cbv zeta.
    change (mkDCtx (mkCtx bent (vp bent_goal) 1 []) [vp (P 2 3)] (vp bent_start, id_layer 0)) with bent_dctx. rewrite HS. cbn [bind dfirst].
    erewrite dnext_first; [reflexivity|reflexivity| |reflexivity|exact Hp].
    cbn [dhist hist_get]. change (nroot (dnode n)) with (vp bent_start). change (ng (dnode n)) with (fz 0 : F RA). rewrite same_root.
    intros o H. injection H as <-. exact zero_not_less.
  - reflexivity.
  - reflexivity.
  - change (fnan (heuristic (vp bent_start) (vp bent_goal) (vp s2, vp s0)) = false). rewrite (heuristic_vp bent_start bent_goal s2 s0 s_ne). reflexivity.
Qed.
(** The hypotheses of C84_future_walks_through_chain and C85_future_follows_the_path. *)
Example ex_C84_future : exists k p,
  dpop_perm (dpop (@std_dlib RA)) /\ plane_mesh bent /\ u32_ids bent /\ dfuture_at std_dlib bent bent_start 0 /\ dfuture_at std_dlib bent bent_goal 1 /\
  (exists qs, corners bent 0 qs /\ inside qs bent_start) /\ steady bent bent_start /\ steady_goal bent bent_start 1 bent_goal /\
  dget_path k std_dlib bent [vp (P 2 3)] (vp bent_start) (vp bent_goal) = Ok (Some (Some p)).
Proof.
  destruct bent_dfuture as [p H]. exists 1%nat, p. split; [exact std_dpop_perm|]. split; [exact (pr_plane _ _ _ _ _ _ _ bent_proper)|].
  split; [exact (pr_u32 _ _ _ _ _ _ _ bent_proper)|].
  split. { split; [|discriminate]. apply zm_location; vm_compute; reflexivity. }
  split. { split; [|discriminate]. apply zm_location; vm_compute; reflexivity. }
  split. { destruct (ge_start _ _ _ _ _ bent_generic) as (qs & Q1 & Q2). exists qs. split; [exact Q1|]. intros a b Hab. apply Rlt_le. now apply Q2. }
  split; [exact (generic_steady _ _ _ _ _ bent_generic)|]. split; [exact (generic_goal _ _ _ _ _ bent_generic)|exact H].
Qed.

(** The hypotheses of C59_number_and_not_shorter are met. *)
Example ex_C59_number : exists p t, dpath_on_layers std_dlib bent [vone] (in_polygon bent_start 0) (in_polygon bent_goal 1) [] = Ok (Some p) /\ dlength p = Some t /\ (dist bent_start bent_goal <= t)%R.
Proof.
  destruct bent_dpath as (p & H). exists p.
  destruct (C59_number_and_not_shorter std_dlib bent [vone] (in_polygon bent_start 0) (in_polygon bent_goal 1) [] p bent_start bent_goal) as (t & T1 & T2).
  - exact std_bvh_ok.
  - exact std_dpop_perm.
  - apply (zm_wf bent_vs bent_ps); vm_compute; reflexivity.
  - exact bent_small.
  - exact (proj2 bent_unit).
  - reflexivity.
  - intros l [<-|[]] x Hx. discriminate.
  - apply zm_real.
  - apply Forall_cons; [eexists (P (1 / 1) (1 / 1)); reflexivity|apply Forall_nil].
  - reflexivity.
  - eexists. eexists. split; reflexivity.
  - eexists. eexists. split; reflexivity.
  - reflexivity.
  - reflexivity.
  - intros s [<-|[]]. exists (1 / 1)%R, (1 / 1)%R. split; [reflexivity|]. assert (1 <= Rabs (1 / 1))%R by (rewrite Rabs_right; lra). auto.
  - exact H.
  - exists t. auto.
Qed.
