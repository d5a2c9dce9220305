(** The comparisons of Properties_compare are not vacuous. *)
From Coq Require Import List NArith ZArith Bool Lia Reals Lra Psatz.
From Verif Require Import Base Arith U32 Mesh Helpers Locate Search AsyncPath Detailed StdLib Spec RealArith Geometry Heuristic F32_facts Search_props Search_safe Checkers Islands_facts Detailed_sim Detailed_facts Locate_facts Tests_detailed
  Properties_geometry Properties_segment Properties_detailed Properties_dsafe Examples_exact Spec_inside Examples_inside Spec_shortest Shortest_nodes Properties_shortest Zmesh Examples_shortest Spec_detailed Spec_layered Spec_area Properties_area Properties_complete
  Zarea Examples_area Examples_complete Zlayers Examples_layers Spec_moved Properties_moved Examples_moved
  Triangulation Spec_triangulation Inflate_facts Properties_triangulation Spec_outline Properties_outline Spec_free Properties_free Examples_free Spec_freespace Properties_freespace Examples_freespace Properties_order Examples_order
  Properties_layered Examples_layered Properties_nearly Properties_compare.
From Verif Require Import Spec_outline.
Import ListNotations.
Open Scope R_scope.

(** On an integer mesh of one layer, wherever the plain query finds a path. *)
Lemma zm_detailed vs ps s g is ig path : mesh_small (zmesh vs ps) -> mesh_wf (zmesh vs ps) -> verts_small (zmesh vs ps) ->
  proper std_lib (zmesh vs ps) [] s g is ig -> Search_safe.end_ok (zmesh vs ps) (in_polygon s is) -> Search_safe.end_ok (zmesh vs ps) (in_polygon g ig) -> is <> MAX -> ig <> MAX ->
  path_on_layers std_lib (zmesh vs ps) (in_polygon s is) (in_polygon g ig) [] = Ok (Some path) ->
  exists p, detailed_query std_lib std_dlib (zmesh vs ps) [vone] (in_polygon s is) (in_polygon g ig) [] s g is ig p.
Proof.
  intros Hsm HW HVs HP HE1 HE2 N1 N2 H.
  assert (HU : unit_scales (zmesh vs ps) [vone]) by (split; [reflexivity|apply Forall_cons; [reflexivity|apply Forall_nil]]).
  destruct (C77_detailed_path_exact std_dlib (zmesh vs ps) [vone] (in_polygon s is) (in_polygon g ig) []) as (r & K & _).
  - exact std_bvh_ok.
  - exact std_dpop_perm.
  - exact HW.
  - exact Hsm.
  - exact HVs.
  - reflexivity.
  - intros l [<-|[]] x Hx. discriminate.
  - apply zm_real.
  - apply Forall_cons; [eexists (P (1 / 1) (1 / 1)); reflexivity|apply Forall_nil].
  - reflexivity.
  - exact HE1.
  - exact HE2.
  - eexists; reflexivity.
  - eexists; reflexivity.
  - destruct (C61_unit_scales_exact (zmesh vs ps) [vone] (in_polygon s is) (in_polygon g ig) [] r HU HVs K) as (r0 & R1 & R2).
    rewrite H in R1. apply Ok_eq in R1. subst r0. destruct r as [p|]; [|destruct R2]. exists p.
    constructor; try assumption; try reflexivity; try (now apply at_polygon); [exact std_dpop_perm|exact std_pops_agree].
Qed.

Lemma zm_verts vs ps : verts_small (zmesh vs ps) <-> (lengthN vs <= 2 ^ 24)%N.
Proof.
  unfold verts_small. cbn [layers zmesh]. split.
  - intro H. specialize (H _ (or_introl eq_refl)). cbn [vertices zlayer] in H. unfold lengthN in *. rewrite map_length in H. exact H.
  - intros H l [<-|[]]. cbn [vertices zlayer]. unfold lengthN in *. rewrite map_length. exact H.
Qed.
Ltac located_end := eexists; eexists; split; reflexivity.
Lemma M0 : 0%N <> MAX. Proof. discriminate. Qed.
Lemma M1 : 1%N <> MAX. Proof. discriminate. Qed.
Lemma bent_wf' : mesh_wf bent. Proof. apply (zm_wf bent_vs bent_ps); vm_compute; reflexivity. Qed.
Lemma bent_detailed : exists p, detailed_query std_lib std_dlib bent [vone] (in_polygon bent_start 0) (in_polygon bent_goal 1) [] bent_start bent_goal 0 1 p.
Proof.
  destruct bent_path as (q & H & _). apply (zm_detailed bent_vs bent_ps bent_start bent_goal 0 1 q bent_small bent_wf' (proj2 bent_unit) bent_proper); [located_end|located_end|exact M0|exact M1|exact H].
Qed.
Lemma bent_detailed_back : exists p, detailed_query std_lib std_dlib bent [vone] (in_polygon bent_goal 1) (in_polygon bent_start 0) [] bent_goal bent_start 1 0 p.
Proof.
  destruct bent_path_back as (q & H). apply (zm_detailed bent_vs bent_ps bent_goal bent_start 1 0 q bent_small bent_wf' (proj2 bent_unit) bent_proper_back); [located_end|located_end|exact M1|exact M0|exact H].
Qed.
Lemma wide_detailed : exists p, detailed_query std_lib std_dlib wide [vone] (in_polygon bent_start 0) (in_polygon bent_goal 1) [] bent_start bent_goal 0 1 p.
Proof.
  destruct wide_path as (q & H). apply (zm_detailed wide_vs bent_ps bent_start bent_goal 0 1 q wide_small); [apply (zm_wf wide_vs bent_ps); vm_compute; reflexivity|apply (zm_verts wide_vs bent_ps); vm_compute; discriminate|exact wide_proper|located_end|located_end|exact M0|exact M1|exact H].
Qed.
Lemma double_detailed : exists p, detailed_query std_lib std_dlib double [vone] (in_polygon (Spec_moved.turned 2 0 (P 0 0) bent_start) 0) (in_polygon (Spec_moved.turned 2 0 (P 0 0) bent_goal) 1) [] (Spec_moved.turned 2 0 (P 0 0) bent_start) (Spec_moved.turned 2 0 (P 0 0) bent_goal) 0 1 p.
Proof.
  destruct double_path as (q & H). apply (zm_detailed double_vs bent_ps _ _ 0 1 q (pr_small _ _ _ _ _ _ _ double_proper));
    [apply (zm_wf double_vs bent_ps); vm_compute; reflexivity|apply (zm_verts double_vs bent_ps); vm_compute; discriminate|exact double_proper|located_end|located_end|exact M0|exact M1|exact H].
Qed.

Example ex_C66_detailed : exists p1 p2 t1 t2 n,
  dpath_on_layers std_dlib bent [vone] (in_polygon bent_start 0) (in_polygon bent_goal 1) [] = Ok (Some p1) /\ dpath_on_layers std_dlib wide [vone] (in_polygon bent_start 0) (in_polygon bent_goal 1) [] = Ok (Some p2) /\
  dlength p1 = Some t1 /\ dlength p2 = Some t2 /\ left_out bent_start p1 n /\ t2 <= t1 + 1 / 50 * INR n.
Proof.
  destruct bent_detailed as (p1 & Q1). destruct wide_detailed as (p2 & Q2). destruct (C66_detailed_larger_area _ _ _ _ _ _ _ _ _ _ _ _ _ _ _ _ _ _ _ _ _ _ Q1 Q2 wide_larger) as (t1 & t2 & n & H).
  exists p1, p2, t1, t2, n. split; [exact (dq_found _ _ _ _ _ _ _ _ _ _ _ _ Q1)|]. split; [exact (dq_found _ _ _ _ _ _ _ _ _ _ _ _ Q2)|exact H].
Qed.
Example ex_C67_detailed : exists p1 p2 t1 t2 n1 n2,
  dpath_on_layers std_dlib bent [vone] (in_polygon bent_start 0) (in_polygon bent_goal 1) [] = Ok (Some p1) /\ dpath_on_layers std_dlib bent [vone] (in_polygon bent_goal 1) (in_polygon bent_start 0) [] = Ok (Some p2) /\
  dlength p1 = Some t1 /\ dlength p2 = Some t2 /\ left_out bent_start p1 n1 /\ left_out bent_goal p2 n2 /\ t2 - 1 / 50 * INR n1 <= t1 <= t2 + 1 / 50 * INR n2.
Proof.
  destruct bent_detailed as (p1 & Q1). destruct bent_detailed_back as (p2 & Q2). destruct (C67_detailed_symmetric _ _ _ _ _ _ _ _ _ _ _ _ _ _ _ _ _ _ Q1 Q2) as (t1 & t2 & n1 & n2 & H).
  exists p1, p2, t1, t2, n1, n2. split; [exact (dq_found _ _ _ _ _ _ _ _ _ _ _ _ Q1)|]. split; [exact (dq_found _ _ _ _ _ _ _ _ _ _ _ _ Q2)|exact H].
Qed.
(** twice the size, twice the length *)
Example ex_C81_detailed : exists p1 p2 t1 t2 n1 n2,
  dpath_on_layers std_dlib bent [vone] (in_polygon bent_start 0) (in_polygon bent_goal 1) [] = Ok (Some p1) /\
  dpath_on_layers std_dlib double [vone] (in_polygon (Spec_moved.turned 2 0 (P 0 0) bent_start) 0) (in_polygon (Spec_moved.turned 2 0 (P 0 0) bent_goal) 1) [] = Ok (Some p2) /\
  dlength p1 = Some t1 /\ dlength p2 = Some t2 /\ left_out bent_start p1 n1 /\ left_out (Spec_moved.turned 2 0 (P 0 0) bent_start) p2 n2 /\ 2 * t1 - 1 / 50 * INR n2 <= t2 <= 2 * (t1 + 1 / 50 * INR n1).
Proof.
  destruct bent_detailed as (p1 & Q1). destruct double_detailed as (p2 & Q2).
  destruct (C81_detailed_moved_mesh _ _ _ _ _ _ _ _ _ _ _ _ _ _ _ _ _ _ _ 2 0 (P 0 0) ltac:(lra) double_moved Q1 Q2) as (t1 & t2 & n1 & n2 & H).
  replace (sqrt (2 * 2 + 0 * 0)) with 2 in H by (replace (2 * 2 + 0 * 0) with (2 * 2) by ring; symmetry; apply sqrt_square; lra).
  exists p1, p2, t1, t2, n1, n2. split; [exact (dq_found _ _ _ _ _ _ _ _ _ _ _ _ Q1)|]. split; [exact (dq_found _ _ _ _ _ _ _ _ _ _ _ _ Q2)|exact H].
Qed.

(** ** Blocked: only the polygon of the start is left *)
Lemma bent_one_layer : bent = zlayers [mkZl (0, 0)%Z bent_vs bent_ps].
Proof.
  assert (E : P 0 0 = zp (0, 0)%Z) by (apply P2_eq; unfold zp; cbn [px py fst snd]; lra).
  unfold bent, zmesh, zlayers, zlayer. rewrite E. reflexivity.
Qed.
Lemma bent_faultless_0 : faultless bent [0%N] 0%N.
Proof. rewrite bent_one_layer. apply (lm_faultless [mkZl (0, 0)%Z bent_vs bent_ps] [0%N] 2); vm_compute; reflexivity. Qed.
Lemma middle_proper : proper std_lib bent [] bent_start bent_middle 0 0.
Proof. apply zm_proper; [apply bent_small|vm_compute; reflexivity..]. Qed.
Lemma middle_proper_0 : proper std_lib bent [0%N] bent_start bent_middle 0 0.
Proof.
  destruct middle_proper as [P1 P2 P3 P4 P5 P6 P7 _ _]. constructor; try assumption; [exact bent_faultless_0|].
  intros id id' qs qs' x [_ H1] [_ H2] C1 C2 _ _. left. apply zm_corners in C1. apply zm_corners in C2.
  assert (id = 0%N) as -> by (destruct H1 as [H1|H1]; [exact H1|exfalso; apply H1; left; symmetry; apply C1]).
  destruct H2 as [H2|H2]; [now symmetry|exfalso; apply H2; left; symmetry; apply C2].
Qed.
Example ex_C80_detailed : exists p p' t t' n,
  dpath_on_layers std_dlib bent [vone] (in_polygon bent_start 0) (in_polygon bent_middle 0) [] = Ok (Some p) /\ dpath_on_layers std_dlib bent [vone] (in_polygon bent_start 0) (in_polygon bent_middle 0) [0%N] = Ok (Some p') /\
  dlength p = Some t /\ dlength p' = Some t' /\ left_out bent_start p' n /\ t <= t' + 1 / 50 * INR n.
Proof.
  assert (exists p, dpath_on_layers std_dlib bent [vone] (in_polygon bent_start 0) (in_polygon bent_middle 0) [] = Ok (Some p)) as (p & H) by (eexists; reflexivity).
  assert (exists p, dpath_on_layers std_dlib bent [vone] (in_polygon bent_start 0) (in_polygon bent_middle 0) [0%N] = Ok (Some p)) as (p' & H') by (eexists; reflexivity).
  assert (Q : detailed_query std_lib std_dlib bent [vone] (in_polygon bent_start 0) (in_polygon bent_middle 0) [] bent_start bent_middle 0 0 p).
  { constructor; try reflexivity; try (now apply at_polygon); [exact middle_proper|exact std_dpop_perm|exact std_pops_agree|exact (proj1 bent_unit)|exact (proj2 bent_unit)|exact H]. }
  assert (Q' : detailed_query std_lib std_dlib bent [vone] (in_polygon bent_start 0) (in_polygon bent_middle 0) [0%N] bent_start bent_middle 0 0 p').
  { constructor; try reflexivity; try (now apply at_polygon); [exact middle_proper_0|exact std_dpop_perm|exact std_pops_agree|exact (proj1 bent_unit)|exact (proj2 bent_unit)|exact H']. }
  destruct (C80_detailed_blocking _ _ _ _ _ _ _ _ _ _ _ _ _ _ _ _ _ Q Q' (fun i (X : In i []) => False_ind _ X)) as (t & t' & n & E). exists p, p', t, t', n. auto.
Qed.
(** ** A second obstacle, as in Examples_order *)
Example ex_C89_detailed : exists p p' t t' n,
  dpath_on_layers std_dlib bent [vone] (in_polygon bent_start 0) (in_polygon bent_middle 0) [] = Ok (Some p) /\ dpath_on_layers std_dlib tight [vone] (in_polygon bent_start 0) (in_polygon bent_middle 0) [] = Ok (Some p') /\
  dlength p = Some t /\ dlength p' = Some t' /\ left_out bent_start p' n /\ t <= t' + 1 / 50 * INR n.
Proof.
  assert (exists p, dpath_on_layers std_dlib bent [vone] (in_polygon bent_start 0) (in_polygon bent_middle 0) [] = Ok (Some p)) as (p & H) by (eexists; reflexivity).
  assert (exists p, dpath_on_layers std_dlib tight [vone] (in_polygon bent_start 0) (in_polygon bent_middle 0) [] = Ok (Some p)) as (p' & H') by (eexists; reflexivity).
  assert (Q : detailed_query std_lib std_dlib bent [vone] (in_polygon bent_start 0) (in_polygon bent_middle 0) [] bent_start bent_middle 0 0 p).
  { constructor; try reflexivity; try (now apply at_polygon); [exact middle_proper|exact std_dpop_perm|exact std_pops_agree|exact (proj1 bent_unit)|exact (proj2 bent_unit)|exact H]. }
  assert (Q' : detailed_query std_lib std_dlib tight [vone] (in_polygon bent_start 0) (in_polygon bent_middle 0) [] bent_start bent_middle 0 0 p').
  { constructor; try reflexivity; try (now apply at_polygon); [|exact std_dpop_perm|exact std_pops_agree| | |exact H'].
    - apply zm_proper; [apply tight_small|vm_compute; reflexivity..].
    - split; [reflexivity|apply Forall_cons; [reflexivity|apply Forall_nil]].
    - apply (zm_verts tight_vs tight_ps); vm_compute; discriminate. }
  destruct (C89_detailed_more_obstacles two_lib cut cut one_call two_calls bent tight edge_of_bent _ _ _ _ _ _ _ _ _ _ _ _ _ _ _ _ _ _ one_cut_out two_cut_out eq_refl one_in_two Q Q') as (t & t' & n & E).
  exists p, p', t, t', n. auto.
Qed.
