(** C63 is not vacuous: two triangles around a corner, a start and a goal such that the straight line leaves the mesh; the path bends at the corner. *)
From Coq Require Import List NArith ZArith Bool Lia Reals Lra Psatz.
From Verif Require Import Base Arith U32 Mesh Helpers Locate Search StdLib Spec RealArith Geometry Heuristic F32_facts Search_props Search_safe Checkers Islands_facts
  Properties_geometry Examples_exact Rings Spec_inside Sight Sight_search Sight_static Examples_inside Spec_shortest Shortest_cover Properties_shortest Zmesh.
Import ListNotations.
Open Scope R_scope.

Definition bent_vs : list (zpt * list N) := [((0, 0)%Z, [0; 1; MAX]%N); ((9, -4)%Z, [0; MAX]%N); ((1, 9)%Z, [0; 1; MAX]%N); ((-8, -5)%Z, [1; MAX]%N)].
Definition bent_ps : list (list N) := [[0; 1; 2]%N; [0; 2; 3]%N].
Definition bent : Mesh RA := zmesh bent_vs bent_ps.
Definition bent_start : P2 := zp (4, -1)%Z.
Definition bent_goal : P2 := zp (-4, -2)%Z.

Lemma bent_plane_b : zplaneb bent_vs bent_ps = true. Proof. vm_compute. reflexivity. Qed.
Lemma bent_ids_b : zidsb bent_vs bent_ps = true. Proof. vm_compute. reflexivity. Qed.
Lemma bent_faultless : faultless bent [] 0%N.
Proof. apply (zm_faultless bent_vs bent_ps 1); vm_compute; reflexivity. Qed.
Lemma bent_generic : generic bent bent_start 0 1 bent_goal.
Proof. apply (zm_generic bent_vs bent_ps (4, -1)%Z (-4, -2)%Z 0 1); vm_compute; reflexivity. Qed.

Lemma bent_small : mesh_small bent.
Proof. apply mesh_smallb_ok. reflexivity. Qed.
Local Definition v0 : P2 := zp (0, 0)%Z.
Local Definition v2 : P2 := zp (1, 9)%Z.
Local Definition w0 : P2 := padd v0 (P 0 0).
Local Definition w2 : P2 := padd v2 (P 0 0).
Lemma w_ne : w2 <> w0.
Proof. unfold w0, w2, v0, v2, zp, padd. cbn [px py fst snd]. intro H. injection H as H. lra. Qed.
Definition bent_ctx : Ctx RA := mkCtx bent (vp bent_goal) 1 [].
Lemma setup_bent : setup bent_ctx (vp bent_start) 0 =
  Ok (flush_nodes (add_node bent_ctx (mkState [] [] [(vp bent_start, fz 0)]) (vp bent_start) 1 (vp w2, 2%N) (vp w0, 0%N) (empty_node (vp bent_start) 0))).
Proof. reflexivity. Qed.
Local Ltac orient_num := unfold orient, cross, psub, bent_start, bent_goal, w0, w2, v0, v2, zp, padd, eps; cbn [px py fst snd]; lra.
(** The query returns the path over the corner. *)
Lemma bent_path : exists p, path_on_layers std_lib bent (in_polygon bent_start 0) (in_polygon bent_goal 1) [] = Ok (Some p) /\ ppath p = [vp v0; vp bent_goal].
Proof.
  pose proof setup_bent as HS.
  rewrite (add_node_first bent_ctx (vp bent_start) 0 1 (vp w2, 2%N) (vp w0, 0%N) (same_root _) zero_not_nan zero_not_less) in HS.
  2:{ cbn [fst cgoal bent_ctx]. rewrite (heuristic_vp bent_start bent_goal w2 w0 w_ne). reflexivity. }
  unfold flush_nodes in HS. cbn [squeue sbuffer shist app fst snd] in HS.
  eexists. split.
  - eapply (path_first std_lib bent (in_polygon bent_start 0) (in_polygon bent_goal 1) [] 0 1 19).
    + reflexivity.
    + reflexivity.
    + reflexivity.
    + reflexivity.
    + reflexivity.
    + exact HS.
    + eapply next_first.
      * cbn [std_lib lpop squeue std_pop]. reflexivity.
      * cbn [shist hist_get nroot ng]. rewrite same_root. intros o H. injection H as <-. exact zero_not_less.
      * reflexivity.
  - unfold final_path. cbn [ppath nroot ninterval npath cgoal bent_ctx cpos in_polygon]. rewrite (turning_point_vp bent_start bent_goal w2 w0 w_ne).
    assert (S1 : side (vp bent_start) (vp w2, vp w0) = SLeft).
    { apply (proj2 (side_left _ _ _)). orient_num. }
    assert (S2 : side (vp bent_goal) (vp w2, vp w0) = SRight).
    { apply (proj2 (side_right _ _ _)). orient_num. }
    assert (EM : mgoal bent_start bent_goal w2 w0 = bent_goal) by (unfold mgoal; rewrite S1, S2; reflexivity).
    rewrite EM. destruct (P2_dec bent_start w2) as [E|_].
    { exfalso. unfold bent_start, w2, v2, zp, padd in E. cbn [px py fst snd] in E. injection E as E _. lra. }
    destruct (Rle_dec (orient bent_start w2 bent_goal) (- eps)) as [Q|_].
    { exfalso. revert Q. apply Rlt_not_le. orient_num. }
    destruct (Rle_dec eps (orient bent_start w0 bent_goal)) as [_|Q].
    { cbn [app]. f_equal. f_equal. apply P2_eq; cbn; lra. }
    exfalso. apply Q. orient_num.
Qed.

(** The hypotheses of C63_shortest are met by a query whose path turns. *)
Example ex_C63 : exists p,
  pop_ok (lpop (@std_lib RA)) /\ mesh_small bent /\ plane_mesh bent /\ ids_wf bent /\ u32_ids bent /\
  located std_lib bent (in_polygon bent_start 0) 0 /\ located std_lib bent (in_polygon bent_goal 1) 1 /\
  generic bent bent_start 0 1 bent_goal /\ faultless bent [] 0%N /\
  path_on_layers std_lib bent (in_polygon bent_start 0) (in_polygon bent_goal 1) [] = Ok (Some p) /\ ppath p = [vp v0; vp bent_goal].
Proof.
  destruct bent_path as (p & H1 & H2). exists p. split; [apply std_pop_ok, RA_total_ok|]. split; [apply bent_small|].
  split; [exact (zm_plane _ _ bent_plane_b)|]. split; [exact (zm_ids _ _ bent_ids_b)|]. split; [exact (zm_u32 _ _ bent_ids_b)|].
  split; [left; split; [discriminate|reflexivity]|]. split; [left; split; [discriminate|reflexivity]|].
  split; [exact bent_generic|]. split; [exact bent_faultless|]. auto.
Qed.
(** so going over the corner is the shortest way *)
Example ex_C63_length : forall L, way bent [] 0 bent_start 1 bent_goal L -> dist bent_start v0 + dist v0 bent_goal <= L.
Proof.
  destruct ex_C63 as (p & H1 & H2 & H3 & H4 & H5 & H6 & H7 & H8 & H9 & H10 & H11).
  destruct (C63_shortest std_lib bent (in_polygon bent_start 0) (in_polygon bent_goal 1) [] p bent_start bent_goal 0 1 H1 H2 H3 H4 H5 eq_refl eq_refl eq_refl H6 H7 H8 H9 H10)
    as (pts & xs & d & E1 & _ & _ & _ & _ & E4 & _ & E5).
  intros L HL. specialize (E5 L HL). rewrite H11 in E4. change [vp v0; vp bent_goal] with (map vp [v0; bent_goal]) in E4.
  change (cpos (in_polygon bent_start 0)) with (vp bent_start) in E4. rewrite Properties_heuristic.polyline_real in E4.
  cbn [Properties_heuristic.plane_length] in E4. assert (dist bent_start v0 + (dist v0 bent_goal + 0) = d) by congruence. lra.
Qed.
