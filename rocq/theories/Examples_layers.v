(** C80, C63 and C64 are not vacuous for meshes of several layers (with offsets) and blocked layers: a triangle on each of three layers,
    a query whose path turns at the corner between the first two. *)
From Coq Require Import List NArith ZArith Bool Lia Reals Lra Psatz.
From Verif Require Import Base Arith U32 Mesh Helpers Locate Search StdLib Spec RealArith Geometry Heuristic F32_facts Search_props Search_safe Checkers Islands_facts
  Properties_geometry Examples_exact Rings Spec_inside Sight Sight_search Sight_static Examples_inside Spec_shortest Shortest_cover Properties_shortest Properties_complete Zmesh Zlayers Properties_blocking.
Import ListNotations.
Open Scope R_scope.

Definition i1 : N := 16777216%N.
Definition i2 : N := 33554432%N.
Definition three_layers : list zl := [
  mkZl (0, 0)%Z [((0, 0)%Z, [0%N; i1; MAX]); ((9, -4)%Z, [0%N; MAX]); ((1, 9)%Z, [0%N; i1; i2; MAX])] [[0; 1; 2]%N];
  mkZl (2, -1)%Z [((-2, 1)%Z, [0%N; i1; MAX]); ((-1, 10)%Z, [0%N; i1; i2; MAX]); ((-10, -4)%Z, [i1; i2; MAX])] [[0; 1; 2]%N];
  mkZl (-3, 4)%Z [((-5, -9)%Z, [i1; i2; MAX]); ((4, 5)%Z, [0%N; i1; i2; MAX]); ((-12, 3)%Z, [i2; MAX])] [[0; 1; 2]%N]].
Definition bent3 : Mesh RA := zlayers three_layers.
Definition start3 : P2 := zp (4, -1)%Z.
Definition goal3 : P2 := zp (-4, -2)%Z.

Lemma bent3_plane_b : lplaneb three_layers = true. Proof. vm_compute. reflexivity. Qed.
Lemma bent3_ids_b : lidsb three_layers = true. Proof. vm_compute. reflexivity. Qed.
Lemma bent3_faultless : faultless bent3 [] 0%N.
Proof. apply (lm_faultless three_layers [] 2); vm_compute; reflexivity. Qed.
Lemma bent3_faultless_2 : faultless bent3 [2%N] 0%N.
Proof. apply (lm_faultless three_layers [2%N] 2); vm_compute; reflexivity. Qed.
Lemma bent3_faultless_1 : faultless bent3 [1%N; 2%N] 0%N.
Proof. apply (lm_faultless three_layers [1%N; 2%N] 2); vm_compute; reflexivity. Qed.
Lemma bent3_border : at_border bent3 [].
Proof. apply (lm_border three_layers [] 3); vm_compute; reflexivity. Qed.
Lemma bent3_generic : generic bent3 start3 0 i1 goal3.
Proof. apply (lm_generic three_layers (4, -1)%Z (-4, -2)%Z 0 i1); vm_compute; reflexivity. Qed.
Lemma bent3_wf : mesh_wf bent3.
Proof. apply lm_wf; vm_compute; reflexivity. Qed.
Lemma bent3_small : mesh_small bent3.
Proof. apply mesh_smallb_ok. reflexivity. Qed.

Local Definition v0 : P2 := zp (0, 0)%Z.
Local Definition v2 : P2 := zp (1, 9)%Z.
Local Definition w0 : P2 := padd v0 (zp (0, 0)%Z).
Local Definition w2 : P2 := padd v2 (zp (0, 0)%Z).
Lemma w3_ne : w2 <> w0.
Proof. unfold w0, w2, v0, v2, zp, padd. cbn [px py fst snd]. intro H. injection H as H. lra. Qed.
Definition ctx3 (b : list N) : Ctx RA := mkCtx bent3 (vp goal3) i1 b.
Lemma setup_bent3 b : b = [] \/ b = [2%N] -> setup (ctx3 b) (vp start3) 0 =
  Ok (flush_nodes (add_node (ctx3 b) (mkState [] [] [(vp start3, fz 0)]) (vp start3) i1 (vp w2, 2%N) (vp w0, 0%N) (empty_node (vp start3) 0))).
Proof. intros [-> | ->]; reflexivity. Qed.
Local Ltac orient_num := unfold orient, cross, psub, start3, goal3, w0, w2, v0, v2, zp, padd, eps; cbn [px py fst snd]; lra.
(** With the third layer open or blocked, the query returns the path over the corner. *)
Lemma bent3_path b : b = [] \/ b = [2%N] ->
  exists p, path_on_layers std_lib bent3 (in_polygon start3 0) (in_polygon goal3 i1) b = Ok (Some p) /\ ppath p = [vp v0; vp goal3].
Proof.
  intro Hb. pose proof (setup_bent3 b Hb) as HS.
  rewrite (add_node_first (ctx3 b) (vp start3) 0 i1 (vp w2, 2%N) (vp w0, 0%N) (same_root _) zero_not_nan zero_not_less) in HS.
  2:{ cbn [fst cgoal ctx3]. rewrite (heuristic_vp start3 goal3 w2 w0 w3_ne). reflexivity. }
  unfold flush_nodes in HS. cbn [squeue sbuffer shist app fst snd] in HS.
  eexists. split.
  - eapply (path_first std_lib bent3 (in_polygon start3 0) (in_polygon goal3 i1) b 0 i1 29).
    + reflexivity.
    + reflexivity.
    + reflexivity.
    + reflexivity.
    + reflexivity.
    + exact HS.
    + eapply next_first.
      * cbn [std_lib lpop squeue std_pop]. reflexivity.
      * cbn [shist hist_get nroot ng]. rewrite same_root. intros o H. injection H as <-. exact zero_not_less.
      * reflexivity.
  - unfold final_path. cbn [ppath nroot ninterval npath cgoal ctx3 cpos in_polygon]. rewrite (turning_point_vp start3 goal3 w2 w0 w3_ne).
    assert (S1 : side (vp start3) (vp w2, vp w0) = SLeft).
    { apply (proj2 (side_left _ _ _)). orient_num. }
    assert (S2 : side (vp goal3) (vp w2, vp w0) = SRight).
    { apply (proj2 (side_right _ _ _)). orient_num. }
    assert (EM : mgoal start3 goal3 w2 w0 = goal3) by (unfold mgoal; rewrite S1, S2; reflexivity).
    rewrite EM. destruct (P2_dec start3 w2) as [E|_].
    { exfalso. unfold start3, w2, v2, zp, padd in E. cbn [px py fst snd] in E. injection E as E _. lra. }
    destruct (Rle_dec (orient start3 w2 goal3) (- eps)) as [Q|_].
    { exfalso. revert Q. apply Rlt_not_le. orient_num. }
    destruct (Rle_dec eps (orient start3 w0 goal3)) as [_|Q].
    { cbn [app]. f_equal. f_equal. apply P2_eq; cbn; lra. }
    exfalso. apply Q. orient_num.
Qed.
(** With the layer of the goal blocked there is none. *)
Lemma bent3_no_path : path_on_layers std_lib bent3 (in_polygon start3 0) (in_polygon goal3 i1) [1%N; 2%N] = Ok None.
Proof. reflexivity. Qed.

(** The hypotheses of C80_blocking_never_shortens and C80_blocking_never_helps. *)
Example ex_C80 : exists p p',
  pop_ok (lpop (@std_lib RA)) /\ mesh_small bent3 /\ mesh_wf bent3 /\ real_mesh bent3 /\ plane_mesh bent3 /\ u32_ids bent3 /\
  located std_lib bent3 (in_polygon start3 0) 0 /\ located std_lib bent3 (in_polygon goal3 i1) i1 /\
  generic bent3 start3 0 i1 goal3 /\ faultless bent3 [] 0%N /\ faultless bent3 [2%N] 0%N /\ at_border bent3 [] /\
  path_on_layers std_lib bent3 (in_polygon start3 0) (in_polygon goal3 i1) [] = Ok (Some p) /\
  path_on_layers std_lib bent3 (in_polygon start3 0) (in_polygon goal3 i1) [2%N] = Ok (Some p').
Proof.
  destruct (bent3_path [] (or_introl eq_refl)) as (p & H1 & H2). destruct (bent3_path [2%N] (or_intror eq_refl)) as (p' & H1' & H2'). exists p, p'.
  split; [apply std_pop_ok, RA_total_ok|]. split; [apply bent3_small|]. split; [apply bent3_wf|]. split; [apply lm_real|].
  split; [exact (lm_plane _ bent3_plane_b)|]. split; [exact (lm_u32 _ bent3_ids_b)|].
  split; [left; split; [discriminate|reflexivity]|]. split; [left; split; [discriminate|reflexivity]|].
  split; [exact bent3_generic|]. split; [exact bent3_faultless|]. split; [exact bent3_faultless_2|]. split; [exact bent3_border|]. auto.
Qed.
(** so no way that avoids the third layer is shorter than the path when it is open *)
Example ex_C80_length : exists p p' d d',
  path_on_layers std_lib bent3 (in_polygon start3 0) (in_polygon goal3 i1) [] = Ok (Some p) /\
  path_on_layers std_lib bent3 (in_polygon start3 0) (in_polygon goal3 i1) [2%N] = Ok (Some p') /\
  plength p = Some d /\ plength p' = Some d' /\ d <= d'.
Proof.
  destruct ex_C80 as (p & p' & H1 & H2 & H3 & H4 & H5 & H6 & H7 & H8 & H9 & H10 & H11 & H12 & H13 & H14). exists p, p'.
  destruct (C80_blocking_never_shortens std_lib std_lib bent3 (in_polygon start3 0) (in_polygon goal3 i1) [] [2%N] p p' start3 goal3 0 i1
    H1 H1 H2 H5 (proj2 H3) H6 eq_refl eq_refl eq_refl H7 H8 H7 H8 H9 H10 H11 (fun i (X : In i []) => False_ind _ X) H13 H14) as (d & d' & D1 & D2 & D3).
  exists d, d'. auto.
Qed.
(** The hypotheses of C80_only_the_layers_of_the_mesh: layers that do not exist do not matter. *)
Example ex_C80_layers : path_on_layers std_lib bent3 (in_polygon start3 0) (in_polygon goal3 i1) [2%N; 77%N] = path_on_layers std_lib bent3 (in_polygon start3 0) (in_polygon goal3 i1) [300%N; 2%N; 2%N].
Proof.
  apply C80_only_the_layers_of_the_mesh.
  - exact bent3_small.
  - exact (proj2 bent3_wf).
  - intros l v Hl Hv _. assert (E : forallb (fun l => forallb (@is_corner RA) (vertices l)) (layers bent3) = true) by reflexivity.
    rewrite forallb_forall in E. specialize (E l Hl). rewrite forallb_forall in E. exact (E v Hv).
  - intros i Hi. change (i < 3)%N in Hi. cbn [In]. lia.
Qed.
