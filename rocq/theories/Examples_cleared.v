(** C94 for the futures and for the search with detailed layers is not vacuous: the same query on the mesh of Examples_clear. *)
From Coq Require Import List NArith ZArith Bool Lia Reals Lra Psatz Classical.
From Verif Require Import Base Arith U32 Mesh Helpers Locate Search AsyncPath Detailed StdLib Spec Triangulation Spec_triangulation RealArith Geometry Search_props Checkers Tests_detailed
  Inflate_facts Properties_triangulation Properties_inflate Spec_outline Properties_outline Examples_exact Spec_inside Examples_inside Spec_shortest Detailed_sim Detailed_facts Properties_detailed Properties_dsafe
  Properties_shortest Zmesh Examples_shortest Spec_area Properties_area Properties_complete Zarea Examples_area Examples_complete Spec_free Properties_free Examples_free
  Properties_future Spec_layered Properties_layered Spec_outer Properties_outer Properties_clear Examples_clear.
From Verif Require Import Spec_outline Properties_geometry F32_facts Shortest_nodes.
Import ListNotations.
Open Scope R_scope.

Definition lone_away (x : P2) : Prop := forall a b k, In (a, b) (pairs Examples_free.far_ring) -> 0 <= k <= 1 -> 1 / 2 * cos (PI / (2 * 5)) <= dist x (lerp a b k).
Lemma lone_at z : zlocb lone_vs lone_ps z 0 = true -> get_point_location (lbvh (@std_lib RA)) lone (coords_on_mesh (vp (zp z))) = Ok 0%N.
Proof. intro H. apply (zm_location lone_vs lone_ps); [vm_compute; reflexivity|reflexivity|exact H]. Qed.
Example ex_C94_future : exists k log path pts, poll_times k std_lib (get_path lone (vp lone_start) (vp lone_goal)) = Ok (Some (Some path), log) /\ ppath path = map vp pts /\ pts = [lone_goal] /\
  polyline_in lone_away lone_start pts.
Proof.
  assert (L1 : get_point_location (lbvh (@std_lib RA)) lone (coords_on_mesh (vp lone_start)) = Ok 0%N) by (apply lone_at; vm_compute; reflexivity).
  assert (L2 : get_point_location (lbvh (@std_lib RA)) lone (coords_on_mesh (vp lone_goal)) = Ok 0%N) by (apply lone_at; vm_compute; reflexivity).
  assert (exists p log, poll_times 2 (@std_lib RA) (get_path lone (vp lone_start) (vp lone_goal)) = Ok (Some (Some p), log) /\ ppath p = [vp lone_goal]) as (p & log & H1 & H2).
  { eexists. eexists. cbn [poll_times]. unfold poll, get_path. cbn [ffrom fto fmesh finst]. rewrite L1. cbn [bind]. rewrite L2. split; reflexivity. }
  destruct (C94_future_keeps_distance_from_outer_edge lone_lib lone0 [] lone0 (zlines lone_edges) lone (1 / 2) 0 5 (P 100 0) (P 103 4) [P 103 0] std_lib 2 p log lone_start lone_goal 0 0
    lone_built eq_refl lone_radius) as (pts & E & HP).
  - lra.
  - lia.
  - exact lone_trig.
  - exact lone_union.
  - exact lone_holes_ok.
  - exact (free_only lone_sub).
  - exact lone_ext.
  - exact lone_early.
  - apply pop_ok_perm. apply std_pop_ok, RA_total_ok.
  - exact (zm_plane _ _ lone_plane_b).
  - exact (zm_u32 _ _ lone_ids_b).
  - reflexivity.
  - split; [exact L1|discriminate].
  - split; [exact L2|discriminate].
  - destruct (ge_start _ _ _ _ _ lone_generic) as (qs & Q1 & Q2). exists qs. split; [exact Q1|]. intros a b Hab. apply Rlt_le. now apply Q2.
  - exact (generic_steady _ _ _ _ _ lone_generic).
  - exact (generic_goal _ _ _ _ _ lone_generic).
  - exact H1.
  - exists 2%nat, log, p, pts. split; [exact H1|]. split; [exact E|]. split; [|exact HP]. apply map_vp_inj. rewrite <- E. exact H2.
Qed.
Example ex_C94_detailed : exists path pts, dpath_on_layers std_dlib lone [vp (P 2 3)] (in_polygon lone_start 0) (in_polygon lone_goal 0) [] = Ok (Some path) /\ dpath path = map vp pts /\ pts = [lone_goal] /\
  polyline_in lone_away lone_start pts.
Proof.
  assert (exists p, dpath_on_layers std_dlib lone [vp (P 2 3)] (in_polygon lone_start 0) (in_polygon lone_goal 0) [] = Ok (Some p) /\ dpath p = [vp lone_goal]) as (p & H1 & H2) by (eexists; split; reflexivity).
  destruct (C94_detailed_keeps_distance_from_outer_edge lone_lib lone0 [] lone0 (zlines lone_edges) lone (1 / 2) 0 5 (P 100 0) (P 103 4) [P 103 0] std_dlib [vp (P 2 3)]
    (in_polygon lone_start 0) (in_polygon lone_goal 0) [] p lone_start lone_goal 0 0 lone_built eq_refl lone_radius) as (pts & E & HP).
  - lra.
  - lia.
  - exact lone_trig.
  - exact lone_union.
  - exact lone_holes_ok.
  - exact (free_only lone_sub).
  - exact lone_ext.
  - exact lone_early.
  - exact std_dpop_perm.
  - apply mesh_smallb_ok. reflexivity.
  - exact (zm_plane _ _ lone_plane_b).
  - exact (zm_u32 _ _ lone_ids_b).
  - reflexivity.
  - reflexivity.
  - reflexivity.
  - left. split; [discriminate|reflexivity].
  - left. split; [discriminate|reflexivity].
  - destruct (ge_start _ _ _ _ _ lone_generic) as (qs & Q1 & Q2). exists qs. split; [exact Q1|]. intros a b Hab. apply Rlt_le. now apply Q2.
  - exact (generic_steady _ _ _ _ _ lone_generic).
  - exact (generic_goal _ _ _ _ _ lone_generic).
  - exact H1.
  - exists p, pts. split; [exact H1|]. split; [exact E|]. split; [|exact HP]. apply map_vp_inj. rewrite <- E. exact H2.
Qed.
