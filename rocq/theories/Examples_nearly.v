(** C85_nearly_shortest and C88_detailed_nearly_shortest are not vacuous: the path around the corner of the obstacle of Examples_freespace, with a layer of scale one. *)
From Coq Require Import List NArith ZArith Bool Lia Reals Lra Psatz.
From Verif Require Import Base Arith U32 Mesh Helpers Locate Search AsyncPath Detailed StdLib Spec RealArith Geometry Heuristic F32_facts Search_props Checkers Detailed_sim Detailed_facts Tests_detailed
  Properties_geometry Properties_detailed Examples_exact Spec_inside Examples_inside Spec_shortest Properties_shortest Zmesh Examples_shortest Spec_detailed Spec_layered Spec_area Properties_area Properties_complete
  Triangulation Spec_triangulation Inflate_facts Properties_triangulation Spec_outline Properties_outline Spec_free Properties_free Spec_freespace Zarea Examples_area Examples_complete Examples_free Properties_freespace Examples_freespace Properties_layered Examples_layered Properties_nearly.
From Verif Require Import Spec_outline.
Import ListNotations.
Open Scope R_scope.

(** the length of the path is not longer than the detour around the obstacle, and the path itself no longer than that and 0.02 for every point left out *)
Example ex_C88_detailed : exists p len pts full, dpath_on_layers std_dlib bent [vone] (in_polygon bent_start 0) (in_polygon bent_goal 1) [] = Ok (Some p) /\
  dlength p = Some len /\ dpath p = map vp pts /\ refines bent_start pts (map fst full) /\ thinned (map labelled full) (dlayers p) /\
  len <= total bent_start detour /\ total bent_start pts <= total bent_start detour + 1 / 50 * (INR (length full) - INR (length (dlayers p))).
Proof.
  destruct bent_dpath as (p & H). assert (N0 : 0%N <> MAX) by discriminate. assert (N1 : 1%N <> MAX) by discriminate. assert (N2 : 0%N <> 1%N) by discriminate.
  destruct (C88_detailed_nearly_shortest bent_lib cut _ cut_done _ bent edge_of_bent std_lib std_dlib [vone] (in_polygon bent_start 0) (in_polygon bent_goal 1) p bent_start bent_goal 0 1 cut_built eq_refl)
    as (len & pts & full & A1 & A2 & _ & _ & A5 & A6 & A7).
  - unfold cut, from_outer_edges, geo_new. cbn [inner exterior agent_radius edge_used]. symmetry. exact close_outer.
  - exact bent_faces_cover.
  - exact bent_finds_free.
  - intros o r K1 K2. eexists. now apply bent_outlines with (o := o).
  - exact bent_proper.
  - exact std_dpop_perm.
  - reflexivity.
  - exact std_pops_agree.
  - exact (proj1 bent_unit).
  - exact (proj2 bent_unit).
  - reflexivity.
  - reflexivity.
  - now apply at_polygon.
  - now apply at_polygon.
  - exact N2.
  - exact H.
  - exists p, len, pts, full. split; [exact H|]. split; [exact A1|]. split; [exact A2|]. split; [exact A5|]. split; [exact A6|]. exact (A7 detour detour_free eq_refl).
Qed.
