(** C94: the paths of get_path and of the search with detailed layers keep the distance from the outer edge, too. *)
From Coq Require Import List NArith ZArith Bool Reals Lra Lia Psatz Classical.
From Verif Require Import Base Arith U32 Mesh Helpers Locate Search AsyncPath Detailed Spec Triangulation Spec_triangulation RealArith Geometry Spec_outline Spec_inside Spec_shortest Spec_area Search_props StdLib Spec_detailed Spec_free
  Inflate_facts Shadow Search_facts Detailed_facts Detailed_sim Properties_detailed Properties_dsafe Detailed_facts Properties_inflate Properties_triangulation Properties_outline Properties_inside Properties_area Properties_free Properties_future Spec_layered Properties_layered Spec_outer Properties_outer.
From Verif Require Import Spec_outline Properties_geometry.
Import ListNotations.
Open Scope R_scope.

Section Outer.
Context (lib : TriLib RA) (t0 : Triangulation RA) (cs : list (@call RA)) (t : Triangulation RA) (c : list (vec2 RA * vec2 RA)) (m : Mesh RA) (d p : R) (n : N) (a0 a1 : P2) (rest : list P2).

(** the point [x] is not closer to a side of the outer edge than the radius times cos (pi / 2m) *)
Definition away_from_edge (x : P2) : Prop :=
  forall a b k, In (a, b) (pairs (a0 :: a1 :: rest ++ [a0])) -> 0 <= k <= 1 -> d * cos (PI / (2 * IZR (Z.of_N (arc_count n)))) <= dist x (lerp a b k).

(** C94: the path a future of get_path ends with, after any number of polls *)
Theorem C94_future_keeps_distance_from_outer_edge (plib : Lib RA) k path log start goal ps pe :
  built lib t0 cs t c m -> base_layer t0 = None -> agent_radius t0 = REverything (rr d) n (rr p) -> 1 / 100000 < d -> (3 <= n)%N ->
  real_trig lib -> union_ok lib -> holes_ok lib -> finds_only_enclosed lib ->
  exterior (inner t0) = map vp (a0 :: a1 :: rest ++ [a0]) -> (forall e hs, drawn lib d n (pairs (a0 :: a1 :: rest)) e hs -> hs = []) ->
  pop_perm (lpop plib) -> plane_mesh m -> u32_ids m -> (ps < 2 ^ 32)%N ->
  future_at plib m (vp start) ps -> future_at plib m (vp goal) pe ->
  (exists qs, corners m ps qs /\ inside qs start) -> steady m start -> steady_goal m start pe goal ->
  poll_times k plib (get_path m (vp start) (vp goal)) = Ok (Some (Some path), log) ->
  exists pts, ppath path = map vp pts /\ polyline_in away_from_edge start pts.
Proof.
  intros HB HL HA Hd Hn HT HU HH HF HX Hearly H1 H3 H4 H5 H8 H9 H10 H11 H12 H.
  destruct (C82_walks_through_chain plib m k path log start goal ps pe H1 H3 H4 H5 H8 H9 H10 H11 H12 H) as (pts & xs & E & _ & HW). exists pts. split; [exact E|].
  apply (polyline_weaken _ _ (C94_area_keeps_distance_from_outer_edge lib t0 cs t c m d p n a0 a1 rest HB HL HA Hd Hn HT HU HH HF HX Hearly)).
  exact (walks_covered m start ps pts _ H10 HW).
Qed.
(** C94: the path of the search with detailed layers, whatever the scales *)
Theorem C94_detailed_keeps_distance_from_outer_edge (plib : DLib RA) scales from to blocked path start goal ps pe :
  built lib t0 cs t c m -> base_layer t0 = None -> agent_radius t0 = REverything (rr d) n (rr p) -> 1 / 100000 < d -> (3 <= n)%N ->
  real_trig lib -> union_ok lib -> holes_ok lib -> finds_only_enclosed lib ->
  exterior (inner t0) = map vp (a0 :: a1 :: rest ++ [a0]) -> (forall e hs, drawn lib d n (pairs (a0 :: a1 :: rest)) e hs -> hs = []) ->
  dpop_perm (dpop plib) -> mesh_small m -> plane_mesh m -> u32_ids m -> (ps < 2 ^ 32)%N ->
  cpos from = vp start -> cpos to = vp goal -> located (dlib_lib plib) m from ps -> located (dlib_lib plib) m to pe ->
  (exists qs, corners m ps qs /\ inside qs start) -> steady m start -> steady_goal m start pe goal ->
  dpath_on_layers plib m scales from to blocked = Ok (Some path) ->
  exists pts, dpath path = map vp pts /\ polyline_in away_from_edge start pts.
Proof.
  intros HB HL HA Hd Hn HT HU HH HF HX Hearly H1 H2 H3 H4 H5 H6 H7 H8 H9 H10 H11 H12 H.
  destruct (C84_walks_through_chain plib m scales from to blocked path start goal ps pe H1 H2 H3 H4 H5 H6 H7 H8 H9 H10 H11 H12 H) as (pts & xs & E & _ & HW & _). exists pts. split; [exact E|].
  apply (polyline_weaken _ _ (C94_area_keeps_distance_from_outer_edge lib t0 cs t c m d p n a0 a1 rest HB HL HA Hd Hn HT HU HH HF HX Hearly)).
  exact (walks_covered m start ps pts _ H10 HW).
Qed.
End Outer.
Print Assumptions C94_future_keeps_distance_from_outer_edge.
Print Assumptions C94_detailed_keeps_distance_from_outer_edge.
