(** Comparisons of the lengths that are reported with detailed layers and scales of one: they are those of the lengths without the feature (C66, C67, C80, C81, C89),
    up to 0.02 for every point that path_with_layers leaves out of the longer path. *)
From Coq Require Import List NArith ZArith Bool Reals Lra Psatz Lia.
From Verif Require Import Base Arith U32 Mesh Helpers Locate Search AsyncPath Detailed StdLib Spec Spec_detailed Locate_facts Rings
  RealArith Geometry Heuristic F32_facts Properties_geometry Properties_search Spec_inside Sight Sight_search Sight_final Sight_static View Spec_area Spec_layered Spec_shortest.
From Verif Require Import Triangulation Spec_outline Spec_triangulation Inflate_facts Spec_free Properties_outline Properties_free Search_facts Detailed_facts Detailed_sim Properties_heuristic
  Properties_detailed Properties_inside Properties_dsafe Shortest_nodes Properties_shortest Properties_area Shadow Search_props Spec_freespace Properties_freespace Properties_layered Spec_moved Properties_moved
  Properties_blocking Properties_order Properties_nearly Properties_segment.
From Verif Require Import Spec_outline.
Import ListNotations.
Open Scope R_scope.

(** [n] points are left out of path_with_layers: it is a list [full] of points of the path, in order, without [n] of them that are closer than 0.01 to the next one. *)
Definition left_out (start : P2) (p : DPath RA) (n : nat) : Prop :=
  exists pts full, dpath p = map vp pts /\ refines start pts (map fst full) /\ thinned (map labelled full) (dlayers p) /\ (length (dlayers p) + n = length full)%nat.
(** What the comparisons ask of a query: the hypotheses of C65 with both queues, all scales one, both ends located. *)
Record detailed_query (lib : Lib RA) (dlib : DLib RA) (m : Mesh RA) (scales : list (vec2 RA)) (from to : Coords RA) (blocked : list N) (start goal : P2) (ps pe : N) (p : DPath RA) : Prop := {
  dq_proper : proper lib m blocked start goal ps pe;
  dq_pop : dpop_perm (dpop dlib);
  dq_bvh : lbvh lib = dbvh dlib;
  dq_agree : pops_agree lib dlib;
  dq_unit : unit_scales m scales;
  dq_verts : verts_small m;
  dq_from : cpos from = vp start;
  dq_to : cpos to = vp goal;
  dq_start : located lib m from ps;
  dq_goal : located lib m to pe;
  dq_found : dpath_on_layers dlib m scales from to blocked = Ok (Some p)
}.

(** The plain query finds a path, too; its length is the one reported here, up to what is left out. *)
Lemma plain_length lib dlib m scales from to blocked start goal ps pe p : detailed_query lib dlib m scales from to blocked start goal ps pe p ->
  exists path d t n, path_on_layers lib m from to blocked = Ok (Some path) /\ plength path = Some d /\ dlength p = Some t /\ left_out start p n /\ d - 1 / 50 * INR n <= t <= d.
Proof.
  intros [HP Hpop EB HA HU1 HV Es Eg G1 G2 K].
  destruct (C61_unit_scales RA_lt_laws lib dlib m scales from to blocked (Some p) RA_one_law HU1 HV EB HA K) as (r0 & H & R2). destruct r0 as [path|]; [|destruct R2]. clear R2.
  destruct (N.eq_dec ps pe) as [->|Hne].
  - assert (EL : forall q, locate_end (dlib_lib dlib) m q = locate_end lib m q) by (intro q; unfold locate_end; cbn [lbvh dlib_lib]; rewrite <- EB; reflexivity).
    unfold dpath_on_layers in K. unfold path_on_layers in H. rewrite !EL in K.
    rewrite (proj2 (locate_end_located _ _ _ _) G1) in K, H. cbn [bind] in K, H. rewrite (proj2 (locate_end_located _ _ _ _) G2) in K, H. cbn [bind] in K, H.
    destruct (islands_reject m pe pe) as [[|]| | |] eqn:EI; try discriminate K. cbn [bind] in K, H. rewrite N.eqb_refl in K, H. apply Ok_eq in K. apply Ok_eq in H.
    assert (p = mkDPath (vdist (cpos from) (cpos to)) [cpos to] [(cpos to, id_layer pe)]) as -> by congruence.
    assert (path = mkPath (vdist (cpos from) (cpos to)) [cpos to]) as -> by congruence.
    exists (mkPath (vdist (cpos from) (cpos to)) [cpos to]), (dist start goal), (dist start goal), 0%nat.
    rewrite Es, Eg. cbn [plength dlength]. rewrite vdist_vp.
    split; [|split; [reflexivity|split; [reflexivity|]]].
    + unfold path_on_layers. rewrite (proj2 (locate_end_located _ _ _ _) G1). cbn [bind]. rewrite (proj2 (locate_end_located _ _ _ _) G2). cbn [bind]. rewrite EI. cbn [bind]. rewrite N.eqb_refl, Es, Eg, vdist_vp. reflexivity.
    + split; [|cbn [INR]; lra]. exists [goal], [(goal, id_layer pe)]. split; [reflexivity|]. split; [apply (refines_leg start goal [] [] []); [exact I|constructor]|]. split; [constructor|reflexivity].
  - destruct (C85_unit_scales lib dlib m scales from to blocked path p start goal ps pe HP Hpop EB HA HU1 HV Es Eg G1 G2 Hne H K) as (d & t & pts & full & D1 & D2 & D3 & D4 & D5 & D6 & D7).
    exists path, d, t, (length full - length (dlayers p))%nat. split; [exact H|]. split; [exact D1|]. split; [exact D2|]. split; [|rewrite minus_INR by exact D6; exact D7].
    exists pts, full. repeat (split; [assumption|]). lia.
Qed.

(** C66: a larger area: the length is not longer, up to what is left out of the path in the smaller area. *)
Theorem C66_detailed_larger_area lib1 dlib1 lib2 dlib2 m1 m2 scales1 scales2 from1 to1 from2 to2 blocked1 blocked2 start goal ps1 pe1 ps2 pe2 p1 p2 :
  detailed_query lib1 dlib1 m1 scales1 from1 to1 blocked1 start goal ps1 pe1 p1 -> detailed_query lib2 dlib2 m2 scales2 from2 to2 blocked2 start goal ps2 pe2 p2 ->
  (forall x, area m1 blocked1 ps1 x -> area m2 blocked2 ps2 x) ->
  exists t1 t2 n, dlength p1 = Some t1 /\ dlength p2 = Some t2 /\ left_out start p1 n /\ t2 <= t1 + 1 / 50 * INR n.
Proof.
  intros Q1 Q2 HA. destruct (plain_length _ _ _ _ _ _ _ _ _ _ _ _ Q1) as (path1 & d1 & t1 & n1 & A1 & A2 & A3 & A4 & A5).
  destruct (plain_length _ _ _ _ _ _ _ _ _ _ _ _ Q2) as (path2 & d2 & t2 & n2 & B1 & B2 & B3 & B4 & B5). destruct Q1, Q2.
  destruct (C66_larger_area_not_longer lib1 lib2 m1 m2 from1 to1 from2 to2 blocked1 blocked2 path1 path2 start goal ps1 pe1 ps2 pe2) as (e1 & e2 & E1 & E2 & E3); try assumption.
  exists t1, t2, n1. split; [exact A3|]. split; [exact B3|]. split; [exact A4|]. assert (e1 = d1) by congruence. assert (e2 = d2) by congruence. lra.
Qed.
(** C67: there and back. *)
Theorem C67_detailed_symmetric lib1 dlib1 lib2 dlib2 m scales1 scales2 from1 to1 from2 to2 blocked start goal ps pe p1 p2 :
  detailed_query lib1 dlib1 m scales1 from1 to1 blocked start goal ps pe p1 -> detailed_query lib2 dlib2 m scales2 from2 to2 blocked goal start pe ps p2 ->
  exists t1 t2 n1 n2, dlength p1 = Some t1 /\ dlength p2 = Some t2 /\ left_out start p1 n1 /\ left_out goal p2 n2 /\ t2 - 1 / 50 * INR n1 <= t1 <= t2 + 1 / 50 * INR n2.
Proof.
  intros Q1 Q2. destruct (plain_length _ _ _ _ _ _ _ _ _ _ _ _ Q1) as (path1 & d1 & t1 & n1 & A1 & A2 & A3 & A4 & A5).
  destruct (plain_length _ _ _ _ _ _ _ _ _ _ _ _ Q2) as (path2 & d2 & t2 & n2 & B1 & B2 & B3 & B4 & B5). destruct Q1, Q2.
  assert (E : plength path1 = plength path2) by (apply (C67_symmetric lib1 lib2 m from1 to1 from2 to2 blocked path1 path2 start goal ps pe); assumption).
  exists t1, t2, n1, n2. split; [exact A3|]. split; [exact B3|]. split; [exact A4|]. split; [exact B4|]. assert (d1 = d2) by congruence. lra.
Qed.
(** C80: blocking more layers. *)
Theorem C80_detailed_blocking lib dlib lib' dlib' m scales scales' from to blocked blocked' start goal ps pe p p' :
  detailed_query lib dlib m scales from to blocked start goal ps pe p -> detailed_query lib' dlib' m scales' from to blocked' start goal ps pe p' ->
  (forall i, In i blocked -> In i blocked') ->
  exists t t' n, dlength p = Some t /\ dlength p' = Some t' /\ left_out start p' n /\ t <= t' + 1 / 50 * INR n.
Proof.
  intros Q1 Q2 HB. destruct (C66_detailed_larger_area lib' dlib' lib dlib m m scales' scales from to from to blocked' blocked start goal ps pe ps pe p' p Q2 Q1) as (t' & t & n & E1 & E2 & E3 & E4).
  - intros x (id & qs & [H1 H2] & H3 & H4). exists id, qs. split; [split; [exact H1|]|auto]. destruct H2 as [H2|H2]; [now left|right]. intro X. apply H2. now apply HB.
  - exists t, t', n. auto.
Qed.
(** C81: a similarity multiplies the length. *)
Theorem C81_detailed_similar_areas lib1 dlib1 lib2 dlib2 m1 m2 scales1 scales2 from1 to1 from2 to2 blocked1 blocked2 start goal ps1 pe1 ps2 pe2 p1 p2 k f :
  similarity k f ->
  detailed_query lib1 dlib1 m1 scales1 from1 to1 blocked1 start goal ps1 pe1 p1 -> detailed_query lib2 dlib2 m2 scales2 from2 to2 blocked2 (f start) (f goal) ps2 pe2 p2 ->
  (forall y, area m2 blocked2 ps2 y <-> exists x, area m1 blocked1 ps1 x /\ y = f x) ->
  exists t1 t2 n1 n2, dlength p1 = Some t1 /\ dlength p2 = Some t2 /\ left_out start p1 n1 /\ left_out (f start) p2 n2 /\
    k * t1 - 1 / 50 * INR n2 <= t2 <= k * (t1 + 1 / 50 * INR n1).
Proof.
  intros HS Q1 Q2 HA. destruct (plain_length _ _ _ _ _ _ _ _ _ _ _ _ Q1) as (path1 & d1 & t1 & n1 & A1 & A2 & A3 & A4 & A5).
  destruct (plain_length _ _ _ _ _ _ _ _ _ _ _ _ Q2) as (path2 & d2 & t2 & n2 & B1 & B2 & B3 & B4 & B5). destruct Q1, Q2. pose proof HS as [Hk _].
  destruct (C81_similar_areas lib1 lib2 m1 m2 from1 to1 from2 to2 blocked1 blocked2 path1 path2 start goal ps1 pe1 ps2 pe2 k f) as (e & E1 & E2); try assumption.
  exists t1, t2, n1, n2. split; [exact A3|]. split; [exact B3|]. split; [exact A4|]. split; [exact B4|]. assert (e = d1) as -> by congruence. assert (k * d1 = d2) as <- by congruence.
  pose proof (Rmult_le_compat_l k t1 d1 ltac:(lra) ltac:(lra)). pose proof (Rmult_le_compat_l k d1 (t1 + 1 / 50 * INR n1) ltac:(lra) ltac:(lra)). lra.
Qed.
(** C81: in particular on a mesh that has been turned, moved and scaled. *)
Theorem C81_detailed_moved_mesh lib1 dlib1 lib2 dlib2 m m' scales1 scales2 from1 to1 from2 to2 blocked start goal ps pe p1 p2 c s t :
  c * c + s * s <> 0 -> moved (turned c s t) m m' ->
  detailed_query lib1 dlib1 m scales1 from1 to1 blocked start goal ps pe p1 ->
  detailed_query lib2 dlib2 m' scales2 from2 to2 blocked (turned c s t start) (turned c s t goal) ps pe p2 ->
  exists t1 t2 n1 n2, dlength p1 = Some t1 /\ dlength p2 = Some t2 /\ left_out start p1 n1 /\ left_out (turned c s t start) p2 n2 /\
    sqrt (c * c + s * s) * t1 - 1 / 50 * INR n2 <= t2 <= sqrt (c * c + s * s) * (t1 + 1 / 50 * INR n1).
Proof.
  intros Hk HM Q1 Q2. destruct (plain_length _ _ _ _ _ _ _ _ _ _ _ _ Q1) as (path1 & d1 & t1 & n1 & A1 & A2 & A3 & A4 & A5).
  destruct (plain_length _ _ _ _ _ _ _ _ _ _ _ _ Q2) as (path2 & d2 & t2 & n2 & B1 & B2 & B3 & B4 & B5). destruct Q1, Q2.
  destruct (C81_moved_mesh lib1 lib2 m m' from1 to1 from2 to2 blocked path1 path2 start goal ps pe c s t) as (e & E1 & E2); try assumption.
  exists t1, t2, n1, n2. split; [exact A3|]. split; [exact B3|]. split; [exact A4|]. split; [exact B4|]. set (k := sqrt (c * c + s * s)) in *. assert (0 <= k) by apply sqrt_pos. clearbody k.
  assert (e = d1) as -> by congruence. assert (k * d1 = d2) as <- by congruence.
  pose proof (Rmult_le_compat_l k t1 d1 ltac:(lra) ltac:(lra)). pose proof (Rmult_le_compat_l k d1 (t1 + 1 / 50 * INR n1) ltac:(lra) ltac:(lra)). lra.
Qed.
(** C89: more obstacles. *)
Theorem C89_detailed_more_obstacles (tlib : TriLib RA) t0 t0' cs cs' m m' (outer : list P2) lib dlib lib' dlib' scales scales' from to from' to' start goal ps pe ps' pe' p p' :
  cut_out tlib outer t0 cs m -> cut_out tlib outer t0' cs' m' -> agent_radius t0' = agent_radius t0 -> incl (Spec_triangulation.added cs) (Spec_triangulation.added cs') ->
  detailed_query lib dlib m scales from to [] start goal ps pe p -> detailed_query lib' dlib' m' scales' from' to' [] start goal ps' pe' p' ->
  exists t t' n, dlength p = Some t /\ dlength p' = Some t' /\ left_out start p' n /\ t <= t' + 1 / 50 * INR n.
Proof.
  intros HB HB' Ea HI Q1 Q2.
  destruct (C66_detailed_larger_area lib' dlib' lib dlib m' m scales' scales from' to' from to [] [] start goal ps' pe' ps pe p' p Q2 Q1) as (t' & t & n & E1 & E2 & E3 & E4).
  - intros x (id & qs & _ & H1 & H2). apply covered_area; [exact (pr_small _ _ _ _ _ _ _ (dq_proper _ _ _ _ _ _ _ _ _ _ _ _ Q1))|].
    apply (C89_more_obstacles_less_area tlib t0 t0' cs cs' m m' outer HB HB' Ea HI). exists id, qs. auto.
  - exists t, t', n. auto.
Qed.
Print Assumptions C66_detailed_larger_area.
Print Assumptions C67_detailed_symmetric.
Print Assumptions C80_detailed_blocking.
Print Assumptions C81_detailed_similar_areas.
Print Assumptions C81_detailed_moved_mesh.
Print Assumptions C89_detailed_more_obstacles.
