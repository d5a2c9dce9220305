(** C85, C88: with detailed layers and all scales one, the path is the shortest one up to 0.02 for every point that path_with_layers leaves out. *)
From Coq Require Import List NArith ZArith Bool Reals Lra Psatz Lia.
From Verif Require Import Base Arith U32 Mesh Helpers Locate Search AsyncPath Detailed StdLib Spec Spec_detailed Locate_facts Rings
  RealArith Geometry Heuristic F32_facts Properties_geometry Properties_expand Spec_inside Sight Sight_search Sight_final Sight_static View Spec_area Spec_layered Spec_shortest.
From Verif Require Import Triangulation Spec_outline Spec_triangulation Inflate_facts Spec_free Properties_outline Properties_free Search_facts Detailed_facts Detailed_sim Properties_heuristic Properties_segment
  Properties_detailed Properties_inside Properties_dsafe Shortest_nodes Properties_area Shadow Search_props Spec_freespace Properties_freespace Properties_layered.
From Verif Require Import Spec_outline.
Import ListNotations.
Open Scope R_scope.

(** no two neighbouring points of the list are closer than 0.01 *)
Definition apart (pts : list P2) : Prop := forall u w, In (u, w) (pairs pts) -> 1 / 100 <= dist u w.

Lemma not_dropped u w : 1 / 100 <= dist u w -> flt (vdist2 (vp u) (vp w)) (flit 1 10000) = true -> False.
Proof.
  intros H K. assert (E : vdist2 (vp u) (vp w) = Some (dist u w * dist u w)).
  { unfold dist. rewrite plen_sqr. unfold vdist2, vlen2, vdot, vsub, vp, pt, pdot, psub. cbn [vx vy px py]. cbn. reflexivity. }
  rewrite E in K. rewrite flit_R in K. apply lt_R in K. assert (1 / 100 * (1 / 100) <= dist u w * dist u w) by (apply Rmult_le_compat; lra). cbn in K. lra.
Qed.
Lemma thinned_apart full : apart (map fst full) -> forall out, thinned (map labelled full) out -> length out = length full.
Proof.
  induction full as [|q [|q' r] IH]; intros HA out H.
  - inversion H. reflexivity.
  - inversion H. reflexivity.
  - assert (HA' : apart (map fst (q' :: r))) by (intros u w Hu; apply HA; cbn [map pairs] in *; now right).
    cbn [map] in H. inversion H as [| |? ? ? ? D K|? ? ? ? D K]; subst.
    + exfalso. refine (not_dropped (fst q) (fst q') _ D). apply HA. cbn [map pairs]. now left.
    + cbn [length]. f_equal. exact (IH HA' _ K).
Qed.

(** C85: all scales one.  The points of the path lead through the area to the goal; nobody who stays in the area has a way shorter than the length that is
    reported, nor one that is shorter than the path by more than 0.02 for every point left out; and if no point is left out, none that is shorter than the path. *)
Theorem C85_nearly_shortest (lib : Lib RA) (dlib : DLib RA) m scales from to blocked p start goal ps pe :
  proper lib m blocked start goal ps pe -> dpop_perm (dpop dlib) -> lbvh lib = dbvh dlib -> pops_agree lib dlib -> unit_scales m scales -> verts_small m ->
  cpos from = vp start -> cpos to = vp goal -> located lib m from ps -> located lib m to pe -> ps <> pe ->
  dpath_on_layers dlib m scales from to blocked = Ok (Some p) ->
  exists t pts full, dlength p = Some t /\ dpath p = map vp pts /\ last pts start = goal /\ polyline_in (area m blocked ps) start pts /\
    refines start pts (map fst full) /\ thinned (map labelled full) (dlayers p) /\ t <= total start pts /\
    (forall others, polyline_in (area m blocked ps) start others -> last others start = goal ->
      t <= total start others /\ total start pts <= total start others + 1 / 50 * (INR (length full) - INR (length (dlayers p)))) /\
    (apart (map fst full) -> t = total start pts /\ forall others, polyline_in (area m blocked ps) start others -> last others start = goal -> total start pts <= total start others).
Proof.
  intros HP Hpop EB HA HU1 HV Es Eg G1 G2 Hne K.
  destruct (C61_unit_scales RA_lt_laws lib dlib m scales from to blocked (Some p) RA_one_law HU1 HV EB HA K) as (r0 & H & R2). destruct r0 as [path|]; [|destruct R2]. clear R2.
  destruct (C85_unit_scales lib dlib m scales from to blocked path p start goal ps pe HP Hpop EB HA HU1 HV Es Eg G1 G2 Hne H K) as (d & t & pts & full & D1 & D2 & D3 & D4 & D5 & D6 & D7 & D8).
  destruct (C65_shortest_in_the_area lib m from to blocked path start goal ps pe HP Es Eg G1 G2 H) as (pts0 & F1 & F2 & F3 & F4 & F5).
  assert (LL : forall q id, located lib m q id -> located (dlib_lib dlib) m q id) by (intros q id Hq; unfold located in *; cbn [lbvh dlib_lib]; rewrite <- EB; exact Hq).
  destruct HP as [Hp Hsm HM HI HU HP32 HG HF HSe].
  assert (HS : exists qs, corners m ps qs /\ inside qs start).
  { destruct (ge_start _ _ _ _ _ HG) as (qs & Hqs & Hin). exists qs. split; [exact Hqs|]. intros s e He. apply Rlt_le. auto. }
  pose proof (generic_steady m start ps pe goal HG) as HSt. pose proof (generic_goal m start ps pe goal HG) as HSg.
  destruct (C84_walks_through_chain dlib m scales from to blocked p start goal ps pe Hpop Hsm HM HU HP32 Es Eg (LL _ _ G1) (LL _ _ G2) HS HSt HSg K) as (pts1 & xs & W1 & W2 & W3 & W4).
  assert (pts1 = pts) as -> by (rewrite D3 in W1; symmetry in W1; revert W1; apply map_vp_inj).
  assert (HL : last pts start = goal).
  { destruct (found_traced dlib m scales from to blocked p start goal ps pe Hpop Hsm HM HU HP32 Es Eg (LL _ _ G1) (LL _ _ G2) HS HSt HSg K) as [[? _]|[_ E]]; [contradiction|].
    destruct (traced_ends _ _ _ _ _ _ _ _ E) as (pre & EP). rewrite EP in W1. destruct (exists_last (l := pts)) as (p0 & q & ->). { intros ->. destruct pre; discriminate. }
    rewrite map_app in W1. apply app_inj_tail in W1. destruct W1 as [_ W1]. rewrite last_last. symmetry. now apply vp_inj. }
  assert (HIn : polyline_in (area m blocked ps) start pts).
  { apply (walks_area m blocked ps start pts (ps :: map cr_to xs) W3); [|exact (corridor_usable m blocked ps xs pe HU HP32 W2 W4)].
    destruct HS as (qs & Hqs & Hin). exists ps, qs. split; [split; [exact HP32|now left]|]. auto. }
  assert (HSc : scales_within 1 1 scales).
  { intros sc Hsc. exists 1, 1. split; [|lra]. destruct HU1 as [_ HU1]. rewrite Forall_forall in HU1. rewrite <- (HU1 sc Hsc). unfold vone. now rewrite fz_R. }
  destruct (found_traced dlib m scales from to blocked p start goal ps pe Hpop Hsm HM HU HP32 Es Eg (LL _ _ G1) (LL _ _ G2) HS HSt HSg K) as [[? _]|[_ HT]]; [contradiction|].
  destruct (traced_length 1 1 m scales blocked start goal ps pe p ltac:(lra) HSc HT) as (t' & pts' & full' & T1 & T2 & T3 & T4 & T5 & T6).
  assert (t' = t) as -> by congruence. assert (pts' = pts) as -> by (rewrite D3 in T2; symmetry in T2; revert T2; apply map_vp_inj).
  assert (Ed : d = total start pts0) by congruence.
  assert (HN : forall others, polyline_in (area m blocked ps) start others -> last others start = goal ->
      t <= total start others /\ total start pts <= total start others + 1 / 50 * (INR (length full') - INR (length (dlayers p)))).
  { intros others Ho Eo. specialize (F5 others Ho Eo). lra. }
  exists t, pts, full'. split; [exact D2|]. split; [exact D3|]. split; [exact HL|]. split; [exact HIn|]. split; [exact T3|]. split; [exact T4|]. split; [lra|].
  split; [exact HN|]. intro Hap. rewrite (thinned_apart full' Hap _ T4) in HN, T6. split; [lra|]. intros others Ho Eo. specialize (HN others Ho Eo). lra.
Qed.

(** C88: on a triangulated mesh, nobody who stays in the free space has a shorter way, up to the same difference. *)
Theorem C88_detailed_nearly_shortest (tlib : TriLib RA) t0 cs t c m (outer : list P2) (lib : Lib RA) (dlib : DLib RA) scales from to p start goal ps pe :
  built tlib t0 cs t c m -> base_layer t0 = None -> edge_used tlib (agent_radius t0) (exterior (inner t0)) (map vp outer) ->
  faces_cover (cdt tlib c) outer -> finds_free tlib outer ->
  (forall o r, In o (Spec_triangulation.added cs) -> outline tlib (agent_radius t0) o r -> exists r', r = map vp r') ->
  proper lib m [] start goal ps pe -> dpop_perm (dpop dlib) -> lbvh lib = dbvh dlib -> pops_agree lib dlib -> unit_scales m scales -> verts_small m ->
  cpos from = vp start -> cpos to = vp goal -> located lib m from ps -> located lib m to pe -> ps <> pe ->
  dpath_on_layers dlib m scales from to [] = Ok (Some p) ->
  exists len pts full, dlength p = Some len /\ dpath p = map vp pts /\ last pts start = goal /\ polyline_in (covered m) start pts /\
    refines start pts (map fst full) /\ thinned (map labelled full) (dlayers p) /\
    forall others, polyline_in (in_free_space tlib (agent_radius t0) outer (Spec_triangulation.added cs)) start others -> last others start = goal ->
      len <= total start others /\ total start pts <= total start others + 1 / 50 * (INR (length full) - INR (length (dlayers p))).
Proof.
  intros HB HL HOut Hcov Hfind Hnum HP Hpop EB HA HU1 HV Es Eg G1 G2 Hne K.
  destruct (C85_nearly_shortest lib dlib m scales from to [] p start goal ps pe HP Hpop EB HA HU1 HV Es Eg G1 G2 Hne K) as (len & pts & full & A1 & A2 & A3 & A4 & A5 & A6 & _ & A7 & _).
  exists len, pts, full. split; [exact A1|]. split; [exact A2|]. split; [exact A3|]. split.
  - revert A4. apply polyline_weaken. intros x (id & qs & _ & Q1 & Q2). exists id, qs. auto.
  - split; [exact A5|]. split; [exact A6|]. intros others HO E. apply A7; [|exact E]. revert HO. apply polyline_weaken.
    apply (free_in_area tlib t0 cs t c m outer ps HB (pr_small _ _ _ _ _ _ _ HP) HL HOut Hcov Hfind Hnum).
Qed.
Print Assumptions C85_nearly_shortest.
Print Assumptions C88_detailed_nearly_shortest.
