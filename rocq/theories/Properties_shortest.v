(** C63, C64: in exact arithmetic and general position the path found is the shortest one, and one is found if there is any
    (unless the search runs into its step limit). *)
From Coq Require Import List NArith ZArith Bool Reals Lra Psatz Lia.
From Verif Require Import Base Arith U32 Mesh Helpers Locate Search AsyncPath StdLib Spec Locate_facts Stitch_facts Search_facts Search_props Search_hist Search_cost Rings
  RealArith Geometry Heuristic F32_facts Properties_geometry Properties_heuristic Properties_expand Spec_inside Sight Sight_search Sight_final Sight_static Properties_inside
  Spec_shortest Shortest_routes Shortest_bend Shortest_pieces Shortest_nodes Shortest_cover Shortest_search Shortest_run.
Import ListNotations.
Open Scope R_scope.

(** The reported length is the length of the polyline. *)
Lemma final_length m blocked start goal ps pe n pts :
  plane_mesh m -> ids_wf m -> generic m start ps pe goal -> u32_ids m -> (ps < 2^32)%N -> pe <> MAX ->
  let c := mkCtx m (vp goal) pe blocked in
  reachable c (vp start) ps n -> nto n = pe -> ppath (final_path c n) = map vp pts ->
  plength (final_path c n) = polyline_length (vp start) (ppath (final_path c n)).
Proof.
  intros HM HI HG HU HP32 HMAX c HR Hto HP.
  destruct (reachable_at m start goal ps pe HM HI HG c eq_refl HU HP32 HMAX n HR) as (a & b & r & t0 & t1 & HN).
  destruct (node_size m start goal ps pe HM HI HG n a b r t0 t1 HN) as (Hne & _ & C1 & C2).
  destruct (node_edge m start HM HI _ _ _ _ _ _ HN) as (qs0 & qs & Hqs0 & Hqs & Hcx0 & Hcx & He0 & He1 & Hab & Pa & Pb). rewrite Hto in Hqs.
  pose proof (na_t _ _ _ _ _ _ _ _ HN) as Ht. pose proof (na_root _ _ _ _ _ _ _ _ HN) as ER. pose proof (na_interval _ _ _ _ _ _ _ _ HN) as EI.
  destruct (reachable_cost _ _ _ _ RA_veq_ok HR) as [Hc Hl]. pose proof (reachable_h _ _ _ _ HR) as Hh. cbn [cgoal c] in Hh.
  assert (Q1 : r = lerp a b t0 \/ r = lerp a b t1 \/ eps <= orient (lerp a b t0) (lerp a b t1) r).
  { destruct (Req_dec (orient a b r) 0) as [Z|Z].
    - destruct (on_line_ends m start goal ps pe HM HI HG n a b r t0 t1 HN Z) as ([->| ->] & -> & ->); [left; symmetry; apply lerp_0|right; left; symmetry; apply lerp_1].
    - right. right. pose proof (na_side _ _ _ _ _ _ _ _ HN) as Hs.
      assert (0 < orient (lerp a b t0) (lerp a b t1) r) by (rewrite orient_line; apply Rmult_lt_0_compat; lra).
      destruct C1 as [C1|C1]; [lra|]. rewrite Rabs_right in C1 by lra. exact C1. }
  assert (Q2 : orient (lerp a b t0) (lerp a b t1) goal <= - eps).
  { pose proof (goal_inside m start goal ps pe HG qs Hqs b a He1) as Hin. rewrite orient_213 in Hin.
    assert (0 < (t1 - t0) * - orient a b goal) by (apply Rmult_lt_0_compat; lra).
    destruct C2 as [C2|C2]; [rewrite orient_line in C2; lra|]. rewrite Rabs_left in C2 by (rewrite orient_line; lra). lra. }
  pose proof (generic_goal _ _ _ _ _ HG) as HSg. pose proof (na_place _ _ _ _ _ _ _ _ HN) as Pr.
  assert (Q3 : clear_of r (lerp a b t0) goal) by (apply (view_off m start r _ goal Pr (na_view0 _ _ _ _ _ _ _ _ HN) (sg_off _ _ _ _ HSg))).
  assert (Q4 : clear_of r (lerp a b t1) goal) by (apply (view_off m start r _ goal Pr (na_view1 _ _ _ _ _ _ _ _ HN) (sg_off _ _ _ _ HSg))).
  pose proof (consistent_length r goal _ _ Hne Q1 Q2 Q3 Q4) as HX.
  unfold final_path in *. cbn [ppath plength cgoal c] in *. rewrite ER, EI in *.
  assert (HT : exists turns, npath n = map vp turns).
  { apply all_real. intros q Hq. assert (In q (map vp pts)) as HIn.
    { rewrite <- HP. destruct (turning_point _ _ _); repeat (apply in_or_app; left); exact Hq. }
    apply in_map_iff in HIn. destruct HIn as (z & <- & _). eauto. }
  destruct HT as [turns HT]. rewrite HT in *.
  assert (r = last turns start) as ->.
  { specialize (Hl (vp r)). rewrite vdist_vp in Hl.
    assert (last (map vp turns) (vp start) = vp (last turns start)) as E.
    { clear. revert start. induction turns as [|q r IH]; intro; [reflexivity|]. destruct r; [reflexivity|]. apply (IH start). }
    rewrite E, vdist_vp, dist_refl in Hl. injection Hl as Hl. symmetry in Hl. apply dist_zero in Hl. auto. }
  rewrite heuristic_vp in Hh by assumption. unfold node_f. rewrite Hc, Hh, polyline_real. cbn [fadd RA lift2].
  destruct (turning_point _ _ _) as [t|].
  - destruct HX as (z & -> & ->). rewrite <- app_assoc.
    change ([vp z] ++ [vp goal]) with (map vp [z; goal]). rewrite <- map_app, polyline_real. f_equal.
    change [z; goal] with ([z] ++ [goal]). rewrite app_assoc, !plane_length_app. rewrite last_last. lra.
  - rewrite HX. change [vp goal] with (map vp [goal]). rewrite <- map_app, polyline_real. f_equal. now rewrite plane_length_app.
Qed.


(** A polygon that can be left by walking straight: the direct case. *)
Lemma direct_shortest m blocked start goal P : generic m start P P goal -> way m blocked P start P goal (dist start goal).
Proof.
  intro HG. destruct (ge_in _ _ _ _ _ HG) as (qs & Hqs & Hin). destruct (ge_start _ _ _ _ _ HG) as (qs0 & Hqs0 & Hin0).
  replace (dist start goal) with (0 + dist start goal) by ring. apply (way_move m blocked P start P start 0 qs goal); [|exact Hqs|intros s e He; apply Rlt_le; auto].
  apply (way_here m blocked P qs0 start Hqs0). intros s e He. apply Rlt_le. auto.
Qed.
Lemma way_straight m blocked P x Q y L : way m blocked P x Q y L -> dist x y <= L.
Proof. intro H. destruct (way_links m blocked _ _ _ _ _ H) as (A & _ & HL). pose proof (len_ge A x y). lra. Qed.

(** The search starts with a node on a best route. *)
Lemma setup_promising m blocked start goal ps pe A st : plane_mesh m -> ids_wf m -> generic m start ps pe goal -> faultless m blocked ps ->
  u32_ids m -> (ps < 2^32)%N -> pe <> MAX -> ps <> pe -> best m blocked ps pe start goal A ->
  setup (mkCtx m (vp goal) pe blocked) (vp start) ps = Ok st -> promising m blocked start goal ps pe (mkCtx m (vp goal) pe blocked) st.
Proof.
  intros HM HI HG HF HU HP32 HMAX Hne HA H. split; [exact (setup_hist RA_order_laws _ _ _ _ H)|]. split.
  - destruct (setup_all _ _ _ _ (fun _ => True) (fun _ _ => I) H) as [_ E]. exact E.
  - exact (setup_good m blocked start goal ps pe HM HI HG HF (mkCtx m (vp goal) pe blocked) eq_refl eq_refl eq_refl eq_refl HU HP32 HMAX A st HA Hne H).
Qed.

(** The path returned from [start] in polygon [ps] to [goal] in polygon [pe] stays in the polygons of a chain from [ps] to [pe], its
    reported length is the length of the polyline, and no way through the mesh from start to goal is shorter. *)
Theorem C63_shortest (lib : Lib RA) m from to blocked path start goal ps pe :
  pop_ok (lpop lib) -> mesh_small m -> plane_mesh m -> ids_wf m -> u32_ids m -> (ps < 2^32)%N ->
  cpos from = vp start -> cpos to = vp goal -> located lib m from ps -> located lib m to pe ->
  generic m start ps pe goal -> faultless m blocked ps ->
  path_on_layers lib m from to blocked = Ok (Some path) ->
  exists pts xs d,
    ppath path = map vp pts /\ corridor m ps xs pe /\ walks m start pts (ps :: map cr_to xs) /\ Forall (fun x => ~ In (id_layer (cr_to x)) blocked) xs /\
    plength path = Some d /\ polyline_length (cpos from) (ppath path) = Some d /\
    way m blocked ps start pe goal d /\ forall L, way m blocked ps start pe goal L -> d <= L.
Proof.
  intros Hpop Hsm HM HI HU HP32 Es Eg H1 H2 HG HF H.
  assert (HpM : pe <> MAX) by exact (located_not_MAX lib m to pe Hsm H2).
  assert (HS : exists qs, corners m ps qs /\ inside qs start).
  { destruct (ge_start _ _ _ _ _ HG) as (qs & Hqs & Hin). exists qs. split; [exact Hqs|]. intros s e He. apply Rlt_le. auto. }
  destruct (C62_general_position lib m from to blocked path start goal ps pe (pop_ok_perm _ Hpop) Hsm HM HU HP32 Es Eg H1 H2 HS
    (generic_steady _ _ _ _ _ HG) (generic_goal _ _ _ _ _ HG) H) as (pts & xs & F1 & F2 & F3 & F4).
  exists pts, xs. apply path_on_layers_cases in H.
  destruct H as (ps' & pe' & G1 & G2 & _ & H). apply locate_end_located in G1. apply locate_end_located in G2.
  assert (ps' = ps) by (eapply located_fun; eauto). assert (pe' = pe) by (eapply located_fun; eauto). subst ps' pe'.
  rewrite Es, Eg in H. rewrite Es. destruct H as [[E EP]|(Hne & st & Hs & Hr)].
  - exists (dist start goal). subst pe. rewrite EP. cbn [plength ppath]. rewrite EP in F1. repeat (split; [assumption || apply vdist_vp|]).
    split; [|split; [exact (direct_shortest m blocked start goal ps HG)|intros L HL; exact (way_straight _ _ _ _ _ _ _ HL)]].
    change [vp goal] with (map vp [goal]). rewrite polyline_real. cbn [plane_length]. f_equal. ring.
  - set (c := mkCtx m (vp goal) pe blocked) in *.
    destruct (search_found lib c _ _ _ _ _ (pop_ok_perm _ Hpop) Hs Hr) as (n & Hrn & Hto & En). cbn [cpto c] in Hto.
    destruct (final_way m blocked start goal ps pe HM HI HG c eq_refl eq_refl eq_refl eq_refl HU HP32 HpM n Hrn Hto) as (d0 & _ & HW).
    destruct (way_links m blocked _ _ _ _ _ HW) as (A0 & HA0 & _).
    destruct (best_exists m blocked ps pe start goal HU HP32 (ex_intro _ A0 HA0)) as (A & HA).
    pose proof (setup_promising m blocked start goal ps pe A st HM HI HG HF HU HP32 HpM Hne HA Hs) as HPr.
    destruct (run_shortest m blocked start goal ps pe HM HI HG HF c eq_refl eq_refl eq_refl eq_refl HU HP32 HpM lib A _ st path Hpop HA HPr Hr) as (d & D1 & D2 & D3).
    exists d. repeat (split; [assumption|]). split; [|split; [exact D2|]].
    + rewrite <- D1. rewrite En in F1. rewrite En. symmetry. exact (final_length m blocked start goal ps pe n pts HM HI HG HU HP32 HpM Hrn Hto F1).
    + intros L HL. destruct (way_links m blocked _ _ _ _ _ HL) as (B & HB & HBL). destruct HA as [[_ HA] _]. specialize (HA B HB). lra.
Qed.
Print Assumptions C63_shortest.
