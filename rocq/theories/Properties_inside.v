(** C62: in exact arithmetic and general position, every leg of a path stays inside of the polygons of its chain. *)
From Coq Require Import List NArith ZArith Bool Reals Lra Psatz Lia.
From Verif Require Import Base Arith U32 Mesh Helpers Locate Search AsyncPath StdLib Spec Locate_facts Search_facts Search_props Rings
  RealArith Geometry Heuristic F32_facts Properties_geometry Properties_expand Spec_inside Sight Sight_search Sight_final Sight_static.
Import ListNotations.
Open Scope R_scope.

Lemma node_walks m blocked start goal ps pe n : plane_mesh m -> u32_ids m -> (ps < 2^32)%N -> pe <> MAX ->
  (exists qs, corners m ps qs /\ inside qs start) -> (exists qs, corners m pe qs /\ inside qs goal) ->
  (forall n, reachable (mkCtx m (vp goal) pe blocked) (vp start) ps n -> clear_view m n) ->
  (forall n, reachable (mkCtx m (vp goal) pe blocked) (vp start) ps n -> nto n = pe -> clear_goal n goal) ->
  reachable (mkCtx m (vp goal) pe blocked) (vp start) ps n -> nto n = pe ->
  exists pts xs, ppath (final_path (mkCtx m (vp goal) pe blocked) n) = map vp pts /\ corridor m ps xs pe /\ walks m start pts (ps :: map cr_to xs) /\
    Forall (fun x => ~ In (id_layer (cr_to x)) blocked) xs.
Proof.
  intros HM HU HP32 HpM HS HG HC HCg Hrn Hto.
  set (c := mkCtx m (vp goal) pe blocked) in *.
  pose proof (reachable_seen c start ps HM HU HP32 HpM HS HC n Hrn) as HSn.
  pose proof (reachable_supported c (vp start) ps n RA_nan_sane HpM Hrn) as HSup.
  destruct (sup_chain _ _ _ _ HSup) as (xs & HX & _). apply (corridor_u32 _ _ _ _ _ HU HP32) in HX.
  rewrite <- Hto in HG.
  destruct (final_walks c start ps n goal HM HX eq_refl HG (HCg n Hrn Hto) HSn) as (qts & ys & F1 & F2 & F3 & F4).
  exists qts, ys. rewrite <- Hto. auto.
Qed.
Lemma same_walks m blocked start goal pe : (exists qs, corners m pe qs /\ inside qs start) -> (exists qs, corners m pe qs /\ inside qs goal) ->
  exists pts xs, [vp goal] = map vp pts /\ corridor m pe xs pe /\ walks m start pts (pe :: map cr_to xs) /\
    Forall (fun x => ~ In (id_layer (cr_to x)) blocked) xs.
Proof.
  intros HS HG. exists [goal], []. cbn [map]. split; [reflexivity|]. split; [constructor|].
  destruct HS as (qs & Hqs & Hi). destruct HG as (qs' & Hqs' & Hi'). assert (qs' = qs) by (eapply corners_fun; eauto). subst qs'.
  split; [|constructor]. change [pe] with ([pe] ++ []). apply walks_cons; [|constructor]. now apply (goes_one _ _ _ _ qs).
Qed.
(** The path found from [start] in polygon [ps] to [goal] in polygon [pe]: there is a chain of polygons from [ps] to [pe], each
    entered through an edge of the one before, and the polyline goes through the polygons of the chain, in this order, without
    leaving them. *)
Theorem C62_path_walks_through_chain (lib : Lib RA) m from to blocked path start goal ps pe :
  pop_perm (lpop lib) -> mesh_small m -> plane_mesh m -> u32_ids m -> (ps < 2^32)%N ->
  cpos from = vp start -> cpos to = vp goal -> located lib m from ps -> located lib m to pe ->
  (exists qs, corners m ps qs /\ inside qs start) -> (exists qs, corners m pe qs /\ inside qs goal) ->
  (forall n, reachable (mkCtx m (vp goal) pe blocked) (vp start) ps n -> clear_view m n) ->
  (forall n, reachable (mkCtx m (vp goal) pe blocked) (vp start) ps n -> nto n = pe -> clear_goal n goal) ->
  path_on_layers lib m from to blocked = Ok (Some path) ->
  exists pts xs, ppath path = map vp pts /\ corridor m ps xs pe /\ walks m start pts (ps :: map cr_to xs) /\
    Forall (fun x => ~ In (id_layer (cr_to x)) blocked) xs.
Proof.
  intros Hpop Hsm HM HU HP32 Es Eg H1 H2 HS HG HC HCg H. apply path_on_layers_cases in H.
  destruct H as (ps' & pe' & G1 & G2 & _ & H). apply locate_end_located in G1. apply locate_end_located in G2.
  assert (ps' = ps) by (eapply located_fun; eauto). assert (pe' = pe) by (eapply located_fun; eauto). subst.
  destruct H as [[-> ->]|(_ & st & Hs & Hr)].
  - cbn [ppath]. rewrite Eg. exact (same_walks m blocked start goal pe HS HG).
  - destruct (search_found lib _ _ _ _ _ _ Hpop Hs Hr) as (n & Hrn & Hto & ->). rewrite Es, Eg in Hrn. rewrite Eg.
    exact (node_walks m blocked start goal ps pe n HM HU HP32 (located_not_MAX lib m to pe Hsm H2) HS HG HC HCg Hrn Hto).
Qed.

Lemma steady_clear m blocked start goal ps pe : plane_mesh m -> u32_ids m -> (ps < 2^32)%N -> pe <> MAX ->
  (exists qs, corners m ps qs /\ inside qs start) -> steady m start -> steady_goal m start pe goal ->
  (exists qs, corners m pe qs /\ inside qs goal) /\
  (forall n, reachable (mkCtx m (vp goal) pe blocked) (vp start) ps n -> clear_view m n) /\
  (forall n, reachable (mkCtx m (vp goal) pe blocked) (vp start) ps n -> nto n = pe -> clear_goal n goal).
Proof.
  intros HM HU HP32 HpM HS HSt HSg.
  set (c := mkCtx m (vp goal) pe blocked).
  assert (HR : forall n, reachable c (vp start) ps n -> seen m blocked start ps n /\ lined m start n /\ u32_crossing m (node_crossing n)).
  { intros n Hn. destruct (reachable_lined m start HM HSt c ps eq_refl HU HP32 HpM HS n Hn) as [G1 G2]. split; [exact G1|]. split; [exact G2|].
    pose proof (reachable_supported c (vp start) ps n RA_nan_sane HpM Hn) as HSup. destruct (sup_chain _ _ _ _ HSup) as (xs & HX & _).
    exact (corridor_u32 _ _ _ _ _ HU HP32 HX). }
  split; [|split].
  - destruct (sg_in _ _ _ _ HSg) as (qs & Hqs & Hi). exists qs. split; [exact Hqs|]. intros s e He. specialize (Hi s e He). lra.
  - intros n Hn. destruct (HR n Hn) as (G1 & G2 & G3). now apply (lined_clear m start).
  - intros n Hn Hto. destruct (HR n Hn) as (G1 & G2 & G3). now apply (lined_goal m blocked start ps pe).
Qed.
(** The same in general position: the conditions are about the start, the goal and the corners of the mesh only. *)
Theorem C62_general_position (lib : Lib RA) m from to blocked path start goal ps pe :
  pop_perm (lpop lib) -> mesh_small m -> plane_mesh m -> u32_ids m -> (ps < 2^32)%N ->
  cpos from = vp start -> cpos to = vp goal -> located lib m from ps -> located lib m to pe ->
  (exists qs, corners m ps qs /\ inside qs start) -> steady m start -> steady_goal m start pe goal ->
  path_on_layers lib m from to blocked = Ok (Some path) ->
  exists pts xs, ppath path = map vp pts /\ corridor m ps xs pe /\ walks m start pts (ps :: map cr_to xs) /\
    Forall (fun x => ~ In (id_layer (cr_to x)) blocked) xs.
Proof.
  intros Hpop Hsm HM HU HP32 Es Eg H1 H2 HS HSt HSg H.
  assert (HpM : pe <> MAX) by exact (located_not_MAX lib m to pe Hsm H2).
  destruct (steady_clear m blocked start goal ps pe HM HU HP32 HpM HS HSt HSg) as (HG & HC & HCg).
  exact (C62_path_walks_through_chain lib m from to blocked path start goal ps pe Hpop Hsm HM HU HP32 Es Eg H1 H2 HS HG HC HCg H).
Qed.

Lemma goes_everywhere m a b ids : goes m a b ids -> forall t, 0 <= t <= 1 -> exists id qs, In id ids /\ corners m id qs /\ inside qs (lerp a b t).
Proof.
  induction 1 as [a b id qs Hc Ha Hb|a b u ids id qs Hu HG IH Hc H1 H2]; intros t Ht.
  - exists id, qs. split; [now left|]. split; [exact Hc|]. now apply inside_lerp.
  - destruct (Rle_dec t u) as [L|L].
    + destruct (Req_EM_T u 0) as [->|Hu0].
      * assert (t = 0) by lra. subst t. destruct (IH 0 ltac:(lra)) as (j & qj & J1 & J2 & J3). rewrite !lerp_0 in *. exists j, qj.
        split; [apply in_or_app; now left|]. auto.
      * destruct (IH (t / u)) as (j & qj & J1 & J2 & J3).
        { split; [apply Rmult_le_reg_r with u; [lra|]|apply Rmult_le_reg_r with u; [lra|]]; replace (t / u * u) with t by (field; lra); lra. }
        exists j, qj. split; [apply in_or_app; now left|]. split; [exact J2|].
        rewrite <- (lerp_0 a b) in J3 at 1. rewrite lerp_lerp in J3. replace (0 + t / u * (u - 0)) with t in J3 by (field; lra). exact J3.
    + exists id, qs. split; [apply in_or_app; right; now left|]. split; [exact Hc|].
      assert (E : lerp a b t = lerp (lerp a b u) b ((t - u) / (1 - u))). { rewrite lerp_lerp_end. f_equal. field. lra. }
      rewrite E. apply inside_lerp; auto.
      split; [apply Rmult_le_reg_r with (1 - u); [lra|]|apply Rmult_le_reg_r with (1 - u); [lra|]]; replace ((t - u) / (1 - u) * (1 - u)) with (t - u) by (field; lra); lra.
Qed.
(** Every point of every leg of the path is inside of one of the polygons of the chain: the path does not leave the mesh. *)
Corollary C62_every_point_inside (lib : Lib RA) m from to blocked path start goal ps pe :
  pop_perm (lpop lib) -> mesh_small m -> plane_mesh m -> u32_ids m -> (ps < 2^32)%N ->
  cpos from = vp start -> cpos to = vp goal -> located lib m from ps -> located lib m to pe ->
  (exists qs, corners m ps qs /\ inside qs start) -> steady m start -> steady_goal m start pe goal ->
  path_on_layers lib m from to blocked = Ok (Some path) ->
  exists pts, ppath path = map vp pts /\
    forall before u w after t, start :: pts = before ++ u :: w :: after -> 0 <= t <= 1 ->
      exists id qs, corners m id qs /\ inside qs (lerp u w t).
Proof.
  intros Hpop Hsm HM HU HP32 Es Eg H1 H2 HS HSt HSg H.
  destruct (C62_general_position lib m from to blocked path start goal ps pe) as (qts & xs & F1 & _ & F2 & _); auto.
  exists qts. split; [exact F1|]. clear - F2. revert F2. generalize (ps :: map cr_to xs). intros ids HW.
  induction HW as [a|a q pts ids1 ids2 HG HW IH]; intros before u w after t E Ht.
  - destruct before as [|x [|y before]]; discriminate.
  - destruct before as [|x before]; cbn [app] in E.
    + injection E as E1 E2 E3. subst u w. destruct (goes_everywhere m a q ids1 HG t Ht) as (id & qs & _ & Q1 & Q2). eauto.
    + injection E as E1 E2. apply (IH before u w after t E2 Ht).
Qed.
Print Assumptions C62_path_walks_through_chain.
Print Assumptions C62_general_position.
Print Assumptions C62_every_point_inside.
