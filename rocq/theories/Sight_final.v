(** C62: in exact arithmetic and outside of the tolerances, every leg of a path stays inside of the polygons of its chain. *)
From Coq Require Import List NArith ZArith Bool Reals Lra Psatz Lia.
From Verif Require Import Base Arith U32 Mesh Helpers Locate Search AsyncPath StdLib Spec Locate_facts Search_facts Search_props Rings
  RealArith Geometry Heuristic F32_facts Properties_geometry Properties_expand Spec_inside Sight Sight_search.
Import ListNotations.
Open Scope R_scope.

Lemma reachable_seen (c : Ctx RA) start ps : plane_mesh (cmesh c) -> u32_ids (cmesh c) -> (ps < 2^32)%N -> cpto c <> MAX ->
  (exists qs, corners (cmesh c) ps qs /\ inside qs start) -> (forall n, reachable c (vp start) ps n -> clear_view (cmesh c) n) ->
  forall n, reachable c (vp start) ps n -> seen (cmesh c) (cblocked c) start ps n.
Proof.
  intros HM HU HP32 HMAX HS HC n [h Hh]. remember (n :: h) as nh eqn:E. revert n h E. induction Hh as [n0 H|n0 n1 h0 Hh IH H]; intros n h E; injection E as <- <-.
  - now apply seen_start.
  - assert (Hr : reachable c (vp start) ps n0) by (exists h0; exact Hh).
    pose proof (reachable_supported c (vp start) ps n0 RA_nan_sane HMAX Hr) as HSup.
    apply (seen_step c start ps n0); auto.
    + exact (sup_prev _ _ _ _ HSup).
    + destruct (sup_chain _ _ _ _ HSup) as (xs & HX & _). exact (corridor_u32 _ _ _ _ _ HU HP32 HX).
    + apply (IH n0 h0 eq_refl).
Qed.

Lemma goal_not_mirrored r goal i0 i1 : i0 <> i1 -> 0 <= orient i0 i1 r -> orient i0 i1 goal <= 0 -> clear_of i0 i1 goal -> mgoal r goal i0 i1 = goal.
Proof.
  intros Hne Hr Hg HC. unfold mgoal. destruct (side_eqb _ _) eqn:E; [|reflexivity]. pose proof eps_pos.
  assert (orient i0 i1 goal = 0); [|now apply reflect_fix].
  destruct (side_cases i0 i1 r) as [[A1 A2]|[[A1 A2]|[A1 A2]]]; destruct (side_cases i0 i1 goal) as [[B1 B2]|[[B1 B2]|[B1 B2]]];
    rewrite A1, B1 in E; try discriminate; try (exfalso; lra).
  now apply clear_edge.
Qed.

Lemma final_walks (c : Ctx RA) start ps n goal : plane_mesh (cmesh c) -> u32_crossing (cmesh c) (node_crossing n) -> cgoal c = vp goal ->
  (exists qs, corners (cmesh c) (nto n) qs /\ inside qs goal) -> clear_goal n goal -> seen (cmesh c) (cblocked c) start ps n ->
  exists pts xs, ppath (final_path c n) = map vp pts /\ corridor (cmesh c) ps xs (nto n) /\ walks (cmesh c) start pts (ps :: map cr_to xs) /\
    Forall (fun x => ~ In (id_layer (cr_to x)) (cblocked c)) xs.
Proof.
  intros HM HV Eg (qs & Hqs & HI) HC
    [(l & p & a & b & t0 & t1 & r & turns & ids & ids' & xs & HP & Ha & Hb & Ht & EI & Er & Hr & EN & HW & EL & HG & HX & EX & HB1 & HB2)].
  pose proof (proj2 HM _ l p a b qs HV HP Ha Hb Hqs) as Hba.
  destruct Hqs as (l' & p' & HP' & HF). destruct (plane_corners _ _ _ _ HM HP') as (qs' & Hqs' & HF' & Hcx & Hsp).
  assert (Hqs : corners (cmesh c) (nto n) qs) by (exists l', p'; auto).
  assert (qs' = qs) by (eapply corners_fun; eauto). subst qs'.
  assert (Hab : a <> b). { intros ->. destruct (proj2 Hcx b b Hba) as (z & _ & Hz). replace (orient b b z) with 0 in Hz by (pts; ring). lra. }
  assert (HinB : In b qs /\ In a qs).
  { apply poly_edges_In in Hba. destruct Hba as [(x1 & y1 & E)|(x1 & y1 & E & E2)].
    - rewrite E. split; apply in_or_app; right; [left|right; left]; reflexivity.
    - split; [rewrite E; apply in_or_app; right; left; reflexivity|rewrite E2; left; reflexivity]. }
  assert (Ia : inside qs a) by (apply convex_corner; tauto). assert (Ib : inside qs b) by (apply convex_corner; tauto).
  set (i0 := lerp a b t0) in *. set (i1 := lerp a b t1) in *.
  assert (I0 : inside qs i0) by (apply inside_lerp; auto; lra). assert (I1 : inside qs i1) by (apply inside_lerp; auto; lra).
  assert (Hi : i0 <> i1). { intro E. apply lerp_inj in E; auto; lra. }
  destruct (HC r i0 i1 Er EI) as (C0 & C1 & C2 & C3).
  assert (Dg : orient a b goal <= 0). { pose proof (HI b a Hba) as Q. rewrite orient_213 in Q. lra. }
  assert (D : forall q, orient i0 i1 q = (t1 - t0) * orient a b q) by (intro; apply orient_line).
  assert (Hmg : mgoal r goal i0 i1 = goal). { apply goal_not_mirrored; auto; rewrite D; [apply Rmult_le_pos; lra|nra]. }
  assert (EX' : forall k, ids ++ ids' ++ (if k : bool then [nto n] else []) = ps :: map cr_to xs ++ (if k : bool then [nto n] else [])).
  { intro k. rewrite app_assoc, EX. reflexivity. }
  specialize (EX' true). cbn iota in EX'.
  assert (HX' : corridor (cmesh c) ps (xs ++ [node_crossing n]) (nto n)) by exact (corridor_snoc (cmesh c) ps xs (node_crossing n) HX (proj1 HV)).
  (* through an end of the interval *)
  assert (Two : forall i k, 0 <= k <= 1 -> i = lerp i0 i1 k -> inside qs i -> walks (cmesh c) start (turns ++ [i; goal]) (ps :: map cr_to (xs ++ [node_crossing n]))).
  { intros i k Hk Ei Ii. rewrite map_app. cbn [map node_crossing cr_to]. rewrite <- EX', app_assoc.
    replace (turns ++ [i; goal]) with ((turns ++ [i]) ++ [goal]) by (rewrite <- app_assoc; reflexivity).
    apply walks_snoc; [apply walks_snoc; [exact HW|]|].
    - rewrite EL, Ei. now apply HG.
    - rewrite last_last. now apply (goes_one _ _ _ _ qs). }
  (* straight to the goal *)
  assert (One : goes (cmesh c) r goal (ids' ++ [nto n]) -> walks (cmesh c) start (turns ++ [goal]) (ps :: map cr_to (xs ++ [node_crossing n]))).
  { intro G. rewrite map_app. cbn [map node_crossing cr_to]. rewrite <- EX'. apply walks_snoc; [exact HW|]. rewrite EL. exact G. }
  assert (Here : forall k, 0 <= k <= 1 -> r = lerp i0 i1 k -> goes (cmesh c) r goal (ids' ++ [nto n])).
  { intros k Hk Erk. apply (goes_more _ _ _ 0 _ _ qs); auto; [lra| |]; rewrite lerp_0.
    - rewrite Erk at 2. now apply HG.
    - rewrite Erk. apply inside_lerp; auto. }
  assert (Hfin : exists pts, ppath (final_path c n) = map vp pts /\ walks (cmesh c) start pts (ps :: map cr_to (xs ++ [node_crossing n]))).
  2: { destruct Hfin as (qts & F1 & F2). exists qts, (xs ++ [node_crossing n]). split; [exact F1|]. split; [exact HX'|]. split; [exact F2|]. apply Forall_app. split; [exact HB1|apply Forall_cons; [exact HB2|apply Forall_nil]]. }
  unfold final_path. cbn [ppath]. rewrite Er, EI, Eg, (turning_point_vp r goal i0 i1 Hi), Hmg, EN.
  destruct (P2_dec r i0) as [E|E].
  { exists (turns ++ [goal]). rewrite map_app. split; [reflexivity|]. apply One. apply (Here 0); [lra|now rewrite lerp_0]. }
  destruct (Rle_dec (orient r i0 goal) (- eps)) as [F0|F0].
  { exists (turns ++ [i0; goal]). rewrite map_app, <- app_assoc. split; [reflexivity|]. apply (Two i0 0); auto; [lra|now rewrite lerp_0]. }
  destruct (Rle_dec eps (orient r i1 goal)) as [F1|F1].
  { exists (turns ++ [i1; goal]). rewrite map_app, <- app_assoc. split; [reflexivity|]. apply (Two i1 1); auto; [lra|now rewrite lerp_1]. }
  exists (turns ++ [goal]). rewrite map_app. split; [reflexivity|]. apply One.
  pose proof eps_pos as HE.
  assert (G0 : 0 <= orient r i0 goal). { destruct (clear_cases _ _ _ C1) as [Q|[Q|Q]]; lra. }
  assert (G1 : orient r i1 goal <= 0). { destruct (clear_cases _ _ _ C2) as [Q|[Q|Q]]; lra. }
  destruct (Req_EM_T (orient a b r) 0) as [Z|Z].
  - destruct (on_line a b r Hab Z) as [k Ek].
    assert (orient a b goal < 0). { destruct (Req_EM_T (orient a b goal) 0) as [Q|Q]; [|lra]. rewrite !D, Z, Q in C3. exfalso. lra. }
    assert (P0 : orient r i0 goal = (t0 - k) * orient a b goal) by (rewrite Ek; apply orient_line).
    assert (P1 : orient r i1 goal = (t1 - k) * orient a b goal) by (rewrite Ek; apply orient_line).
    assert (t0 <= k) by nra. assert (k <= t1) by nra.
    apply (Here ((k - t0) / (t1 - t0))).
    + split; [apply Rmult_le_reg_r with (t1 - t0); [lra|]|apply Rmult_le_reg_r with (t1 - t0); [lra|]];
        replace ((k - t0) / (t1 - t0) * (t1 - t0)) with (k - t0) by (field; lra); lra.
    + unfold i0, i1. rewrite lerp_lerp, Ek. f_equal. field. lra.
  - assert (HD : distinct (a :: [] ++ [b])).
    { apply distinct_NoDup. constructor; [intros [Q|[]]; congruence|]. constructor; [intros []|constructor]. }
    destruct (cone_through a b [] HD r t0 t1 Ht ltac:(lra) goal Dg (conj G0 G1)) as (t & s & T & Sg & Et & _).
    apply (goes_more _ _ _ t _ _ qs); auto; fold i0 i1 in Et; rewrite Et; [now apply HG|apply inside_lerp; auto].
Qed.

