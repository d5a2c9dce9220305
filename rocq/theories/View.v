(** One step of the search, seen from the roots: the straight line from the root of a node to any point of its interval goes through the
    interval of the node before, or the new root is a point of that interval.  Exact arithmetic. *)
From Coq Require Import List NArith ZArith Bool Reals Lra Psatz Lia.
From Verif Require Import Base Arith U32 Mesh Helpers Locate Search AsyncPath StdLib Spec Locate_facts Search_facts Search_props Rings
  RealArith Geometry Heuristic F32_facts Properties_geometry Properties_expand Spec_inside Sight Sight_search Sight_final.
Import ListNotations.
Open Scope R_scope.

(** The straight line from [r] to [z] meets the segment from [a] to [b]. *)
Definition meets (r z a b : P2) : Prop := exists t s, 0 <= t <= 1 /\ 0 <= s <= 1 /\ lerp r z t = lerp a b s.

Lemma step_view (c : Ctx RA) start ps n n' : plane_mesh (cmesh c) -> nprev n = id_layer (nfrom n) -> u32_crossing (cmesh c) (node_crossing n) ->
  clear_view (cmesh c) n -> seen (cmesh c) (cblocked c) start ps n -> gen_step c n n' ->
  exists r i0 i1 r' q1 q2, nroot n = vp r /\ ninterval n = (vp i0, vp i1) /\ nroot n' = vp r' /\ ninterval n' = (vp q1, vp q2) /\ q1 <> q2 /\
    ((r' = r /\ forall k, 0 <= k <= 1 -> meets r (lerp q1 q2 k) i0 i1) \/
     (r' <> r /\ exists k, 0 <= k <= 1 /\ r' = lerp i0 i1 k)).
Proof.
  intros HM Hprev HV HC [(l & p & a & b & t0 & t1 & r & turns & ids & ids' & xs & HP & Ha & Hb & Ht & EI & Er & Hr & EN & HW & EL & HG & HX & EX & HB1 & HB2)]
    (s & root & l2 & ss & sv & ev & Hl2 & Hss & Hs & Hsv & Hev & H). cbv zeta in H. destruct H as (_ & Hblk & _ & _ & HRC & Hfar & En & _ & _).
  destruct (node_far c n l p a b r t0 t1 ss HM HP Ha Hb Hprev HV Er EI Ht Hr HC Hss)
    as (l' & p' & qs & M & HP' & Hqs & Hcx & Haq & Hbq & HT & HD & HZ & HE & HS).
  assert (l2 = l') by (destruct HP' as [HP' _]; congruence). subst l2.
  destruct (HS s Hs) as (pre & sp & ep & later & ELL & Hsp & Hep & (q1 & q2 & (EQI & s0 & s1 & Hs01 & Hs1 & EQ1 & EQ2) & _ & _ & HObs)).
  set (i0 := lerp a b t0) in *. set (i1 := lerp a b t1) in *.
  assert (Hq12 : q1 <> q2).
  { intro E. rewrite EQI, E in Hfar. cbn [fst snd] in Hfar. rewrite vdist2_vp in Hfar. assert (pdot (psub q2 q2) (psub q2 q2) < 1 / 10000000000) as Q.
    { replace (pdot (psub q2 q2) (psub q2 q2)) with 0 by (pts; ring). lra. }
    apply (proj2 (lt_R _ _)) in Q. rewrite c1em10_R in Hfar. congruence. }
  assert (EI' : ninterval n' = (vp q1, vp q2)) by (rewrite En; cbn [ninterval new_node fst snd]; rewrite EQI; reflexivity).
  assert (ER : nroot n' = root) by (rewrite En; reflexivity).
  assert (Turn : forall i k, root = vp i -> 0 <= k <= 1 -> i = lerp i0 i1 k ->
    (i = r /\ forall k, 0 <= k <= 1 -> meets r (lerp q1 q2 k) i0 i1) \/ (i <> r /\ exists k, 0 <= k <= 1 /\ i = lerp i0 i1 k)).
  { intros i k Ei Hk Eik. destruct (P2_dec i r) as [E|E]; [left|right; eauto]. split; [exact E|].
    intros k' _. exists 0, k. split; [lra|]. split; [exact Hk|]. rewrite lerp_0. congruence. }
  assert (Done : exists r', root = vp r' /\ ((r' = r /\ forall k, 0 <= k <= 1 -> meets r (lerp q1 q2 k) i0 i1) \/ (r' <> r /\ exists k, 0 <= k <= 1 /\ r' = lerp i0 i1 k))).
  2: { destruct Done as (r' & E & D). exists r, i0, i1, r', q1, q2. rewrite ER. auto 10. }
  unfold root_choice in HRC. rewrite EI in HRC. cbn [fst snd] in HRC. destruct (sty s) eqn:Ety.
  - destruct HRC as (_ & _ & ->). exists i1. split; [reflexivity|]. apply (Turn i1 1); auto; [lra|now rewrite lerp_1].
  - subst root. exists r. split; [exact Er|]. destruct (HObs eq_refl Hq12) as [(k & Hk & Erk)|(Hpos & C1 & C2)].
    + fold i0 i1 in Erk. apply (Turn r k); auto.
    + fold i0 i1 in C1, C2. left. split; [reflexivity|]. intros k Hk.
      destruct (cone_through a b M HD r t0 t1 Ht Hpos (lerp q1 q2 k)) as (t & sg & T & Sg & E & _).
      * rewrite EQ1, EQ2, lerp_lerp. apply (far_edge_side a b M HT pre sp ep later); auto. split; nra.
      * destruct C1 as [C1 C1'], C2 as [C2 C2']. split; fold i0 i1; rewrite orient_lerp3; [apply affine_between; auto|].
        assert (0 <= (1 - k) * - orient r i1 q1 + k * - orient r i1 q2) by (apply affine_between; lra). lra.
      * exists t, sg. auto.
  - destruct HRC as (_ & _ & ->). exists i0. split; [reflexivity|]. apply (Turn i0 0); auto; [lra|now rewrite lerp_0].
Qed.

Lemma final_view (c : Ctx RA) start ps n goal : plane_mesh (cmesh c) -> u32_crossing (cmesh c) (node_crossing n) ->
  (exists qs, corners (cmesh c) (nto n) qs /\ inside qs goal) -> clear_goal n goal -> seen (cmesh c) (cblocked c) start ps n ->
  exists r i0 i1, nroot n = vp r /\ ninterval n = (vp i0, vp i1) /\ i0 <> i1 /\
    match turning_point (nroot n) (vp goal) (ninterval n) with
    | Some t => exists i, t = vp i /\ i <> r /\ (i = i0 \/ i = i1)
    | None => meets r goal i0 i1
    end.
Proof.
  intros HM HV (qs & Hqs & HI) HC
    [(l & p & a & b & t0 & t1 & r & turns & ids & ids' & xs & HP & Ha & Hb & Ht & EI & Er & Hr & EN & HW & EL & HG & HX & EX & HB1 & HB2)].
  pose proof (proj2 HM _ l p a b qs HV HP Ha Hb Hqs) as Hba.
  destruct Hqs as (l' & p' & HP' & HF). destruct (plane_corners _ _ _ _ HM HP') as (qs' & Hqs' & HF' & Hcx & Hsp).
  assert (Hqs : corners (cmesh c) (nto n) qs) by (exists l', p'; auto).
  assert (qs' = qs) by (eapply corners_fun; eauto). subst qs'.
  assert (Hab : a <> b). { intros ->. destruct (proj2 Hcx b b Hba) as (z & _ & Hz). replace (orient b b z) with 0 in Hz by (pts; ring). lra. }
  set (i0 := lerp a b t0) in *. set (i1 := lerp a b t1) in *.
  assert (Hi : i0 <> i1). { intro E. apply lerp_inj in E; auto; lra. }
  destruct (HC r i0 i1 Er EI) as (C0 & C1 & C2 & C3).
  assert (Dg : orient a b goal <= 0). { pose proof (HI b a Hba) as Q. rewrite orient_213 in Q. lra. }
  assert (D : forall q, orient i0 i1 q = (t1 - t0) * orient a b q) by (intro; apply orient_line).
  assert (Hmg : mgoal r goal i0 i1 = goal). { apply goal_not_mirrored; auto; rewrite D; [apply Rmult_le_pos; lra|nra]. }
  exists r, i0, i1. split; [exact Er|]. split; [exact EI|]. split; [exact Hi|].
  assert (Here : forall k, 0 <= k <= 1 -> r = lerp i0 i1 k -> meets r goal i0 i1).
  { intros k Hk Erk. exists 0, k. split; [lra|]. split; [exact Hk|]. now rewrite lerp_0. }
  rewrite Er, EI, (turning_point_vp r goal i0 i1 Hi), Hmg.
  destruct (P2_dec r i0) as [E|E]; [apply (Here 0); [lra|now rewrite lerp_0]|].
  destruct (Rle_dec (orient r i0 goal) (- eps)) as [F0|F0]; [exists i0; auto|].
  destruct (Rle_dec eps (orient r i1 goal)) as [F1|F1].
  { exists i1. split; [reflexivity|]. split; [|now right]. intro Q. assert (orient r i1 goal = 0) by (rewrite Q; clear; pts; ring). pose proof eps_pos. lra. }
  pose proof eps_pos as HE'.
  assert (G0 : 0 <= orient r i0 goal). { destruct (clear_cases _ _ _ C1) as [Q|[Q|Q]]; lra. }
  assert (G1 : orient r i1 goal <= 0). { destruct (clear_cases _ _ _ C2) as [Q|[Q|Q]]; lra. }
  destruct (Req_EM_T (orient a b r) 0) as [Z|Z].
  - destruct (on_line a b r Hab Z) as [k Ek].
    assert (orient a b goal < 0). { destruct (Req_EM_T (orient a b goal) 0) as [Q|Q]; [|lra]. rewrite !D, Z, Q in C3. exfalso. lra. }
    assert (P0 : orient r i0 goal = (t0 - k) * orient a b goal) by (rewrite Ek; apply orient_line).
    assert (P1 : orient r i1 goal = (t1 - k) * orient a b goal) by (rewrite Ek; apply orient_line).
    assert (t0 <= k) by nra. assert (k <= t1) by nra.
    apply (Here ((k - t0) / (t1 - t0))).
    + split; [apply Rmult_le_reg_r with (t1 - t0); [lra|]|apply Rmult_le_reg_r with (t1 - t0); [lra|]];
        replace ((k - t0) / (t1 - t0) * (t1 - t0)) with (k - t0) by (field; lra); lra.
    + unfold i0, i1. rewrite lerp_lerp, Ek. f_equal. field. lra.
  - assert (HD : distinct (a :: [] ++ [b])).
    { apply distinct_NoDup. constructor; [intros [Q|[]]; congruence|]. constructor; [intros []|constructor]. }
    destruct (cone_through a b [] HD r t0 t1 Ht ltac:(lra) goal Dg (conj G0 G1)) as (t & s & T & Sg & Et & _).
    exists t, s. auto.
Qed.
