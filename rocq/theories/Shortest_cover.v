(** C63: the pieces of the expansion of a node cover every edge of the polygon that is entered, except the one it came through. *)
From Coq Require Import List NArith ZArith Bool Reals Lra Psatz Lia Permutation.
From Verif Require Import Base Arith U32 Mesh Helpers Search StdLib Spec Search_facts Search_props RealArith Geometry Heuristic F32_facts Properties_expand Rings Spec_inside
  Sight Sight_search Sight_static Spec_shortest Shortest_routes Shortest_bend Shortest_pieces Shortest_nodes.
Import ListNotations.
Open Scope R_scope.

Lemma boundary_edge_list vs u w : boundary_edge vs u w -> In (u, w) (edge_list vs).
Proof.
  intros (i & H1 & H2). destruct vs as [|x r]; [destruct i; discriminate|]. unfold edge_list. cbn [tl firstn].
  assert (Hi : (i < length (x :: r))%nat) by (apply nth_error_Some; congruence).
  apply (nth_error_In _ i). assert (E2 : nth_error (r ++ [x]) i = Some w).
  { destruct (Nat.eq_dec (S i) (length (x :: r))) as [E|E].
    - rewrite E, Nat.mod_same in H2 by (cbn; lia). cbn in H2. cbn [length] in E. rewrite nth_error_app2 by lia. replace (i - length r)%nat with 0%nat by lia. exact H2.
    - rewrite Nat.mod_small in H2 by lia. cbn [length] in *. rewrite nth_error_app1 by lia. exact H2. }
  clear H2 Hi. revert H1 E2. generalize (r ++ [x]) as b. generalize (x :: r) as a. clear. revert u w. induction i as [|i IH]; intros u w a b H1 H2; destruct a as [|c a], b as [|d b]; try discriminate; cbn in *.
  - congruence.
  - now apply IH.
Qed.
Lemma boundary_windows x v y u w : boundary_edge (x ++ v :: y) u w -> (u = v /\ exists z, y ++ x ++ [v] = w :: z) \/ In (u, w) (windows2 (y ++ x ++ [v])).
Proof.
  intro H. apply boundary_edge_list in H. apply (Permutation_in _ (edge_list_rotate x (v :: y))) in H. cbn [app] in H. rewrite edge_list_windows in H. cbn [app] in H.
  rewrite <- app_assoc in H. destruct (y ++ x ++ [v]) as [|c z] eqn:E; [destruct y; [destruct x|]; discriminate|].
  change (windows2 (v :: c :: z)) with ((v, c) :: windows2 (c :: z)) in H. destruct H as [H|H]; [|right; exact H]. injection H as <- <-. left. split; [reflexivity|]. exists z. reflexivity.
Qed.

Lemma cut_edges_cover (l : Layer RA) a b M r t0 t1 J : cover_step a b M r t0 t1 J ->
  forall later vs u pre sp ty ss, a :: M ++ [b] = pre ++ sp :: later -> at_world l u sp -> Forall2 (at_world l) vs later -> J ty sp later ->
    cut_edges l (vp r) (vp (lerp a b t0), vp (lerp a b t1)) (windows2 (u :: vs)) ty = Ok ss ->
    forall u' w', In (u', w') (windows2 (u :: vs)) -> exists sp' ep' out, at_world l u' sp' /\ at_world l w' ep' /\
      (forall s, In s out -> In s ss /\ sedge s = (u', w')) /\ covers a b r t0 t1 sp' ep' out.
Proof.
  intro HJ. induction later as [|ep later IH]; intros vs u pre sp ty ss EL Hu HF HJ0 H u' w' Hin.
  - inversion HF; subst. destruct Hin.
  - destruct vs as [|w vs]; [inversion HF|]. assert (Hw : at_world l w ep) by (inversion HF; assumption).
    assert (HF' : Forall2 (at_world l) vs later) by (inversion HF; assumption).
    change (windows2 (u :: w :: vs)) with ((u, w) :: windows2 (w :: vs)) in H, Hin. cbn [cut_edges] in H.
    destruct Hu as (vu & U1 & U2). destruct Hw as (vw & W1 & W2).
    pose proof (nthN_Some_lt _ _ _ U1). pose proof (nthN_Some_lt _ _ _ W1).
    destruct (N.ltb_spec (lengthN (vertices l)) (N.max u w)) as [Q|_]; [lia|].
    unfold get_unchecked in H. rewrite U1, W1 in H. cbn [bind] in H.
    destruct (cut_edge _ _ _ _ _ _) as [out ty'] eqn:EC. inv_bind H. inversion H; subst ss; clear H.
    unfold world in U2, W2. rewrite U2, W2 in EC.
    pose proof (HJ pre sp ep later ty (u, w) EL HJ0) as G. cbv zeta in G. rewrite EC in G. cbn [fst snd] in G. destruct G as [G1 G2].
    destruct Hin as [Hin|Hin].
    + injection Hin as <- <-. exists sp, ep, out. split; [exists vu; auto|]. split; [exists vw; auto|]. split; [|exact G1].
      intros s Hs. split; [apply in_or_app; now left|]. exact (cut_edge_edges _ _ _ _ _ _ _ _ EC s Hs).
    + destruct (IH vs w (pre ++ [sp]) ep ty' a0) with (u' := u') (w' := w') as (sp' & ep' & out' & K1 & K2 & K3 & K4); auto; [rewrite EL, <- app_assoc; reflexivity|exists vw; auto|].
      exists sp', ep', out'. split; [exact K1|]. split; [exact K2|]. split; [|exact K4]. intros s Hs. destruct (K3 s Hs). split; [apply in_or_app; now right|assumption].
Qed.

Section Nodes.
Context (m : Mesh RA) (start goal : P2) (ps pe : N).
Context (HM : plane_mesh m) (HI : ids_wf m) (HG : generic m start ps pe goal).
Let HS : steady m start := generic_steady _ _ _ _ _ HG.
Notation node_at := (node_at m start).

Lemma node_cover (c : Ctx RA) n a b r t0 t1 ss x sp ep k : cmesh c = m -> node_at n a b r t0 t1 -> edges_between c n = Ok ss ->
  u32_crossing m x -> cr_from x = nto n -> ends m x sp ep -> ~ (sp = b /\ ep = a) -> 0 <= k <= 1 ->
  exists s s0 s1, In s ss /\ sedge s = (cr_a x, cr_b x) /\ sinterval s = (vp (lerp sp ep s0), vp (lerp sp ep s1)) /\ 0 <= s0 < s1 /\ s1 <= 1 /\ s0 <= k <= s1 /\
    fits a b r t0 t1 sp ep (sty s) (lerp sp ep s0) (lerp sp ep s1) (lerp sp ep k) /\ 1 / 100 <= dist (lerp sp ep s0) (lerp sp ep s1).
Proof using HM HI HG.
  intros Ec HN Hss HX Efrom HEx Hback Hk.
  destruct (node_edge m start HM HI _ _ _ _ _ _ HN) as (qs0 & qs & Hqs0 & Hqs & Hcx0 & Hcx & He0 & He1 & Hab & Pa & Pb).
  pose proof (na_edge _ _ _ _ _ _ _ _ HN) as (l & p & HP & Ha & Hb). pose proof (na_t _ _ _ _ _ _ _ _ HN) as Ht. pose proof (na_clear _ _ _ _ _ _ _ _ HN) as HC.
  pose proof (na_root _ _ _ _ _ _ _ _ HN) as Er. pose proof (na_interval _ _ _ _ _ _ _ _ HN) as EI. pose proof (na_side _ _ _ _ _ _ _ _ HN) as Hr. pose proof (na_place _ _ _ _ _ _ _ _ HN) as Pr.
  destruct (edges_between_chain c n ss Hss) as (l' & p' & xx & v & yy & pl & e & HP' & EV & Epl & Ee & HO & HCut). rewrite Ec in HP', Epl.
  assert (HF : Forall2 (at_world l') (pverts p') qs).
  { destruct Hqs as (l1 & p1 & HP1 & HF1). assert (l1 = l') by (destruct HP1, HP'; congruence). subst l1. assert (p1 = p') by (destruct HP1, HP'; congruence). subst p1. exact HF1. }
  assert (Hsp : spaced qs). { destruct (plane_corners _ _ _ _ HM HP') as (qs' & Hqs' & _ & _ & H). assert (qs' = qs) by (eapply corners_fun; eauto). now subst qs'. }
  destruct (edge_In _ _ _ He1) as [Bi Ai].
  assert (Epos : world pl e = vp b).
  { destruct Hb as (vb & B1 & B2). assert (pl = l) as -> by (destruct HP as [HP _]; rewrite (na_prev _ _ _ _ _ _ _ _ HN) in Epl; congruence).
    assert (e = vb) by congruence. subst e. exact B2. }
  rewrite Epos in HO. assert (HF' := HF).
  rewrite EV in HF. destruct (Forall2_mid _ _ _ _ _ HF) as (X & q & Y & EQ & FX & Fv & FY).
  assert (q = b).
  { destruct HO as [[HO _]|HO].
    - apply (proj1 (at_position_R _ _ _ _ Fv)) in HO. apply (spaced_unique qs); auto. rewrite EQ; apply in_or_app; right; left; reflexivity.
    - exfalso. assert (exists i, In i (pverts p') /\ at_world l' i b) as (i & I1 & I2).
      { rewrite EV. clear -HF Bi. induction HF as [|i z vs zs Hz HF IH]; [destruct Bi|].
        destruct Bi as [<-|Bi]; [exists i; split; [now left|assumption]|]. destruct (IH Bi) as (j & J1 & J2). exists j. split; [now right|assumption]. }
      apply (HO i I1). apply (proj2 (at_position_R _ _ _ _ I2)). replace (pdot (psub b b) (psub b b)) with 0 by (clear; pts; ring). lra. }
  subst q.
  assert (HD : distinct qs) by now apply spaced_distinct.
  assert (Hne : exists z, In z qs /\ 0 < orient b a z) by (apply (proj2 Hcx); exact He1).
  rewrite EQ in HD, He1. destruct (next_corner X b Y a (proj1 (distinct_NoDup _) HD) Hab He1) as [M EM].
  assert (EQ' : X ++ b :: Y = (X ++ [b]) ++ Y) by (rewrite <- app_assoc; reflexivity).
  assert (HT : turns_left (a :: M ++ [b])). { rewrite <- EM. apply turns_left_rotate. rewrite <- EQ', <- EQ. exact (proj1 Hcx). }
  assert (HDs : distinct (a :: M ++ [b])). { rewrite <- EM. apply distinct_rotate. rewrite <- EQ'. exact HD. }
  assert (HinL : forall z, In z qs <-> In z (a :: M ++ [b])). { intro z. rewrite <- EM, EQ, !in_app_iff. cbn. tauto. }
  assert (HZ : exists z, In z (a :: M ++ [b]) /\ orient a b z < 0).
  { destruct Hne as (z & Hz1 & Hz2). exists z. split; [now apply HinL|]. rewrite orient_213. lra. }
  assert (HE : forall pre u w later, a :: M ++ [b] = pre ++ u :: w :: later -> In (u, w) (poly_edges qs)).
  { intros pre u w later E. rewrite EQ. apply (rotation_edges X b Y _ pre u w later EM E). }
  assert (HFL : Forall2 (at_world l') (yy ++ xx ++ [v]) (a :: M ++ [b])).
  { rewrite <- EM. apply Forall2_app; [exact FY|]. apply Forall2_app; [exact FX|]. constructor; [exact Fv|constructor]. }
  (* the edge of the crossing *)
  assert (HW : at_world l' (cr_a x) sp /\ at_world l' (cr_b x) ep /\ boundary_edge (pverts p') (cr_a x) (cr_b x)).
  { destruct HEx as (l1 & p1 & HP1 & A1 & A2). rewrite Efrom in HP1. assert (l1 = l') by (destruct HP1, HP'; congruence). subst l1.
    split; [exact A1|]. split; [exact A2|]. destruct HX as ((l2 & p2 & va & vb & HP2 & HB & _) & _). rewrite Efrom in HP2.
    assert (l2 = l') by (destruct HP2, HP'; congruence). subst l2. assert (p2 = p') by (destruct HP2, HP'; congruence). now subst p2. }
  destruct HW as (Asp & Aep & HB).
  assert (Hwin : In (cr_a x, cr_b x) (windows2 (yy ++ xx ++ [v]))).
  { rewrite EV in HB. apply boundary_windows in HB. destruct HB as [[E1 (z & E2)]|H]; [exfalso|exact H]. apply Hback. split.
    - rewrite E1 in Asp. eapply at_world_fun; eauto.
    - rewrite E2 in HFL. inversion HFL; subst. eapply at_world_fun; eauto. }
  (* sharp lines *)
  assert (HSh : forall pre sp ep later, a :: M ++ [b] = pre ++ sp :: ep :: later -> sharp r (lerp a b t0) sp ep /\ sharp r (lerp a b t1) sp ep /\ 1 / 1000 < dist sp ep).
  { intros pre s1 e1 later E. pose proof (HE _ _ _ _ E) as Hedge. destruct (edge_In _ _ _ Hedge).
    split; [apply (view_sharp m start HS r _ (nto n) qs); auto; apply (na_view0 _ _ _ _ _ _ _ _ HN)|].
    split; [apply (view_sharp m start HS r _ (nto n) qs); auto; apply (na_view1 _ _ _ _ _ _ _ _ HN)|].
    apply (spaced_far qs); auto. apply (edge_distinct qs); auto. }
  assert (PL : forall v0, In v0 (a :: M ++ [b]) -> place m start v0) by (intros v0 Hv0; right; exists (nto n), qs; split; [exact Hqs|now apply HinL]).
  assert (HJ : exists J, cover_step a b M r t0 t1 J /\ J RightNonObs a (M ++ [b])).
  { destruct Hr as [Hr|Hr].
    - exists (typed (orient r (lerp a b t0)) (orient r (lerp a b t1))). split.
      + apply cover_above; auto.
        * destruct (na_back0 _ _ _ _ _ _ _ _ HN) as [B|B]; [left; rewrite B; apply lerp_0|]. destruct (Req_EM_T t0 0) as [T|T]; [left; rewrite T; apply lerp_0|right].
          intros v0 Hv0. apply (no_vertex m start goal ps pe HG); auto; [apply (far_side a b M HT); exact Hv0|lra].
        * destruct (na_back1 _ _ _ _ _ _ _ _ HN) as [B|B]; [left; rewrite B; apply lerp_1|]. destruct (Req_EM_T t1 1) as [T|T]; [left; rewrite T; apply lerp_1|right].
          intros v0 Hv0. apply (no_vertex m start goal ps pe HG); auto; [apply (far_side a b M HT); exact Hv0|lra].
      + cbn [typed]. rewrite orient_231. rewrite <- (lerp_0 a b) at 2. rewrite orient_line.
        assert (0 <= t0 * orient a b r) by (apply Rmult_le_pos; lra). lra.
    - destruct (on_line_ends m start goal ps pe HM HI HG _ _ _ _ _ _ HN (eq_sym Hr)) as (Hrab & T0 & T1).
      exists (fun _ _ _ => True). split; [|exact I]. destruct Hrab as [E|E]; [apply cover_at_a|apply cover_at_b]; auto; try lra; rewrite ?T0, ?T1, ?lerp_0, ?lerp_1; auto. }
  destruct HJ as (J & HJ & HJ0). rewrite Er, EI in HCut.
  destruct (yy ++ xx ++ [v]) as [|u vs] eqn:EW; [inversion HFL|]. inversion HFL; subst.
  destruct (cut_edges_cover l' a b M r t0 t1 J HJ (M ++ [b]) vs u [] a RightNonObs ss eq_refl H2 H4 HJ0 HCut _ _ Hwin) as (sp' & ep' & out & B1 & B2 & B3 & B4).
  assert (sp' = sp) by (eapply at_world_fun; eauto). assert (ep' = ep) by (eapply at_world_fun; eauto). subst sp' ep'.
  destruct (B4 k Hk) as (s & s0 & s1 & Hs & EIs & Hs01 & Hs1 & Hks & Hfit). destruct (B3 s Hs) as [Hs' Hse].
  exists s, s0, s1. split; [exact Hs'|]. split; [exact Hse|]. split; [exact EIs|]. split; [exact Hs01|]. split; [exact Hs1|]. split; [exact Hks|]. split; [exact Hfit|].
  (* the size of the piece *)
  assert (HMc : plane_mesh (cmesh c)) by exact HM.
  destruct (node_far c n l p a b r t0 t1 ss HM HP Ha Hb (na_prev _ _ _ _ _ _ _ _ HN) (na_cross _ _ _ _ _ _ _ _ HN) Er EI Ht Hr HC Hss)
    as (l2 & p2 & qs2 & M2 & HP2 & Hqs2 & Hcx2 & Haq & Hbq & HT2 & HD2 & HZ2 & HE2 & HSu).
  assert (qs2 = X ++ b :: Y) by (eapply corners_fun; eauto). subst qs2. assert (l2 = l') by (destruct HP2, HP'; congruence). subst l2.
  destruct (HSu s Hs') as (pre & sp' & ep' & later & ELL & Hsp' & Hep' & (q1 & q2 & HPt & O1 & O2 & _)).
  rewrite Hse in Hsp', Hep'. cbn [fst snd] in Hsp', Hep'. assert (sp' = sp) by (eapply at_world_fun; eauto). assert (ep' = ep) by (eapply at_world_fun; eauto). subst sp' ep'.
  destruct (part_unique _ _ _ _ _ _ _ HPt EIs) as [-> ->].
  assert (Cut : forall i t, (i = t0 \/ i = t1) -> 0 <= t <= 1 -> cut_at r (lerp a b i) sp ep (lerp sp ep t) -> cut_point (cmesh c) start sp ep (lerp sp ep t)).
  { intros i t Hi Htt [Q|[Q|[Z NZ]]]; [left; exact Q|right; left; exact Q|].
    apply (cut_candidate (cmesh c) start r (lerp a b i) sp ep _ t); auto. destruct Hi as [->| ->]; [apply (na_view0 _ _ _ _ _ _ _ _ HN)|apply (na_view1 _ _ _ _ _ _ _ _ HN)]. }
  assert (Cut2 : forall t, 0 <= t <= 1 -> end_ok r (lerp a b t0) (lerp a b t1) sp ep (sty s) (lerp sp ep t) -> cut_point (cmesh c) start sp ep (lerp sp ep t)).
  { intros t Htt O. destruct (sty s); cbn [end_ok] in O; [apply (Cut t1)|destruct O as [O|O]; [apply (Cut t0)|apply (Cut t1)]|apply (Cut t0)]; auto. }
  pose proof (HE2 _ _ _ _ ELL) as Hedge.
  apply (ge_cuts _ _ _ _ _ HG (nto n) (X ++ b :: Y) sp ep); auto; [apply Cut2; auto; lra|apply Cut2; auto; lra|].
  intro E. apply lerp_inj in E; [lra|]. apply (edge_distinct (X ++ b :: Y)); auto.
Qed.
End Nodes.
