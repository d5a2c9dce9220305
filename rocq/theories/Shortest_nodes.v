(** C63: what is known of the nodes of the search in general position, and the pieces of their expansion. *)
From Coq Require Import List NArith ZArith Bool Reals Lra Psatz Lia.
From Verif Require Import Base Arith U32 Mesh Helpers Search StdLib Spec Search_facts Search_props RealArith Geometry Heuristic F32_facts Properties_expand Rings Spec_inside
  Sight Sight_search Sight_static Spec_shortest Shortest_routes Shortest_bend Shortest_pieces.
Import ListNotations.
Open Scope R_scope.

Lemma generic_steady m start ps pe goal : generic m start ps pe goal -> steady m start.
Proof.
  intro HG. split.
  - intros id qs a b c Hqs Ha Hb Hc Hab Hbc Hac E. pose proof (ge_places _ _ _ _ _ HG a b c ltac:(right; eauto) ltac:(right; eauto) ltac:(right; eauto) Hab Hac Hbc) as H.
    rewrite E, Rabs_R0 in H. pose proof (dist_pos a b Hab). lra.
  - exact (ge_apart _ _ _ _ _ HG).
  - intros u w x Hu Hw Hx Huw. destruct (P2_dec u x) as [<-|H1]; [left; apply orient_start|]. destruct (P2_dec w x) as [<-|H2]; [left; apply orient_end|].
    right. exact (ge_places _ _ _ _ _ HG u w x Hu Hw Hx Huw H1 H2).
  - exact (ge_edges _ _ _ _ _ HG).
Qed.
Lemma generic_goal m start ps pe goal : generic m start ps pe goal -> steady_goal m start pe goal.
Proof.
  intro HG. split.
  - exact (ge_in _ _ _ _ _ HG).
  - intros u w Hu Hw Huw. right. exact (ge_goal _ _ _ _ _ HG u w Hu Hw Huw).
  - intros qs s e i j Hqs He. exact (ge_cuts _ _ _ _ _ HG pe qs s e i j Hqs He).
Qed.

(** [i] is seen from [r] past a place, or has a place behind [r] *)
Definition back (m : Mesh RA) (start r i : P2) : Prop := exists w s, place m start w /\ w <> r /\ s <= 1 /\ w = lerp r i s.
Lemma back_far m start r i q k : back m start r i -> 0 <= k <= 1 -> i = lerp r q k -> back m start r q.
Proof.
  intros (w & s & Pw & Hw & Hs & Ew) Hk Ei. exists w, (s * k). split; [exact Pw|]. split; [exact Hw|]. split.
  - destruct (Rle_dec s 0); nra.
  - rewrite Ew, Ei. unfold lerp, padd, psub, pscale. cbn [px py]. apply P2_eq; cbn [px py]; ring.
Qed.
Lemma back_corner m start r i : place m start i -> i <> r -> back m start r i.
Proof. intros Pi H. exists i, 1. rewrite lerp_1. repeat split; auto. lra. Qed.
(** a point behind [i], as seen from [r] *)
Lemma behind_lerp i r k : 0 <= k -> i = lerp r (lerp i r (- k)) (/ (1 + k)) /\ 0 <= / (1 + k) <= 1.
Proof.
  intro Hk. assert (0 < / (1 + k)) by (apply Rinv_0_lt_compat; lra). split.
  - clear H. unfold lerp, padd, psub, pscale. cbn [px py]. destruct i as [x y]. apply P2_eq; cbn [px py]; field; lra.
  - split; [lra|]. rewrite <- Rinv_1. apply Rinv_le_contravar; lra.
Qed.
Lemma behind_root i r k : 0 < k -> r = lerp i (lerp i r (- k)) (- / k).
Proof. intro Hk. unfold lerp, padd, psub, pscale. cbn [px py]. destruct r as [x y]. apply P2_eq; cbn [px py]; field; lra. Qed.

Section Nodes.
Context (m : Mesh RA) (start goal : P2) (ps pe : N).
Context (HM : plane_mesh m) (HI : ids_wf m) (HG : generic m start ps pe goal).
Let HS : steady m start := generic_steady _ _ _ _ _ HG.

Record node_at (n : Node RA) (a b r : P2) (t0 t1 : R) : Prop := {
  na_edge : exists l p, polygon_at m (nfrom n) l p /\ at_world l (fst (nedge n)) a /\ at_world l (snd (nedge n)) b;
  na_t : 0 <= t0 < t1 /\ t1 <= 1;
  na_interval : ninterval n = (vp (lerp a b t0), vp (lerp a b t1));
  na_root : nroot n = vp r;
  na_side : 0 <= orient a b r;
  na_place : place m start r;
  na_cross : u32_crossing m (node_crossing n);
  na_prev : nprev n = id_layer (nfrom n);
  na_clear : clear_view m n;
  na_view0 : view m start r (lerp a b t0);
  na_view1 : view m start r (lerp a b t1);
  na_cut0 : cut_point m start a b (lerp a b t0);
  na_cut1 : cut_point m start a b (lerp a b t1);
  na_back0 : t0 = 0 \/ back m start r (lerp a b t0);
  na_back1 : t1 = 1 \/ back m start r (lerp a b t1)
}.

Lemma node_ends n a b r t0 t1 : node_at n a b r t0 t1 -> ends m (node_crossing n) a b.
Proof using. intros []. destruct na_edge0 as (l & p & H). exists l, p. exact H. Qed.
Lemma node_edge n a b r t0 t1 : node_at n a b r t0 t1 -> exists qs qs', corners m (nfrom n) qs /\ corners m (nto n) qs' /\ convex qs /\ convex qs' /\
  In (a, b) (poly_edges qs) /\ In (b, a) (poly_edges qs') /\ a <> b /\ place m start a /\ place m start b.
Proof using HM HI.
  intro HN. destruct (ends_edge m HM HI _ _ _ (na_cross _ _ _ _ _ _ HN) (node_ends _ _ _ _ _ _ HN)) as (qs & qs' & H1 & H2 & H3 & H4 & H5 & H6).
  exists qs, qs'. pose proof (edge_distinct _ _ _ H3 H5). destruct (edge_place m start _ _ _ _ H1 H5). repeat split; auto; apply H3 || apply H4.
Qed.

(** on the line of the crossed edge, the root is one of its ends and the interval is the whole edge *)
Lemma on_line_ends n a b r t0 t1 : node_at n a b r t0 t1 -> orient a b r = 0 -> (r = a \/ r = b) /\ t0 = 0 /\ t1 = 1.
Proof using HM HI HG.
  intros HN E. destruct (node_edge _ _ _ _ _ _ HN) as (qs & qs' & Hqs & _ & _ & _ & He & _ & Hab & Pa & Pb). destruct HN.
  destruct (on_line a b r Hab E) as [k Ek]. pose proof (place_on_edge m start goal ps pe HG qs (nfrom n) a b r k Hqs He Hab na_place0 Ek) as Hr.
  assert (B : forall t, 0 <= t <= 1 -> back m start r (lerp a b t) -> (r = a -> t = 1) /\ (r = b -> t = 0)).
  { intros t Htt (w & s & Pw & Hw & Hs & Ew). assert (Hwab : w = a \/ w = b).
    { destruct Hr as [->| ->].
      - apply (place_on_edge m start goal ps pe HG qs (nfrom n) a b w (s * t) Hqs He Hab Pw). rewrite Ew. rewrite <- (lerp_0 a b) at 1. rewrite lerp_lerp. f_equal. ring.
      - apply (place_on_edge m start goal ps pe HG qs (nfrom n) a b w (1 + s * (t - 1)) Hqs He Hab Pw). rewrite Ew. rewrite <- (lerp_1 a b) at 1. rewrite lerp_lerp. f_equal. }
    split; intros ->.
    - assert (w = b) by tauto. rewrite H in Ew. rewrite <- (lerp_1 a b) in Ew at 1. rewrite <- (lerp_0 a b) in Ew at 2. rewrite lerp_lerp in Ew. apply lerp_inj in Ew; auto. nra.
    - assert (w = a) by tauto. rewrite H in Ew. rewrite <- (lerp_0 a b) in Ew at 1. rewrite <- (lerp_1 a b) in Ew at 2. rewrite lerp_lerp in Ew. apply lerp_inj in Ew; auto. nra. }
  split; [exact Hr|]. destruct Hr as [Q|Q].
  - split; [destruct na_back2 as [H|H]; [exact H|exfalso]|destruct na_back3 as [H|H]; [exact H|]].
    + apply B in H; [|lra]. destruct H as [H _]. specialize (H Q). lra.
    + apply B in H; [|lra]. destruct H as [H _]. exact (H Q).
  - split; [destruct na_back2 as [H|H]; [exact H|]|destruct na_back3 as [H|H]; [exact H|exfalso]].
    + apply B in H; [|lra]. destruct H as [_ H]. exact (H Q).
    + apply B in H; [|lra]. destruct H as [_ H]. specialize (H Q). lra.
Qed.
(** no vertex is on the line through an interior end of the interval, on the far side *)
Lemma no_vertex a b r t v : place m start r -> place m start v -> place m start a -> place m start b -> a <> b -> 0 < orient a b r -> orient a b v <= 0 ->
  0 < t < 1 -> back m start r (lerp a b t) -> orient r (lerp a b t) v <> 0.
Proof using HG.
  intros Pr Pv Pa Pb Hab Hr Hv Htt (w & s & Pw & Hw & Hs & Ew) Z.
  destruct (behind a b r Hr t v Z Hv) as (k & Hk & Ek).
  assert (Hrv : v <> r) by (intros ->; lra).
  assert (Hwv : w = v).
  { destruct (P2_dec w v) as [E|E]; [exact E|exfalso]. apply (not_collinear m start goal ps pe HG r w v); auto.
    rewrite Ew. destruct (behind_lerp (lerp a b t) r k Hk) as [E1 _]. rewrite <- Ek in E1. rewrite E1. rewrite !orient_lerp2, orient_end, orient_same. ring. }
  assert (k = 0).
  { rewrite Hwv in Ew. pose proof (f_equal (orient a b) Ew) as E1. pose proof (f_equal (orient a b) Ek) as E2. rewrite orient_lerp3, orient_lerp in E1. rewrite orient_lerp3, orient_lerp in E2.
    rewrite E1 in E2. assert (E3 : (1 - s) * orient a b r = - k * orient a b r) by lra. apply Rmult_eq_reg_r in E3; lra. }
  rewrite H, Ropp_0, lerp_0 in Ek. apply (not_collinear m start goal ps pe HG a b v); auto.
  - intros E. rewrite Ek in E. rewrite <- (lerp_0 a b) in E at 1. apply lerp_inj in E; auto. lra.
  - intros E. rewrite Ek in E. rewrite <- (lerp_1 a b) in E at 1. apply lerp_inj in E; auto. lra.
  - rewrite Ek. apply orient_lerp.
Qed.

Definition aimed (n : Node RA) : Prop := forall l p a b r t0 t1, polygon_at m (nfrom n) l p -> at_world l (fst (nedge n)) a -> at_world l (snd (nedge n)) b ->
  0 <= t0 < t1 /\ t1 <= 1 -> ninterval n = (vp (lerp a b t0), vp (lerp a b t1)) -> nroot n = vp r -> a <> b ->
  (t0 = 0 \/ back m start r (lerp a b t0)) /\ (t1 = 1 \/ back m start r (lerp a b t1)).

Lemma pack blocked n : seen m blocked start ps n -> lined m start n -> u32_crossing m (node_crossing n) -> nprev n = id_layer (nfrom n) -> aimed n ->
  exists a b r t0 t1, node_at n a b r t0 t1.
Proof using HM HI HG.
  intros HSn HLn HV Hprev HA. pose proof (lined_clear m start HM HS n HV HLn) as HC.
  destruct HSn as [(l & p & a & b & t0 & t1 & r & turns & ids & ids' & xs & HP & Ha & Hb & Ht & EI & Er & Hr & _)].
  destruct HLn as [(l1 & p1 & a1 & b1 & r1 & i0 & i1 & HP1 & Ha1 & Hb1 & Er1 & EI1 & Pr & V0 & V1 & A0 & A1 & K0 & K1)].
  assert (l1 = l) by (destruct HP, HP1; congruence). subst l1.
  assert (a1 = a) by (eapply at_world_fun; eauto). assert (b1 = b) by (eapply at_world_fun; eauto). subst a1 b1.
  rewrite Er in Er1. apply vp_inj in Er1. subst r1.
  assert (EIs := EI1). rewrite EI in EIs. injection EIs as X1 X2 X3 X4.
  assert (E0 : lerp a b t0 = i0) by now apply P2_eq. assert (E1 : lerp a b t1 = i1) by now apply P2_eq. clear X1 X2 X3 X4. subst i0 i1.
  assert (HE : ends m (node_crossing n) a b) by (exists l, p; auto).
  destruct (ends_edge m HM HI _ a b HV HE) as (qs & qs' & H1 & H2 & H3 & H4 & H5 & H6). pose proof (edge_distinct _ _ _ H3 H5) as Hab.
  destruct (HA l p a b r t0 t1 HP Ha Hb Ht EI Er Hab) as [B0 B1].
  exists a, b, r, t0, t1. split; eauto.
Qed.

Lemma aimed_start (c : Ctx RA) n : cmesh c = m -> gen_start c (vp start) ps n -> aimed n.
Proof using.
  intros Ec (l & p & u & w & sv & ev & HP & HB & Hu & Hw & H) l1 p1 a b r t0 t1 HP1 Ha Hb Ht EI Er Hab. cbv zeta in H. destruct H as (_ & _ & En & _ & _).
  rewrite Ec in HP. rewrite En in HP1, Ha, Hb, EI. cbn [nfrom nedge ninterval new_node fst snd empty_node nto] in HP1, Ha, Hb, EI.
  assert (l1 = l) by (destruct HP, HP1; congruence). subst l1.
  destruct Ha as (va & A1 & A2). destruct Hb as (vb & B1 & B2). assert (va = sv) by congruence. assert (vb = ev) by congruence. subst va vb.
  unfold world in A2, B2. rewrite A2, B2 in EI. injection EI as X1 X2 X3 X4. assert (E0 : a = lerp a b t0) by now apply P2_eq. assert (E1 : b = lerp a b t1) by now apply P2_eq.
  split; left.
  - rewrite <- (lerp_0 a b) in E0 at 1. apply lerp_inj in E0; auto.
  - rewrite <- (lerp_1 a b) in E1 at 1. apply lerp_inj in E1; auto.
Qed.

(** the end of a piece, seen from its root *)
Lemma aim_end n a b r t0 t1 (HN : node_at n a b r t0 t1) M qs pre sp ep later t u q r' :
  turns_left (a :: M ++ [b]) -> distinct (a :: M ++ [b]) -> corners m (nto n) qs -> a :: M ++ [b] = pre ++ sp :: ep :: later -> In (sp, ep) (poly_edges qs) -> sp <> ep ->
  u = t0 \/ u = t1 -> 0 < t < 1 -> q = lerp sp ep t -> cut_at r (lerp a b u) sp ep q -> (r' = r \/ (r' = lerp a b u /\ place m start r')) -> back m start r' q.
Proof using HM HI HG.
  intros HT HD Hqs EL He Hne Hu Ht Eq Hcut Hr'.
  destruct (node_edge _ _ _ _ _ _ HN) as (qs0 & qs1 & Hqs0 & Hqs1 & Hcx0 & Hcx1 & He0 & He1 & Hab & Pa & Pb).
  assert (qs1 = qs) by (eapply corners_fun; eauto). subst qs1.
  destruct (edge_place m start _ _ _ _ Hqs He) as [Psp Pep].
  assert (Hqsp : q <> sp) by (intro E; rewrite Eq in E; rewrite <- (lerp_0 sp ep) in E at 2; apply lerp_inj in E; auto; lra).
  assert (Hqep : q <> ep) by (intro E; rewrite Eq in E; rewrite <- (lerp_1 sp ep) in E at 2; apply lerp_inj in E; auto; lra).
  destruct Hcut as [Q|[Q|[Z NZ]]]; [contradiction|contradiction|]. set (i := lerp a b u) in *.
  assert (Hir : i <> r). { intros E. rewrite E in NZ. rewrite !orient_same in NZ. destruct NZ; congruence. }
  assert (Dq : orient a b q <= 0) by (rewrite Eq; apply (far_edge_side a b M HT pre sp ep later); auto; lra).
  (* the root is strictly before the edge *)
  assert (Hr : 0 < orient a b r).
  { destruct (na_side _ _ _ _ _ _ HN) as [H|H]; [exact H|exfalso]. destruct (on_line_ends _ _ _ _ _ _ HN (eq_sym H)) as (Hrab & T0 & T1).
    assert (Dl : orient a b q = 0).
    { unfold i in Z. destruct Hrab as [E|E].
      - assert (u = t1). { destruct Hu as [->|]; [exfalso; apply Hir; unfold i; rewrite T0, lerp_0; congruence|assumption]. }
        rewrite E, H0, T1, lerp_1 in Z. exact Z.
      - assert (u = t0). { destruct Hu as [| ->]; [assumption|exfalso; apply Hir; unfold i; rewrite T1, lerp_1; congruence]. }
        rewrite E, H0, T0, lerp_0 in Z. rewrite orient_213. lra. }
    assert (Dsp : orient a b sp <= 0) by (apply (far_side a b M HT); rewrite EL; apply in_or_app; right; left; reflexivity).
    assert (Dep : orient a b ep <= 0) by (apply (far_side a b M HT); rewrite EL; apply in_or_app; right; right; left; reflexivity).
    rewrite Eq, orient_lerp3 in Dl. assert (orient a b sp = 0) by nra. assert (orient a b ep = 0) by nra.
    destruct NZ as [NZ|NZ]; apply NZ; unfold i; destruct Hrab as [->| ->].
    all: try (rewrite <- (lerp_0 a b) at 1; rewrite orient_line; nra). all: rewrite <- (lerp_1 a b) at 1; rewrite orient_line; nra. }
  destruct (behind a b r Hr u q Z Dq) as (k & Hk & Ek). fold i in Ek.
  destruct Hr' as [->|[-> Pi]].
  - destruct (behind_lerp i r k Hk) as [E1 E2]. rewrite <- Ek in E1.
    assert (Bi : back m start r i).
    { destruct Hu as [E|E].
      - destruct (na_back0 _ _ _ _ _ _ HN) as [B|B]; [|unfold i; rewrite E; exact B]. apply back_corner; auto. unfold i. rewrite E, B, lerp_0. exact Pa.
      - destruct (na_back1 _ _ _ _ _ _ HN) as [B|B]; [|unfold i; rewrite E; exact B]. apply back_corner; auto. unfold i. rewrite E, B, lerp_1. exact Pb. }
    exact (back_far _ _ _ _ _ _ Bi E2 E1).
  - assert (k <> 0).
    { intros ->. rewrite Ropp_0, lerp_0 in Ek. destruct (place_on_edge m start goal ps pe HG qs (nto n) sp ep q t Hqs He Hne) as [Q|Q]; auto; try contradiction. now rewrite Ek. }
    exists r, (- / k). split; [apply (na_place _ _ _ _ _ _ HN)|]. split; [congruence|]. assert (0 < / k) by (apply Rinv_0_lt_compat; lra). split; [lra|].
    rewrite Ek. apply behind_root. lra.
Qed.

Lemma corner_end (c : Ctx RA) n a b r t0 t1 : cmesh c = m -> node_at n a b r t0 t1 ->
  (corner_ok c n (fst (nedge n)) (fst (ninterval n)) = Ok true -> t0 = 0) /\ (corner_ok c n (snd (nedge n)) (snd (ninterval n)) = Ok true -> t1 = 1).
Proof using HM HI HG.
  intros Ec HN. destruct (node_edge _ _ _ _ _ _ HN) as (qs0 & qs1 & Hqs0 & Hqs1 & Hcx0 & Hcx1 & He0 & He1 & Hab & Pa & Pb).
  pose proof (na_edge _ _ _ _ _ _ HN) as (l & p & HP & Ha & Hb). pose proof (na_t _ _ _ _ _ _ HN) as Ht.
  assert (Hpl : nthN (layers (cmesh c)) (nprev n) = Some l) by (rewrite (na_prev _ _ _ _ _ _ HN), Ec; apply HP).
  rewrite (na_interval _ _ _ _ _ _ HN). cbn [fst snd]. split; intro HK.
  - pose proof (corner_close c n _ _ l a Hpl Ha HK) as Q. destruct (P2_dec a (lerp a b t0)) as [E|E].
    + rewrite <- (lerp_0 a b) in E at 1. apply lerp_inj in E; auto.
    + pose proof (ge_cuts _ _ _ _ _ HG (nfrom n) qs0 a b a _ Hqs0 He0 ltac:(left; reflexivity) (na_cut0 _ _ _ _ _ _ HN) E). lra.
  - pose proof (corner_close c n _ _ l b Hpl Hb HK) as Q. destruct (P2_dec b (lerp a b t1)) as [E|E].
    + rewrite <- (lerp_1 a b) in E at 1. apply lerp_inj in E; auto.
    + pose proof (ge_cuts _ _ _ _ _ HG (nfrom n) qs0 a b b _ Hqs0 He0 ltac:(right; left; reflexivity) (na_cut1 _ _ _ _ _ _ HN) E). lra.
Qed.

Lemma aimed_step (c : Ctx RA) n n' a b r t0 t1 : cmesh c = m -> node_at n a b r t0 t1 -> gen_step c n n' -> aimed n'.
Proof using HM HI HG.
  intros Ec HN (s & root & l2 & ss & sv & ev & Hl2 & Hss & Hs & Hsv & Hev & H). cbv zeta in H. destruct H as (_ & _ & _ & _ & HRC & Hfar & En & _ & _).
  destruct (node_edge _ _ _ _ _ _ HN) as (qs0 & qs1 & Hqs0 & Hqs1 & Hcx0 & Hcx1 & He0 & He1 & Hab & Pa & Pb).
  pose proof (na_edge _ _ _ _ _ _ HN) as (l & p & HP & Ha & Hb).
  destruct (node_far c n l p a b r t0 t1 ss) as (l' & p' & qs & M & HP' & Hqs & Hcx & Haq & Hbq & HT & HD & HZ & HE & HSu).
  all: try (rewrite Ec; assumption); auto.
  1: apply (na_prev _ _ _ _ _ _ HN). 1: rewrite Ec; apply (na_cross _ _ _ _ _ _ HN). 1: apply (na_root _ _ _ _ _ _ HN). 1: apply (na_interval _ _ _ _ _ _ HN).
  1: apply (na_t _ _ _ _ _ _ HN). 1: apply (na_side _ _ _ _ _ _ HN). 1: rewrite Ec; apply (na_clear _ _ _ _ _ _ HN).
  rewrite Ec in HP', Hqs, Hl2. assert (l2 = l') by (destruct HP' as [HP' _]; congruence). subst l2.
  destruct (HSu s Hs) as (pre & sp & ep & later & ELL & Hsp & Hep & (q1 & q2 & (EQI & s0 & s1 & Hs01 & Hs1 & EQ1 & EQ2) & O1 & O2 & _)).
  pose proof (HE _ _ _ _ ELL) as Hedge. pose proof (edge_distinct _ _ _ Hcx Hedge) as Hne.
  intros l1 p1 a' b' r' u0 u1 HP1 Ha' Hb' Hu EI' Er' _. rewrite En in HP1, Ha', Hb', EI', Er'. cbn [nfrom nedge ninterval new_node fst snd nroot] in HP1, Ha', Hb', EI', Er'.
  assert (l1 = l') by (destruct HP1, HP'; congruence). subst l1.
  assert (a' = sp) by (eapply at_world_fun; eauto). assert (b' = ep) by (eapply at_world_fun; eauto). subst a' b'.
  rewrite EQI in EI'. cbn [fst snd] in EI'. injection EI' as X1 X2 X3 X4.
  assert (E0 : q1 = lerp sp ep u0) by now apply P2_eq. assert (E1 : q2 = lerp sp ep u1) by now apply P2_eq. clear X1 X2 X3 X4.
  rewrite <- E0, <- E1. clear s0 s1 Hs01 Hs1 EQ1 EQ2.
  pose proof (na_interval _ _ _ _ _ _ HN) as EI.
  assert (End : forall u q t, u = t0 \/ u = t1 -> 0 <= t <= 1 -> q = lerp sp ep t -> cut_at r (lerp a b u) sp ep q -> (r' = r \/ (r' = lerp a b u /\ place m start r')) ->
     t = 0 \/ t = 1 \/ back m start r' q).
  { intros u q t Hut Htt Eq Hcut Hrr. destruct (Req_EM_T t 0); [auto|]. destruct (Req_EM_T t 1); [auto|]. right. right.
    apply (aim_end n a b r t0 t1 HN M qs pre sp ep later t u q r'); auto. lra. }
  assert (Both : (exists u, (u = t0 \/ u = t1) /\ cut_at r (lerp a b u) sp ep q1 /\ (r' = r \/ (r' = lerp a b u /\ place m start r'))) ->
                 (exists u, (u = t0 \/ u = t1) /\ cut_at r (lerp a b u) sp ep q2 /\ (r' = r \/ (r' = lerp a b u /\ place m start r'))) ->
                 (u0 = 0 \/ back m start r' q1) /\ (u1 = 1 \/ back m start r' q2)).
  { intros (u & Hu1 & C1 & R1) (w & Hw1 & C2 & R2). split.
    - destruct (End u q1 u0 Hu1 ltac:(lra) E0 C1 R1) as [Q|[Q|Q]]; [auto|lra|auto].
    - destruct (End w q2 u1 Hw1 ltac:(lra) E1 C2 R2) as [Q|[Q|Q]]; [lra|auto|auto]. }
  pose proof (corner_end c n a b r t0 t1 Ec HN) as [CE0 CE1].
  unfold root_choice in HRC. destruct (sty s) eqn:Ety; cbn [end_ok] in O1, O2.
  - destruct HRC as (_ & HK & Hroot). specialize (CE1 HK). rewrite EI in Hroot. cbn [snd] in Hroot. rewrite Er' in Hroot. apply vp_inj in Hroot.
    assert (place m start r') by (rewrite Hroot, CE1, lerp_1; exact Pb). apply Both; exists t1; auto.
  - rewrite (na_root _ _ _ _ _ _ HN), Er' in HRC. apply vp_inj in HRC. apply Both; [destruct O1 as [O1|O1]|destruct O2 as [O2|O2]]; eauto 6.
  - destruct HRC as (_ & HK & Hroot). specialize (CE0 HK). rewrite EI in Hroot. cbn [fst] in Hroot. rewrite Er' in Hroot. apply vp_inj in Hroot.
    assert (place m start r') by (rewrite Hroot, CE0, lerp_0; exact Pa). apply Both; exists t0; auto.
Qed.

Lemma reachable_at (c : Ctx RA) : cmesh c = m -> u32_ids m -> (ps < 2^32)%N -> cpto c <> MAX -> 
  forall n, reachable c (vp start) ps n -> exists a b r t0 t1, node_at n a b r t0 t1.
Proof using HM HI HG.
  intros Ec HU HP32 HMAX.
  assert (HIn : exists qs, corners m ps qs /\ inside qs start).
  { destruct (ge_start _ _ _ _ _ HG) as (qs & Hqs & H). exists qs. split; [exact Hqs|]. intros s e He. specialize (H s e He). lra. }
  assert (Pack : forall n, reachable c (vp start) ps n -> aimed n -> exists a b r t0 t1, node_at n a b r t0 t1).
  { intros n Hn HA. destruct (reachable_lined m start HM HS c ps Ec HU HP32 HMAX HIn n Hn) as [H1 H2].
    pose proof (reachable_supported c (vp start) ps n RA_nan_sane HMAX Hn) as HSup. destruct (sup_chain _ _ _ _ HSup) as (xs & HX & _). rewrite Ec in HX.
    apply (corridor_u32 _ _ _ _ _ HU HP32) in HX. pose proof (sup_prev _ _ _ _ HSup) as Hprev. apply (pack (cblocked c)); auto; apply HX. }
  intros n [h Hh]. remember (n :: h) as nh eqn:E. revert n h E. induction Hh as [n0 H|n0 n1 h0 Hh IH H]; intros n h E; injection E as <- <-.
  - apply Pack; [exists []; now constructor|]. now apply (aimed_start c).
  - destruct (IH n0 h0 eq_refl) as (a & b & r & t0 & t1 & HN). apply Pack; [exists (n0 :: h0); now constructor|]. eapply aimed_step; eauto.
Qed.
End Nodes.
