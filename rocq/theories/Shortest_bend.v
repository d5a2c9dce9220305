(** C63: a best route goes straight through the inside of edges and does not touch vertices where no turn is allowed. *)
From Coq Require Import List NArith ZArith Bool Reals Lra Psatz Lia Classical.
From Verif Require Import Base Arith U32 Mesh Helpers Search Spec RealArith Geometry Heuristic Spec_inside Sight Sight_search Sight_static
  Spec_shortest Shortest_exists Shortest_routes.
Import ListNotations.
Open Scope R_scope.

(** ** Triangles *)
Lemma dist_eq_between p z y : dist p z + dist z y = dist p y -> exists k, 0 <= k <= 1 /\ z = lerp p y k.
Proof.
  intro H. destruct (P2_dec p y) as [<-|Hne].
  - rewrite dist_refl, (dist_sym z p) in H. pose proof (dist_nonneg p z). assert (E : dist p z = 0) by lra. apply dist_zero in E. subst z.
    exists 0. rewrite lerp_0. split; [lra|reflexivity].
  - set (u := psub z p). set (v := psub y z).
    assert (Eu : dist p z = plen u) by (rewrite dist_sym; reflexivity). assert (Ev : dist z y = plen v) by (rewrite dist_sym; reflexivity).
    assert (Euv : dist p y = plen (padd u v)).
    { rewrite dist_sym. unfold dist, u, v. f_equal. unfold psub, padd. cbn [px py]. apply P2_eq; cbn [px py]; ring. }
    rewrite Eu, Ev, Euv in H. assert (D : pdot u v = plen u * plen v).
    { pose proof (plen_sqr (padd u v)) as H1. rewrite <- H in H1. pose proof (plen_sqr u). pose proof (plen_sqr v).
      replace (pdot (padd u v) (padd u v)) with (pdot u u + 2 * pdot u v + pdot v v) in H1 by (unfold pdot, padd; cbn [px py]; ring). nra. }
    assert (C : cross u v = 0).
    { assert (E : pdot u v * pdot u v + cross u v * cross u v = pdot u u * pdot v v) by (unfold pdot, cross; ring).
      rewrite D, <- !plen_sqr in E. assert (cross u v * cross u v = 0) by nra. apply Rmult_integral in H0. tauto. }
    assert (O : orient p y z = 0).
    { unfold u, v in C. clear -C. pts. lra. }
    destruct (on_line p y z Hne O) as [k Ek]. exists k. split; [|exact Ek].
    assert (P1 : dist p z = Rabs k * dist p y) by (rewrite Ek; apply dist_lerp).
    assert (P3 : dist z y = Rabs (1 - k) * dist p y). { rewrite Ek. rewrite <- (lerp_1 p y) at 2. rewrite dist_lerp2. reflexivity. }
    pose proof (dist_pos p y Hne). rewrite <- Euv in H. rewrite <- Eu, <- Ev, P1, P3 in H.
    assert (Rabs k + Rabs (1 - k) = 1) as E by (apply Rmult_eq_reg_r with (dist p y); lra).
    split; [destruct (Rle_dec 0 k); [assumption|exfalso]|destruct (Rle_dec k 1); [assumption|exfalso]].
    + rewrite Rabs_left, Rabs_right in E by lra. lra.
    + rewrite Rabs_right, Rabs_left in E by lra. lra.
Qed.
(** small steps along a line stay in a segment *)
Lemma small_step t k : 0 < t < 1 -> exists s, 0 < s <= 1 /\ 0 <= t + s * (k - t) <= 1.
Proof.
  intro Ht. set (d := Rmin t (1 - t)). assert (0 < d) by (unfold d; apply Rmin_glb_lt; lra). pose proof (Rmin_l t (1 - t)). pose proof (Rmin_r t (1 - t)). fold d in H0, H1.
  pose proof (Rabs_pos (k - t)) as Hk. set (w := Rabs (k - t)) in *. exists (d / (1 + w)).
  assert (Hs : 0 < d / (1 + w)) by (apply Rdiv_lt_0_compat; lra). assert (Es : d / (1 + w) * (1 + w) = d) by (field; lra). set (s := d / (1 + w)) in *.
  assert (s * w <= d) by nra. assert (s <= 1) by nra. split; [lra|].
  assert (- w <= k - t <= w). { unfold w. split; [|apply Rle_abs]. pose proof (Rle_abs (- (k - t))). rewrite Rabs_Ropp in H4. lra. }
  assert (- (s * w) <= s * (k - t) <= s * w) by (split; nra). lra.
Qed.
Lemma bend a b p y t : a <> b -> 0 < t < 1 -> 0 <= orient a b p -> orient a b y <= 0 ->
  (forall s, 0 <= s <= 1 -> dist p (lerp a b t) + dist (lerp a b t) y <= dist p (lerp a b s) + dist (lerp a b s) y) ->
  dist p (lerp a b t) + dist (lerp a b t) y = dist p y.
Proof.
  intros Hab Ht Hp Hy H.
  assert (Z : exists k, dist p (lerp a b k) + dist (lerp a b k) y = dist p y).
  { destruct (Req_EM_T (orient a b p) 0) as [E|E].
    - destruct (on_line a b p Hab E) as [k Ek]. exists k. rewrite <- Ek, dist_refl. lra.
    - set (w := orient a b p / (orient a b p - orient a b y)).
      assert (Hw : w * (orient a b p - orient a b y) = orient a b p) by (unfold w; field; lra).
      assert (0 <= w <= 1) by (split; nra).
      assert (O : orient a b (lerp p y w) = 0) by (rewrite orient_lerp3; lra). destruct (on_line a b _ Hab O) as [k Ek]. exists k. rewrite <- Ek.
      now apply dist_between. }
  destruct Z as [k Hk]. destruct (small_step t k Ht) as (s & Hs & Hin). specialize (H _ Hin).
  replace (t + s * (k - t)) with (t + s * (k - t)) in H by ring. rewrite <- lerp_lerp in H.
  pose proof (dist_convex p (lerp a b t) (lerp a b k) s ltac:(lra)) as C1. pose proof (dist_convex y (lerp a b t) (lerp a b k) s ltac:(lra)) as C2.
  rewrite (dist_sym (lerp (lerp a b t) (lerp a b k) s) y) in H. rewrite (dist_sym _ y) in H at 1. rewrite (dist_sym (lerp a b k) y) in Hk.
  rewrite (dist_sym (lerp a b t) y). pose proof (dist_triangle p (lerp a b t) y) as T. rewrite (dist_sym (lerp a b t) y) in T.
  set (d1 := dist p (lerp a b t)) in *. set (d2 := dist y (lerp a b t)) in *. nra.
Qed.

Lemma nodup_apart {T} (u w : list T) x : NoDup (u ++ w) -> In x u -> In x w -> False.
Proof.
  induction u as [|y u IH]; intros HN Hu Hw; [destruct Hu|]; cbn [app] in HN; inversion HN; subst. destruct Hu as [->|H].
  - apply H1. apply in_or_app. now right.
  - now apply IH.
Qed.
Definition nextp (B : list stop) (g : P2) : P2 := match B with [] => g | x :: _ => snd x end.
Definition after (B : list stop) (g : P2) : R := match B with [] => 0 | x :: B => len (snd x) B g end.
Lemma len_next B p g : len p B g = dist p (nextp B g) + after B g.
Proof. destruct B; cbn [len nextp after]; lra. Qed.

Section Bend.
Context (m : Mesh RA) (blocked : list N) (start goal : P2) (ps pe : N).
Context (HM : plane_mesh m) (HI : ids_wf m) (HG : generic m start ps pe goal) (HF : faultless m blocked ps).
Notation best := (best m blocked ps pe start goal).
Notation links := (links m blocked).

Lemma crossing_to c : u32_crossing m c -> exists l p, polygon_at m (cr_to c) l p.
Proof using HI.
  intros ((l & p & va & vb & HP & _ & Ha & _ & Ta & _ & Hx & _) & _). apply (HI l va); auto; [destruct HP as [HP _]; eapply nthN_In; eauto|eapply nthN_In; eauto].
Qed.
Lemma crossing_ends c : u32_crossing m c -> exists a b qs qs', ends m c a b /\ corners m (cr_from c) qs /\ corners m (cr_to c) qs' /\ convex qs /\ convex qs' /\
  In (a, b) (poly_edges qs) /\ In (b, a) (poly_edges qs').
Proof using HI HM.
  intro HC. assert (HC' := HC). destruct HC' as ((l & p & va & vb & HP & HB & Ha & Hb & Ta & Tb & Hx & Hne) & _).
  destruct (plane_corners _ _ _ _ HM HP) as (qs & Hqs & HFq & Hcx & Hsp).
  destruct (crossing_to c HC) as (l' & p' & HP'). destruct (plane_corners _ _ _ _ HM HP') as (qs' & Hqs' & HFq' & Hcx' & Hsp').
  assert (HB' := HB). destruct HB' as (i & H1 & H2).
  destruct (nth_error_split _ _ H1) as (x & y & EV & _). assert (HF1 := HFq). rewrite EV in HF1. destruct (Forall2_mid _ _ _ _ _ HF1) as (X & a & Y & EX & _ & Fa & _).
  destruct (nth_error_split _ _ H2) as (x' & y' & EV' & _). assert (HF2 := HFq). rewrite EV' in HF2. destruct (Forall2_mid _ _ _ _ _ HF2) as (X' & b & Y' & EX' & _ & Fb & _).
  exists a, b, qs, qs'. split; [exists l, p; auto|]. split; [exact Hqs|]. split; [exact Hqs'|]. split; [exact Hcx|]. split; [exact Hcx'|]. split.
  - eapply boundary_edge_plane; eauto. now apply spaced_distinct.
  - eapply (proj2 HM); eauto.
Qed.
Lemma ends_edge c a b : u32_crossing m c -> ends m c a b -> exists qs qs', corners m (cr_from c) qs /\ corners m (cr_to c) qs' /\ convex qs /\ convex qs' /\
  In (a, b) (poly_edges qs) /\ In (b, a) (poly_edges qs').
Proof using HI HM.
  intros HC HE. destruct (crossing_ends c HC) as (a' & b' & qs & qs' & HE' & H). destruct (ends_fun _ _ _ _ _ _ HE HE') as [<- <-]. eauto.
Qed.
Lemma edge_distinct qs a b : convex qs -> In (a, b) (poly_edges qs) -> a <> b.
Proof using. intros Hcx H ->. destruct (proj2 Hcx b b H) as (z & _ & Hz). rewrite orient_same in Hz. lra. Qed.
Lemma edge_place id qs a b : corners m id qs -> In (a, b) (poly_edges qs) -> place m start a /\ place m start b.
Proof using. intros Hqs H. destruct (edge_In _ _ _ H). split; right; eauto. Qed.
Lemma on_edge_inside c y : u32_crossing m c -> on_edge m c y -> (forall qs, corners m (cr_from c) qs -> inside qs y) /\ (forall qs, corners m (cr_to c) qs -> inside qs y).
Proof using HI HM.
  intros HC (a & b & t & HE & Ht & ->). destruct (ends_edge c a b HC HE) as (qs & qs' & Hqs & Hqs' & Hcx & Hcx' & He & He').
  destruct (edge_In _ _ _ He). destruct (edge_In _ _ _ He'). split; intros q Hq.
  - assert (q = qs) by (eapply corners_fun; eauto). subst q. apply inside_lerp; auto; apply convex_corner; auto.
  - assert (q = qs') by (eapply corners_fun; eauto). subst q. apply inside_lerp; auto; apply convex_corner; auto.
Qed.
Lemma start_inside qs : corners m ps qs -> inside qs start.
Proof using HG. intro H. destruct (ge_start _ _ _ _ _ HG) as (q & Hq & Hin). assert (q = qs) by (eapply corners_fun; eauto). subst q. intros s e He. specialize (Hin s e He). lra. Qed.
Lemma goal_inside qs : corners m pe qs -> forall s e, In (s, e) (poly_edges qs) -> 0 < orient s e goal.
Proof using HG. intro H. destruct (ge_in _ _ _ _ _ HG) as (q & Hq & Hin). assert (q = qs) by (eapply corners_fun; eauto). subst q. exact Hin. Qed.
Lemma prev_inside A Q qs : links ps A Q -> corners m Q qs -> inside qs (endp start A).
Proof using HG HI HM.
  intros H Hqs. destruct A as [|x A] using rev_ind.
  - apply links_nil_inv in H. subst Q. now apply start_inside.
  - apply links_snoc_inv in H. destruct H as (_ & HO & HE & <-). rewrite endp_snoc. apply (on_edge_inside (fst x)); auto. apply HO.
Qed.
Lemma next_inside B Q qs : links Q B pe -> corners m Q qs -> inside qs (nextp B goal).
Proof using HG HI HM.
  intros H Hqs. destruct B as [|[c y] B]; cbn [nextp snd].
  - apply links_nil_inv in H. subst Q. intros s e He. pose proof (goal_inside qs Hqs s e He). lra.
  - apply links_cons_inv in H. destruct H as (-> & HO & HE & _). exact (proj1 (on_edge_inside c y (proj1 HO) HE) qs Hqs).
Qed.

(** three places on a line *)
Lemma not_collinear u w x : place m start u -> place m start w -> place m start x -> u <> w -> u <> x -> w <> x -> orient u w x <> 0.
Proof using HG.
  intros Hu Hw Hx H1 H2 H3 E. pose proof (ge_places _ _ _ _ _ HG u w x Hu Hw Hx H1 H2 H3) as H. rewrite E, Rabs_R0 in H. pose proof (dist_pos u w H1). lra.
Qed.
Lemma goal_off u w : place m start u -> place m start w -> u <> w -> orient u w goal <> 0.
Proof using HG.
  intros Hu Hw H1 E. pose proof (ge_goal _ _ _ _ _ HG u w Hu Hw H1) as H. rewrite E, Rabs_R0 in H. pose proof (dist_pos u w H1). lra.
Qed.
Lemma place_on_edge qs id a b v t : corners m id qs -> In (a, b) (poly_edges qs) -> a <> b -> place m start v -> v = lerp a b t -> v = a \/ v = b.
Proof using HG.
  intros Hqs He Hab Hv Ev. destruct (edge_place id qs a b Hqs He) as [Pa Pb]. destruct (P2_dec v a) as [E|E]; [auto|]. destruct (P2_dec v b) as [E2|E2]; [auto|].
  exfalso. apply (not_collinear a b v); auto; try congruence. rewrite Ev, orient_lerp3, orient_start, orient_end. ring.
Qed.
(** different edges of a polygon meet at corners only *)
Lemma edges_meet id qs a b a' b' t k : corners m id qs -> convex qs -> In (b, a) (poly_edges qs) -> In (a', b') (poly_edges qs) ->
  ~ (a' = b /\ b' = a) -> 0 < t < 1 -> 0 <= k <= 1 -> lerp a b t <> lerp a' b' k.
Proof using HG.
  intros Hqs Hcx H1 H2 Hne Ht Hk E. destruct (edge_In _ _ _ H1) as [Ib Ia]. destruct (edge_In _ _ _ H2) as [Ia' Ib'].
  pose proof (edge_distinct _ _ _ Hcx H1) as Dab. pose proof (edge_distinct _ _ _ Hcx H2) as Dab'.
  assert (St : forall v, In v qs -> v = a \/ v = b \/ 0 < orient b a v).
  { intros v Hv. destruct (P2_dec v a); [auto|]. destruct (P2_dec v b); [auto|]. right. right. pose proof (convex_corner qs v Hcx Hv b a H1).
    assert (orient b a v <> 0); [|lra]. apply not_collinear; auto; right; eauto. }
  assert (Z : (1 - k) * orient b a a' + k * orient b a b' = 0).
  { rewrite <- orient_lerp3, <- E. rewrite orient_lerp3, orient_start, orient_end. ring. }
  assert (Ea : forall s, lerp a b t = lerp a b s -> s = t) by (intros s Es; apply lerp_inj in Es; auto).
  pose proof (convex_corner qs a' Hcx Ia' b a H1) as Ga. pose proof (convex_corner qs b' Hcx Ib' b a H1) as Gb.
  destruct (Req_EM_T k 0) as [->|Hk0].
  { rewrite lerp_0 in E. destruct (St a' Ia') as [Q|[Q|Q]].
    - rewrite Q in E. rewrite <- (lerp_0 a b) in E at 2. apply Ea in E. lra.
    - rewrite Q in E. rewrite <- (lerp_1 a b) in E at 2. apply Ea in E. lra.
    - lra. }
  destruct (Req_EM_T k 1) as [->|Hk1].
  { rewrite lerp_1 in E. destruct (St b' Ib') as [Q|[Q|Q]].
    - rewrite Q in E. rewrite <- (lerp_0 a b) in E at 2. apply Ea in E. lra.
    - rewrite Q in E. rewrite <- (lerp_1 a b) in E at 2. apply Ea in E. lra.
    - lra. }
  assert (orient b a a' = 0 /\ orient b a b' = 0) as [Za Zb] by (split; nra).
  destruct (St a' Ia') as [Q|[Q|Q]]; [| |lra]; destruct (St b' Ib') as [Q'|[Q'|Q']]; try lra; try congruence.
  - subst a' b'. destruct (proj2 Hcx a b H2) as (z & Hz & Hz2). pose proof (convex_corner qs z Hcx Hz b a H1). rewrite orient_213 in H. lra.
  - apply Hne. split; congruence.
Qed.

(** ** Inside of an edge, the route is straight *)
Lemma best_links A c z B : best (A ++ (c, z) :: B) -> links ps A (cr_from c) /\ open_crossing m blocked c /\ on_edge m c z /\ links (cr_to c) B pe.
Proof using.
  intros [[H _] _]. destruct (links_split _ _ _ _ _ _ H) as (Q & H1 & H2). apply links_cons_inv in H2. destruct H2 as (-> & H2). auto.
Qed.
Lemma best_bend A c z B a b t : best (A ++ (c, z) :: B) -> ends m c a b -> z = lerp a b t -> 0 < t < 1 ->
  dist (endp start A) z + dist z (nextp B goal) = dist (endp start A) (nextp B goal).
Proof using HG HI HM.
  intros HB HE Ez Ht. destruct (best_links _ _ _ _ HB) as (L1 & HO & HE1 & L2). destruct (ends_edge c a b (proj1 HO) HE) as (qs & qs' & Hqs & Hqs' & Hcx & Hcx' & He & He').
  rewrite Ez. apply bend; auto.
  - exact (edge_distinct _ _ _ Hcx He).
  - apply (prev_inside A (cr_from c) qs L1 Hqs). exact He.
  - pose proof (next_inside B (cr_to c) qs' L2 Hqs' b a He') as Q. rewrite orient_213 in Q. lra.
  - intros s Hs. destruct HB as [[HL Hmin] _]. assert (HL' : links ps (A ++ (c, lerp a b s) :: B) pe).
    { eapply links_app; [exact L1|]. constructor; [exact HO|exists a, b, s; auto|exact L2]. }
    specialize (Hmin _ HL'). rewrite !len_app in Hmin. cbn [snd] in Hmin. rewrite (len_endp A start z), (len_endp A start (lerp a b s)), (len_next B z), (len_next B (lerp a b s)) in Hmin.
    rewrite Ez in Hmin. lra.
Qed.
Lemma not_back A c z c' y B : best (A ++ (c, z) :: (c', y) :: B) -> cr_to c' <> cr_from c.
Proof using.
  intro HB. pose proof (best_simple _ _ _ _ _ _ _ HB) as HN. destruct (best_links _ _ _ _ HB) as (L1 & _). intro E.
  pose proof (links_last _ _ _ _ _ L1) as Q. rewrite (polys_app m blocked ps A _ _ L1) in HN.
  apply (nodup_apart _ _ (cr_from c) HN Q). cbn [map fst]. right. left. exact E.
Qed.
Lemma next_edge A c z c' y B a b a' b' : best (A ++ (c, z) :: (c', y) :: B) -> ends m c a b -> ends m c' a' b' -> ~ (a' = b /\ b' = a).
Proof using HF.
  intros HB HE HE' [-> ->]. apply (not_back _ _ _ _ _ _ HB). destruct (best_links _ _ _ _ HB) as (_ & HO & _ & L2). apply links_cons_inv in L2. destruct L2 as (E & HO' & _).
  apply (fl_back _ _ _ HF c c' a b); auto; [apply HO|apply HO'].
Qed.
Lemma next_differs A c z B a b t : best (A ++ (c, z) :: B) -> ends m c a b -> z = lerp a b t -> 0 < t < 1 -> nextp B goal <> z.
Proof using HG HI HM HF.
  intros HB HE Ez Ht. destruct (best_links _ _ _ _ HB) as (L1 & HO & HE1 & L2). destruct (ends_edge c a b (proj1 HO) HE) as (qs & qs' & Hqs & Hqs' & Hcx & Hcx' & He & He').
  destruct B as [|[c0 y] B]; cbn [nextp snd].
  - apply links_nil_inv in L2. rewrite L2 in Hqs'. intro E. pose proof (goal_inside qs' Hqs' b a He') as Q. rewrite E, Ez, orient_lerp3, orient_start, orient_end in Q. lra.
  - apply links_cons_inv in L2. destruct L2 as (Eq & H1 & H2 & _). destruct H2 as (a' & b' & k & HE' & Hk & ->). rewrite Ez. apply not_eq_sym.
    destruct (ends_edge c0 a' b' (proj1 H1) HE') as (q1 & q2 & K1 & K2 & K3 & K4 & K5 & K6).
    assert (q1 = qs') by (eapply corners_fun; [exact K1|congruence]). subst q1. apply (edges_meet (cr_to c) qs'); auto. exact (next_edge _ _ _ _ _ _ _ _ _ _ HB HE HE').
Qed.
(** the points before an inner point *)
Lemma prev_differs A c z B a b t : best (A ++ (c, z) :: B) -> ends m c a b -> z = lerp a b t -> 0 < t < 1 -> endp start A <> z.
Proof using HG HI HM HF.
  intros HB HE Ez Ht. destruct (best_links _ _ _ _ HB) as (L1 & HO & HE1 & L2). destruct (ends_edge c a b (proj1 HO) HE) as (qs & qs' & Hqs & Hqs' & Hcx & Hcx' & He & He').
  destruct A as [|x A _] using rev_ind.
  - cbn [endp]. apply links_nil_inv in L1. intro E. destruct (ge_start _ _ _ _ _ HG) as (q & Hq & Hin). assert (q = qs) by (eapply corners_fun; [exact Hq|congruence]). subst q.
    pose proof (Hin a b He) as Q. rewrite E, Ez, orient_lerp3, orient_start, orient_end in Q. lra.
  - rewrite endp_snoc. destruct x as [c0 y]. rewrite <- app_assoc in HB. cbn [app] in HB. destruct (best_links _ _ _ _ HB) as (_ & HO0 & HE0 & L0). cbn [snd].
    apply links_snoc_inv in L1. cbn [fst snd] in L1. destruct L1 as (_ & _ & _ & Eto).
    destruct HE0 as (a0 & b0 & k & HE0 & Hk & ->). destruct (ends_edge c0 a0 b0 (proj1 HO0) HE0) as (q1 & q2 & K1 & K2 & K3 & K4 & K5 & K6).
    assert (q2 = qs) by (eapply corners_fun; [exact K2|congruence]). subst q2. rewrite Ez, (lerp_swap a0 b0), (lerp_swap a b). apply not_eq_sym.
    apply (edges_meet (cr_from c) qs b a b0 a0 (1 - t) (1 - k)); auto; [|lra|lra].
    intros [Q1 Q2]. apply (next_edge _ _ _ _ _ _ a0 b0 a b HB HE0 HE). auto.
Qed.

(** A leg of the route ends at a place: it cannot go on along a line through two places. *)
Lemma no_straight r v : place m start r -> place m start v -> r <> v -> forall B A c z kp kz, best (A ++ (c, z) :: B) ->
  endp start A = lerp r v kp -> 1 <= kp -> z = lerp r v kz -> kp < kz -> False.
Proof using HG HI HM HF.
  intros Pr Pv Hrv. induction B as [|[c' y] B IH]; intros A c z kp kz HB Ep Hkp Ez Hkz.
  all: destruct (best_links _ _ _ _ HB) as (L1 & HO & (a & b & t & HE & Ht & Ez2) & L2).
  all: destruct (ends_edge c a b (proj1 HO) HE) as (qs & qs' & Hqs & Hqs' & Hcx & Hcx' & He & He').
  all: assert (Oz : orient r v z = 0) by (rewrite Ez, orient_lerp3, orient_start, orient_end; ring).
  all: assert (Zr : r <> z) by (rewrite Ez; rewrite <- (lerp_0 r v) at 1; intro Q; apply lerp_inj in Q; auto; lra).
  all: assert (Zv : v <> z) by (rewrite Ez; rewrite <- (lerp_1 r v) at 1; intro Q; apply lerp_inj in Q; auto; lra).
  all: destruct (edge_place _ _ _ _ Hqs He) as [Pa Pb].
  all: assert (In01 : 0 < t < 1).
  1,3: (destruct (Req_EM_T t 0) as [T0|T0]; [rewrite T0, lerp_0 in Ez2; rewrite Ez2 in Zr, Zv, Oz; exfalso; exact (not_collinear r v a Pr Pv Pa Hrv Zr Zv Oz)|];
        destruct (Req_EM_T t 1) as [T1|T1]; [rewrite T1, lerp_1 in Ez2; rewrite Ez2 in Zr, Zv, Oz; exfalso; exact (not_collinear r v b Pr Pv Pb Hrv Zr Zv Oz)|lra]).
  all: pose proof (best_bend _ _ _ _ _ _ _ HB HE Ez2 In01) as HD.
  all: pose proof (next_differs _ _ _ _ _ _ _ HB HE Ez2 In01) as Hn.
  all: destruct (dist_eq_between _ _ _ HD) as (k & Hk & Ek); rewrite Ep in Ek.
  all: assert (K0 : k <> 0) by (intros ->; rewrite lerp_0, Ez in Ek; apply lerp_inj in Ek; auto; lra).
  all: assert (K1 : k <> 1) by (intros ->; rewrite lerp_1 in Ek; congruence).
  - cbn [nextp] in *. apply (goal_off r v Pr Pv Hrv). rewrite Ek, orient_lerp3, orient_lerp3, orient_start, orient_end in Oz.
    assert (k * orient r v goal = 0) by lra. apply Rmult_integral in H. tauto.
  - cbn [nextp snd] in *.
    assert (EY : y = lerp r v (kp + (kz - kp) / k)).
    { rewrite Ez in Ek. clear - Ek K0. pts. unfold lerp in Ek. unfold padd, pscale, psub in Ek. cbn [px py] in Ek. injection Ek as E1 E2.
      unfold lerp, padd, pscale, psub. cbn [px py]. apply P2_eq; cbn [px py]; apply Rmult_eq_reg_l with k; auto; field_simplify; lra. }
    apply (IH (A ++ [(c, z)]) c' y kz (kp + (kz - kp) / k)); auto.
    + rewrite <- app_assoc. exact HB.
    + rewrite endp_snoc. exact Ez.
    + lra.
    + assert (1 < / k). { rewrite <- Rinv_1. apply Rinv_lt_contravar; lra. } unfold Rdiv. nra.
Qed.

(** ** No stop at a vertex without a turn *)
Lemma links_u32 P A Q : u32_ids m -> (P < 2 ^ 32)%N -> links P A Q -> (Q < 2 ^ 32)%N.
Proof using.
  intros HU HP H. destruct A as [|x A] using rev_ind; [apply links_nil_inv in H; congruence|]. apply links_snoc_inv in H. destruct H as (_ & HO & _ & <-).
  destruct HO as [((l & p & va & vb & HP' & _ & Ha & _ & Ta & _) & _) _]. destruct HP' as [Hl _]. exact (HU l va _ (nthN_In _ _ _ Hl) (nthN_In _ _ _ Ha) Ta).
Qed.
Lemma links_allowed P A Q : links P A Q -> Q = P \/ ~ In (id_layer Q) blocked.
Proof using.
  intro H. destruct A as [|x A] using rev_ind; [apply links_nil_inv in H; auto|]. apply links_snoc_inv in H. destruct H as (_ & HO & _ & <-). right. apply HO.
Qed.
Lemma stop_corner c v : u32_crossing m c -> on_edge m c v -> place m start v ->
  (forall qs, corners m (cr_from c) qs -> In v qs) /\ (forall qs, corners m (cr_to c) qs -> In v qs).
Proof using HG HI HM.
  intros HC (a & b & t & HE & Ht & Ev) Pv. destruct (ends_edge c a b HC HE) as (qs & qs' & Hqs & Hqs' & Hcx & Hcx' & He & He').
  destruct (edge_In _ _ _ He). destruct (edge_In _ _ _ He').
  pose proof (place_on_edge qs (cr_from c) a b v t Hqs He (edge_distinct _ _ _ Hcx He) Pv Ev) as Q. split; intros q Hq.
  - assert (q = qs) by (eapply corners_fun; eauto). subst q. destruct Q as [->| ->]; auto.
  - assert (q = qs') by (eapply corners_fun; eauto). subst q. destruct Q as [->| ->]; auto.
Qed.
Lemma len_same V v : Forall (fun x : stop => snd x = v) V -> forall p g, len p (V ++ []) g = len p V g /\ len v V g = dist v g.
Proof using.
  induction 1 as [|x V Hx HV IH]; intros p g; [split; reflexivity|]. split; [now rewrite app_nil_r|]. cbn [len]. rewrite Hx, dist_refl. rewrite (proj2 (IH p g)). ring.
Qed.
Lemma endp_same V v : Forall (fun x : stop => snd x = v) V -> endp v V = v.
Proof using. induction 1 as [|x V Hx HV IH]; [reflexivity|]. cbn [endp]. now rewrite Hx. Qed.
Lemma vertex_place id w v : vertex_of m id w v -> place m start v.
Proof using HM.
  intros (l & p & i & HP & Hi & Hw & Ew). destruct (plane_corners _ _ _ _ HM HP) as (qs & Hqs & HFq & _). right. exists id, qs. split; [exact Hqs|].
  destruct (in_split _ _ Hi) as (x & y & EV). rewrite EV in HFq. destruct (Forall2_mid _ _ _ _ _ HFq) as (X & q & Y & -> & _ & (w' & W1 & W2) & _).
  assert (w' = w) by congruence. subst w'. rewrite Ew in W2. apply vp_inj in W2. subst q. apply in_or_app. right. now left.
Qed.
Lemma no_inner A V B v r k id w : u32_ids m -> (ps < 2 ^ 32)%N -> best (A ++ V ++ B) -> V <> [] -> Forall (fun x : stop => snd x = v) V -> vertex_of m id w v -> ~ turnable blocked w ->
  place m start r -> r <> v -> endp start A = lerp r v k -> 0 <= k < 1 -> nextp B goal <> v -> False.
Proof using HG HI HM HF.
  intros HU HP32 HB HV Hall Hw Hnt Pr Hrv Ep Hk Hz. pose proof (vertex_place _ _ _ Hw) as Pv.
  assert (HL : links ps (A ++ V ++ B) pe) by apply HB.
  destruct (links_split _ _ _ _ _ _ HL) as (P0 & L1 & L23). destruct (links_split _ _ _ _ _ _ L23) as (Pk & L2 & L3).
  set (p := endp start A) in *. set (z := nextp B goal) in *.
  assert (Hpv : p <> v). { rewrite Ep. rewrite <- (lerp_1 r v) at 2. intro E. apply lerp_inj in E; auto. lra. }
  (* the polygons before and after *)
  assert (C0 : exists qs, corners m P0 qs /\ In v qs /\ convex qs).
  { destruct V as [|[c y] V]; [contradiction|]. apply links_cons_inv in L2. destruct L2 as (EP & HO & HE & _). pose proof (Forall_inv Hall) as Ey. cbn [snd] in Ey. rewrite Ey in HE.
    destruct (crossing_ends c (proj1 HO)) as (a & b & qs & qs' & _ & Hqs & _ & Hcx & _). exists qs. rewrite EP. split; [exact Hqs|]. split; [|exact Hcx].
    exact (proj1 (stop_corner c v (proj1 HO) HE Pv) qs Hqs). }
  assert (Ck : exists qs, corners m Pk qs /\ In v qs /\ convex qs).
  { destruct V as [|[c y] V _] using rev_ind; [contradiction|]. apply links_snoc_inv in L2. destruct L2 as (_ & HO & HE & EP). cbn [fst snd] in *.
    apply Forall_app in Hall. destruct Hall as [_ Hall]. pose proof (Forall_inv Hall) as Ey. cbn [snd] in Ey. rewrite Ey in HE.
    destruct (crossing_ends c (proj1 HO)) as (a & b & qs & qs' & _ & _ & Hqs & _ & Hcx & _). exists qs'. rewrite <- EP. split; [exact Hqs|]. split; [|exact Hcx].
    exact (proj2 (stop_corner c v (proj1 HO) HE Pv) qs' Hqs). }
  destruct C0 as (q0 & Q0 & I0 & X0). destruct Ck as (qk & Qk & Ik & Xk).
  pose proof (prev_inside A P0 q0 L1 Q0) as Ip. fold p in Ip. pose proof (next_inside B Pk qk L3 Qk) as Iz. fold z in Iz.
  destruct (fl_inner _ _ _ HF id w v Hw Hnt) as (d & Hd & HA).
  (* it is straight at [v] *)
  assert (HS : dist p v + dist v z <= dist p z).
  { pose proof (dist_pos v p ltac:(congruence)) as D1. pose proof (dist_pos v z ltac:(congruence)) as D2.
    set (s := Rmin 1 (Rmin (d / dist v p) (d / dist v z))).
    assert (Hs1 : s <= 1) by apply Rmin_l. assert (Hs2 : s <= d / dist v p) by (eapply Rle_trans; [apply Rmin_r|apply Rmin_l]).
    assert (Hs3 : s <= d / dist v z) by (eapply Rle_trans; [apply Rmin_r|apply Rmin_r]).
    assert (Hs0 : 0 < s) by (unfold s; repeat apply Rmin_glb_lt; [lra|apply Rdiv_lt_0_compat; lra|apply Rdiv_lt_0_compat; lra]).
    set (p' := lerp v p s). set (z' := lerp v z s).
    assert (Dp : dist v p' = s * dist v p) by (unfold p'; rewrite dist_lerp, Rabs_right by lra; reflexivity).
    assert (Dz : dist v z' = s * dist v z) by (unfold z'; rewrite dist_lerp, Rabs_right by lra; reflexivity).
    assert (Hp' : dist v p' <= d). { rewrite Dp. apply Rmult_le_reg_r with (/ dist v p); [apply Rinv_0_lt_compat; lra|]. field_simplify; [|lra|lra]. unfold Rdiv in *. lra. }
    assert (Hz' : dist v z' <= d). { rewrite Dz. apply Rmult_le_reg_r with (/ dist v z); [apply Rinv_0_lt_compat; lra|]. field_simplify; [|lra|lra]. unfold Rdiv in *. lra. }
    assert (HW : way m blocked P0 p' Pk z' (dist p' z')).
    { apply (HA P0 Pk q0 qk); auto.
      - exact (links_u32 _ _ _ HU HP32 L1).
      - pose proof (links_app _ _ _ _ _ _ _ L1 L2) as L12. exact (links_u32 _ _ _ HU HP32 L12).
      - exact (links_allowed _ _ _ L1).
      - pose proof (links_app _ _ _ _ _ _ _ L1 L2) as L12. exact (links_allowed _ _ _ L12).
      - apply inside_lerp; auto; [now apply convex_corner|lra].
      - apply inside_lerp; auto; [now apply convex_corner|lra]. }
    destruct (way_links _ _ _ _ _ _ _ HW) as (Fn & LF & EF).
    assert (HL' : links ps (A ++ Fn ++ B) pe) by (eapply links_app; [exact L1|]; eapply links_app; eauto).
    destruct HB as [[_ Hmin] _]. specialize (Hmin _ HL'). rewrite !len_app2 in Hmin. fold p in Hmin.
    rewrite (len_next B (endp p V)) in Hmin. rewrite (len_next B (endp p Fn)) in Hmin. fold z in Hmin.
    assert (E1 : len p V (endp p V) + dist (endp p V) z = dist p v + dist v z).
    { rewrite <- len_endp. destruct V as [|x V]; [contradiction|]. inversion Hall; subst. cbn [len]. now rewrite (proj2 (len_same V _ H2 p z)). }
    pose proof (len_endp Fn p z) as E2. pose proof (len_left Fn p p' z) as E3. pose proof (len_right Fn p' z' z) as E4.
    assert (Dpp : dist p p' = (1 - s) * dist v p).
    { unfold p'. rewrite <- (lerp_1 v p) at 1. rewrite dist_lerp2, Rabs_left1 by lra. ring. }
    assert (Dzz : dist z' z = (1 - s) * dist v z).
    { unfold z'. rewrite <- (lerp_1 v z) at 2. rewrite dist_lerp2, Rabs_right by lra. ring. }
    assert (Dpz : dist p' z' = s * dist p z).
    { unfold p', z', dist. replace (psub (lerp v p s) (lerp v z s)) with (pscale s (psub p z)).
      - rewrite plen_scale, Rabs_right by lra. reflexivity.
      - unfold lerp, psub, padd, pscale. cbn [px py]. apply P2_eq; cbn [px py]; ring. }
    rewrite (dist_sym p v) in *. apply Rmult_le_reg_l with s; [lra|]. lra. }
  assert (HS' : dist p v + dist v z = dist p z) by (pose proof (dist_triangle p v z); lra).
  destruct (dist_eq_between _ _ _ HS') as (j & Hj & Ej).
  assert (J0 : j <> 0) by (intros ->; rewrite lerp_0 in Ej; congruence). assert (J1 : j <> 1) by (intros ->; rewrite lerp_1 in Ej; congruence).
  assert (EZ : z = lerp r v (k + (1 - k) / j)).
  { rewrite Ep in Ej. clear - Ej J0. destruct r as [rx ry], v as [vx vy], z as [zx zy]. unfold lerp, padd, pscale, psub in *. cbn [px py] in *. injection Ej as E1 E2.
    apply P2_eq; cbn [px py]; apply Rmult_eq_reg_l with j; auto; field_simplify; lra. }
  assert (Kz : 1 < k + (1 - k) / j). { assert (1 < / j). { rewrite <- Rinv_1. apply Rinv_lt_contravar; lra. } unfold Rdiv. nra. }
  destruct B as [|[c y] B].
  - unfold z in EZ. cbn [nextp] in EZ. apply (goal_off r v Pr Pv Hrv). rewrite EZ, orient_lerp3, orient_start, orient_end. ring.
  - unfold z in EZ. cbn [nextp snd] in EZ. apply (no_straight r v Pr Pv Hrv B (A ++ V) c y 1 (k + (1 - k) / j)); auto; [rewrite <- app_assoc; exact HB| |lra].
    rewrite endp_app. fold p. rewrite lerp_1. destruct V as [|x V]; [contradiction|]. pose proof (Forall_inv Hall) as Ex. cbv beta in Ex. cbn [endp]. rewrite Ex. apply endp_same. exact (Forall_inv_tail Hall).
Qed.

(** The points before a vertex, on a straight line. *)
Lemma straight_split v : forall post r, len r post v = dist r v -> r <> v ->
  exists P1 V1 k, post = P1 ++ V1 /\ Forall (fun x : stop => snd x = v) V1 /\ endp r P1 = lerp r v k /\ 0 <= k < 1.
Proof using.
  intros post r. induction post as [|x post IH] using rev_ind; intros HL Hrv.
  - exists [], [], 0. rewrite lerp_0. repeat split; [constructor|lra|lra].
  - rewrite len_app in HL. cbn [len] in HL. destruct (P2_dec (snd x) v) as [E|E].
    + rewrite E, dist_refl in HL. destruct IH as (P1 & V1 & k & -> & F1 & E1 & K1); [lra|exact Hrv|]. exists P1, (V1 ++ [x]), k.
      split; [now rewrite app_assoc|]. split; [apply Forall_app; auto|]. auto.
    + pose proof (len_ge post r (snd x)). pose proof (dist_triangle r (snd x) v). destruct (dist_eq_between r (snd x) v) as (k & Hk & Ek); [lra|].
      exists (post ++ [x]), [], k. rewrite app_nil_r, endp_snoc. split; [reflexivity|]. split; [constructor|]. split; [exact Ek|].
      assert (k <> 1) by (intros ->; rewrite lerp_1 in Ek; contradiction). lra.
Qed.
Lemma same_split v : goal <> v -> forall B0, exists V2 B, B0 = V2 ++ B /\ Forall (fun x : stop => snd x = v) V2 /\ nextp B goal <> v.
Proof using.
  intro Hg. induction B0 as [|x B0 (V2 & B & -> & F2 & N2)].
  - exists [], []. repeat split; [constructor|exact Hg].
  - destruct (P2_dec (snd x) v) as [E|E].
    + exists (x :: V2), B. split; [reflexivity|]. split; [now constructor|exact N2].
    + exists [], (x :: V2 ++ B). split; [reflexivity|]. split; [constructor|exact E].
Qed.
Lemma goal_not_place v : (exists id qs, corners m id qs /\ In v qs) -> goal <> v.
Proof using HG.
  intros (id & qs & Hqs & Hv) Eg. assert (Hs : start <> v) by (intro Es; apply (ge_corner _ _ _ _ _ HG id qs Hqs); rewrite Es; exact Hv).
  apply (goal_off start v); auto; [now left|right; eauto|rewrite Eg; apply orient_end].
Qed.
(** A best route that goes straight from a place to a vertex turns there only if it is allowed. *)
Lemma no_stop pre post c v B r id w : u32_ids m -> (ps < 2 ^ 32)%N -> best (pre ++ post ++ (c, v) :: B) -> endp start pre = r -> place m start r -> r <> v -> len r post v = dist r v ->
  vertex_of m id w v -> ~ turnable blocked w -> False.
Proof using HG HI HM HF.
  intros HU HP32 HB Er Pr Hrv HL Hw Hnt. destruct (straight_split v post r HL Hrv) as (P1 & V1 & k & -> & F1 & E1 & K1).
  assert (Hg : goal <> v).
  { apply goal_not_place. destruct (best_links (pre ++ P1 ++ V1) c v B) as (_ & HO & HE & _); [rewrite <- app_assoc; exact HB|].
    destruct (crossing_ends c (proj1 HO)) as (a & b & qs & qs' & _ & Hqs & _). exists (cr_from c), qs. split; [exact Hqs|]. exact (proj1 (stop_corner c v (proj1 HO) HE (vertex_place id w v Hw)) qs Hqs). }
  destruct (same_split v Hg B) as (V2 & B' & -> & F2 & N2).
  apply (no_inner (pre ++ P1) (V1 ++ (c, v) :: V2) B' v r k id w); auto.
  - rewrite <- !app_assoc. cbn [app]. rewrite <- !app_assoc in HB. exact HB.
  - now destruct V1.
  - apply Forall_app. split; [exact F1|]. now constructor.
  - rewrite endp_app, Er. exact E1.
Qed.
End Bend.
