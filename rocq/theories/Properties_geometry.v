(** Theorems in exact arithmetic: C45, C46, C48 (lines and intervals), C06 (containment), C05 (polygon finder). *)
From Coq Require Import List NArith ZArith Bool Reals Lra Psatz Lia.
From Verif Require Import Base Arith RealArith U32 Mesh Helpers Locate Bake Search StdLib Spec Locate_facts Closest_facts
  Search_facts Search_props Geometry F32_facts.
Import ListNotations.
Open Scope R_scope.

(** ** C45 *)
(** mirror in a line through two different points: an involution that fixes exactly... the points of the line, keeps the
    distances to them and exchanges the sides. *)
Theorem C45_mirror_is_reflection (a b p : P2) : a <> b -> exists p',
  mirror (vp p) (vp a, vp b) = vp p' /\
  mirror (vp p') (vp a, vp b) = vp p /\
  (forall x, orient a b x = 0 -> dist x p' = dist x p) /\
  (p' = p <-> orient a b p = 0) /\
  orient a b p' = - orient a b p.
Proof.
  intro H. exists (reflect a b p). split; [now apply mirror_vp|]. split; [rewrite mirror_vp by assumption; now rewrite reflect_invol|].
  split; [intros; now apply reflect_on_line|]. split; [|now apply orient_reflect]. split.
  - intro E. pose proof (orient_reflect a b p H) as E2. rewrite E in E2. lra.
  - now apply reflect_fix.
Qed.
(** side is the sign of the area, with a dead zone of 1e-4; swapping the ends of the line exchanges left and right *)
Theorem C45_side_is_sign (a b p : P2) :
  (side (vp p) (vp a, vp b) = SLeft <-> eps <= orient a b p) /\
  (side (vp p) (vp a, vp b) = SRight <-> orient a b p <= - eps) /\
  (side (vp p) (vp a, vp b) = SEdge <-> - eps < orient a b p < eps).
Proof. split; [apply side_left|]. split; [apply side_right|apply side_edge]. Qed.
Theorem C45_side_antisymmetric (a b p : P2) :
  (side (vp p) (vp a, vp b) = SLeft <-> side (vp p) (vp b, vp a) = SRight) /\
  (side (vp p) (vp a, vp b) = SEdge <-> side (vp p) (vp b, vp a) = SEdge).
Proof. rewrite side_left, side_right, !side_edge, (orient_swap a b p). split; split; intros; lra. Qed.

(** ** C46 *)
Lemma lis_vp l0 l1 s0 s1 x :
  line_intersect_segment (vp l0, vp l1) (vp s0, vp s1) = Some x <->
  orient l0 l1 s1 <> orient l0 l1 s0 /\ - eps <= itime l0 l1 s0 s1 <= 1 + eps /\ x = vp (lerp s0 s1 (itime l0 l1 s0 s1)).
Proof.
  unfold line_intersect_segment. rewrite intersection_time_vp.
  pose proof (cross_orient l0 l1 s0 s1) as HC.
  destruct (Req_EM_T (cross (psub l0 l1) (psub s0 s1)) 0) as [E|E].
  - cbn. split; [discriminate|]. intros [H _]. exfalso. apply H. lra.
  - set (t := itime l0 l1 s0 s1). unfold in_range. rewrite EPS_R, fz_R. cbn -[eps].
    destruct (rleb (- eps) t) eqn:E1; [apply rleb_true in E1|apply rleb_false in E1; split; [discriminate|lra]].
    destruct (rleb t (1 + eps)) eqn:E2; [apply rleb_true in E2|apply rleb_false in E2; split; [discriminate|lra]].
    cbn. split.
    + intro H. injection H as <-. split; [lra|]. split; [lra|]. reflexivity.
    + intros (_ & _ & ->). reflexivity.
Qed.
(** a returned point is on the line, and on the segment extended by 1e-4 of its length at both ends *)
Theorem C46_intersection_sound (l0 l1 s0 s1 : P2) x :
  line_intersect_segment (vp l0, vp l1) (vp s0, vp s1) = Some x ->
  exists t, x = vp (lerp s0 s1 t) /\ - eps <= t <= 1 + eps /\ orient l0 l1 (lerp s0 s1 t) = 0.
Proof. intro H. apply lis_vp in H. destruct H as (H1 & H2 & ->). eexists. repeat split; try apply H2. now apply itime_on_line. Qed.
(** if the ends of the segment are on different sides of the line (one of them possibly on it), the common point is returned *)
Theorem C46_intersection_complete (l0 l1 s0 s1 : P2) :
  orient l0 l1 s0 * orient l0 l1 s1 <= 0 -> (orient l0 l1 s0 <> 0 \/ orient l0 l1 s1 <> 0) ->
  exists t, line_intersect_segment (vp l0, vp l1) (vp s0, vp s1) = Some (vp (lerp s0 s1 t)) /\ 0 <= t <= 1 /\
    orient l0 l1 (lerp s0 s1 t) = 0.
Proof.
  intros H1 H2. pose proof eps_pos. exists (itime l0 l1 s0 s1).
  set (u := orient l0 l1 s0) in *. set (w := orient l0 l1 s1) in *.
  assert (HD : w <> u) by (intro E; rewrite E in *; assert (u * u <= 0) by assumption; assert (u = 0) by nra; tauto).
  assert (HT : 0 <= itime l0 l1 s0 s1 <= 1).
  { rewrite itime_orient. fold u w. destruct (Rlt_dec u w) as [L|L].
    - assert (u <= 0 /\ 0 <= w) by (split; nra). split.
      + apply Rmult_le_reg_r with (w - u); [lra|]. replace (- u / (w - u) * (w - u)) with (- u) by (field; lra). lra.
      + apply Rmult_le_reg_r with (w - u); [lra|]. replace (- u / (w - u) * (w - u)) with (- u) by (field; lra). lra.
    - assert (0 <= u /\ w <= 0) by (split; nra). replace (- u / (w - u)) with (u / (u - w)) by (field; lra). split.
      + apply Rmult_le_reg_r with (u - w); [lra|]. replace (u / (u - w) * (u - w)) with u by (field; lra). lra.
      + apply Rmult_le_reg_r with (u - w); [lra|]. replace (u / (u - w) * (u - w)) with u by (field; lra). lra. }
  split; [apply lis_vp; split; [exact HD|]; split; [lra|reflexivity]|]. split; [exact HT|]. now apply itime_on_line.
Qed.
(** parallel: nothing is returned *)
Theorem C46_parallel_none (l0 l1 s0 s1 : P2) :
  orient l0 l1 s0 = orient l0 l1 s1 -> line_intersect_segment (vp l0, vp l1) (vp s0, vp s1) = None.
Proof.
  intro H. destruct (line_intersect_segment _ _) as [x|] eqn:E; [|reflexivity]. apply lis_vp in E. destruct E. congruence.
Qed.

(** ** C48 *)
(** all the positions are real points *)
Definition real_mesh (m : Mesh RA) : Prop :=
  forall l, In l (layers m) -> (exists o, offset l = vp o) /\ forall v, In v (vertices l) -> exists q, coords v = vp q.

Lemma lis_seg (line : vec2 RA * vec2 RA) s0 s1 x : line_intersect_segment line (vp s0, vp s1) = Some x ->
  exists t, x = vp (lerp s0 s1 t) /\ - eps <= t <= 1 + eps.
Proof.
  unfold line_intersect_segment, in_range. rewrite EPS_R, fz_R. destruct (intersection_time _ _) as [t|]; [|cbn; discriminate].
  cbn -[eps]. destruct (rleb (- eps) t) eqn:E1; [|discriminate]. destruct (rleb t (1 + eps)) eqn:E2; [|discriminate].
  apply rleb_true in E1. apply rleb_true in E2. cbn. intro H. injection H as <-. exists t. split; [reflexivity|lra].
Qed.
Lemma prod_range e x y : 0 < e -> - e <= x <= 1 + e -> - e <= y <= 1 + e -> - (e + e * e) <= x * y <= 1 + 2 * e + e * e.
Proof.
  intros He Hx Hy. split.
  - destruct (Rle_dec 0 x), (Rle_dec 0 y); nra.
  - destruct (Rle_dec 0 x), (Rle_dec 0 y); nra.
Qed.
Lemma edge_point_real a b x : edge_point (vp a) (vp b) x ->
  exists t, x = vp (lerp a b t) /\ - (2 * eps + eps * eps) <= t <= 1 + eps + eps * eps.
Proof.
  pose proof eps_pos. intro H0. inversion H0; subst.
  - exists 0. rewrite lerp_0. split; [reflexivity|]. nra.
  - exists 1. rewrite lerp_1. split; [reflexivity|]. nra.
  - apply lis_seg in H1. destruct H1 as (t & -> & Ht). exists t. split; [reflexivity|]. nra.
  - apply lis_seg in H1. destruct H1 as (t & -> & Ht). apply lis_seg in H2. destruct H2 as (s & -> & Hs).
    rewrite lerp_lerp_end. exists (t + s * (1 - t)). split; [reflexivity|].
    assert (E : t + s * (1 - t) = 1 - (1 - t) * (1 - s)) by ring. rewrite E.
    assert (- eps <= 1 - t <= 1 + eps) by lra. assert (- eps <= 1 - s <= 1 + eps) by lra.
    pose proof (prod_range eps (1 - t) (1 - s)). lra.
Qed.
Lemma world_real m l v : real_mesh m -> In l (layers m) -> In v (vertices l) -> exists q, world l v = vp q.
Proof.
  intros H Hl Hv. destruct (H l Hl) as [[o Ho] Hc]. destruct (Hc v Hv) as [q Hq]. exists (padd q o).
  unfold world. now rewrite Ho, Hq, vadd_vp.
Qed.

(** Every node that the search can generate: the two ends of its interval are points of the line of the crossed edge
    (a boundary edge of the polygon it comes from), at parameters between -2.0001e-4 and 1.0001 of it. *)
Theorem C48_intervals_on_edges (c : Ctx RA) (start : vec2 RA) ps n :
  nan_sane RA -> real_mesh (cmesh c) -> cpto c <> MAX -> reachable c start ps n ->
  exists l p va vb a b t0 t1,
    polygon_at (cmesh c) (nfrom n) l p /\ boundary_edge (pverts p) (fst (nedge n)) (snd (nedge n)) /\
    nthN (vertices l) (fst (nedge n)) = Some va /\ nthN (vertices l) (snd (nedge n)) = Some vb /\
    world l va = vp a /\ world l vb = vp b /\
    ninterval n = (vp (lerp a b t0), vp (lerp a b t1)) /\
    - (2 * eps + eps * eps) <= t0 <= 1 + eps + eps * eps /\
    - (2 * eps + eps * eps) <= t1 <= 1 + eps + eps * eps.
Proof.
  intros Hn Hm Hps Hr. apply reachable_supported in Hr; [|assumption|assumption].
  destruct Hr as [_ (xs & HC & _) (l & p & va & vb & HP & Hva & Hvb & E0) (l' & p' & va' & vb' & HP' & Hva' & Hvb' & E1)].
  cbn [node_crossing cr_from cr_a cr_b] in *.
  assert (l' = l) by (destruct HP, HP'; congruence). subst l'. assert (p' = p) by (destruct HP, HP'; congruence). subst p'.
  assert (va' = va) by congruence. assert (vb' = vb) by congruence. subst.
  assert (HB : boundary_edge (pverts p) (fst (nedge n)) (snd (nedge n))).
  { remember (xs ++ [node_crossing n]) as ys eqn:HY. destruct HC as [q|q ys y HC' HV].
    - destruct xs; discriminate.
    - apply app_inj_tail in HY. destruct HY as [_ ->]. destruct HV as (l2 & p2 & ? & ? & HP2 & HB & _).
      cbn [node_crossing cr_from cr_a cr_b] in *. assert (l2 = l) by (destruct HP, HP2; congruence). subst.
      assert (p2 = p) by (destruct HP, HP2; congruence). now subst. }
  pose proof (nthN_In _ _ _ (proj1 HP)) as Hl.
  destruct (world_real _ _ _ Hm Hl (nthN_In _ _ _ Hva)) as [a Ha]. destruct (world_real _ _ _ Hm Hl (nthN_In _ _ _ Hvb)) as [b Hb].
  rewrite Ha, Hb in E0, E1. apply edge_point_real in E0. apply edge_point_real in E1.
  destruct E0 as (t0 & H0 & G0). destruct E1 as (t1 & H1 & G1).
  exists l, p, va, vb, a, b, t0, t1. repeat (split; [assumption|]). split; [|split; assumption].
  destruct (ninterval n); cbn in *. now subst.
Qed.

Print Assumptions C45_mirror_is_reflection.
Print Assumptions C45_side_is_sign.
Print Assumptions C45_side_antisymmetric.
Print Assumptions C46_intersection_sound.
Print Assumptions C46_intersection_complete.
Print Assumptions C46_parallel_none.
Print Assumptions C48_intervals_on_edges.
