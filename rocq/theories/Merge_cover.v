(** The groups of polygons that merge_polygons glues cover what their polygons cover. *)
From Coq Require Import List NArith ZArith Bool Lia Reals Lra Psatz Permutation.
From Verif Require Import Base Arith U32 Mesh Helpers Spec RealArith Geometry Spec_inside Spec_merge Spec_merge_area Merger Merger_facts Rings Sight Sight_search Zarea Merge_area.
Import ListNotations.
Open Scope R_scope.

Lemma edges_pos (pos : N -> P2) r : poly_edges (map pos r) = map (fun e => (pos (fst e), pos (snd e))) (edge_list r).
Proof.
  unfold poly_edges, edge_list. assert (G : forall (a b : list N), combine (map pos a) (map pos b) = map (fun e => (pos (fst e), pos (snd e))) (combine a b)).
  { induction a as [|x a IH]; intros [|y b]; try reflexivity. cbn [map combine fst snd]. now rewrite IH. }
  rewrite <- G. f_equal. rewrite map_app. destruct r; reflexivity.
Qed.
(** Two triangles on the same side of the common edge [a b] overlap. *)
Lemma overlap a b v w : 0 < orient a b v -> 0 < orient a b w -> exists x s t u s' t' u',
  0 < s /\ 0 < t /\ 0 < u /\ 0 < s' /\ 0 < t' /\ 0 < u' /\ s + t + u = 1 /\ s' + t' + u' = 1 /\
  x = padd (padd (pscale s a) (pscale t b)) (pscale u v) /\ x = padd (padd (pscale s' a) (pscale t' b)) (pscale u' w).
Proof.
  intros Hv Hw. set (D := orient a b w) in *. set (al := orient v b w / D). set (be := orient a v w / D). set (ga := orient a b v / D).
  assert (Hga : 0 < ga) by (unfold ga; apply Rdiv_lt_0_compat; assumption).
  assert (Hsum : al + be + ga = 1).
  { unfold al, be, ga. assert (E : orient v b w + orient a v w + orient a b v = D) by (unfold D; clear; pts; ring).
    replace (orient v b w / D + orient a v w / D + orient a b v / D) with ((orient v b w + orient a v w + orient a b v) / D) by (field; lra). rewrite E. field. lra. }
  assert (Ev : v = padd (padd (pscale al a) (pscale be b)) (pscale ga w)).
  { assert (Ex : pscale D v = padd (padd (pscale (orient v b w) a) (pscale (orient a v w) b)) (pscale (orient a b v) w)).
    { unfold D. clear. destruct a as [ax ay], b as [bx b_y], v as [vx vy], w as [wx wy]. unfold padd, pscale, orient, cross, psub. apply P2_eq; cbn [px py]; ring. }
    clearbody D. unfold al, be, ga. clear -Ex Hw. destruct a as [ax ay], b as [bx b_y], v as [vx vy], w as [wx wy]. unfold padd, pscale in *. cbn [px py] in *.
    set (A1 := orient _ _ _) in *. set (A2 := orient _ _ _) in *. set (A3 := orient _ _ _) in *. clearbody A1 A2 A3. injection Ex as E1 E2.
    apply P2_eq; cbn [px py]; apply (Rmult_eq_reg_l D); try lra; [rewrite E1|rewrite E2]; field; lra. }
  clearbody al be ga. clear D Hw Hv.
  set (k := 1 + Rabs al + Rabs be). assert (Hk : 1 <= k) by (unfold k; pose proof (Rabs_pos al); pose proof (Rabs_pos be); lra).
  set (u := / (4 * k)). assert (Hu : 0 < u) by (unfold u; apply Rinv_0_lt_compat; lra).
  assert (Huk : u * k = 1 / 4) by (unfold u; field; lra).
  assert (Hu4 : u <= 1 / 4) by nra.
  assert (Ha : - (1 / 4) <= u * al).
  { pose proof (Rle_abs (- al)) as G. rewrite Rabs_Ropp in G. assert (u * Rabs al <= 1 / 4) by (rewrite <- Huk; apply Rmult_le_compat_l; [lra|unfold k; pose proof (Rabs_pos be); lra]). nra. }
  assert (Hb : - (1 / 4) <= u * be).
  { pose proof (Rle_abs (- be)) as G. rewrite Rabs_Ropp in G. assert (u * Rabs be <= 1 / 4) by (rewrite <- Huk; apply Rmult_le_compat_l; [lra|unfold k; pose proof (Rabs_pos al); lra]). nra. }
  exists (padd (padd (pscale ((1 - u) / 2) a) (pscale ((1 - u) / 2) b)) (pscale u v)), ((1 - u) / 2), ((1 - u) / 2), u, ((1 - u) / 2 + u * al), ((1 - u) / 2 + u * be), (u * ga).
  split; [lra|]. split; [lra|]. split; [lra|]. split; [lra|]. split; [lra|]. split; [apply Rmult_lt_0_compat; lra|]. split; [lra|].
  split; [assert (u * ga = u - u * al - u * be) by (replace ga with (1 - al - be) by lra; ring); lra|]. split; [reflexivity|].
  rewrite Ev. clear. destruct a as [ax ay], b as [bx b_y], w as [wx wy]. unfold padd, pscale. apply P2_eq; cbn [px py]; ring.
Qed.
Lemma orient_mix c d a b w s t u : s + t + u = 1 -> orient c d (padd (padd (pscale s a) (pscale t b)) (pscale u w)) = s * orient c d a + t * orient c d b + u * orient c d w.
Proof. intro H. replace u with (1 - s - t) by lra. clear. destruct c as [x1 y1], d as [x2 y2], a as [x3 y3], b as [x4 y4], w as [x5 y5]. unfold padd, pscale, orient, cross, psub. cbn [px py]. ring. Qed.
Lemma line_flat c d a b w : c <> d -> orient c d a = 0 -> orient c d b = 0 -> orient c d w = 0 -> orient a b w = 0.
Proof.
  intros Hne H1 H2 H3. destruct (on_line c d a Hne H1) as [t1 ->], (on_line c d b Hne H2) as [t2 ->], (on_line c d w Hne H3) as [t3 ->]. clear. unfold lerp; pts; ring.
Qed.
Lemma edge_ne qs c d : convex qs -> In (c, d) (poly_edges qs) -> c <> d.
Proof. intros [_ H] He <-. destruct (H _ _ He) as (q & _ & G). revert G. replace (orient c c q) with 0 by (clear; pts; ring). lra. Qed.
Lemma mix_strict qs a b w s t u : convex qs -> In a qs -> In b qs -> In w qs -> 0 < orient a b w -> 0 < s -> 0 < t -> 0 < u -> s + t + u = 1 ->
  strictly_inside qs (padd (padd (pscale s a) (pscale t b)) (pscale u w)).
Proof.
  intros HC Ia Ib Iw Hw Hs Ht Hu Hsum c d He. rewrite orient_mix by assumption.
  pose proof (convex_corner qs a HC Ia c d He) as G1. pose proof (convex_corner qs b HC Ib c d He) as G2. pose proof (convex_corner qs w HC Iw c d He) as G3.
  pose proof (edge_ne qs c d HC He) as Hne.
  destruct (Rle_lt_or_eq_dec _ _ G1) as [K1|K1]; [nra|]. destruct (Rle_lt_or_eq_dec _ _ G2) as [K2|K2]; [nra|]. destruct (Rle_lt_or_eq_dec _ _ G3) as [K3|K3]; [nra|].
  rewrite (line_flat c d a b w Hne) in Hw by lra. lra.
Qed.
Lemma strict_inside qs x : strictly_inside qs x -> inside qs x.
Proof. intros H a b He. apply Rlt_le, H, He. Qed.
(** Two convex rings with common corners a and b that have a corner on the same side of a b overlap. *)
Lemma side_overlap qs rs a b v w : convex qs -> convex rs -> In a qs -> In b qs -> In v qs -> In a rs -> In b rs -> In w rs ->
  0 < orient a b v -> 0 < orient a b w -> exists x, strictly_inside qs x /\ strictly_inside rs x.
Proof.
  intros HC HD A1 A2 A3 B1 B2 B3 Hv Hw. destruct (overlap a b v w Hv Hw) as (x & s & t & u & s' & t' & u' & P1 & P2 & P3 & P4 & P5 & P6 & P7 & P8 & E1 & E2).
  exists x. split; [rewrite E1|rewrite E2]; apply mix_strict; assumption.
Qed.

Lemma rotate_at (r : list N) a : In a r -> exists x y, r = x ++ y /\ exists w, y ++ x = a :: w.
Proof. intro H. apply in_split in H. destruct H as (p & q & ->). exists p, (a :: q). split; [reflexivity|]. now exists (q ++ p). Qed.
Lemma head_edge (a b : N) s : In (a, b) (edge_list (a :: b :: s)).
Proof. now left. Qed.

(** ** The groups of merge_polygons *)
Section Groups.
Variable cvx : list (vec2 RA) -> bool.
Variable vs : list (Vertex RA).
Variable ps : list Polygon.
Variable pos : N -> P2.
Definition usedv (a : N) := exists p, In p ps /\ In a (pverts p).
Hypothesis HC : forall p, In p ps -> convex (map pos (pverts p)).
Hypothesis HO : forall p, In p ps -> NoDup (pverts p).
Hypothesis HA : forall i j p q x, i <> j -> nthN ps i = Some p -> nthN ps j = Some q -> strictly_inside (map pos (pverts p)) x -> ~ inside (map pos (pverts q)) x.
Hypothesis HG : forall a b c, a <> b -> a <> c -> b <> c -> usedv a -> usedv b -> usedv c -> orient (pos a) (pos b) (pos c) <> 0.
Hypothesis HL : forall a v id p, nthN vs a = Some v -> In id (vpolys v) -> nthN ps id = Some p -> In a (pverts p).
Hypothesis HX : forall is cs, (forall a, In a is -> usedv a) -> at_positions vs is cs -> cvx cs = true ->
  forall x a b c y, is ++ firstn 2 is = x ++ a :: b :: c :: y -> 0 <= orient (pos a) (pos b) (pos c).

(** A convex ring of used vertices: the others are strictly left of each edge. *)
Lemma others_left r a b v : convex (map pos r) -> (forall x, In x r -> usedv x) -> a <> b -> In (a, b) (edge_list r) -> In a r -> In b r -> In v r -> v <> a -> v <> b ->
  0 < orient (pos a) (pos b) (pos v).
Proof using HG.
  intros HCr HUr Hne He Ia Ib Iv Na Nb.
  assert (G : In (pos a, pos b) (poly_edges (map pos r))) by (rewrite edges_pos; exact (in_map (fun e => (pos (fst e), pos (snd e))) _ _ He)).
  pose proof (convex_corner _ (pos v) HCr (in_map pos r v Iv) _ _ G) as K. pose proof (HG a b v Hne (not_eq_sym Na) (not_eq_sym Nb) (HUr a Ia) (HUr b Ib) (HUr v Iv)). lra.
Qed.
Lemma edge_In_ring (r : list N) a b : In (a, b) (edge_list r) -> In a r /\ In b r.
Proof.
  unfold edge_list. intro H. split; [exact (in_combine_l _ _ _ _ H)|]. apply in_combine_r in H. apply in_app_iff in H. destruct r as [|z r]; [destruct H as [[]|[]]|].
  destruct H as [H|H]; [now right|]. cbn [firstn] in H. destruct H as [<-|[]]. now left.
Qed.
Lemma ring_edge_ne r a b : convex (map pos r) -> In (a, b) (edge_list r) -> a <> b.
Proof. intros H He <-. apply (edge_ne _ (pos a) (pos a) H); [|reflexivity]. rewrite edges_pos. exact (in_map (fun e => (pos (fst e), pos (snd e))) _ _ He). Qed.
Lemma ring_edge_left r a b : convex (map pos r) -> In (a, b) (edge_list r) -> exists v, In v r /\ 0 < orient (pos a) (pos b) (pos v).
Proof.
  intros H He. destruct (proj2 H (pos a) (pos b)) as (c & Ic & Hc). { rewrite edges_pos. exact (in_map (fun e => (pos (fst e), pos (snd e))) _ _ He). }
  apply in_map_iff in Ic. destruct Ic as (v & <- & Iv). eauto.
Qed.
(** Two polygons do not have a directed edge in common, nor lie on the same side of a common chord. *)
Lemma same_side i j p q a b v w : i <> j -> nthN ps i = Some p -> nthN ps j = Some q -> In a (pverts p) -> In b (pverts p) -> In v (pverts p) ->
  In a (pverts q) -> In b (pverts q) -> In w (pverts q) -> 0 < orient (pos a) (pos b) (pos v) -> 0 < orient (pos a) (pos b) (pos w) -> False.
Proof using HC HA.
  intros Hne Hp Hq A1 A2 A3 B1 B2 B3 Hv Hw.
  destruct (side_overlap (map pos (pverts p)) (map pos (pverts q)) (pos a) (pos b) (pos v) (pos w)) as (x & X1 & X2);
    try (apply in_map; assumption); try assumption; try (apply HC; eapply nthN_In; eassumption).
  exact (HA i j p q x Hne Hp Hq X1 (strict_inside _ _ X2)).
Qed.
Lemma one_edge i j p q a b : i <> j -> nthN ps i = Some p -> nthN ps j = Some q -> In (a, b) (edge_list (pverts p)) -> In (a, b) (edge_list (pverts q)) -> False.
Proof using HC HA.
  intros Hne Hp Hq E1 E2. destruct (ring_edge_left _ a b (HC p (nthN_In _ _ _ Hp)) E1) as (v & Iv & Hv). destruct (ring_edge_left _ a b (HC q (nthN_In _ _ _ Hq)) E2) as (w & Iw & Hw).
  destruct (edge_In_ring _ _ _ E1), (edge_In_ring _ _ _ E2). exact (same_side i j p q a b v w Hne Hp Hq H H0 Iv H1 H2 Iw Hv Hw).
Qed.
(** A polygon that has the ends of an edge of another one has its reverse as an edge. *)
Lemma back_edge i o p q a b : i <> o -> nthN ps i = Some p -> nthN ps o = Some q -> In (a, b) (edge_list (pverts p)) -> In a (pverts q) -> In b (pverts q) ->
  In (b, a) (edge_list (pverts q)).
Proof using HC HO HA HG.
  intros Hne Hp Hq He Ia Ib. pose proof (HC p (nthN_In _ _ _ Hp)) as Cp. pose proof (HC q (nthN_In _ _ _ Hq)) as Cq.
  pose proof (ring_edge_ne _ _ _ Cp He) as Hab. destruct (ring_edge_left _ a b Cp He) as (v & Iv & Hv). destruct (edge_In_ring _ _ _ He) as [Pa Pb].
  assert (HR : forall w, In w (pverts q) -> w <> a -> w <> b -> orient (pos a) (pos b) (pos w) < 0).
  { intros w Iw Wa Wb. assert (U : forall z, In z (pverts q) -> usedv z) by (intros z Iz; exists q; split; [eapply nthN_In; eassumption|assumption]).
    pose proof (HG a b w Hab (not_eq_sym Wa) (not_eq_sym Wb) (U a Ia) (U b Ib) (U w Iw)).
    destruct (Rlt_le_dec 0 (orient (pos a) (pos b) (pos w))) as [G|G]; [|lra]. destruct (same_side i o p q a b v w Hne Hp Hq Pa Pb Iv Ia Ib Iw Hv G). }
  destruct (rotate_at (pverts q) b Ib) as (x & y & E & w & Ew). assert (Iw : In a w).
  { rewrite E in Ia. assert (G : In a (y ++ x)) by (apply in_app_iff; apply in_app_iff in Ia; tauto). rewrite Ew in G. destruct G as [G|G]; [congruence|exact G]. }
  assert (ND : NoDup (b :: w)). { rewrite <- Ew. apply (Permutation_NoDup (Permutation_app_comm x y)). rewrite <- E. apply HO. eapply nthN_In; eassumption. }
  apply in_split in Iw. destruct Iw as (s1 & s2 & ->). destruct s1 as [|z s1].
  - rewrite E. apply (Permutation_in _ (edge_list_rotate y x)). rewrite Ew. apply head_edge.
  - exfalso. assert (Iz : In z (pverts q)). { rewrite E. apply (Permutation_in _ (Permutation_app_comm y x)). rewrite Ew. right. now left. }
    assert (Cr : convex (map pos (y ++ x))). { rewrite map_app. apply convex_rotate. rewrite <- map_app, <- E. exact Cq. }
    rewrite Ew in Cr. destruct Cr as [Cr _]. specialize (Cr [] (pos b) [] (pos z) (map pos s1) (pos a) (map pos s2)).
    assert (G : 0 <= orient (pos b) (pos z) (pos a)) by (apply Cr; cbn [map app]; rewrite map_app; reflexivity).
    inversion_clear ND. inversion_clear H0. cbn [app] in *.
    assert (K : orient (pos a) (pos b) (pos z) < 0). { apply HR; [exact Iz| |]; intros ->; [apply H1; apply in_app_iff; right; now left|apply H; now left]. }
    revert K. replace (orient (pos a) (pos b) (pos z)) with (orient (pos b) (pos z) (pos a)) by (generalize (pos a), (pos b), (pos z); clear; intros; pts; ring). lra.
Qed.

Record group (c r : list N) : Prop := {
  gr_once : NoDup r;
  gr_convex : convex (map pos r);
  gr_inside : forall x, inside (map pos r) x <-> exists i p, In i c /\ nthN ps i = Some p /\ inside (map pos (pverts p)) x;
  gr_edge : forall i p a b, In i c -> nthN ps i = Some p -> In (a, b) (edge_list (pverts p)) ->
    In (a, b) (edge_list r) \/ exists j q, In j c /\ j <> i /\ nthN ps j = Some q /\ In (b, a) (edge_list (pverts q));
  gr_from : forall e, In e (edge_list r) -> exists i p, In i c /\ nthN ps i = Some p /\ In e (edge_list (pverts p));
  gr_verts : forall a, In a r <-> exists i p, In i c /\ nthN ps i = Some p /\ In a (pverts p)
}.
Lemma group_one i p : nthN ps i = Some p -> group [i] (pverts p).
Proof using HC HO.
  intro Hp. pose proof (nthN_In _ _ _ Hp) as Ip. constructor.
  - exact (HO p Ip).
  - exact (HC p Ip).
  - intro x. split; [intro H; exists i, p; split; [now left|auto]|]. intros (j & q & [<-|[]] & Hq & H). assert (q = p) by congruence. now subst q.
  - intros j q a b [<-|[]] Hq H. assert (q = p) by congruence. subst q. now left.
  - intros e H. exists i, p. split; [now left|auto].
  - intro a. split; [intro H; exists i, p; split; [now left|auto]|]. intros (j & q & [<-|[]] & Hq & H). assert (q = p) by congruence. now subst q.
Qed.
Lemma group_used c r a : group c r -> In a r -> usedv a.
Proof. intros G H. apply (gr_verts c r G) in H. destruct H as (i & p & _ & Hp & H). exists p. split; [eapply nthN_In; eassumption|exact H]. Qed.

Lemma map_snoc_inv (l : list N) s z : map pos l = s ++ [z] -> exists l0 k, l = l0 ++ [k] /\ z = pos k.
Proof.
  destruct l as [|k l _] using rev_ind; [destruct s; discriminate|]. rewrite map_app. cbn [map]. intro H. apply app_inj_tail in H. destruct H as [_ <-]. eauto.
Qed.

Lemma group_two c1 r1 c2 r2 a b va vb o cs : (forall i, In i c1 -> In i c2 -> False) -> group c1 r1 -> group c2 r2 ->
  (forall i, In i c2 -> exists p, nthN ps i = Some p) ->
  In (a, b) (edge_list r1) -> nthN vs a = Some va -> nthN vs b = Some vb -> In o c2 -> In o (vpolys va) -> In o (vpolys vb) ->
  at_positions vs (arc r1 b a ++ arc r2 a b) cs -> cvx cs = true -> group (c1 ++ c2) (arc r1 b a ++ arc r2 a b).
Proof using HC HO HA HG HL HX.
  intros Hd G1 G2 Hex He Hva Hvb Io Oa Ob Hcs Hcv. destruct (Hex o Io) as [q Hq].
  destruct (gr_from _ _ G1 _ He) as (i & p & Ii & Hp & Hep). assert (Hio : i <> o) by (intros ->; exact (Hd o Ii Io)).
  pose proof (back_edge i o p q a b Hio Hp Hq Hep (HL a va o q Hva Oa Hq) (HL b vb o q Hvb Ob Hq)) as Hbq.
  pose proof (ring_edge_ne _ _ _ (HC p (nthN_In _ _ _ Hp)) Hep) as Hab.
  assert (Hb2 : In (b, a) (edge_list r2)).
  { destruct (gr_edge _ _ G2 o q b a Io Hq Hbq) as [H|(k & qk & Ik & Hk & Hqk & H)]; [exact H|exfalso].
    assert (Hik : i <> k) by (intros ->; exact (Hd k Ii Ik)). exact (one_edge i k p qk a b Hik Hp Hqk Hep H). }
  pose proof (glue_edges r1 r2 a b (gr_once _ _ G1) (gr_once _ _ G2) Hab He Hb2) as HE.
  destruct (edge_split r1 a b (gr_once _ _ G1) Hab He) as (x1 & y1 & w1 & R1 & E1 & A1).
  destruct (edge_split r2 b a (gr_once _ _ G2) (not_eq_sym Hab) Hb2) as (x2 & y2 & w2 & R2 & E2 & A2).
  rewrite A1, A2 in *. set (r := (b :: w1) ++ a :: w2) in *.
  assert (P1 : Permutation r1 (b :: w1 ++ [a])) by (rewrite R1, <- E1; apply Permutation_app_comm).
  assert (P2 : Permutation r2 (a :: w2 ++ [b])) by (rewrite R2, <- E2; apply Permutation_app_comm).
  assert (D1 : NoDup (b :: w1 ++ [a])) by exact (Permutation_NoDup P1 (gr_once _ _ G1)).
  assert (D2 : NoDup (a :: w2 ++ [b])) by exact (Permutation_NoDup P2 (gr_once _ _ G2)).
  assert (I1 : forall v, In v r1 <-> v = b \/ In v w1 \/ v = a).
  { intro v. split; intro H; [apply (Permutation_in _ P1) in H|apply (Permutation_in _ (Permutation_sym P1))]; cbn [In] in *; rewrite in_app_iff in *; cbn [In] in *; intuition congruence. }
  assert (I2 : forall v, In v r2 <-> v = a \/ In v w2 \/ v = b).
  { intro v. split; intro H; [apply (Permutation_in _ P2) in H|apply (Permutation_in _ (Permutation_sym P2))]; cbn [In] in *; rewrite in_app_iff in *; cbn [In] in *; intuition congruence. }
  assert (N1 : forall v, In v w1 -> v <> a /\ v <> b).
  { intros v H. inversion_clear D1. split; intros ->; [|apply H0; apply in_app_iff; now left]. apply NoDup_remove_2 in H1. apply H1. now rewrite app_nil_r. }
  assert (N2 : forall v, In v w2 -> v <> a /\ v <> b).
  { intros v H. inversion_clear D2. split; intros ->; [apply H0; apply in_app_iff; now left|]. apply NoDup_remove_2 in H1. apply H1. now rewrite app_nil_r. }
  assert (S1 : forall v, In v w1 -> 0 < orient (pos a) (pos b) (pos v)).
  { intros v H. destruct (N1 v H). apply (others_left r1); try assumption; [exact (gr_convex _ _ G1)|intros z; exact (group_used _ _ z G1)|apply I1; auto|apply I1; auto|apply I1; auto]. }
  assert (S2 : forall v, In v w2 -> 0 < orient (pos b) (pos a) (pos v)).
  { intros v H. destruct (N2 v H). apply (others_left r2); try assumption; [exact (gr_convex _ _ G2)|intros z; exact (group_used _ _ z G2)|auto|apply I2; auto|apply I2; auto|apply I2; auto]. }
  assert (Dr : NoDup r).
  { unfold r. inversion_clear D1. inversion_clear D2. apply NoDup_app_intro.
    - constructor; [intro H3; apply H; apply in_app_iff; now left|]. apply NoDup_remove_1 in H0. now rewrite app_nil_r in H0.
    - constructor; [intro H3; apply H1; apply in_app_iff; now left|]. apply NoDup_remove_1 in H2. now rewrite app_nil_r in H2.
    - intros v [<-|Hv] [Hv'|Hv']; [congruence|destruct (N2 b Hv'); congruence|subst v; destruct (N1 a Hv); congruence|].
      pose proof (S1 v Hv) as K1. pose proof (S2 v Hv') as K2. replace (orient (pos b) (pos a) (pos v)) with (- orient (pos a) (pos b) (pos v)) in K2 by (generalize (pos a), (pos b), (pos v); clear; intros; pts; ring). lra. }
  assert (Ir : forall v, In v r <-> In v r1 \/ In v r2).
  { intro v. unfold r. rewrite in_app_iff, I1, I2. cbn [In]. clear. split.
    - intros [[->|H]|[->|H]]; auto.
    - intros [[->|[H| ->]]|[->|[H| ->]]]; auto. }
  assert (Ur : forall v, In v r -> usedv v) .
  { intros v H. apply Ir in H. destruct H as [H|H]; [exact (group_used _ _ v G1 H)|exact (group_used _ _ v G2 H)]. }
  assert (C1 : convex (pos b :: map pos w1 ++ [pos a])).
  { pose proof (gr_convex _ _ G1) as H. rewrite R1, map_app in H. apply convex_rotate in H. rewrite <- map_app, E1 in H. cbn [map] in H. rewrite map_app in H. exact H. }
  assert (C2 : convex (pos a :: map pos w2 ++ [pos b])).
  { pose proof (gr_convex _ _ G2) as H. rewrite R2, map_app in H. apply convex_rotate in H. rewrite <- map_app, E2 in H. cbn [map] in H. rewrite map_app in H. exact H. }
  assert (M1 : forall x, inside (map pos r1) x <-> inside (pos b :: map pos w1 ++ [pos a]) x).
  { intro x. rewrite R1, map_app, inside_rotate, <- map_app, E1. cbn [map]. rewrite map_app. reflexivity. }
  assert (M2 : forall x, inside (map pos r2) x <-> inside (pos a :: map pos w2 ++ [pos b]) x).
  { intro x. rewrite R2, map_app, inside_rotate, <- map_app, E2. cbn [map]. rewrite map_app. reflexivity. }
  assert (HM : meets (pos a) (pos b) (map pos w1) (map pos w2)).
  { constructor; [exact C1|exact C2| | |].
    - intros c rr z s F1 F2. destruct w1 as [|c1' w1']; [discriminate|]. cbn [map] in F1. injection F1 as <- _.
      destruct (map_snoc_inv _ _ _ F2) as (l0 & k & -> & ->). apply (HX r cs Ur Hcs Hcv (b :: c1' :: w1' ++ a :: l0) k b c1' []).
      unfold r. cbn [app firstn]. rewrite <- !app_assoc. cbn [app]. rewrite <- !app_assoc. reflexivity.
    - intros d rr y s F1 F2. destruct w2 as [|y2' w2']; [discriminate|]. cbn [map] in F2. injection F2 as <- _.
      destruct (map_snoc_inv _ _ _ F1) as (l0 & k & -> & ->). apply (HX r cs Ur Hcs Hcv (b :: l0) k a y2' (w2' ++ firstn 2 r)).
      unfold r. cbn [app]. rewrite <- !app_assoc. cbn [app]. reflexivity.
    - intros x X1 X2. assert (Hpab : pos a <> pos b). { intro H. pose proof (ring_some _ _ _ C1) as (v & _ & Hv). rewrite H in Hv. revert Hv. generalize (pos b). clear. intros p0 Hv. revert Hv. replace (orient p0 p0 v) with 0 by (pts; ring). lra. }
      pose proof (X1 _ _ (closing (pos a) (pos b) (map pos w1))) as K1. pose proof (X2 _ _ (closing (pos b) (pos a) (map pos w2))) as K2.
      replace (orient (pos b) (pos a) x) with (- orient (pos a) (pos b) x) in K2 by (generalize (pos a), (pos b); clear; intros; pts; ring).
      destruct (on_line (pos a) (pos b) x Hpab) as [t ->]; [lra|]. exists t. split; [|reflexivity].
      destruct (ring_some _ _ _ C1) as (v & Iv & _). destruct w1 as [|c1' w1']; [destruct Iv|]. split.
      + destruct (@exists_last _ (c1' :: w1') (not_eq_sym (@nil_cons _ c1' w1'))) as (l0 & d & E).
        rewrite E, map_app in X1. cbn [map] in X1. assert (Ed : In (pos d, pos a) (poly_edges (pos b :: (map pos l0 ++ [pos d]) ++ [pos a]))).
        { clear. rewrite <- app_assoc. cbn [app]. assert (W : forall z l, In (pos d, pos a) (combine (z :: l ++ [pos d; pos a]) ((l ++ [pos d; pos a]) ++ [pos b]))).
          { intros z l. revert z. induction l as [|k l IH]; intro z; cbn [app combine]; [right; left; reflexivity|right; apply IH]. } exact (W (pos b) (map pos l0)). }
        pose proof (X1 _ _ Ed) as K. assert (Hd' : 0 < orient (pos a) (pos b) (pos d)) by (apply S1; rewrite E; apply in_app_iff; right; now left).
        replace (orient (pos d) (pos a) (lerp (pos a) (pos b) t)) with (t * orient (pos a) (pos b) (pos d)) in K by (generalize (pos a), (pos b), (pos d); clear; intros; unfold lerp; pts; ring). nra.
      + assert (Ed : In (pos b, pos c1') (poly_edges (pos b :: map pos (c1' :: w1') ++ [pos a]))) by now left.
        pose proof (X1 _ _ Ed) as K. assert (Hd' : 0 < orient (pos a) (pos b) (pos c1')) by (apply S1; now left).
        replace (orient (pos b) (pos c1') (lerp (pos a) (pos b) t)) with ((1 - t) * orient (pos a) (pos b) (pos c1')) in K by (generalize (pos a), (pos b), (pos c1'); clear; intros; unfold lerp; pts; ring). nra. }
  assert (Emap : map pos r = pos b :: map pos w1 ++ pos a :: map pos w2) by (unfold r; rewrite map_app; reflexivity).
  constructor.
  - exact Dr.
  - rewrite Emap. exact (glue_convex _ _ _ _ HM).
  - intro x. rewrite Emap, (glue_inside _ _ _ _ x HM), <- M1, <- M2, (gr_inside _ _ G1), (gr_inside _ _ G2). split.
    + intros [(j & pj & Ij & H)|(j & pj & Ij & H)]; exists j, pj; (split; [apply in_app_iff; auto|exact H]).
    + intros (j & pj & Ij & H). apply in_app_iff in Ij. destruct Ij as [Ij|Ij]; [left|right]; exists j, pj; split; assumption.
  - intros j pj u w Ij Hpj Hu.
    assert (Hsplit : forall e, In e (edge_list r1) \/ In e (edge_list r2) -> e = (a, b) \/ e = (b, a) \/ In e (edge_list r)).
    { intros e H. assert (K : In e ((a, b) :: (b, a) :: edge_list r)) by (apply (Permutation_in _ (Permutation_sym HE)); apply in_app_iff; exact H). destruct K as [K|[K|K]]; auto. }
    assert (HS : In (u, w) (edge_list r1) \/ In (u, w) (edge_list r2) -> In (u, w) (edge_list r) \/ exists j0 q0, In j0 (c1 ++ c2) /\ j0 <> j /\ nthN ps j0 = Some q0 /\ In (w, u) (edge_list (pverts q0))).
    { intro H. destruct (Hsplit _ H) as [K|[K|K]]; [| |now left]; injection K as -> ->; right.
      - exists o, q. split; [apply in_app_iff; auto|]. split; [|auto]. intros ->. assert (pj = q) by congruence. subst pj. exact (one_edge i j p q a b Hio Hp Hq Hep Hu).
      - exists i, p. split; [apply in_app_iff; auto|]. split; [|auto]. intros ->. assert (pj = p) by congruence. subst pj. exact (one_edge j o p q b a Hio Hp Hq Hu Hbq). }
    apply in_app_iff in Ij. destruct Ij as [Ij|Ij].
    + destruct (gr_edge _ _ G1 j pj u w Ij Hpj Hu) as [H|(k & qk & Ik & Hk & H)]; [apply HS; now left|]. right. exists k, qk. split; [apply in_app_iff; auto|auto].
    + destruct (gr_edge _ _ G2 j pj u w Ij Hpj Hu) as [H|(k & qk & Ik & Hk & H)]; [apply HS; now right|]. right. exists k, qk. split; [apply in_app_iff; auto|auto].
  - intros e H. assert (K : In e (edge_list r1 ++ edge_list r2)) by (apply (Permutation_in _ HE); right; right; exact H).
    apply in_app_iff in K. destruct K as [K|K]; [destruct (gr_from _ _ G1 _ K) as (j & pj & Ij & Hj)|destruct (gr_from _ _ G2 _ K) as (j & pj & Ij & Hj)];
      exists j, pj; (split; [apply in_app_iff; auto|exact Hj]).
  - intro v. rewrite Ir, (gr_verts _ _ G1), (gr_verts _ _ G2). split.
    + intros [(j & pj & Ij & H)|(j & pj & Ij & H)]; exists j, pj; (split; [apply in_app_iff; auto|exact H]).
    + intros (j & pj & Ij & H). apply in_app_iff in Ij. destruct Ij as [Ij|Ij]; [left|right]; exists j, pj; split; assumption.
Qed.
Lemma NoDup_app_parts {T} (l1 l2 : list T) : NoDup (l1 ++ l2) -> NoDup l1 /\ NoDup l2 /\ forall x, In x l1 -> In x l2 -> False.
Proof.
  induction l1 as [|x l1 IH]; cbn [app]; intro H; [split; [constructor|split; [exact H|intros x []]]|]. inversion_clear H. destruct (IH H1) as (K1 & K2 & K3).
  split; [constructor; [intro K; apply H0; apply in_app_iff; now left|exact K1]|]. split; [exact K2|]. intros z [<-|Hz] Hz'; [apply H0; apply in_app_iff; now right|exact (K3 z Hz Hz')].
Qed.
Lemma merged_members c r : merged cvx vs ps c r -> forall i, In i c -> exists p, nthN ps i = Some p.
Proof. induction 1; intros k Hk; [destruct Hk as [<-|[]]; eauto|]. apply in_app_iff in Hk. destruct Hk; auto. Qed.
Theorem merged_group c r : merged cvx vs ps c r -> NoDup c -> group c r.
Proof using HC HO HA HG HL HX.
  intro H. induction H as [i p Hp|c1 r1 c2 r2 a b va vb o cs H1 IH1 H2 IH2 He Hva Hvb Io Oa Ob Hcs Hcv]; intro ND; [exact (group_one i p Hp)|].
  apply NoDup_app_parts in ND. destruct ND as (D1 & D2 & Hd).
  exact (group_two c1 r1 c2 r2 a b va vb o cs Hd (IH1 D1) (IH2 D2) (merged_members _ _ H2) He Hva Hvb Io Oa Ob Hcs Hcv).
Qed.
End Groups.
