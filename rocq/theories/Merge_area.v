(** Gluing two convex polygons along an edge. *)
From Coq Require Import List NArith ZArith Bool Lia Reals Lra Psatz Permutation.
From Verif Require Import Base Arith RealArith Geometry Spec_inside Sight Sight_search Zarea.
Import ListNotations.
Open Scope R_scope.

(** ** Ordered pairs and triples of a list *)
Fixpoint ord2 (l : list P2) (a b : P2) : Prop := match l with [] => False | h :: t => (h = a /\ In b t) \/ ord2 t a b end.
Fixpoint ord3 (l : list P2) (a b c : P2) : Prop := match l with [] => False | h :: t => (h = a /\ ord2 t b c) \/ ord3 t a b c end.
Lemma ord2_app l1 l2 a b : ord2 (l1 ++ l2) a b <-> ord2 l1 a b \/ (In a l1 /\ In b l2) \/ ord2 l2 a b.
Proof. induction l1 as [|h t IH]; cbn [app ord2 In]; [tauto|]. rewrite IH, in_app_iff. tauto. Qed.
Lemma ord3_app l1 l2 a b c : ord3 (l1 ++ l2) a b c <-> ord3 l1 a b c \/ (ord2 l1 a b /\ In c l2) \/ (In a l1 /\ ord2 l2 b c) \/ ord3 l2 a b c.
Proof. induction l1 as [|h t IH]; cbn [app ord3 ord2 In]; [tauto|]. rewrite IH, ord2_app. tauto. Qed.
Lemma ord2_split l a b : ord2 l a b <-> exists x y z, l = x ++ a :: y ++ b :: z.
Proof.
  induction l as [|h t IH]; cbn [ord2].
  - split; [tauto|]. intros ([|? x] & y & z & E); discriminate E.
  - rewrite IH. split.
    + intros [[-> H]|(x & y & z & ->)]; [destruct (in_split _ _ H) as (y & z & ->); exists [], y, z; reflexivity|exists (h :: x), y, z; reflexivity].
    + intros ([|h' x] & y & z & E); cbn [app] in E; injection E as -> ->; [left; split; [reflexivity|apply in_or_app; right; now left]|right; eauto].
Qed.
Lemma ord3_split l a b c : ord3 l a b c <-> exists x y z w, l = x ++ a :: y ++ b :: z ++ c :: w.
Proof.
  induction l as [|h t IH]; cbn [ord3].
  - split; [tauto|]. intros ([|? x] & y & z & w & E); discriminate E.
  - rewrite IH, ord2_split. split.
    + intros [[-> (y & z & w & ->)]|(x & y & z & w & ->)]; [exists [], y, z, w; reflexivity|exists (h :: x), y, z, w; reflexivity].
    + intros ([|h' x] & y & z & w & E); cbn [app] in E; injection E as -> ->; [left; split; [reflexivity|eauto]|right; eauto].
Qed.
Lemma ord2_In l a b : ord2 l a b -> In a l /\ In b l.
Proof. induction l as [|h t IH]; cbn [ord2 In]; [tauto|]. intros [[-> H]|H]; [tauto|]. apply IH in H. tauto. Qed.
Lemma convex_ord qs : convex qs <-> (forall a b c, ord3 qs a b c -> 0 <= orient a b c) /\ (forall a b, In (a, b) (poly_edges qs) -> exists c, In c qs /\ 0 < orient a b c).
Proof.
  unfold convex. split; intros [H1 H2]; (split; [|exact H2]).
  - intros a b c H. apply ord3_split in H. destruct H as (x & y & z & w & E). exact (H1 x a y b z c w E).
  - intros x a y b z c w E. apply H1. apply ord3_split. eauto.
Qed.
Lemma edges_rotate x y : Permutation (poly_edges (x ++ y)) (poly_edges (y ++ x)).
Proof.
  destruct x as [|c x]; [rewrite app_nil_r; reflexivity|]. destruct y as [|d y]; [rewrite app_nil_r; reflexivity|].
  unfold poly_edges. cbn [app tl firstn].
  assert (G : forall (l r : list P2) (c d e : P2), combine (c :: l ++ d :: r) ((l ++ d :: r) ++ [e]) = combine (c :: l) (l ++ [d]) ++ combine (d :: r) (r ++ [e])).
  { clear. induction l as [|h l IH]; intros r c d e; [reflexivity|]. transitivity ((c, h) :: combine (h :: l ++ d :: r) ((l ++ d :: r) ++ [e])); [reflexivity|]. rewrite IH. reflexivity. }
  rewrite !G. apply Permutation_app_comm.
Qed.
Lemma convex_rotate x y : convex (x ++ y) -> convex (y ++ x).
Proof.
  rewrite !convex_ord. intros [H1 H2]. split.
  - intros a b c H. apply ord3_app in H. destruct H as [H|[[Ha Hc]|[[Ha H]|H]]].
    + apply H1. apply ord3_app. auto.
    + rewrite orient_312. apply H1. apply ord3_app. auto.
    + rewrite orient_231. apply H1. apply ord3_app. auto.
    + apply H1. apply ord3_app. auto.
  - intros a b H. apply (Permutation_in _ (Permutation_sym (edges_rotate x y))) in H. destruct (H2 a b H) as (c & Hc & Ho). exists c. split; [|exact Ho].
    apply in_app_iff. apply in_app_iff in Hc. tauto.
Qed.
Lemma inside_rotate x y p : inside (x ++ y) p <-> inside (y ++ x) p.
Proof. split; intros H a b He; apply H; eapply Permutation_in; [apply edges_rotate|exact He|apply edges_rotate|exact He]. Qed.

(** ** Points *)
Ltac turned H := eapply Rle_trans; [exact H|]; clear; apply Req_le; pts; ring.
Lemma beyond_1 a b v t : orient b (lerp a b t) v = (t - 1) * orient a b v.
Proof. unfold lerp; pts; ring. Qed.
Lemma beyond_2 a b w t : orient (lerp a b t) b w = (1 - t) * orient a b w.
Proof. unfold lerp; pts; ring. Qed.
(** [c] follows [a b] in a ring on the left of [a b], [z] precedes [b a] in a ring on its right, and [z b c] does not turn right. *)
Lemma corner_core a b c z v w : 0 < orient a b v -> 0 < orient b a w -> (v = c \/ 0 <= orient b c v) -> (w = z \/ 0 <= orient w z b) -> c <> b -> z <> b ->
  0 <= orient z b c -> 0 <= orient a b c -> 0 <= orient b a z ->
  0 < orient a b c \/ exists s t, 1 < s /\ 1 < t /\ c = lerp a b t /\ z = lerp a b s.
Proof.
  intros Hv Hw Hc Hz Nc Nz Hl H1 H2. assert (Hab : a <> b) by (intros ->; revert Hv; clear; pts; lra).
  destruct (Req_dec (orient a b c) 0) as [E|E]; [|left; lra]. right.
  destruct (on_line a b c Hab E) as (t & Et).
  assert (T : 1 < t).
  { destruct Hc as [->|Hc]; [lra|]. rewrite Et, beyond_1 in Hc. destruct (Req_dec t 1) as [->|]; [exfalso; apply Nc; rewrite Et; clear; unfold lerp; pts; apply P2_eq; cbn [px py]; ring|]. nra. }
  assert (Hl' : 0 <= orient b c z) by (turned Hl). rewrite Et, beyond_1 in Hl'.
  assert (Ez : orient a b z = 0). { assert (orient b a z = - orient a b z) by (clear; pts; ring). nra. }
  destruct (on_line a b z Hab Ez) as (s & Es). exists s, t. split; [|auto].
  destruct Hz as [->|Hz]; [exfalso; assert (orient b a z = - orient a b z) by (clear; pts; ring); lra|].
  assert (Hz' : 0 <= orient z b w) by (turned Hz). rewrite Es, beyond_2 in Hz'.
  assert (orient b a w = - orient a b w) by (clear; pts; ring).
  destruct (Req_dec s 1) as [->|]; [exfalso; apply Nz; rewrite Es; clear; unfold lerp; pts; apply P2_eq; cbn [px py]; ring|]. nra.
Qed.
Definition flip (p : P2) : P2 := P (px p) (- py p).
Lemma flip_orient a b c : orient (flip a) (flip b) (flip c) = orient b a c.
Proof. unfold flip. pts. ring. Qed.
Lemma flip_flip p : flip (flip p) = p.
Proof. unfold flip. destruct p as [x y]. cbn [px py]. f_equal. ring. Qed.
Lemma flip_inj p q : flip p = flip q -> p = q.
Proof. intro E. rewrite <- (flip_flip p), <- (flip_flip q). now rewrite E. Qed.
Lemma corner_core_back a b d y v w : 0 < orient a b v -> 0 < orient b a w -> (v = d \/ 0 <= orient v d a) -> (w = y \/ 0 <= orient a y w) -> d <> a -> y <> a ->
  0 <= orient d a y -> 0 <= orient a b d -> 0 <= orient b a y ->
  0 < orient a b d \/ exists s t, s < 0 /\ t < 0 /\ d = lerp a b t /\ y = lerp a b s.
Proof.
  intros Hv Hw Hd Hy Nd Ny Hl H1 H2.
  destruct (corner_core (flip b) (flip a) (flip d) (flip y) (flip v) (flip w)) as [H|(s & t & S & T & E1 & E2)]; try (rewrite flip_orient; assumption).
  - destruct Hd as [->|Hd]; [now left|right]. rewrite flip_orient. turned Hd.
  - destruct Hy as [->|Hy]; [now left|right]. rewrite flip_orient. turned Hy.
  - intro E. apply Nd. now apply flip_inj.
  - intro E. apply Ny. now apply flip_inj.
  - rewrite flip_orient. turned Hl.
  - left. rewrite flip_orient in H. exact H.
  - right. exists (1 - s), (1 - t). split; [lra|]. split; [lra|].
    split; apply flip_inj; [rewrite E1|rewrite E2]; clear; unfold flip, lerp; pts; apply P2_eq; cbn [px py]; ring.
Qed.
Lemma wedge a b x y q : 0 < orient a b x -> 0 < orient a b y -> 0 <= orient b x y -> 0 <= orient x y a -> 0 < orient b a q -> 0 <= orient b x q -> 0 <= orient y a q ->
  0 <= orient x y q.
Proof.
  intros Hx Hy H1 H2 Hq H3 H4. destruct (Rle_lt_dec 0 (orient x y q)) as [H|H]; [exact H|exfalso].
  assert (E1 : orient b x q * (orient a b y - orient a b x) = orient x y q * orient a b x - orient b x y * orient a b x - orient b a q * orient b x y) by (clear; pts; ring).
  assert (E2 : orient y a q * (orient a b x - orient a b y) = orient x y q * orient a b y - orient x y a * orient a b y - orient b a q * orient x y a) by (clear; pts; ring).
  destruct (Rtotal_order (orient a b x) (orient a b y)) as [G|[G|G]]; nra.
Qed.

(** ** Two rings with a common edge *)
(** [b m1 a] and [a m2 b] are convex rings that have exactly the segment [a b] in common, and the turns of the glued ring at its ends
    are no right turns. *)
Record meets (a b : P2) (m1 m2 : list P2) : Prop := {
  mt_P : convex (b :: m1 ++ [a]);
  mt_Q : convex (a :: m2 ++ [b]);
  mt_b : forall c r z s, m1 = c :: r -> m2 = s ++ [z] -> 0 <= orient z b c;
  mt_a : forall d r y s, m1 = r ++ [d] -> m2 = y :: s -> 0 <= orient d a y;
  mt_T : forall x, inside (b :: m1 ++ [a]) x -> inside (a :: m2 ++ [b]) x -> exists t, 0 <= t <= 1 /\ x = lerp a b t
}.
Lemma meets_sym a b m1 m2 : meets a b m1 m2 -> meets b a m2 m1.
Proof.
  intros [HP HQ Hb Ha HT]. constructor; [exact HQ|exact HP| | |].
  - intros c r z s E1 E2. exact (Ha z s c r E2 E1).
  - intros d r y s E1 E2. exact (Hb y s d r E2 E1).
  - intros x H1 H2. destruct (HT x H2 H1) as (t & Ht & ->). exists (1 - t). split; [lra|]. clear. unfold lerp; pts; apply P2_eq; cbn [px py]; ring.
Qed.
Lemma closing a b (m : list P2) : In (a, b) (poly_edges (b :: m ++ [a])).
Proof. apply poly_edges_In. right. exists (b :: m), (m ++ [a]). split; reflexivity. Qed.
Lemma ring_some a b m : convex (b :: m ++ [a]) -> exists v, In v m /\ 0 < orient a b v.
Proof.
  intros [_ H]. destruct (H a b (closing a b m)) as (v & Hv & Ho). exists v. split; [|exact Ho]. destruct Hv as [<-|Hv]; [exfalso; revert Ho; clear; pts; lra|].
  apply in_app_or in Hv. destruct Hv as [Hv|[<-|[]]]; [exact Hv|exfalso; revert Ho; clear; pts; lra].
Qed.
Lemma ring_step qs x u w y : convex qs -> qs = x ++ u :: w :: y -> u <> w.
Proof.
  intros [_ H] E ->. destruct (H w w) as (c & _ & Ho); [apply poly_edges_In; left; eauto|]. revert Ho. clear. pts. lra.
Qed.
Lemma ring_ord a b m x y z : convex (b :: m ++ [a]) -> ord3 (b :: m ++ [a]) x y z -> 0 <= orient x y z.
Proof. intros H. apply convex_ord in H. apply H. Qed.
Lemma ord3_first b l x y : ord2 l x y -> ord3 (b :: l) b x y.
Proof. intro H. left. auto. Qed.
Lemma ord2_last (l : list P2) x a : In x l -> ord2 (l ++ [a]) x a.
Proof. intro H. apply ord2_app. right. left. split; [exact H|now left]. Qed.
Lemma corner_inside qs x : convex qs -> In x qs -> inside qs x. Proof. apply convex_corner. Qed.

Lemma meets_at_b a b m1 m2 c r : meets a b m1 m2 -> m1 = c :: r -> 0 < orient a b c.
Proof.
  intros H E1. pose proof H as [HP HQ Hb Ha HT].
  destruct (ring_some a b m1 HP) as (v & Hv & Ov). destruct (ring_some b a m2 HQ) as (w & Hw & Ow).
  destruct (exists_last (l := m2)) as (s & z & E2); [intros ->; destruct Hw|].
  assert (Nc : c <> b). { intro Ec. subst c. rewrite E1 in HP. exact (ring_step _ [] b b (r ++ [a]) HP eq_refl eq_refl). }
  assert (Nz : z <> b). { intro Ez. subst z. rewrite E2 in HQ. refine (ring_step _ (a :: s) b b [] HQ _ eq_refl). rewrite <- app_assoc. reflexivity. }
  destruct (corner_core a b c z v w) as [G|(s' & t & S & T & Ec & Ez)]; auto.
  - rewrite E1 in Hv. destruct Hv as [->|Hv]; [now left|right]. apply (ring_ord a b m1); [exact HP|]. apply ord3_first. rewrite E1. cbn [app]. left. split; [reflexivity|]. apply in_or_app. now left.
  - rewrite E2 in Hw. apply in_app_or in Hw. destruct Hw as [Hw|[->|[]]]; [right|now left]. apply (ring_ord b a m2); [exact HQ|]. rewrite E2, <- app_assoc. right. apply ord3_app. right. right. left. split; [exact Hw|]. left. split; [reflexivity|now left].
  - exact (Hb c r z s E1 E2).
  - assert (Q : 0 <= orient b c a). { apply (ring_ord a b m1); [exact HP|]. rewrite E1. apply ord3_first. apply ord2_last. now left. } turned Q.
  - assert (Q : 0 <= orient a z b). { apply (ring_ord b a m2); [exact HQ|]. rewrite E2. apply ord3_first. apply ord2_last. apply in_or_app. right. now left. } turned Q.
  - exfalso. assert (Hab : a <> b) by (intros ->; revert Ov; clear; pts; lra).
    assert (IP : forall u, 1 <= u <= t -> inside (b :: m1 ++ [a]) (lerp a b u)).
    { intros u Hu. replace (lerp a b u) with (lerp b c ((u - 1) / (t - 1))).
      - apply inside_lerp; [apply corner_inside; [exact HP|now left]|apply corner_inside; [exact HP|rewrite E1; right; now left]|].
        split; [apply Rmult_le_pos; [lra|left; apply Rinv_0_lt_compat; lra]|]. apply Rmult_le_reg_r with (t - 1); [lra|]. unfold Rdiv. rewrite Rmult_assoc, Rinv_l by lra. lra.
      - rewrite Ec. clear -T. unfold lerp; pts; apply P2_eq; cbn [px py]; field; lra. }
    assert (IQ : forall u, 1 <= u <= s' -> inside (a :: m2 ++ [b]) (lerp a b u)).
    { intros u Hu. replace (lerp a b u) with (lerp b z ((u - 1) / (s' - 1))).
      - apply inside_lerp; [apply corner_inside; [exact HQ|right; apply in_or_app; right; now left]|apply corner_inside; [exact HQ|rewrite E2; right; apply in_or_app; left; apply in_or_app; right; now left]|].
        split; [apply Rmult_le_pos; [lra|left; apply Rinv_0_lt_compat; lra]|]. apply Rmult_le_reg_r with (s' - 1); [lra|]. unfold Rdiv. rewrite Rmult_assoc, Rinv_l by lra. lra.
      - rewrite Ez. clear -S. unfold lerp; pts; apply P2_eq; cbn [px py]; field; lra. }
    destruct (HT (lerp a b (Rmin s' t))) as (u & Hu & E).
    + apply IP. split; [apply Rmin_glb; lra|apply Rmin_r].
    + apply IQ. split; [apply Rmin_glb; lra|apply Rmin_l].
    + apply (lerp_inj a b _ _ Hab) in E. unfold Rmin in E. destruct (Rle_dec s' t); lra.
Qed.
Lemma meets_at_a a b m1 m2 d r : meets a b m1 m2 -> m1 = r ++ [d] -> 0 < orient a b d.
Proof.
  intros H E1. pose proof H as [HP HQ Hb Ha HT].
  destruct (ring_some a b m1 HP) as (v & Hv & Ov). destruct (ring_some b a m2 HQ) as (w & Hw & Ow).
  destruct m2 as [|y s] eqn:E2; [destruct Hw|]. rewrite <- E2 in *.
  assert (Nd : d <> a). { intro Ed. subst d. rewrite E1 in HP. refine (ring_step _ (b :: r) a a [] HP _ eq_refl). rewrite <- app_assoc. reflexivity. }
  assert (Ny : y <> a). { intro Ey. subst y. rewrite E2 in HQ. exact (ring_step _ [] a a (s ++ [b]) HQ eq_refl eq_refl). }
  destruct (corner_core_back a b d y v w) as [G|(s' & t & S & T & Ed & Ey)]; auto.
  - rewrite E1 in Hv. apply in_app_or in Hv. destruct Hv as [Hv|[->|[]]]; [right|now left]. apply (ring_ord a b m1); [exact HP|]. rewrite E1, <- app_assoc. right. apply ord3_app. right. right. left. split; [exact Hv|]. left. split; [reflexivity|now left].
  - rewrite E2 in Hw. destruct Hw as [->|Hw]; [now left|right]. apply (ring_ord b a m2); [exact HQ|]. apply ord3_first. rewrite E2. cbn [app]. left. split; [reflexivity|]. apply in_or_app. now left.
  - exact (Ha d r y s E1 E2).
  - assert (Q : 0 <= orient b d a). { apply (ring_ord a b m1); [exact HP|]. rewrite E1. apply ord3_first. apply ord2_last. apply in_or_app. right. now left. } turned Q.
  - assert (Q : 0 <= orient a y b). { apply (ring_ord b a m2); [exact HQ|]. rewrite E2. apply ord3_first. apply ord2_last. now left. } turned Q.
  - exfalso. assert (Hab : a <> b) by (intros ->; revert Ov; clear; pts; lra).
    assert (IP : forall u, t <= u <= 0 -> inside (b :: m1 ++ [a]) (lerp a b u)).
    { intros u Hu. replace (lerp a b u) with (lerp a d (u / t)).
      - apply inside_lerp; [apply corner_inside; [exact HP|right; apply in_or_app; right; now left]|apply corner_inside; [exact HP|rewrite E1; right; apply in_or_app; left; apply in_or_app; right; now left]|].
        replace (u / t) with ((- u) / (- t)) by (field; lra).
        split; [apply Rmult_le_pos; [lra|left; apply Rinv_0_lt_compat; lra]|]. apply Rmult_le_reg_r with (- t); [lra|]. unfold Rdiv. rewrite Rmult_assoc, Rinv_l by lra. lra.
      - rewrite Ed. clear -T. unfold lerp; pts; apply P2_eq; cbn [px py]; field; lra. }
    assert (IQ : forall u, s' <= u <= 0 -> inside (a :: m2 ++ [b]) (lerp a b u)).
    { intros u Hu. replace (lerp a b u) with (lerp a y (u / s')).
      - apply inside_lerp; [apply corner_inside; [exact HQ|now left]|apply corner_inside; [exact HQ|rewrite E2; right; now left]|].
        replace (u / s') with ((- u) / (- s')) by (field; lra).
        split; [apply Rmult_le_pos; [lra|left; apply Rinv_0_lt_compat; lra]|]. apply Rmult_le_reg_r with (- s'); [lra|]. unfold Rdiv. rewrite Rmult_assoc, Rinv_l by lra. lra.
      - rewrite Ey. clear -S. unfold lerp; pts; apply P2_eq; cbn [px py]; field; lra. }
    destruct (HT (lerp a b (Rmax s' t))) as (u & Hu & E).
    + apply IP. split; [apply Rmax_r|apply Rmax_lub; lra].
    + apply IQ. split; [apply Rmax_l|apply Rmax_lub; lra].
    + apply (lerp_inj a b _ _ Hab) in E. unfold Rmax in E. destruct (Rle_dec s' t); lra.
Qed.
Lemma meets_strict a b m1 m2 v : meets a b m1 m2 -> In v m1 -> 0 < orient a b v.
Proof.
  intros H Hv. pose proof (mt_P _ _ _ _ H) as HP. destruct m1 as [|c r] eqn:E1; [destruct Hv|]. rewrite <- E1 in *.
  destruct (exists_last (l := m1)) as (s & d & E2); [rewrite E1; discriminate|].
  pose proof (meets_at_b a b m1 m2 c r H E1) as Oc. pose proof (meets_at_a a b m1 m2 d s H E2) as Od.
  assert (O : 0 <= orient b v a). { apply (ring_ord a b m1); [exact HP|]. apply ord3_first. now apply ord2_last. }
  assert (O' : 0 <= orient a b v) by turned O. destruct (Req_dec (orient a b v) 0) as [E|]; [|lra]. exfalso.
  assert (Hab : a <> b) by (intros ->; revert Oc; clear; pts; lra). destruct (on_line a b v Hab E) as (t & Et).
  assert (Tc : 0 <= orient c v a).
  { apply (ring_ord a b m1); [exact HP|]. right. rewrite E1. rewrite E1 in Hv. destruct Hv as [->|Hv]; [exfalso; lra|]. cbn [app]. apply ord3_first. now apply ord2_last. }
  assert (Td : 0 <= orient b v d).
  { apply (ring_ord a b m1); [exact HP|]. apply ord3_first. apply ord2_app. left. rewrite E2. rewrite E2 in Hv. apply in_app_or in Hv. destruct Hv as [Hv|[->|[]]]; [|exfalso; lra]. now apply ord2_last. }
  assert (E3 : orient c v a = - t * orient a b c) by (rewrite Et; clear; unfold lerp; pts; ring). assert (E4 : orient b v d = (t - 1) * orient a b d) by (rewrite Et; clear; unfold lerp; pts; ring). nra.
Qed.
(** corners of the other ring are on the left of every chord *)
Lemma meets_chord_b a b m1 m2 x q : meets a b m1 m2 -> In x m1 -> In q m2 -> 0 <= orient b x q.
Proof.
  intros H Hx Hq. pose proof H as [HP HQ Hb Ha HT]. pose proof (meets_sym _ _ _ _ H) as HS.
  destruct m1 as [|c r] eqn:E1; [destruct Hx|]. rewrite <- E1 in *. destruct (exists_last (l := m2)) as (s & z & E2); [intros ->; destruct Hq|].
  pose proof (meets_at_b a b m1 m2 c r H E1) as Oc. pose proof (meets_at_a b a m2 m1 z s HS E2) as Oz. pose proof (meets_strict b a m2 m1 q HS Hq) as Oq.
  assert (C : 0 <= orient b c q).
  { assert (Oqz : 0 <= orient b q z).
    { rewrite E2 in Hq. apply in_app_or in Hq. destruct Hq as [Hq|[->|[]]]; [|apply Req_le; clear; pts; ring].
      assert (Q : 0 <= orient q z b). { apply (ring_ord b a m2); [exact HQ|]. rewrite E2, <- app_assoc. right. apply ord3_app. right. right. left. split; [exact Hq|]. left. split; [reflexivity|now left]. } turned Q. }
    pose proof (Hb c r z s E1 E2) as L. assert (E : orient b c q * orient b a z = orient b q z * orient a b c + orient b a q * orient z b c) by (clear; pts; ring). nra. }
  rewrite E1 in Hx. destruct Hx as [->|Hx]; [exact C|].
  assert (Q1 : 0 <= orient b x a). { apply (ring_ord a b m1); [exact HP|]. apply ord3_first. apply ord2_last. rewrite E1. now right. }
  assert (Q2 : 0 <= orient b c x). { apply (ring_ord a b m1); [exact HP|]. apply ord3_first. rewrite E1. cbn [app]. left. split; [reflexivity|apply in_or_app; now left]. }
  assert (E : orient b x q * orient a b c = orient b c q * orient b x a + orient b a q * orient b c x) by (clear; pts; ring). nra.
Qed.
Lemma meets_chord_a a b m1 m2 x q : meets a b m1 m2 -> In x m1 -> In q m2 -> 0 <= orient x a q.
Proof.
  intros H Hx Hq. pose proof H as [HP HQ Hb Ha HT]. pose proof (meets_sym _ _ _ _ H) as HS.
  destruct m2 as [|y s] eqn:E2; [destruct Hq|]. rewrite <- E2 in *. destruct (exists_last (l := m1)) as (r & d & E1); [intros ->; destruct Hx|].
  pose proof (meets_at_a a b m1 m2 d r H E1) as Od. pose proof (meets_at_b b a m2 m1 y s HS E2) as Oy. pose proof (meets_strict b a m2 m1 q HS Hq) as Oq.
  assert (C : 0 <= orient d a q).
  { assert (Oyq : 0 <= orient a y q).
    { rewrite E2 in Hq. destruct Hq as [->|Hq]; [apply Req_le; clear; pts; ring|].
      apply (ring_ord b a m2); [exact HQ|]. apply ord3_first. rewrite E2. cbn [app]. left. split; [reflexivity|apply in_or_app; now left]. }
    pose proof (Ha d r y s E1 E2) as L. assert (E : orient d a q * orient b a y = orient a y q * orient a b d + orient b a q * orient d a y) by (clear; pts; ring). nra. }
  rewrite E1 in Hx. apply in_app_or in Hx. destruct Hx as [Hx|[->|[]]]; [|exact C].
  assert (Q1 : 0 <= orient b x a). { apply (ring_ord a b m1); [exact HP|]. apply ord3_first. apply ord2_last. rewrite E1. apply in_or_app. now left. }
  assert (Q2 : 0 <= orient x d a). { apply (ring_ord a b m1); [exact HP|]. right. rewrite E1, <- app_assoc. apply ord3_app. right. right. left. split; [exact Hx|]. left. split; [reflexivity|now left]. }
  assert (E : orient x a q * orient a b d = orient d a q * orient b x a + orient b a q * orient x d a) by (clear; pts; ring). nra.
Qed.
Lemma meets_chord a b m1 m2 x y q : meets a b m1 m2 -> ord2 m1 x y -> In q m2 -> 0 <= orient x y q.
Proof.
  intros H Hxy Hq. pose proof (mt_P _ _ _ _ H) as HP. destruct (ord2_In _ _ _ Hxy) as [Hx Hy].
  apply (wedge a b x y q).
  - exact (meets_strict _ _ _ _ _ H Hx).
  - exact (meets_strict _ _ _ _ _ H Hy).
  - apply (ring_ord a b m1); [exact HP|]. apply ord3_first. apply ord2_app. now left.
  - apply (ring_ord a b m1); [exact HP|]. right. apply ord3_app. right. left. split; [exact Hxy|now left].
  - exact (meets_strict _ _ _ _ _ (meets_sym _ _ _ _ H) Hq).
  - exact (meets_chord_b _ _ _ _ _ _ H Hx Hq).
  - exact (meets_chord_a _ _ _ _ _ _ H Hy Hq).
Qed.
Lemma edges_split a b m1 m2 e : In e (poly_edges (b :: m1 ++ a :: m2)) -> 
  (In e (poly_edges (b :: m1 ++ [a])) /\ In e (combine (b :: m1) (m1 ++ [a]))) \/ (In e (poly_edges (a :: m2 ++ [b])) /\ In e (combine (a :: m2) (m2 ++ [b]))).
Proof.
  assert (G : forall (l r : list P2) (c d e : P2), combine (c :: l ++ d :: r) ((l ++ d :: r) ++ [e]) = combine (c :: l) (l ++ [d]) ++ combine (d :: r) (r ++ [e])).
  { clear. induction l as [|h l IH]; intros r c d e; [reflexivity|]. transitivity ((c, h) :: combine (h :: l ++ d :: r) ((l ++ d :: r) ++ [e])); [reflexivity|]. rewrite IH. reflexivity. }
  unfold poly_edges. cbn [tl firstn]. rewrite (G m1 m2 b a b), (G m1 [] b a b), (G m2 [] a b a). rewrite !in_app_iff. tauto.
Qed.
Lemma edges_join a b m1 m2 e : In e (poly_edges (b :: m1 ++ [a])) -> e = (a, b) \/ In e (poly_edges (b :: m1 ++ a :: m2)).
Proof.
  assert (G : forall (l r : list P2) (c d e : P2), combine (c :: l ++ d :: r) ((l ++ d :: r) ++ [e]) = combine (c :: l) (l ++ [d]) ++ combine (d :: r) (r ++ [e])).
  { clear. induction l as [|h l IH]; intros r c d e; [reflexivity|]. transitivity ((c, h) :: combine (h :: l ++ d :: r) ((l ++ d :: r) ++ [e])); [reflexivity|]. rewrite IH. reflexivity. }
  unfold poly_edges. cbn [tl firstn]. rewrite (G m1 m2 b a b), (G m1 [] b a b). rewrite !in_app_iff. intros [H|[<-|[]]]; [right; now left|now left].
Qed.
Lemma edges_join' a b m1 m2 e : In e (poly_edges (a :: m2 ++ [b])) -> e = (b, a) \/ In e (poly_edges (b :: m1 ++ a :: m2)).
Proof.
  intro H. destruct (edges_join b a m2 m1 e H) as [->|H1]; [now left|right].
  apply (Permutation_in _ (edges_rotate (a :: m2) (b :: m1))). exact H1.
Qed.
Lemma glue_convex a b m1 m2 : meets a b m1 m2 -> convex (b :: m1 ++ a :: m2).
Proof.
  intro H. pose proof (mt_P _ _ _ _ H) as HP. pose proof (mt_Q _ _ _ _ H) as HQ. pose proof (meets_sym _ _ _ _ H) as HS. apply convex_ord. split.
  - intros x y z Ho. change (b :: m1 ++ a :: m2) with ((b :: m1) ++ a :: m2) in Ho. apply ord3_app in Ho. destruct Ho as [Ho|[[Ho Hz]|[[Hx Ho]|Ho]]].
    + apply (ring_ord a b m1); [exact HP|]. change (b :: m1 ++ [a]) with ((b :: m1) ++ [a]). apply ord3_app. now left.
    + destruct Hz as [<-|Hz].
      * apply (ring_ord a b m1); [exact HP|]. change (b :: m1 ++ [a]) with ((b :: m1) ++ [a]). apply ord3_app. right. left. split; [exact Ho|now left].
      * destruct Ho as [[<- Hy]|Ho]; [exact (meets_chord_b _ _ _ _ _ _ H Hy Hz)|exact (meets_chord _ _ _ _ _ _ _ H Ho Hz)].
    + destruct Ho as [[<- Hz]|Ho].
      * destruct Hx as [<-|Hx]; [left; exact (meets_strict _ _ _ _ _ HS Hz)|exact (meets_chord_a _ _ _ _ _ _ H Hx Hz)].
      * destruct Hx as [<-|Hx].
        -- assert (Q : 0 <= orient y z b). { apply (ring_ord b a m2); [exact HQ|]. right. apply ord3_app. right. left. split; [exact Ho|now left]. } turned Q.
        -- pose proof (meets_chord _ _ _ _ _ _ _ HS Ho Hx) as Q. turned Q.
    + apply (ring_ord b a m2); [exact HQ|]. change (a :: m2 ++ [b]) with ((a :: m2) ++ [b]). apply ord3_app. now left.
  - intros x y He. destruct (edges_split a b m1 m2 _ He) as [[G _]|[G _]].
    + destruct (proj2 HP x y G) as (c & Hc & Ho). exists c. split; [|exact Ho]. destruct Hc as [<-|Hc]; [now left|right]. apply in_app_or in Hc. apply in_or_app. destruct Hc as [Hc|[<-|[]]]; [now left|right; now left].
    + destruct (proj2 HQ x y G) as (c & Hc & Ho). exists c. split; [|exact Ho]. destruct Hc as [<-|Hc]; [right; apply in_or_app; right; now left|].
      apply in_app_or in Hc. destruct Hc as [Hc|[<-|[]]]; [right; apply in_or_app; right; now right|now left].
Qed.
Lemma hull_inside qs rs x : convex rs -> incl qs rs -> in_hull qs x -> inside rs x.
Proof.
  intros HR HI HX u w He.
  assert (G : pdot (P (py w - py u) (px u - px w)) x <= (py w - py u) * px u + (px u - px w) * py u).
  { apply HX. intros q Hq. pose proof (convex_corner rs q HR (HI q Hq) u w He) as Ho. revert Ho. clear. pts. lra. }
  revert G. clear. pts. lra.
Qed.
(** The glued ring covers exactly what the two rings cover. *)
Lemma glue_inside a b m1 m2 x : meets a b m1 m2 -> inside (b :: m1 ++ a :: m2) x <-> inside (b :: m1 ++ [a]) x \/ inside (a :: m2 ++ [b]) x.
Proof.
  intro H. pose proof (glue_convex a b m1 m2 H) as HR. split.
  - intro Hx. destruct (Rle_lt_dec 0 (orient a b x)) as [G|G]; [left|right]; intros u w He.
    + destruct (edges_join a b m1 m2 _ He) as [E|E]; [injection E as -> ->; exact G|exact (Hx u w E)].
    + destruct (edges_join' a b m1 m2 _ He) as [E|E]; [injection E as -> ->; revert G; clear; pts; lra|exact (Hx u w E)].
  - intros [Hx|Hx].
    + apply (hull_inside (b :: m1 ++ [a])); [exact HR| |apply inside_hull; [discriminate|exact (mt_P _ _ _ _ H)|exact Hx]].
      intros v [<-|Hv]; [now left|right]. apply in_app_or in Hv. apply in_or_app. destruct Hv as [Hv|[<-|[]]]; [now left|right; now left].
    + apply (hull_inside (a :: m2 ++ [b])); [exact HR| |apply inside_hull; [discriminate|exact (mt_Q _ _ _ _ H)|exact Hx]].
      intros v [<-|Hv]; [right; apply in_or_app; right; now left|]. apply in_app_or in Hv. destruct Hv as [Hv|[<-|[]]]; [right; apply in_or_app; right; now right|now left].
Qed.
