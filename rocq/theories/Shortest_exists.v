(** C63: shortest polylines through a given list of segments exist. *)
From Coq Require Import List NArith ZArith Bool Reals Lra Psatz Lia.
From Verif Require Import Base RealArith Geometry Sight Sight_static.
Import ListNotations.
Open Scope R_scope.

(** The length of the polyline from [p] through points of the segments [es] (given by parameters) to [g]. *)
Fixpoint plen_through (p : P2) (es : list (P2 * P2)) (ts : list R) (g : P2) : R :=
  match es, ts with
  | (a, b) :: es, t :: ts => dist p (lerp a b t) + plen_through (lerp a b t) es ts g
  | _, _ => dist p g
  end.
Definition params (es : list (P2 * P2)) (ts : list R) : Prop := length ts = length es /\ Forall (fun t => 0 <= t <= 1) ts.

Lemma lipschitz_continuous (f : R -> R) K x : (forall y, Rabs (f y - f x) <= K * Rabs (y - x)) -> continuity_pt f x.
Proof.
  intros H e He. destruct (Rle_dec K 0) as [HK|HK].
  - exists 1. split; [lra|]. intros y [_ Hy]. unfold dist, R_met, R_dist in *. simpl in *. unfold R_dist in *. specialize (H y).
    pose proof (Rabs_pos (y - x)). assert (K * Rabs (y - x) <= 0) by nra. lra.
  - exists (e / K). split; [apply Rdiv_lt_0_compat; lra|]. intros y [_ Hy]. simpl in *. unfold R_dist in *. specialize (H y).
    apply Rle_lt_trans with (1 := H). apply Rmult_lt_reg_r with (/ K); [apply Rinv_0_lt_compat; lra|].
    replace (K * Rabs (y - x) * / K) with (Rabs (y - x)) by (field; lra). exact Hy.
Qed.

Section One.
Context (a b : P2) (W : P2 -> R) (HW0 : forall p, 0 <= W p) (HW : forall p q, W p <= dist p q + W q).
Let f (p : P2) (t : R) : R := dist p (lerp a b t) + W (lerp a b t).
Lemma one_continuous p t : continuity_pt (f p) t.
Proof using HW.
  apply (lipschitz_continuous _ (2 * dist a b)). intro y. unfold f.
  assert (D : dist (lerp a b y) (lerp a b t) = Rabs (y - t) * dist a b) by (rewrite dist_sym; apply dist_lerp2).
  pose proof (HW (lerp a b y) (lerp a b t)). pose proof (HW (lerp a b t) (lerp a b y)) as H0. rewrite (dist_sym (lerp a b t)) in H0.
  pose proof (dist_triangle p (lerp a b y) (lerp a b t)). pose proof (dist_triangle p (lerp a b t) (lerp a b y)) as H2. rewrite (dist_sym (lerp a b t)) in H2.
  rewrite D in *. apply Rabs_le. lra.
Qed.
Lemma one_min p : exists t, 0 <= t <= 1 /\ forall s, 0 <= s <= 1 -> f p t <= f p s.
Proof using HW.
  destruct (continuity_ab_min (f p) 0 1) as (t & H1 & H2); [lra|intros; apply one_continuous|]. exists t. auto.
Qed.
Lemma one_value : exists V : P2 -> R, (forall p, exists t, 0 <= t <= 1 /\ V p = f p t) /\ (forall p s, 0 <= s <= 1 -> V p <= f p s).
Proof using HW HW0.
  assert (Hb : forall p, bound (fun y => exists t, 0 <= t <= 1 /\ y = - f p t)).
  { intro p. exists 0. intros y (t & _ & ->). unfold f. pose proof (dist_nonneg p (lerp a b t)). pose proof (HW0 (lerp a b t)). lra. }
  assert (He : forall p, exists y, (fun y => exists t, 0 <= t <= 1 /\ y = - f p t) y).
  { intro p. exists (- f p 0), 0. split; [lra|reflexivity]. }
  set (V := fun p => - proj1_sig (completeness _ (Hb p) (He p))).
  assert (HV : forall p, is_lub (fun y => exists t, 0 <= t <= 1 /\ y = - f p t) (- V p)).
  { intro p. unfold V. rewrite Ropp_involutive. exact (proj2_sig (completeness _ (Hb p) (He p))). }
  clearbody V. exists V.
  assert (Low : forall p s, 0 <= s <= 1 -> V p <= f p s).
  { intros p s Hs. destruct (HV p) as [H _]. assert (- f p s <= - V p); [|lra]. apply H. exists s. auto. }
  split; [|exact Low]. intro p. destruct (one_min p) as (t & Ht & Hm). exists t. split; [exact Ht|]. apply Rle_antisym; [now apply Low|].
  destruct (HV p) as [_ H]. assert (- V p <= - f p t); [|lra]. apply H. intros y (s & Hs & ->). specialize (Hm s Hs). lra.
Qed.
End One.

Lemma shortest_through g es : exists V : P2 -> R,
  (forall p, 0 <= V p) /\ (forall p q, V p <= dist p q + V q) /\
  (forall p, exists ts, params es ts /\ V p = plen_through p es ts g) /\ (forall p ts, params es ts -> V p <= plen_through p es ts g).
Proof.
  induction es as [|[a b] es IH].
  - exists (fun p => dist p g). split; [intro; apply dist_nonneg|]. split; [intros; apply dist_triangle|]. split.
    + intro p. exists []. split; [split; [reflexivity|constructor]|reflexivity].
    + intros p ts _. cbn. lra.
  - destruct IH as (W & W0 & W1 & W2 & W3). destruct (one_value a b W W0 W1) as (V & V1 & V2). exists V.
    split; [|split; [|split]].
    + intro p. destruct (V1 p) as (t & _ & ->). pose proof (dist_nonneg p (lerp a b t)). pose proof (W0 (lerp a b t)). lra.
    + intros p q. destruct (V1 q) as (t & Ht & ->). pose proof (V2 p t Ht). pose proof (dist_triangle p q (lerp a b t)). lra.
    + intro p. destruct (V1 p) as (t & Ht & E). destruct (W2 (lerp a b t)) as (ts & (L & F) & E2). exists (t :: ts). split.
      * split; [cbn; now rewrite L|now constructor].
      * cbn [plen_through]. rewrite E, E2. reflexivity.
    + intros p ts [L F]. destruct ts as [|t ts]; [discriminate|]. inversion F; subst. cbn [plen_through].
      pose proof (V2 p t H1). pose proof (W3 (lerp a b t) ts). assert (params es ts) as HP by (split; [now injection L|assumption]). specialize (H0 HP). lra.
Qed.
Corollary shortest_exists p g es : exists ts, params es ts /\ forall ts', params es ts' -> plen_through p es ts g <= plen_through p es ts' g.
Proof.
  destruct (shortest_through g es) as (V & _ & _ & V2 & V3). destruct (V2 p) as (ts & H1 & H2). exists ts. split; [exact H1|].
  intros ts' H. rewrite <- H2. now apply V3.
Qed.
