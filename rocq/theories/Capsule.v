(** The outline of a side (round_line) encloses everything that is close to the side. *)
From Coq Require Import List NArith ZArith Bool Reals Lra Psatz Lia.
From Verif Require Import Base Arith RealArith U32 Mesh Helpers Locate Triangulation Geometry Inflate_facts Properties_inflate Properties_f32 Spec_outline Enclose.
Import ListNotations.
Open Scope R_scope.

Section Capsule.
Context (s e : P2) (d : R) (m : nat) (v0 : P2) (L : R).
Context (Hd : 0 < d) (Hm : (1 <= m)%nat) (Hv : pdot v0 v0 = 1) (HL : 0 < L) (Hse : psub e s = pscale L (turned v0 (3 * PI / 2))).

Definition theta : R := PI / INR m.
Definition phi (i : nat) : R := (if (i <=? m)%nat then INR i else INR i - 1) * theta.
Definition corner (i : nat) : P2 := padd (if (i <=? m)%nat then s else e) (pscale d (turned v0 (phi i))).
Definition straight (i : nat) : bool := (i =? m)%nat || (i =? 2 * m + 1)%nat.
Definition mu (i : nat) : R := if straight i then phi i else phi i + theta / 2.
Definition lambda (i : nat) : R := if straight i then L else 2 * d * sin (theta / 2).
Notation n := (2 * m + 2)%nat.
Definition succ_of (i : nat) : nat := if (i =? 2 * m + 1)%nat then 0%nat else S i.

Lemma m_pos : 1 <= INR m. Proof. apply (le_INR 1). exact Hm. Qed.
Lemma theta_pos : 0 < theta <= PI.
Proof.
  pose proof PI_RGT_0. pose proof m_pos. unfold theta. split; [apply Rdiv_lt_0_compat; lra|]. apply Rmult_le_reg_r with (INR m); [lra|]. unfold Rdiv. rewrite Rmult_assoc, Rinv_l by lra. nra.
Qed.
Lemma theta_m : INR m * theta = PI. Proof. pose proof m_pos. unfold theta. field. lra. Qed.
Lemma half_sin : 0 < sin (theta / 2). Proof. pose proof theta_pos. pose proof PI_RGT_0. apply sin_gt_0; lra. Qed.
Lemma half_cos : 0 <= cos (theta / 2) <= 1. Proof. pose proof theta_pos. pose proof PI_RGT_0. split; [apply cos_ge_0; lra|apply COS_bound]. Qed.
Lemma lambda_pos i : 0 < lambda i. Proof. unfold lambda. pose proof half_sin. destruct (straight i); nra. Qed.

Lemma turned_period v f : turned v (f + 2 * PI) = turned v f.
Proof. unfold turned. now rewrite cos_plus, sin_plus, cos_2PI, sin_2PI, !Rmult_1_r, !Rmult_0_r, !Rminus_0_r, !Rplus_0_r. Qed.
Lemma turned_opp v f : turned v (f + PI) = pscale (-1) (turned v f).
Proof. unfold turned. rewrite cos_plus, sin_plus, cos_PI, sin_PI. apply P2_eq; cbn [pscale px py]; ring. Qed.
Lemma turned_chord v f h : psub (turned v (f + h)) (turned v f) = pscale (2 * sin (h / 2)) (turned v (f + h / 2 + PI / 2)).
Proof.
  replace (f + h) with ((f + h / 2) + h / 2) by field. replace f with ((f + h / 2) - h / 2) at 2 by ring. set (g := f + h / 2). set (k := h / 2).
  unfold turned. rewrite !cos_plus, !sin_plus, !cos_minus, !sin_minus, cos_PI2, sin_PI2. apply P2_eq; cbn [pscale psub px py]; ring.
Qed.
Lemma turned_cross v f z : cross (turned v (f + PI / 2)) z = pdot (turned v f) z.
Proof. unfold turned, cross, pdot. rewrite cos_plus, sin_plus, cos_PI2, sin_PI2. cbn [px py]. ring. Qed.

Lemma straight_cases i : (i < n)%nat -> (i < m)%nat /\ straight i = false \/ i = m /\ straight i = true \/ (m < i < 2 * m + 1)%nat /\ straight i = false \/ i = (2 * m + 1)%nat /\ straight i = true.
Proof.
  intro H. unfold straight. destruct (Nat.eqb_spec i m) as [->|N1]; [right; left; auto|]. destruct (Nat.eqb_spec i (2 * m + 1)) as [->|N2]; [right; right; right; auto|].
  cbn. destruct (Nat.lt_ge_cases i m); [left; auto|right; right; left; split; [lia|reflexivity]].
Qed.
Lemma phi_low i : (i <= m)%nat -> phi i = INR i * theta. Proof. intro H. unfold phi. now rewrite (proj2 (Nat.leb_le i m) H). Qed.
Lemma phi_high i : (m < i)%nat -> phi i = (INR i - 1) * theta. Proof. intro H. unfold phi. now rewrite (proj2 (Nat.leb_gt i m) H). Qed.
Lemma corner_low i : (i <= m)%nat -> corner i = padd s (pscale d (turned v0 (phi i))). Proof. intro H. unfold corner. now rewrite (proj2 (Nat.leb_le i m) H). Qed.
Lemma corner_high i : (m < i)%nat -> corner i = padd e (pscale d (turned v0 (phi i))). Proof. intro H. unfold corner. now rewrite (proj2 (Nat.leb_gt i m) H). Qed.

(** the direction of a side *)
Lemma side_dir i : (i < n)%nat -> psub (corner (succ_of i)) (corner i) = pscale (lambda i) (turned v0 (mu i + PI / 2)).
Proof using Hd Hm Hv HL Hse.
  intro Hi. unfold lambda, mu, succ_of. destruct (straight_cases i Hi) as [[H E]|[[H E]|[[H E]|[H E]]]]; rewrite E.
  - destruct (Nat.eqb_spec i (2 * m + 1)); [lia|]. rewrite !corner_low by lia. rewrite !phi_low by lia. rewrite S_INR.
    replace ((INR i + 1) * theta) with (INR i * theta + theta) by ring. pose proof (turned_chord v0 (INR i * theta) theta) as C.
    pose proof (f_equal px C) as C1. pose proof (f_equal py C) as C2. cbn [psub pscale px py] in C1, C2. apply P2_eq; cbn [psub padd pscale px py]; nra.
  - subst i. destruct (Nat.eqb_spec m (2 * m + 1)); [lia|]. rewrite (corner_low m), (corner_high (S m)) by lia. rewrite (phi_low m), (phi_high (S m)) by lia. rewrite S_INR.
    replace (INR m + 1 - 1) with (INR m) by ring. rewrite theta_m. replace (PI + PI / 2) with (3 * PI / 2) by field.
    pose proof (f_equal px Hse) as C1. pose proof (f_equal py Hse) as C2. cbn [psub pscale px py] in C1, C2. apply P2_eq; cbn [psub padd pscale px py]; lra.
  - destruct (Nat.eqb_spec i (2 * m + 1)); [lia|]. rewrite !corner_high by lia. rewrite !phi_high by lia. rewrite S_INR.
    replace ((INR i + 1 - 1) * theta) with ((INR i - 1) * theta + theta) by ring. pose proof (turned_chord v0 ((INR i - 1) * theta) theta) as C.
    pose proof (f_equal px C) as C1. pose proof (f_equal py C) as C2. cbn [psub pscale px py] in C1, C2. apply P2_eq; cbn [psub padd pscale px py]; nra.
  - subst i. rewrite Nat.eqb_refl. rewrite (corner_low 0), (corner_high (2 * m + 1)) by lia. rewrite (phi_low 0), (phi_high (2 * m + 1)) by lia.
    replace ((INR (2 * m + 1) - 1) * theta) with (0 + 2 * PI) by (rewrite plus_INR, mult_INR; cbn [INR]; rewrite <- theta_m; ring).
    replace (0 + 2 * PI + PI / 2) with (3 * PI / 2 + PI) by field. rewrite turned_period, turned_opp. cbn [INR]. rewrite Rmult_0_l.
    pose proof (f_equal px Hse) as C1. pose proof (f_equal py Hse) as C2. cbn [psub pscale px py] in C1, C2. apply P2_eq; cbn [psub padd pscale px py]; lra.
Qed.
Lemma side_orient i x : (i < n)%nat -> orient (corner i) (corner (succ_of i)) x = lambda i * pdot (turned v0 (mu i)) (psub x (corner i)).
Proof using Hd Hm Hv HL Hse.
  intro Hi. unfold orient. rewrite (side_dir i Hi). rewrite <- (turned_cross v0 (mu i)). unfold cross, pscale. cbn [px py]. ring.
Qed.

(** every point of the side of the obstacle is behind every side of the outline, by d * cos (theta / 2) *)
Lemma side_clear i k : (i < n)%nat -> 0 <= k <= 1 -> pdot (turned v0 (mu i)) (psub (lerp s e k) (corner i)) <= - (d * cos (theta / 2)).
Proof using Hd Hm Hv HL Hse.
  intros Hi Hk. pose proof half_cos as HC. pose proof theta_pos as TP. pose proof PI_RGT_0 as HP. pose proof m_pos as M1. pose proof theta_m as TM.
  (* the end the side is around, and what is left *)
  assert (D : forall f, pdot (turned v0 f) (turned v0 (3 * PI / 2)) = - sin f).
  { intro f. rewrite turned_dot by exact Hv. replace (f - 3 * PI / 2) with (f + PI / 2 - 2 * PI) by field. rewrite cos_minus, cos_2PI, sin_2PI, cos_plus, cos_PI2, sin_PI2. ring. }
  assert (Es : lerp s e k = padd s (pscale (k * L) (turned v0 (3 * PI / 2)))) by (unfold lerp; rewrite Hse; apply P2_eq; cbn [padd pscale px py]; ring).
  assert (Ee : lerp s e k = padd e (pscale (- ((1 - k) * L)) (turned v0 (3 * PI / 2)))).
  { assert (e = padd s (psub e s)) as E1 by (apply P2_eq; cbn [padd psub px py]; ring). rewrite Es. rewrite E1 at 1. rewrite Hse. apply P2_eq; cbn [padd pscale px py]; ring. }
  assert (HD : pdot (turned v0 (mu i)) (turned v0 (phi i)) >= cos (theta / 2)).
  { rewrite turned_dot by exact Hv. unfold mu. destruct (straight i); [replace (phi i - phi i) with 0 by ring; rewrite cos_0; lra|].
    replace (phi i + theta / 2 - phi i) with (theta / 2) by ring. lra. }
  assert (HF : forall g, psub (padd s (pscale g (turned v0 (3 * PI / 2)))) (padd s (pscale d (turned v0 (phi i)))) = psub (pscale g (turned v0 (3 * PI / 2))) (pscale d (turned v0 (phi i)))) by (intro; apply P2_eq; cbn [padd psub pscale px py]; ring).
  assert (HG : forall g, psub (padd e (pscale g (turned v0 (3 * PI / 2)))) (padd e (pscale d (turned v0 (phi i)))) = psub (pscale g (turned v0 (3 * PI / 2))) (pscale d (turned v0 (phi i)))) by (intro; apply P2_eq; cbn [padd psub pscale px py]; ring).
  assert (HX : forall g, pdot (turned v0 (mu i)) (psub (pscale g (turned v0 (3 * PI / 2))) (pscale d (turned v0 (phi i)))) = - (g * sin (mu i)) - d * pdot (turned v0 (mu i)) (turned v0 (phi i))).
  { intro g. transitivity (g * pdot (turned v0 (mu i)) (turned v0 (3 * PI / 2)) - d * pdot (turned v0 (mu i)) (turned v0 (phi i))); [unfold pdot; cbn [psub pscale px py]; ring|]. rewrite D. ring. }
  assert (forall a, 0 <= a -> 0 <= sin (mu i) \/ a = 0 -> True) as _ by trivial.
  destruct (Nat.le_gt_cases i m) as [Hlow|Hhigh].
  - rewrite corner_low, Es, HF, HX by exact Hlow.
    assert (0 <= sin (mu i)). { apply sin_ge_0; unfold mu; rewrite phi_low by exact Hlow; pose proof (pos_INR i); pose proof (le_INR i m Hlow); destruct (straight i) eqn:E; try nra.
      assert (i <> m) by (intros ->; unfold straight in E; rewrite Nat.eqb_refl in E; discriminate). assert (INR (S i) <= INR m) by (apply le_INR; lia). rewrite S_INR in *. nra. }
    assert (0 <= k * L * sin (mu i)) by (apply Rmult_le_pos; [nra|assumption]). nra.
  - rewrite corner_high, Ee, HG, HX by exact Hhigh.
    assert (sin (mu i) <= 0).
    { assert (INR (S m) <= INR i) as I1 by (apply le_INR; lia). rewrite S_INR in I1. unfold mu. rewrite phi_high by exact Hhigh.
      destruct (straight i) eqn:E.
      - assert (i = (2 * m + 1)%nat) as -> by (unfold straight in E; destruct (Nat.eqb_spec i m); [lia|]; apply Nat.eqb_eq in E; exact E).
        replace ((INR (2 * m + 1) - 1) * theta) with (2 * PI) by (rewrite plus_INR, mult_INR; cbn [INR]; rewrite <- theta_m; ring). rewrite sin_2PI. lra.
      - assert (i <> (2 * m + 1)%nat) by (intros ->; unfold straight in E; rewrite Nat.eqb_refl, orb_true_r in E; discriminate).
        assert (INR i <= INR (2 * m)) as I2 by (apply le_INR; lia). rewrite mult_INR in I2. cbn [INR] in I2.
        apply sin_le_0; nra. }
    assert (0 <= (1 - k) * L * (- sin (mu i))) by (apply Rmult_le_pos; nra). nra.
Qed.
Lemma side_right i x k : (i < n)%nat -> 0 <= k <= 1 -> dist x (lerp s e k) < d * cos (theta / 2) -> orient (corner i) (corner (succ_of i)) x < 0.
Proof using Hd Hm Hv HL Hse.
  intros Hi Hk Hx. rewrite (side_orient i x Hi). pose proof (lambda_pos i). pose proof (side_clear i k Hi Hk) as C.
  assert (pdot (turned v0 (mu i)) (psub x (corner i)) = pdot (turned v0 (mu i)) (psub x (lerp s e k)) + pdot (turned v0 (mu i)) (psub (lerp s e k) (corner i))) as -> by (unfold pdot, psub; cbn [px py]; ring).
  assert (pdot (turned v0 (mu i)) (psub x (lerp s e k)) <= dist x (lerp s e k)).
  { pose proof (Cauchy (turned v0 (mu i)) (psub x (lerp s e k))) as K. unfold plen in K at 1. rewrite (turned_unit v0 (mu i) Hv), sqrt_1, Rmult_1_l in K. exact K. }
  nra.
Qed.

(** consecutive sides turn right *)
Lemma side_turn i : (i < n)%nat -> 0 < sin (mu (succ_of i) - mu i).
Proof using Hd Hm Hv HL Hse.
  intro Hi. pose proof theta_pos as TP. pose proof PI_RGT_0 as HP. pose proof m_pos as M1. pose proof theta_m as TM.
  assert (S1 : 0 < sin (theta / 2)) by apply half_sin.
  assert (Hstr : straight m = true) by (unfold straight; now rewrite Nat.eqb_refl).
  assert (Hstr2 : straight (2 * m + 1) = true) by (unfold straight; now rewrite Nat.eqb_refl, orb_true_r).
  assert (Hns : forall j, j <> m -> j <> (2 * m + 1)%nat -> straight j = false).
  { intros j N1 N2. unfold straight. destruct (Nat.eqb_spec j m); [contradiction|]. destruct (Nat.eqb_spec j (2 * m + 1)); [contradiction|]. reflexivity. }
  unfold succ_of. destruct (straight_cases i Hi) as [[H E]|[[H E]|[[H E]|[H E]]]]; unfold mu at 2; rewrite E.
  - destruct (Nat.eqb_spec i (2 * m + 1)); [lia|]. rewrite phi_low by lia. unfold mu. destruct (Nat.eq_dec (S i) m) as [Em|Nm].
    + rewrite Em, Hstr. rewrite phi_low by lia. rewrite <- Em, S_INR. replace ((INR i + 1) * theta - (INR i * theta + theta / 2)) with (theta / 2) by field. exact S1.
    + rewrite (Hns (S i)) by lia. rewrite phi_low by lia. rewrite S_INR. replace ((INR i + 1) * theta + theta / 2 - (INR i * theta + theta / 2)) with theta by ring.
      apply sin_gt_0; [lra|]. assert (2 <= INR m) by (apply (le_INR 2); lia). nra.
  - subst i. destruct (Nat.eqb_spec m (2 * m + 1)); [lia|]. rewrite (phi_low m) by lia. unfold mu. rewrite (Hns (S m)) by lia. rewrite (phi_high (S m)) by lia. rewrite S_INR.
    replace ((INR m + 1 - 1) * theta + theta / 2 - INR m * theta) with (theta / 2) by field. exact S1.
  - destruct (Nat.eqb_spec i (2 * m + 1)); [lia|]. rewrite phi_high by lia. unfold mu. destruct (Nat.eq_dec (S i) (2 * m + 1)) as [Em|Nm].
    + rewrite Em, Hstr2. rewrite phi_high by lia. rewrite <- Em, S_INR. replace ((INR i + 1 - 1) * theta - ((INR i - 1) * theta + theta / 2)) with (theta / 2) by field. exact S1.
    + rewrite (Hns (S i)) by lia. rewrite phi_high by lia. rewrite S_INR. replace ((INR i + 1 - 1) * theta + theta / 2 - ((INR i - 1) * theta + theta / 2)) with theta by ring.
      apply sin_gt_0; [lra|]. assert (2 <= INR m) by (apply (le_INR 2); lia). nra.
  - subst i. rewrite Nat.eqb_refl. unfold mu. rewrite (Hns 0%nat) by lia. rewrite (phi_low 0), (phi_high (2 * m + 1)) by lia. cbn [INR].
    replace (0 * theta + theta / 2 - (INR (2 * m + 1) - 1) * theta) with (theta / 2 - 2 * PI) by (rewrite plus_INR, mult_INR; cbn [INR]; rewrite <- theta_m; field).
    rewrite sin_minus, sin_2PI, cos_2PI. lra.
Qed.
Lemma turn_right i : (i < n)%nat -> (succ_of i < n)%nat -> orient (corner i) (corner (succ_of i)) (corner (succ_of (succ_of i))) < 0.
Proof using Hd Hm Hv HL Hse.
  intros Hi Hj. unfold orient. pose proof (side_dir i Hi) as E1. pose proof (side_dir (succ_of i) Hj) as E2. set (j := succ_of i) in *. set (c := corner (succ_of j)) in *.
  assert (psub c (corner i) = padd (psub c (corner j)) (psub (corner j) (corner i))) as -> by (apply P2_eq; cbn [padd psub px py]; ring). rewrite E1, E2.
  pose proof (lambda_pos i) as L1. pose proof (lambda_pos j) as L2. pose proof (side_turn i Hi) as T. fold j in T.
  assert (cross (pscale (lambda i) (turned v0 (mu i + PI / 2))) (padd (pscale (lambda j) (turned v0 (mu j + PI / 2))) (pscale (lambda i) (turned v0 (mu i + PI / 2)))) =
          lambda i * lambda j * cross (turned v0 (mu i + PI / 2)) (turned v0 (mu j + PI / 2))) as -> by (unfold cross; cbn [padd pscale px py]; ring).
  rewrite turned_cross, turned_dot by exact Hv. replace (mu i - (mu j + PI / 2)) with (- ((mu j - mu i) + PI / 2)) by ring. rewrite cos_neg, cos_plus, cos_PI2, sin_PI2.
  assert (0 < lambda i * lambda j) by (apply Rmult_lt_0_compat; assumption). nra.
Qed.
Lemma corner_differs i : (i < n)%nat -> corner i <> corner (succ_of i).
Proof using Hd Hm Hv HL Hse.
  intros Hi E. pose proof (side_dir i Hi) as D. rewrite <- E in D. pose proof (lambda_pos i) as LP. pose proof (turned_unit v0 (mu i + PI / 2) Hv) as U.
  assert (forall w k, psub (corner i) (corner i) = pscale k w -> 0 < k -> pdot w w = 0) as G.
  { clear. intros w k H Hk. pose proof (f_equal px H) as H1. pose proof (f_equal py H) as H2. cbn [psub pscale px py] in H1, H2. unfold pdot.
    assert (px w = 0) by nra. assert (py w = 0) by nra. rewrite H0, H3. ring. }
  rewrite (G _ _ D LP) in U. lra.
Qed.
Lemma succ_lt i : (i < n)%nat -> (succ_of i < n)%nat.
Proof. intro H. unfold succ_of. destruct (Nat.eqb_spec i (2 * m + 1)); lia. Qed.
Definition pred_of (i : nat) : nat := if (i =? 0)%nat then (2 * m + 1)%nat else (i - 1)%nat.
Lemma succ_pred i : (i < n)%nat -> (pred_of i < n)%nat /\ succ_of (pred_of i) = i.
Proof.
  intro H. unfold pred_of, succ_of. destruct (Nat.eqb_spec i 0) as [->|N]; [rewrite Nat.eqb_refl; lia|]. destruct (Nat.eqb_spec (i - 1) (2 * m + 1)); lia.
Qed.

Lemma corners_edges a b : In (a, b) (poly_edges (map corner (seq 0 n))) <-> exists i, (i < n)%nat /\ a = corner i /\ b = corner (succ_of i).
Proof.
  rewrite poly_edges_nth. rewrite map_length, seq_length.
  assert (G : forall i, (i < n)%nat -> nth_error (map corner (seq 0 n)) i = Some (corner i)).
  { intros i Hi. rewrite nth_error_map. rewrite (nth_error_nth' (seq 0 n) 0%nat) by (rewrite seq_length; exact Hi). rewrite seq_nth by exact Hi. reflexivity. }
  assert (M : forall i, (i < n)%nat -> (S i mod n = succ_of i)%nat).
  { intros i Hi. unfold succ_of. destruct (Nat.eqb_spec i (2 * m + 1)) as [->|N]; [replace (S (2 * m + 1)) with n by lia; apply Nat.mod_same; lia|apply Nat.mod_small; lia]. }
  split.
  - intros (i & H1 & H2). assert (Hi : (i < n)%nat). { rewrite <- (seq_length n 0), <- (map_length corner). apply nth_error_Some. congruence. }
    exists i. split; [exact Hi|]. rewrite G in H1 by exact Hi. rewrite M in H2 by exact Hi. rewrite G in H2 by (apply succ_lt; exact Hi). split; congruence.
  - intros (i & Hi & -> & ->). exists i. split; [now apply G|]. rewrite M by exact Hi. apply G. now apply succ_lt.
Qed.
Lemma corners_enclose x k : 0 <= k <= 1 -> dist x (lerp s e k) < d * cos (theta / 2) ->
  enclosed (map corner (seq 0 n) ++ [corner 0]) x.
Proof using Hd Hm Hv HL Hse.
  intros Hk Hx. assert (En : exists r, map corner (seq 0 n) = corner 0 :: r).
  { replace n with (S (2 * m + 1)) by lia. cbn [seq map]. eauto. }
  destruct En as [r Er]. pose proof corners_edges as CE. rewrite Er in CE |- *. apply convex_encloses.
  - intros a b Hab. apply CE in Hab. destruct Hab as (i & Hi & -> & ->). split; [now apply corner_differs|]. split.
    + destruct (succ_pred i Hi) as [Hp Ep]. exists (corner (pred_of i)). split; [apply CE; exists (pred_of i); rewrite Ep; auto|].
      pose proof (turn_right (pred_of i) Hp) as T. rewrite Ep in T. now apply T.
    + exists (corner (succ_of (succ_of i))). split; [apply CE; exists (succ_of i); split; [now apply succ_lt|auto]|]. apply turn_right; [exact Hi|now apply succ_lt].
  - intros a b Hab. apply CE in Hab. destruct Hab as (i & Hi & -> & ->). now apply (side_right i x k).
Qed.
End Capsule.
