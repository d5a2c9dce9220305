(** C53: the inflated outline of a whole obstacle. *)
From Coq Require Import List NArith ZArith Bool Reals Lra Lia Psatz.
From Verif Require Import Base Arith U32 Mesh Helpers Locate Triangulation RealArith Geometry Inflate_facts Properties_triangulation Properties_inflate Spec_outline Enclose Capsule Circle.
Import ListNotations.
Open Scope R_scope.

(** the outline of a side, as the corners of Capsule.v *)
Lemma turned_back v f : turned v (PI + f) = turned (neg v) f.
Proof. unfold turned, neg. rewrite cos_plus, sin_plus, cos_PI, sin_PI. apply P2_eq; cbn [pscale px py]; ring. Qed.
Lemma capsule_corners s e d m : (1 <= m)%N -> s <> e ->
  capsule s e d m = map (corner s e d (N.to_nat m) (neg (left_normal s e))) (seq 0 (2 * N.to_nat m + 2)).
Proof.
  intros Hm Hse. set (v := left_normal s e). set (M := N.to_nat m). assert (HM : (1 <= M)%nat) by lia. assert (HZ : 1 <= INR M) by (apply (le_INR 1); exact HM).
  replace (2 * M + 2)%nat with (S M + S M)%nat by lia. rewrite seq_app, map_app. unfold capsule. fold v. f_equal.
  - unfold arc. fold M. apply map_ext_in. intros i Hi. apply in_seq in Hi. unfold arc_point, corner, phi, theta.
    rewrite (proj2 (Nat.leb_le i M)) by lia. rewrite IZR_N_INR. fold M. do 3 f_equal. field. lra.
  - rewrite Nat.add_0_l. unfold arc. fold M. rewrite <- (Nat.add_0_r (S M)) at 2. 
    assert (G : forall k a, map (corner s e d M (neg v)) (seq (S M + a) k) = map (arc_point e d v m) (seq a k)).
    { clear - HM HZ. induction k as [|k IH]; intro a; [reflexivity|]. cbn [seq map]. replace (S (S M + a)) with (S M + S a)%nat by lia. rewrite IH. f_equal.
      unfold arc_point, corner, phi, theta. rewrite (proj2 (Nat.leb_gt (S M + a) M)) by lia. rewrite IZR_N_INR. fold M. do 2 f_equal.
      rewrite plus_INR, S_INR. replace ((INR M + 1 + INR a - 1) * (PI / INR M)) with (PI + INR a * PI / INR M) by (field; lra).
      rewrite turned_back. f_equal. unfold neg. apply P2_eq; cbn [pscale px py]; ring. }
    symmetry. apply (G (S M) 0%nat).
Qed.
Lemma dist_pos a b : a <> b -> 0 < dist a b.
Proof. intro H. pose proof (dist_nonneg a b). destruct (Req_dec (dist a b) 0) as [E|E]; [|lra]. apply dist_zero in E. contradiction. Qed.
Lemma half_theta m : (1 <= m)%N -> theta (N.to_nat m) / 2 = PI / (2 * IZR (Z.of_N m)).
Proof. intro H. unfold theta. rewrite IZR_N_INR. assert (1 <= INR (N.to_nat m)) by (apply (le_INR 1); lia). field. lra. Qed.
Lemma side_encloses s e d m : (1 <= m)%N -> 0 < d -> s <> e -> exists q0 r, capsule s e d m = q0 :: r /\ q0 <> last r q0 /\
  forall x k, 0 <= k <= 1 -> dist x (lerp s e k) < d * cos (PI / (2 * IZR (Z.of_N m))) -> enclosed ((q0 :: r) ++ [q0]) x.
Proof.
  intros Hm Hd Hse. pose proof (capsule_corners s e d m Hm Hse) as EC. set (v := neg (left_normal s e)) in *. set (M := N.to_nat m) in *. assert (HM : (1 <= M)%nat) by lia.
  pose proof (left_normal_unit s e Hse) as HU. assert (HV : pdot v v = 1) by (unfold v, neg; unfold pdot in *; cbn in *; lra). pose proof (dist_pos s e Hse) as HL.
  assert (ES : psub e s = pscale (dist s e) (turned v (3 * PI / 2))).
  { replace (3 * PI / 2) with (PI + PI / 2) by field. rewrite turned_back. unfold turned, v, neg, left_normal. rewrite cos_PI2, sin_PI2. apply P2_eq; cbn [psub pscale px py]; field; lra. }
  exists (corner s e d M v 0), (map (corner s e d M v) (seq 1 (2 * M + 1))). rewrite EC.
  assert (E2 : map (corner s e d M v) (seq 0 (2 * M + 2)) = corner s e d M v 0 :: map (corner s e d M v) (seq 1 (2 * M + 1))).
  { replace (2 * M + 2)%nat with (S (2 * M + 1)) by lia. reflexivity. }
  split; [exact E2|]. split.
  - replace (2 * M + 1)%nat with (S (2 * M)) at 1 by lia. rewrite seq_S, map_app. cbn [map]. rewrite last_last.
    pose proof (corner_differs s e d M v (dist s e) Hd HM HV HL ES (2 * M + 1) ltac:(lia)) as D. unfold succ_of in D. rewrite Nat.eqb_refl in D.
    replace (1 + 2 * M)%nat with (2 * M + 1)%nat by lia. congruence.
  - intros x k Hk Hx. rewrite <- E2. apply (corners_enclose s e d M v (dist s e) Hd HM HV HL ES x k Hk). unfold M. rewrite half_theta by exact Hm. exact Hx.
Qed.

(** Rust's rings and ours *)
Lemma lines_pairs l : ring_lines (map vp l) = map (fun e => (vp (fst e), vp (snd e))) (pairs l).
Proof. induction l as [|a l IH]; [reflexivity|]. destruct l as [|b l]; [reflexivity|]. cbn [map ring_lines pairs] in *. now rewrite IH. Qed.
Lemma last_map {S T} (f : S -> T) : forall l d, last (map f l) (f d) = f (last l d).
Proof. induction l as [|a l IH]; intro d; [reflexivity|]. destruct l as [|b l]; [reflexivity|]. exact (IH d). Qed.
Lemma last_default {T} (a : T) l d d' : last (a :: l) d = last (a :: l) d'.
Proof. revert a. induction l as [|b l IH]; intro a; [reflexivity|]. exact (IH b). Qed.
Lemma close_closed r : closed r -> close (map vp r) = map vp r.
Proof.
  intros (a & r' & -> & E). cbn [map close is_closed]. pose proof (last_map vp (a :: r') a) as L. cbn [map] in L. rewrite L, E. now rewrite (proj2 (veq_vp a a) eq_refl).
Qed.
Lemma close_open q0 r : q0 <> last r q0 -> close (map vp (q0 :: r)) = map vp ((q0 :: r) ++ [q0]).
Proof.
  intro H. cbn [map close is_closed]. pose proof (last_map vp (q0 :: r) q0) as L. cbn [map] in L. rewrite L.
  assert (E : last (q0 :: r) q0 = last r q0) by (destruct r; reflexivity). rewrite E, (proj2 (veq_vp_false _ _) H). cbn [app map]. now rewrite map_app.
Qed.
Lemma closed_snoc q0 r : closed ((q0 :: r) ++ [q0]).
Proof. exists q0, (r ++ [q0]). split; [reflexivity|]. apply (last_last (q0 :: r)). Qed.

Lemma point_dec (a b : P2) : {a = b} + {a <> b}.
Proof. destruct a as [x y], b as [x' y']. destruct (Req_EM_T x x') as [->|H]; [|right; intro K; injection K; contradiction]. destruct (Req_EM_T y y') as [->|H]; [now left|right; intro K; injection K; contradiction]. Qed.

Section Obstacle.
Context (lib : TriLib RA) (d : R) (n : N).
Context (HT : real_trig lib) (HU : union_ok lib) (Hd : 0 < d) (Hn : (3 <= n)%N).
Notation m := (arc_count n).
Definition reach : R := d * cos (PI / (2 * IZR (Z.of_N m))).
Lemma m_three : (3 <= m)%N.
Proof using Hn. unfold arc_count. destruct (N.even n) eqn:E; [|exact Hn]. assert (n <> 3)%N by (intros ->; discriminate). lia. Qed.
Lemma reach_pos : 0 < reach.
Proof using Hd Hn.
  pose proof PI_RGT_0. assert (3 <= IZR (Z.of_N m)) by (apply IZR_le; pose proof m_three; lia). apply Rmult_lt_0_compat; [exact Hd|]. apply cos_gt_0.
  - assert (0 < PI / (2 * IZR (Z.of_N m))) by (apply Rdiv_lt_0_compat; lra). lra.
  - apply Rmult_lt_reg_r with (2 * IZR (Z.of_N m)); [lra|]. replace (PI / (2 * IZR (Z.of_N m)) * (2 * IZR (Z.of_N m))) with PI by (field; lra). nra.
Qed.

(** [r] encloses what is near the sides [done] *)
Definition keeps (r : list P2) (done : list (P2 * P2)) : Prop :=
  forall a b k x, In (a, b) done -> 0 <= k <= 1 -> dist x (lerp a b k) < reach -> enclosed r x.
Lemma reach_round : reach <= d * cos (PI / (2 * INR (N.to_nat n))).
Proof using Hd Hn.
  unfold reach. pose proof m_three as H3. pose proof PI_RGT_0. rewrite IZR_N_INR. assert (HM : 3 <= INR (N.to_nat m)) by (assert (L : (3 <= N.to_nat m)%nat) by lia; apply le_INR in L; cbn [INR] in L; lra).
  assert (HL : INR (N.to_nat m) <= INR (N.to_nat n)) by (apply le_INR; unfold arc_count; destruct (N.even n); lia).
  apply Rmult_le_compat_l; [lra|]. apply cos_decr_1.
  - apply Rlt_le, Rdiv_lt_0_compat; lra.
  - apply Rmult_le_reg_r with (2 * INR (N.to_nat n)); [lra|]. unfold Rdiv. rewrite Rmult_assoc, Rinv_l by lra. nra.
  - apply Rlt_le, Rdiv_lt_0_compat; lra.
  - apply Rmult_le_reg_r with (2 * INR (N.to_nat m)); [lra|]. unfold Rdiv. rewrite Rmult_assoc, Rinv_l by lra. nra.
  - unfold Rdiv. apply Rmult_le_compat_l; [lra|]. apply Rinv_le_contravar; lra.
Qed.
Lemma first_side a b : exists r c, round_line lib (vp a, vp b) (rr d) n = Ok c /\ close c = map vp r /\ closed r /\ keeps r [(a, b)].
Proof using HT Hd Hn.
  pose proof m_three. destruct (point_dec a b) as [Hab|Hab].
  { rewrite <- Hab. rewrite (round_line_point lib a d n HT ltac:(lia)). destruct (point_encloses a d (N.to_nat n) ltac:(lia) Hd) as (q0 & r & E & Hl & Hx).
    exists ((q0 :: r) ++ [q0]), (map vp (circle a d (N.to_nat n))). split; [reflexivity|]. rewrite E. split; [now apply close_open|]. split; [apply closed_snoc|].
    intros a' b' k x [Eab|[]] Hk Hd'. injection Eab as <- <-. apply Hx. eapply Rlt_le_trans; [|exact reach_round].
    assert (lerp a a k = a) as E0 by (unfold lerp; apply P2_eq; cbn [padd pscale psub px py]; ring). rewrite E0 in Hd'. exact Hd'. }
  rewrite (round_line_spec lib a b d n HT Hab Hd ltac:(lia)).
  destruct (side_encloses a b d m ltac:(lia) Hd Hab) as (q0 & r & E & Hl & Hx). exists ((q0 :: r) ++ [q0]), (map vp (capsule a b d m)). split; [reflexivity|].
  rewrite E. split; [now apply close_open|]. split; [apply closed_snoc|]. intros a' b' k x [Eab|[]] Hk Hd'. injection Eab as <- <-. now apply (Hx x k).
Qed.
Lemma next_side acc r done a b : close (fst acc) = map vp r -> closed r -> keeps r done -> (exists a', In (a', a) done) ->
  exists ext h, union_with lib acc (vp a, vp b) (rr d) n = Ok (map vp ext, h) /\ closed ext /\ keeps ext (done ++ [(a, b)]).
Proof using HT HU Hd Hn.
  intros Er Hc Hk [a' Ha']. destruct (first_side a b) as (r2 & c & Ec & E2 & Hc2 & Hk2).
  unfold union_with. rewrite Ec. cbn [bind]. rewrite Er, E2.
  destruct (HU r r2 a reach Hc Hc2 reach_pos) as (ext & holes & others & EU & Hce & HE).
  { intros x Hx. split; [apply (Hk a' a 1 x Ha'); [lra|now rewrite lerp_1]|apply (Hk2 a b 0 x); [now left|lra|now rewrite lerp_0]]. }
  rewrite EU. exists ext, (snd acc ++ holes). split; [reflexivity|]. split; [exact Hce|]. intros u v k x Hin Hk' Hx. apply HE. apply in_app_or in Hin. destruct Hin as [Hin|Hin]; [left|right]; eauto.
Qed.
Lemma other_sides : forall rest a0 acc r done, close (fst acc) = map vp r -> closed r -> keeps r done -> (exists a', In (a', a0) done) -> rest <> [] ->
  exists ext h, foldM (fun acc ab => union_with lib acc ab (rr d) n) acc (map (fun e => (vp (fst e), vp (snd e))) (pairs (a0 :: rest))) = Ok (map vp ext, h) /\
    closed ext /\ keeps ext (done ++ pairs (a0 :: rest)).
Proof using HT HU Hd Hn.
  induction rest as [|a1 rest IH]; intros a0 acc r done Er Hc Hk Ha Hne; [congruence|].
  cbn [pairs map foldM fst snd]. destruct (next_side acc r done a0 a1 Er Hc Hk Ha) as (ext & h & EU & Hce & Hke).
  rewrite EU. cbn [bind]. destruct rest as [|a2 rest].
  - cbn [pairs map foldM]. exists ext, h. auto.
  - destruct (IH a1 (map vp ext, h) ext (done ++ [(a0, a1)])) as (ext' & h' & E' & Hc' & Hk').
    + cbn [fst]. now apply close_closed.
    + exact Hce.
    + exact Hke.
    + exists a0. apply in_or_app. right. now left.
    + discriminate.
    + exists ext', h'. split; [exact E'|]. split; [exact Hc'|]. rewrite <- app_assoc in Hk'. exact Hk'.
Qed.
Lemma pairs_last : forall r a b, exists c, In (c, last (b :: r) a) (pairs (a :: b :: r)).
Proof. induction r as [|x r IH]; intros a b; [exists a; now left|]. destruct (IH b x) as [c Hc]. exists c. right. change (last (b :: x :: r) a) with (last (x :: r) a). rewrite (last_default x r a b). exact Hc. Qed.
Lemma last_pair : forall r a b, snd (last (pairs (b :: r)) (a, b)) = last (b :: r) a.
Proof.
  induction r as [|x r IH]; intros a b; [reflexivity|]. cbn [pairs]. destruct r as [|y r]; [reflexivity|].
  change (pairs (x :: y :: r)) with ((x, y) :: pairs (y :: r)). change (last ((b, x) :: (x, y) :: pairs (y :: r)) (a, b)) with (last ((x, y) :: pairs (y :: r)) (a, b)).
  rewrite (last_default (x, y) (pairs (y :: r)) (a, b) (b, x)). change ((x, y) :: pairs (y :: r)) with (pairs (x :: y :: r)). rewrite IH.
  change (last (b :: x :: y :: r) a) with (last (x :: y :: r) a). apply last_default.
Qed.

Lemma obstacle_kept_away a0 a1 rest : (rest = [] -> a0 <> a1) ->
  exists ext holes, inflate_ring lib (map vp (a0 :: a1 :: rest)) (rr d) n = Ok (map vp ext, holes) /\ closed ext /\
    forall a b k x, In (a, b) (pairs (a0 :: a1 :: rest ++ [a0])) -> 0 <= k <= 1 ->
      dist x (lerp a b k) < d * cos (PI / (2 * IZR (Z.of_N m))) -> enclosed ext x.
Proof using HT HU Hd Hn.
  intro HD. unfold inflate_ring. rewrite lines_pairs. cbn [pairs map fst snd].
  destruct (first_side a0 a1) as (r & c & Ec & Er & Hc & Hk). rewrite Ec. cbn [bind].
  assert (HP : exists c', In (c', last (a1 :: rest) a0) (pairs (a0 :: a1 :: rest))) by apply pairs_last. destruct HP as [c' Hc'].
  assert (EL : is_closed (map vp (a0 :: a1 :: rest)) = veq (vp a0) (vp (last (a1 :: rest) a0))).
  { cbn [is_closed map]. pose proof (last_map vp (a0 :: a1 :: rest) a0) as L. cbn [map] in L. rewrite L. reflexivity. }
  assert (GP : forall a b, In (a, b) (pairs (a0 :: a1 :: rest ++ [a0])) -> In (a, b) (pairs (a0 :: a1 :: rest)) \/ (a, b) = (last (a1 :: rest) a0, a0)).
  { assert (G : forall l y z a b, In (a, b) (pairs (y :: l ++ [z])) -> In (a, b) (pairs (y :: l)) \/ (a, b) = (last (y :: l) z, z)).
    { clear. induction l as [|w l IH]; intros y z a b H; [cbn in H; destruct H as [H|[]]; right; now rewrite <- H|].
      cbn [app pairs] in H. destruct H as [H|H]; [left; now left|]. destruct (IH w z a b H) as [H'|H']; [left; now right|right; exact H']. }
    intros a b [H|H]; [left; now left|]. destruct (G rest a1 a0 a b H) as [H'|H']; [left; now right|right; exact H']. }
  assert (Hlast : forall acc r', close (fst acc) = map vp r' -> closed r' -> keeps r' (pairs (a0 :: a1 :: rest)) -> last (a1 :: rest) a0 <> a0 ->
    exists ext holes, union_with lib acc (snd (last (map (fun e : P2 * P2 => (vp (fst e), vp (snd e))) (pairs (a1 :: rest))) (vp a0, vp a1)), vp a0) (rr d) n = Ok (map vp ext, holes) /\ closed ext /\
      keeps ext (pairs (a0 :: a1 :: rest ++ [a0]))).
  { intros acc r' E1 E2 E3 Nl.
    assert (snd (last (map (fun e : P2 * P2 => (vp (fst e), vp (snd e))) (pairs (a1 :: rest))) (vp a0, vp a1)) = vp (last (a1 :: rest) a0)) as ->.
    { pose proof (last_map (fun e : P2 * P2 => (vp (fst e), vp (snd e))) (pairs (a1 :: rest)) (a0, a1)) as L. cbn [fst snd] in L. rewrite L. cbn [snd]. now rewrite last_pair. }
    destruct (next_side acc r' _ (last (a1 :: rest) a0) a0 E1 E2 E3 (ex_intro _ c' Hc')) as (ext & h & EU & Hce & Hke).
    exists ext, h. split; [exact EU|]. split; [exact Hce|]. intros a b k x Hab. destruct (GP a b Hab) as [H|H]; apply Hke; apply in_or_app; [now left|right; rewrite H; now left]. }
  destruct rest as [|a2 rest].
  - cbn [map] in EL. cbn [pairs map foldM]. cbn [bind]. rewrite EL. cbn [last]. assert (N01 : a0 <> a1) by (now apply HD). rewrite (proj2 (veq_vp_false _ _) N01).
    cbn [index nthN map]. cbn [bind]. destruct (Hlast (c, []) r) as (ext & h & EU & Hce & Hke); [exact Er|exact Hc|exact Hk|cbn [last]; congruence|]. cbn [pairs map] in EU. exists ext, h. auto.
  - destruct (other_sides (a2 :: rest) a1 (c, []) r [(a0, a1)] Er Hc Hk) as (ext & h & EU & Hce & Hke); [exists a0; now left|discriminate|].
    cbn [map] in EL. cbn [pairs map] in EU |- *. rewrite EU. cbn [bind]. rewrite EL. destruct (veq (vp a0) (vp (last (a1 :: a2 :: rest) a0))) eqn:EV.
    + apply veq_vp in EV. exists ext, h. split; [reflexivity|]. split; [exact Hce|]. intros a b k x Hab Hk' Hx. destruct (GP a b Hab) as [H|H]; [now apply (Hke a b k x)|].
      pose proof (f_equal fst H) as Ha. pose proof (f_equal snd H) as Hb. cbn [fst snd] in Ha, Hb. rewrite Ha, Hb in Hx. apply (Hke c' (last (a1 :: a2 :: rest) a0) 1 x Hc'); [lra|]. rewrite lerp_1. rewrite <- EV in Hx |- *.
      assert (lerp a0 a0 k = a0) as E0 by (unfold lerp; apply P2_eq; cbn [padd pscale psub px py]; ring). rewrite E0 in Hx. exact Hx.
    + apply veq_vp_false in EV. cbn [index nthN]. cbn [bind]. destruct (Hlast (map vp ext, h) ext) as (ext' & h' & EU' & Hce' & Hke'); [cbn [fst]; now apply close_closed|exact Hce|exact Hke|congruence|].
      cbn [pairs map] in EU'. exists ext', h'. auto.
Qed.
End Obstacle.

(** C53: the outline put around a whole obstacle.  The points of the obstacle are [a0], [a1] and [rest]; points may repeat, only a list
    of two equal points is left out; [rest] may end with [a0] again or not.
    Then inflating the obstacle by [d] gives a closed line, and that line encloses every point that is closer than d * cos (pi / 2m) to a point of a side of the
    obstacle, the side from the last point back to the first one included. *)
Theorem C53_obstacle_kept_away (lib : TriLib RA) (d : R) (n : N) (a0 a1 : P2) (rest : list P2) :
  real_trig lib -> union_ok lib -> 0 < d -> (3 <= n)%N -> (rest = [] -> a0 <> a1) ->
  exists ext holes, inflate_ring lib (map vp (a0 :: a1 :: rest)) (rr d) n = Ok (map vp ext, holes) /\ closed ext /\
    forall a b k x, In (a, b) (pairs (a0 :: a1 :: rest ++ [a0])) -> 0 <= k <= 1 ->
      dist x (lerp a b k) < d * cos (PI / (2 * IZR (Z.of_N (arc_count n)))) -> enclosed ext x.
Proof. intros HT HU Hd Hn HD. exact (obstacle_kept_away lib d n HT HU Hd Hn a0 a1 rest HD). Qed.

(** A walk that does not touch the line and gets outside of its convex hull at some point was never that close to the obstacle. *)
Lemma suffix_walk : forall (l : list P2) u v, In (u, v) (pairs l) -> exists r, (forall e, In e (pairs (v :: r)) -> In e (pairs l)) /\ last (v :: r) v = last l v.
Proof.
  induction l as [|a l IH]; intros u v H; [destruct H|]. destruct l as [|b l]; [destruct H|]. cbn [pairs] in H. destruct H as [H|H].
  - injection H as -> ->. exists l. split; [intros e He; now right|]. reflexivity.
  - destruct (IH u v H) as (r & H1 & H2). exists r. split; [intros e He; right; now apply H1|exact H2].
Qed.
Theorem C53_walkers_stay_away (lib : TriLib RA) (d : R) (n : N) (a0 a1 : P2) (rest : list P2) :
  real_trig lib -> union_ok lib -> 0 < d -> (3 <= n)%N -> (rest = [] -> a0 <> a1) ->
  exists ext holes, inflate_ring lib (map vp (a0 :: a1 :: rest)) (rr d) n = Ok (map vp ext, holes) /\
    forall walk z, ~ in_hull ext z ->
      (forall u v, In (u, v) (pairs (walk ++ [z])) -> forall p q, In (p, q) (pairs ext) -> ~ meet u v p q) ->
      forall u v t, In (u, v) (pairs (walk ++ [z])) -> 0 <= t <= 1 ->
      forall a b k, In (a, b) (pairs (a0 :: a1 :: rest ++ [a0])) -> 0 <= k <= 1 ->
        d * cos (PI / (2 * IZR (Z.of_N (arc_count n)))) <= dist (lerp u v t) (lerp a b k).
Proof.
  intros HT HU Hd Hn HD. destruct (C53_obstacle_kept_away lib d n a0 a1 rest HT HU Hd Hn HD) as (ext & holes & E & _ & H). exists ext, holes. split; [exact E|].
  intros walk z Hz Hfree u v t Huv Ht a b k Hab Hk. apply Rnot_lt_le. intro Hlt. pose proof (H a b k _ Hab Hk Hlt) as HE.
  destruct (suffix_walk _ u v Huv) as (r & H1 & H2). rewrite last_last in H2.
  (* the rest of the walk, as stops and z *)
  destruct (exists_last (l := v :: r)) as (stops & z' & Es); [discriminate|]. rewrite Es, last_last in H2. rewrite H2 in Es.
  destruct (HE stops z Hz) as (u' & v' & p & q & Hleg & Hpq & Hm). rewrite <- Es in Hleg. cbn [pairs] in Hleg. destruct Hleg as [Hleg|Hleg].
  - injection Hleg as <- <-. destruct Hm as (s & t' & Hs & Ht' & Em). rewrite lerp_lerp_end in Em.
    apply (Hfree u v Huv p q Hpq). exists (t + s * (1 - t)), t'. split; [split; nra|]. auto.
  - exact (Hfree u' v' (H1 _ Hleg) p q Hpq Hm).
Qed.

(** ** An example: a union that answers with a box around the two rings *)
Definition num (x : F RA) : R := match x with Some r => r | None => 0 end.
Definition least (f : vec2 RA -> F RA) (l : list (vec2 RA)) : R := match l with [] => 0 | q :: r => fold_right (fun p m => Rmin (num (f p)) m) (num (f q)) r end.
Definition greatest (f : vec2 RA -> F RA) (l : list (vec2 RA)) : R := match l with [] => 0 | q :: r => fold_right (fun p m => Rmax (num (f p)) m) (num (f q)) r end.
Definition box (l : list (vec2 RA)) : list P2 :=
  let x0 := least vx l - 1 in let y0 := least vy l - 1 in let x1 := greatest vx l + 1 in let y1 := greatest vy l + 1 in
  [P x0 y0; P x0 y1; P x1 y1; P x1 y0; P x0 y0].
Definition box_lib : TriLib RA :=
  mkTriLib (simplify_vw real_lib) (fun a b => [(map vp (box (a ++ b)), [])]) (contains real_lib) (insertable real_lib) (cdt real_lib) (atan2 real_lib) (hypot real_lib) (sign_negative real_lib) (finder real_lib).
Lemma box_trig : real_trig box_lib.
Proof. exact real_lib_trig. Qed.
Lemma least_le f l p : In p l -> least f l <= num (f p).
Proof.
  destruct l as [|q l]; intros H; [destruct H|]. unfold least. destruct H as [<-|H].
  - induction l as [|a l IH]; cbn [fold_right]; [lra|]. eapply Rle_trans; [apply Rmin_r|exact IH].
  - induction l as [|a l IH]; destruct H; cbn [fold_right]; [subst a; apply Rmin_l|]. eapply Rle_trans; [apply Rmin_r|]. now apply IH.
Qed.
Lemma greatest_ge f l p : In p l -> num (f p) <= greatest f l.
Proof.
  destruct l as [|q l]; intros H; [destruct H|]. unfold greatest. destruct H as [<-|H].
  - induction l as [|a l IH]; cbn [fold_right]; [lra|]. eapply Rle_trans; [exact IH|apply Rmax_r].
  - induction l as [|a l IH]; destruct H; cbn [fold_right]; [subst a; apply Rmax_l|]. eapply Rle_trans; [|apply Rmax_r]. now apply IH.
Qed.
Lemma in_box r l x : (forall p, In p r -> In (vp p) l) -> in_hull r x -> enclosed (box l) x.
Proof.
  intros Hr Hx. assert (HB : least vx l <= px x <= greatest vx l /\ least vy l <= py x <= greatest vy l).
  { assert (G : forall u c, (forall p, In p r -> pdot u p <= c) -> pdot u x <= c) by (intros u c Hc; now apply Hx).
    assert (forall p, In p r -> least vx l <= px p <= greatest vx l /\ least vy l <= py p <= greatest vy l) as B.
    { intros p Hp. apply Hr in Hp. pose proof (least_le vx l _ Hp). pose proof (greatest_ge vx l _ Hp). pose proof (least_le vy l _ Hp). pose proof (greatest_ge vy l _ Hp). cbn in *. lra. }
    pose proof (G (P 1 0) (greatest vx l)) as G1. pose proof (G (P (-1) 0) (- least vx l)) as G2. pose proof (G (P 0 1) (greatest vy l)) as G3. pose proof (G (P 0 (-1)) (- least vy l)) as G4.
    unfold pdot in *. cbn [px py] in *. assert (forall p, In p r -> 1 * px p + 0 * py p <= greatest vx l) by (intros p Hp; specialize (B p Hp); lra).
    assert (forall p, In p r -> -1 * px p + 0 * py p <= - least vx l) by (intros p Hp; specialize (B p Hp); lra).
    assert (forall p, In p r -> 0 * px p + 1 * py p <= greatest vy l) by (intros p Hp; specialize (B p Hp); lra).
    assert (forall p, In p r -> 0 * px p + -1 * py p <= - least vy l) by (intros p Hp; specialize (B p Hp); lra).
    specialize (G1 H). specialize (G2 H0). specialize (G3 H1). specialize (G4 H2). lra. }
  unfold box.
  set (x0 := least vx l - 1). set (y0 := least vy l - 1). set (x1 := greatest vx l + 1). set (y1 := greatest vy l + 1).
  assert (x0 < px x < x1 /\ y0 < py x < y1) as [HX HY] by (unfold x0, x1, y0, y1; lra). clearbody x0 x1 y0 y1. clear - HX HY.
  change (enclosed ((P x0 y0 :: [P x0 y1; P x1 y1; P x1 y0]) ++ [P x0 y0]) x). 
  assert (HE : forall a b, In (a, b) (poly_edges [P x0 y0; P x0 y1; P x1 y1; P x1 y0]) <->
    (a, b) = (P x0 y0, P x0 y1) \/ (a, b) = (P x0 y1, P x1 y1) \/ (a, b) = (P x1 y1, P x1 y0) \/ (a, b) = (P x1 y0, P x0 y0)).
  { intros a b. unfold poly_edges. cbn. intuition congruence. }
  assert (D : forall a b c e : R, P a b = P c e -> a = c /\ b = e) by (intros a b c e H; injection H; auto).
  apply convex_encloses.
  - intros a b Hab. apply HE in Hab. destruct Hab as [H|[H|[H|H]]]; injection H as -> ->; (split; [intro H; apply D in H; lra|]); split.
    + exists (P x1 y0). split; [apply HE; auto|]. unfold orient, cross, psub. cbn [px py]. nra.
    + exists (P x1 y1). split; [apply HE; auto|]. unfold orient, cross, psub. cbn [px py]. nra.
    + exists (P x0 y0). split; [apply HE; auto|]. unfold orient, cross, psub. cbn [px py]. nra.
    + exists (P x1 y0). split; [apply HE; auto|]. unfold orient, cross, psub. cbn [px py]. nra.
    + exists (P x0 y1). split; [apply HE; auto|]. unfold orient, cross, psub. cbn [px py]. nra.
    + exists (P x0 y0). split; [apply HE; auto|]. unfold orient, cross, psub. cbn [px py]. nra.
    + exists (P x1 y1). split; [apply HE; auto|]. unfold orient, cross, psub. cbn [px py]. nra.
    + exists (P x0 y1). split; [apply HE; auto|]. unfold orient, cross, psub. cbn [px py]. nra.
  - intros a b Hab. apply HE in Hab. destruct Hab as [H|[H|[H|H]]]; injection H as -> ->; unfold orient, cross, psub; cbn [px py]; nra.
Qed.
Lemma box_union : union_ok box_lib.
Proof.
  intros a b y rad Ha Hb Hrad H. exists (box (map vp a ++ map vp b)), [], []. split; [reflexivity|]. split.
  - unfold box. eexists. eexists. split; [reflexivity|]. reflexivity.
  - intros x [Hx|Hx]; apply enclosed_hull in Hx; [apply (in_box a)|apply (in_box b)]; try exact Hx; intros p Hp; apply in_or_app; [left|right]; now apply in_map.
Qed.
(** an obstacle with the corners (0,0), (3,4), (3,0); the default of 5 segments and a radius of 1/2: the point 1/10 to the left of the first side is enclosed *)
Example C53_obstacle_example : exists ext holes, inflate_ring box_lib (map vp [P 0 0; P 3 4; P 3 0]) (rr (1 / 2)) 5 = Ok (map vp ext, holes) /\ enclosed ext (P (- (1 / 10)) 0).
Proof.
  destruct (C53_obstacle_kept_away box_lib (1 / 2) 5 (P 0 0) (P 3 4) [P 3 0] box_trig box_union) as (ext & holes & E & _ & H); [lra|lia| |].
  - discriminate.
  - exists ext, holes. split; [exact E|]. apply (H (P 0 0) (P 3 4) 0); [now left|lra|]. rewrite lerp_0.
    assert (dist (P (- (1 / 10)) 0) (P 0 0) = 1 / 10) as ->.
    { unfold dist, plen, pdot, psub. cbn [px py]. replace ((- (1 / 10) - 0) * (- (1 / 10) - 0) + (0 - 0) * (0 - 0)) with ((1 / 10) * (1 / 10)) by field. apply sqrt_square. lra. }
    change (IZR (Z.of_N (arc_count 5))) with 5. assert (1 / 2 <= cos (PI / (2 * 5))); [|lra].
    rewrite <- cos_PI3. pose proof PI_RGT_0. left. apply cos_decreasing_1; lra.
Qed.

(** the same with the first corner given twice: an obstacle with the points (0,0), (0,0), (3,4), (3,0); the default of 5 segments and a radius of 1/2: the point 1/10 to the left of the first side is enclosed *)
Example C53_repeated_example : exists ext holes, inflate_ring box_lib (map vp [P 0 0; P 0 0; P 3 4; P 3 0]) (rr (1 / 2)) 5 = Ok (map vp ext, holes) /\ enclosed ext (P (- (1 / 10)) 0).
Proof.
  destruct (C53_obstacle_kept_away box_lib (1 / 2) 5 (P 0 0) (P 0 0) [P 3 4; P 3 0] box_trig box_union) as (ext & holes & E & _ & H); [lra|lia| |].
  - discriminate.
  - exists ext, holes. split; [exact E|]. apply (H (P 0 0) (P 0 0) 0); [now left|lra|]. rewrite lerp_0.
    assert (dist (P (- (1 / 10)) 0) (P 0 0) = 1 / 10) as ->.
    { unfold dist, plen, pdot, psub. cbn [px py]. replace ((- (1 / 10) - 0) * (- (1 / 10) - 0) + (0 - 0) * (0 - 0)) with ((1 / 10) * (1 / 10)) by field. apply sqrt_square. lra. }
    change (IZR (Z.of_N (arc_count 5))) with 5. assert (1 / 2 <= cos (PI / (2 * 5))); [|lra].
    rewrite <- cos_PI3. pose proof PI_RGT_0. left. apply cos_decreasing_1; lra.
Qed.

Print Assumptions C53_obstacle_kept_away.
Print Assumptions C53_walkers_stay_away.
