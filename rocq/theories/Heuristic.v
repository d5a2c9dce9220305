(** The heuristic (helpers.rs 109-130) and the turning point (135-151) on real points. *)
From Coq Require Import List NArith ZArith Bool Reals Lra Psatz Lia.
From Verif Require Import Base Arith RealArith Helpers Geometry.
Import ListNotations.
Open Scope R_scope.

(** the goal after mirroring *)
Definition mgoal (root goal i0 i1 : P2) : P2 :=
  if side_eqb (side (vp root) (vp i0, vp i1)) (side (vp goal) (vp i0, vp i1)) then reflect i0 i1 goal else goal.
Lemma mirrored_goal_vp root goal i0 i1 : i0 <> i1 -> mirrored_goal (vp root) (vp goal) (vp i0, vp i1) = vp (mgoal root goal i0 i1).
Proof. intro H. unfold mirrored_goal, mgoal. destruct (side_eqb _ _); [now apply mirror_vp|reflexivity]. Qed.

Definition P2_dec (a b : P2) : {a = b} + {a <> b}.
Proof.
  destruct (Req_EM_T (px a) (px b)) as [E|E]; [destruct (Req_EM_T (py a) (py b)) as [F|F]|].
  - left. now apply P2_eq.
  - right. congruence.
  - right. congruence.
Defined.

(** the heuristic towards a goal that is not mirrored any more *)
Definition hval (root g i0 i1 : P2) : R :=
  if P2_dec root i0 then dist root g else if P2_dec root i1 then dist root g
  else if Req_EM_T (orient i0 i1 root) (orient i0 i1 g) then dist root g
  else let t := itime root g i0 i1 in
       if Rlt_dec t 0 then dist root i0 + dist i0 g
       else if Rlt_dec 1 t then dist root i1 + dist i1 g
       else dist root g.

Lemma heuristic_vp root goal i0 i1 : i0 <> i1 ->
  heuristic (vp root) (vp goal) (vp i0, vp i1) = Some (hval root (mgoal root goal i0 i1) i0 i1).
Proof.
  intro H. unfold heuristic. rewrite mirrored_goal_vp by assumption. cbn [fst snd]. set (g := mgoal root goal i0 i1). clearbody g.
  unfold hval. rewrite !vdist_vp, intersection_time_vp.
  destruct (P2_dec root i0) as [E0|E0]; [apply veq_vp in E0; rewrite E0; reflexivity|apply veq_vp_false in E0; rewrite E0].
  destruct (P2_dec root i1) as [E1|E1]; [apply veq_vp in E1; rewrite E1; reflexivity|apply veq_vp_false in E1; rewrite E1].
  cbn [orb]. rewrite !fz_R. rewrite (cross_orient2 root g i0 i1).
  destruct (Req_EM_T (orient i0 i1 root) (orient i0 i1 g)) as [E|E].
  - destruct (Req_EM_T _ 0) as [_|F]; [|exfalso; lra]. reflexivity.
  - destruct (Req_EM_T _ 0) as [F|_]; [exfalso; lra|]. unfold fgt. cbn [flt RA rcmp fadd lift2]. unfold rltb.
    destruct (Rlt_dec (itime root g i0 i1) 0); [reflexivity|]. destruct (Rlt_dec 1 (itime root g i0 i1)); reflexivity.
Qed.
Lemma heuristic_degenerate root goal i0 : heuristic (vp root) (vp goal) (vp i0, vp i0) = None.
Proof.
  unfold heuristic, mirrored_goal. assert (forall p, side (vp p) (vp i0, vp i0) = SEdge) as HS.
  { intro p. apply side_edge. pose proof eps_pos. replace (orient i0 i0 p) with 0 by (pts; ring). lra. }
  rewrite !HS. cbn [side_eqb]. rewrite mirror_degenerate. cbn [fst snd].
  destruct (veq _ _ || veq _ _); [reflexivity|].
  unfold intersection_time. cbn [fst snd]. unfold vsub, perp_dot. cbn. destruct (vp root), (vp i0); reflexivity.
Qed.

(** the mirrored goal is as far as the goal from all the points of the line *)
Lemma mgoal_on_line root goal i0 i1 x : i0 <> i1 -> orient i0 i1 x = 0 -> dist x (mgoal root goal i0 i1) = dist x goal.
Proof. intros. unfold mgoal. destruct (side_eqb _ _); [now apply reflect_on_line|reflexivity]. Qed.

(** in or exactly on the line, or outside of the tolerance *)
Definition clear_of (a b p : P2) : Prop := orient a b p = 0 \/ eps <= Rabs (orient a b p).

Lemma side_cases a b p : (side (vp p) (vp a, vp b) = SLeft /\ eps <= orient a b p) \/
  (side (vp p) (vp a, vp b) = SRight /\ orient a b p <= - eps) \/
  (side (vp p) (vp a, vp b) = SEdge /\ - eps < orient a b p < eps).
Proof.
  destruct (side (vp p) (vp a, vp b)) eqn:E; [left|right; left|right; right]; split; try reflexivity.
  - now apply side_left. - now apply side_right. - now apply side_edge.
Qed.
Lemma clear_edge a b p : clear_of a b p -> - eps < orient a b p < eps -> orient a b p = 0.
Proof. intros [H|H] G; [assumption|]. unfold Rabs in H. destruct (Rcase_abs _) in H; lra. Qed.

(** mirrored: on the other side of the root, or both on the line *)
Lemma mgoal_opposite root goal i0 i1 : i0 <> i1 -> clear_of i0 i1 root -> clear_of i0 i1 goal ->
  orient i0 i1 root * orient i0 i1 (mgoal root goal i0 i1) <= 0.
Proof.
  intros H Hr Hg. pose proof eps_pos. unfold mgoal.
  destruct (side_cases i0 i1 root) as [[-> R1]|[[-> R1]|[-> R1]]], (side_cases i0 i1 goal) as [[-> G1]|[[-> G1]|[-> G1]]]; cbn [side_eqb];
    rewrite ?orient_reflect by assumption; try (apply clear_edge in R1; [|assumption]); try (apply clear_edge in G1; [|assumption]);
    try rewrite R1; try rewrite G1; nra.
Qed.

(** the crossing point of the line root-g and the line of the interval *)
Lemma crossing_point root g i0 i1 : orient i0 i1 root <> orient i0 i1 g -> orient i0 i1 root * orient i0 i1 g <= 0 ->
  exists s, 0 <= s <= 1 /\ lerp i0 i1 (itime root g i0 i1) = lerp root g s.
Proof.
  intros H Hs. exists (orient i0 i1 root / (orient i0 i1 root - orient i0 i1 g)). split; [|now apply itime_lerp].
  set (a := orient i0 i1 root) in *. set (b := orient i0 i1 g) in *. clearbody a b.
  destruct (Rlt_dec b a) as [L|L].
  - assert (0 <= a /\ b <= 0) by (split; nra). split; apply Rmult_le_reg_r with (a - b); try lra;
      replace (a / (a - b) * (a - b)) with a by (field; lra); lra.
  - assert (a <= 0 /\ 0 <= b) by (split; nra). replace (a / (a - b)) with ((- a) / (b - a)) by (field; lra).
    split; apply Rmult_le_reg_r with (b - a); try lra; replace (- a / (b - a) * (b - a)) with (- a) by (field; lra); lra.
Qed.

(** on a line through three points, the sum of the distances to two fixed points at the middle one is at most its
    value at the outer one, if at the first it is minimal *)
Lemma sum_convex root g a b c0 t u : (t <= c0 <= u \/ u <= c0 <= t) -> t <> u ->
  (forall v, dist root (lerp a b t) + dist (lerp a b t) g <= dist root (lerp a b v) + dist (lerp a b v) g) ->
  dist root (lerp a b c0) + dist (lerp a b c0) g <= dist root (lerp a b u) + dist (lerp a b u) g.
Proof.
  intros Hc Hne Hmin. set (k := (c0 - t) / (u - t)).
  assert (Hk : 0 <= k <= 1).
  { unfold k. destruct Hc as [Hc|Hc].
    - split; apply Rmult_le_reg_r with (u - t); try lra; replace ((c0 - t) / (u - t) * (u - t)) with (c0 - t) by (field; lra); lra.
    - replace ((c0 - t) / (u - t)) with ((t - c0) / (t - u)) by (field; lra).
      split; apply Rmult_le_reg_r with (t - u); try lra; replace ((t - c0) / (t - u) * (t - u)) with (t - c0) by (field; lra); lra. }
  assert (E : lerp a b c0 = lerp (lerp a b t) (lerp a b u) k).
  { assert (Ek : c0 = t + k * (u - t)) by (unfold k; field; lra). rewrite Ek. generalize k. intro k'. clear. unfold lerp. pts. apply P2_eq; cbn [px py]; ring. }
  rewrite E. pose proof (dist_convex root (lerp a b t) (lerp a b u) k Hk) as D1.
  pose proof (dist_convex g (lerp a b t) (lerp a b u) k Hk) as D2. rewrite !(dist_sym g) in D2.
  pose proof (Hmin u) as Hm.
  set (A1 := dist root (lerp a b t)) in *. set (B1 := dist (lerp a b t) g) in *.
  set (A2 := dist root (lerp a b u)) in *. set (B2 := dist (lerp a b u) g) in *. nra.
Qed.

(** the heuristic is at least the distance to the mirrored goal *)
Lemma hval_ge root g i0 i1 : dist root g <= hval root g i0 i1.
Proof.
  unfold hval. destruct (P2_dec root i0); [lra|]. destruct (P2_dec root i1); [lra|].
  destruct (Req_EM_T _ _); [lra|]. cbv zeta. destruct (Rlt_dec _ 0); [apply dist_triangle|].
  destruct (Rlt_dec 1 _); [apply dist_triangle|lra].
Qed.

Lemma hval_le root g i0 i1 t : 0 <= t <= 1 -> orient i0 i1 root * orient i0 i1 g <= 0 ->
  hval root g i0 i1 <= dist root (lerp i0 i1 t) + dist (lerp i0 i1 t) g.
Proof.
  intros Ht Hs. pose proof (dist_triangle root (lerp i0 i1 t) g) as T. unfold hval.
  destruct (P2_dec root i0); [exact T|]. destruct (P2_dec root i1); [exact T|].
  destruct (Req_EM_T _ _) as [|Hne]; [exact T|]. cbv zeta.
  destruct (crossing_point root g i0 i1 Hne Hs) as (s & Hs1 & HX). set (c := itime root g i0 i1) in *.
  assert (Hmin : forall v, dist root (lerp i0 i1 c) + dist (lerp i0 i1 c) g <= dist root (lerp i0 i1 v) + dist (lerp i0 i1 v) g).
  { intro v. rewrite HX. rewrite dist_between by assumption. apply dist_triangle. }
  destruct (Rlt_dec c 0).
  - pose proof (sum_convex root g i0 i1 0 c t) as S. rewrite lerp_0 in S. apply S; [left; lra|lra|exact Hmin].
  - destruct (Rlt_dec 1 c); [|exact T].
    pose proof (sum_convex root g i0 i1 1 c t) as S. rewrite lerp_1 in S. apply S; [right; lra|lra|exact Hmin].
Qed.
Lemma hval_attained root g i0 i1 : orient i0 i1 root * orient i0 i1 g <= 0 -> (orient i0 i1 root <> 0 \/ orient i0 i1 g <> 0) ->
  exists t, 0 <= t <= 1 /\ hval root g i0 i1 = dist root (lerp i0 i1 t) + dist (lerp i0 i1 t) g.
Proof.
  intros Hs Hn. unfold hval.
  destruct (P2_dec root i0) as [->|]; [exists 0; split; [lra|]; rewrite lerp_0, dist_refl; lra|].
  destruct (P2_dec root i1) as [->|]; [exists 1; split; [lra|]; rewrite lerp_1, dist_refl; lra|].
  destruct (Req_EM_T _ _) as [E|Hne]; [exfalso; rewrite E in Hs; assert (orient i0 i1 g = 0) by nra; lra|]. cbv zeta.
  destruct (crossing_point root g i0 i1 Hne Hs) as (s & Hs1 & HX). set (c := itime root g i0 i1) in *.
  destruct (Rlt_dec c 0); [exists 0; split; [lra|]; now rewrite lerp_0|].
  destruct (Rlt_dec 1 c); [exists 1; split; [lra|]; now rewrite lerp_1|].
  exists c. split; [lra|]. rewrite HX. now rewrite dist_between.
Qed.

(** ** against the goal itself *)
Lemma mgoal_dist root goal i0 i1 : i0 <> i1 ->
  dist root goal <= dist root (mgoal root goal i0 i1) \/
  (- eps < orient i0 i1 root < eps /\ - eps < orient i0 i1 goal < eps /\ orient i0 i1 root * orient i0 i1 goal < 0).
Proof.
  intro H. pose proof eps_pos. unfold mgoal.
  destruct (side_cases i0 i1 root) as [[-> R1]|[[-> R1]|[-> R1]]], (side_cases i0 i1 goal) as [[-> G1]|[[-> G1]|[-> G1]]]; cbn [side_eqb];
    try (left; lra); try (left; apply dist_reflect_ge; [assumption|nra]).
  destruct (Rlt_dec (orient i0 i1 root * orient i0 i1 goal) 0) as [L|L]; [right; tauto|left; apply dist_reflect_ge; [assumption|lra]].
Qed.
(** the distance between a point and its mirror image *)
Lemma dist_reflect a b p : a <> b -> dist a b * dist p (reflect a b p) = 2 * Rabs (orient a b p).
Proof.
  intro H. pose proof (pdot_pos a b H) as HP.
  assert (HD : 0 <= dist a b * dist p (reflect a b p)) by (apply Rmult_le_pos; apply dist_nonneg).
  rewrite <- (Rabs_right (dist a b * dist p (reflect a b p))) by lra. rewrite <- (Rabs_right 2) at 1 by lra. rewrite <- Rabs_mult.
  apply Rsqr_eq_abs_0. unfold Rsqr. 
  replace (dist a b * dist p (reflect a b p) * (dist a b * dist p (reflect a b p))) with
    ((dist b a * dist b a) * (dist p (reflect a b p) * dist p (reflect a b p))) by (rewrite (dist_sym b a); ring).
  unfold dist at 1 2 3 4. rewrite !plen_sqr. unfold reflect.
  set (d := pdot (psub b a) (psub b a)) in *. set (n := pdot (psub p a) (psub b a)).
  assert (HK : n / d * d = n) by (field; lra). set (k := n / d) in *. clearbody k.
  set (w := psub p a). assert (E : psub p (padd a (psub (pscale (2 * k) (psub b a)) w)) = pscale 2 (psub w (pscale k (psub b a)))).
  { unfold w. pts. apply P2_eq; cbn [px py]; ring. }
  rewrite E. 
  assert (E2 : pdot (pscale 2 (psub w (pscale k (psub b a)))) (pscale 2 (psub w (pscale k (psub b a)))) = 4 * (pdot w w - 2 * k * n + k * (k * d))).
  { unfold n, d, w. pts. ring. }
  rewrite E2. replace (k * d) with n by lra.
  replace (d * (4 * (pdot w w - 2 * k * n + k * n))) with (4 * (d * pdot w w - (k * d) * n)) by ring. rewrite HK.
  unfold n, d, w. pts. ring.
Qed.
Lemma mgoal_dist_bound root goal i0 i1 : i0 <> i1 ->
  dist root goal <= dist root (mgoal root goal i0 i1) + 2 * eps / dist i0 i1.
Proof.
  intro H. assert (HD : 0 < dist i0 i1).
  { destruct (dist_nonneg i0 i1) as [|E]; [assumption|]. symmetry in E. apply dist_zero in E. contradiction. }
  assert (0 <= 2 * eps / dist i0 i1).
  { apply Rmult_le_pos; [pose proof eps_pos; lra|]. apply Rlt_le, Rinv_0_lt_compat. assumption. }
  destruct (mgoal_dist root goal i0 i1 H) as [|(R1 & G1 & _)]; [lra|].
  assert (dist goal (mgoal root goal i0 i1) <= 2 * eps / dist i0 i1).
  { unfold mgoal. destruct (side_eqb _ _); [|rewrite dist_refl; lra]. apply Rmult_le_reg_l with (dist i0 i1); [assumption|].
    rewrite dist_reflect by assumption. replace (dist i0 i1 * (2 * eps / dist i0 i1)) with (2 * eps) by (field; lra).
    assert (Rabs (orient i0 i1 goal) <= eps) by (apply Rlt_le, Rabs_def1; lra). lra. }
  pose proof (dist_triangle root (mgoal root goal i0 i1) goal) as T. rewrite (dist_sym (mgoal root goal i0 i1) goal) in T. lra.
Qed.

(** ** the turning point *)
Lemma turning_point_vp root goal i0 i1 : i0 <> i1 ->
  turning_point (vp root) (vp goal) (vp i0, vp i1) =
  if P2_dec root i0 then None
  else if Rle_dec (orient root i0 (mgoal root goal i0 i1)) (- eps) then Some (vp i0)
  else if Rle_dec eps (orient root i1 (mgoal root goal i0 i1)) then Some (vp i1) else None.
Proof.
  intro H. unfold turning_point. rewrite mirrored_goal_vp by assumption. cbn [fst snd]. set (g := mgoal root goal i0 i1). clearbody g.
  destruct (P2_dec root i0) as [E|E]; [apply veq_vp in E; now rewrite E|apply veq_vp_false in E; rewrite E].
  pose proof eps_pos.
  destruct (side_cases root i0 g) as [[-> R1]|[[-> R1]|[-> R1]]]; cbn [side_eqb].
  2: { destruct (Rle_dec _ _); [reflexivity|contradiction]. }
  all: destruct (Rle_dec (orient root i0 g) (- eps)); [exfalso; lra|];
    destruct (side_cases root i1 g) as [[-> R2]|[[-> R2]|[-> R2]]]; cbn [side_eqb]; destruct (Rle_dec eps (orient root i1 g)); try reflexivity; exfalso; lra.
Qed.
