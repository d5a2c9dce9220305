(** The circle that round_line puts around a side of length zero, as a polygon that encloses what is near its centre. *)
From Coq Require Import List NArith ZArith Bool Reals Lra Lia Psatz.
From Verif Require Import Base Arith U32 Mesh Helpers Locate Triangulation RealArith Geometry Inflate_facts Properties_triangulation Properties_inflate Properties_f32 Spec_outline Enclose Capsule.
Import ListNotations.
Open Scope R_scope.

(** ** The mirror image *)
Lemma flip_flip p : flip (flip p) = p.
Proof. unfold flip. apply P2_eq; cbn [px py]; ring. Qed.
Lemma flip_lerp a b t : flip (lerp a b t) = lerp (flip a) (flip b) t.
Proof. unfold flip, lerp. apply P2_eq; cbn [padd pscale psub px py]; ring. Qed.
Lemma pairs_map (f : P2 -> P2) : forall l, pairs (map f l) = map (fun e => (f (fst e), f (snd e))) (pairs l).
Proof. induction l as [|a l IH]; [reflexivity|]. destruct l as [|b l]; [reflexivity|]. cbn [map pairs fst snd] in *. now rewrite IH. Qed.
Lemma hull_flip r z : in_hull (map flip r) (flip z) -> in_hull r z.
Proof.
  intros H u c Hc. specialize (H (flip u) c). assert (E : forall a b, pdot (flip a) (flip b) = pdot a b) by (intros; unfold pdot, flip; cbn [px py]; ring).
  rewrite E in H. apply H. intros q Hq. apply in_map_iff in Hq. destruct Hq as (p & <- & Hp). rewrite E. now apply Hc.
Qed.
Lemma enclosed_flip r x : enclosed (map flip r) (flip x) -> enclosed r x.
Proof.
  intros H stops z Hz. destruct (H (map flip stops) (flip z)) as (u & v & a & b & H1 & H2 & s & t & Hs & Ht & E); [intro K; apply Hz; now apply hull_flip|].
  replace (flip x :: map flip stops ++ [flip z]) with (map flip (x :: stops ++ [z])) in H1 by (cbn [map]; now rewrite map_app).
  rewrite pairs_map in H1, H2. apply in_map_iff in H1, H2. destruct H1 as ([u' v'] & E1 & H1). destruct H2 as ([a' b'] & E2 & H2). injection E1 as <- <-. injection E2 as <- <-.
  cbn [fst snd] in E. exists u', v', a', b'. split; [exact H1|]. split; [exact H2|]. exists s, t. split; [exact Hs|]. split; [exact Ht|].
  rewrite <- !flip_lerp in E. rewrite <- (flip_flip (lerp u' v' s)), E. apply flip_flip.
Qed.

(** ** The polygon, clockwise *)
Section Circle.
Variables (c : P2) (d : R) (k : nat).
Hypothesis Hd : 0 < d.
Hypothesis Hk : (3 <= k)%nat.
Let th : R := PI / INR k.
Definition vertex (i : nat) : P2 := padd c (pscale d (turned (P 1 0) (INR i * (PI / INR k)))).
Notation M := (2 * k)%nat.
Lemma k_pos : 3 <= INR k. Proof using Hk. apply (le_INR 3) in Hk. cbn [INR] in Hk. lra. Qed.
Lemma th_bound : 0 < th /\ 3 * th <= PI.
Proof using Hk. pose proof PI_RGT_0. pose proof k_pos. unfold th. split; [apply Rdiv_lt_0_compat; lra|]. apply Rmult_le_reg_r with (INR k); [lra|]. replace (3 * (PI / INR k) * INR k) with (3 * PI) by (field; lra). nra. Qed.
Lemma v_unit : pdot (P 1 0) (P 1 0) = 1. Proof. unfold pdot. cbn [px py]. ring. Qed.
Lemma vertex_round i : vertex (M + i) = vertex i.
Proof using Hk.
  unfold vertex. do 2 f_equal. rewrite plus_INR, mult_INR. cbn [INR]. pose proof k_pos.
  replace (((1 + 1) * INR k + INR i) * (PI / INR k)) with (INR i * (PI / INR k) + 2 * PI) by (field; lra). apply turned_period.
Qed.
Lemma edge_orient i x : orient (vertex i) (vertex (S i)) x = 2 * d * sin (th / 2) * pdot (turned (P 1 0) (INR i * th + th / 2)) (psub x (vertex i)).
Proof using Hk.
  unfold orient. assert (E : psub (vertex (S i)) (vertex i) = pscale d (pscale (2 * sin (th / 2)) (turned (P 1 0) (INR i * th + th / 2 + PI / 2)))).
  { rewrite <- turned_chord. unfold vertex. fold th. rewrite S_INR. replace ((INR i + 1) * th) with (INR i * th + th) by ring. apply P2_eq; cbn [padd psub pscale px py]; ring. }
  rewrite E, <- (turned_cross (P 1 0) (INR i * th + th / 2)). unfold cross, pscale. cbn [px py]. ring.
Qed.
Lemma half_positive : 0 < 2 * d * sin (th / 2).
Proof using Hd Hk. destruct th_bound as [T1 T2]. pose proof PI_RGT_0. assert (0 < sin (th / 2)) by (apply sin_gt_0; lra). nra. Qed.
Lemma centre_right i x : dist x c < d * cos (th / 2) -> orient (vertex i) (vertex (S i)) x < 0.
Proof using Hd Hk.
  intro Hx. rewrite edge_orient. set (w := turned (P 1 0) (INR i * th + th / 2)).
  assert (Hw : pdot w w = 1) by (apply turned_unit, v_unit).
  assert (E : pdot w (psub x (vertex i)) = pdot w (psub x c) - d * cos (th / 2)).
  { unfold vertex. fold th. set (f := INR i * th). pose proof (turned_dot (P 1 0) (f + th / 2) f v_unit) as D. fold f in w. fold w in D.
    replace (f + th / 2 - f) with (th / 2) in D by ring. rewrite <- D. unfold pdot. cbn [psub padd pscale px py]. ring. }
  assert (pdot w (psub x c) <= dist x c) by (unfold dist; apply plen_ge with (w := w); [exact Hw|right; unfold pdot; ring]).
  rewrite E. pose proof half_positive. nra.
Qed.
Lemma Rmult_pos_neg a b : 0 < a -> b < 0 -> a * b < 0. Proof. nra. Qed.
Lemma vertex_turn i : orient (vertex i) (vertex (S i)) (vertex (S (S i))) < 0.
Proof using Hd Hk.
  rewrite edge_orient. destruct th_bound as [T1 T2]. pose proof PI_RGT_0.
  assert (E : pdot (turned (P 1 0) (INR i * th + th / 2)) (psub (vertex (S (S i))) (vertex i)) = d * (cos (3 * th / 2) - cos (th / 2))).
  { unfold vertex. fold th. rewrite !S_INR. replace ((INR i + 1 + 1) * th) with (INR i * th + 2 * th) by ring. set (f := INR i * th).
    pose proof (turned_dot (P 1 0) (f + th / 2) (f + 2 * th) v_unit) as D1. pose proof (turned_dot (P 1 0) (f + th / 2) f v_unit) as D2.
    replace (f + th / 2 - f) with (th / 2) in D2 by ring. replace (f + th / 2 - (f + 2 * th)) with (- (3 * th / 2)) in D1 by field. rewrite cos_neg in D1.
    rewrite <- D1, <- D2. unfold pdot. cbn [psub padd pscale px py]. ring. }
  rewrite E. pose proof half_positive. assert (cos (3 * th / 2) < cos (th / 2)) by (apply cos_decreasing_1; lra). assert (d * (cos (3 * th / 2) - cos (th / 2)) < 0) by (apply Rmult_pos_neg; lra). apply Rmult_pos_neg; assumption.
Qed.
Lemma vertex_differs i : vertex i <> vertex (S i).
Proof using Hd Hk. intro E. pose proof (vertex_turn i) as T. rewrite E in T. unfold orient in T. replace (cross (psub (vertex (S i)) (vertex (S i))) (psub (vertex (S (S i))) (vertex (S i)))) with 0 in T by (unfold cross; cbn [psub px py]; ring). lra. Qed.
Lemma circle_edges a b : In (a, b) (poly_edges (map vertex (seq 0 M))) <-> exists i, (i < M)%nat /\ a = vertex i /\ b = vertex (S i).
Proof using Hk.
  rewrite poly_edges_nth. rewrite map_length, seq_length.
  assert (G : forall i, (i < M)%nat -> nth_error (map vertex (seq 0 M)) i = Some (vertex i)).
  { intros i Hi. rewrite nth_error_map. rewrite (nth_error_nth' (seq 0 M) 0%nat) by (rewrite seq_length; exact Hi). rewrite seq_nth by exact Hi. reflexivity. }
  assert (N : forall i, (i < M)%nat -> nth_error (map vertex (seq 0 M)) (S i mod M) = Some (vertex (S i))).
  { intros i Hi. destruct (Nat.eq_dec (S i) M) as [E|E].
    - rewrite E, Nat.mod_same by lia. rewrite G by lia. f_equal. rewrite <- (vertex_round 0). f_equal. lia.
    - rewrite Nat.mod_small by lia. apply G. lia. }
  split.
  - intros (i & H1 & H2). assert (Hi : (i < M)%nat). { rewrite <- (seq_length M 0), <- (map_length vertex). apply nth_error_Some. congruence. }
    exists i. split; [exact Hi|]. rewrite G in H1 by exact Hi. rewrite N in H2 by exact Hi. split; congruence.
  - intros (i & Hi & -> & ->). exists i. split; [now apply G|now apply N].
Qed.
Lemma circle_encloses x : dist x c < d * cos (th / 2) -> enclosed (map vertex (seq 0 M) ++ [vertex 0]) x.
Proof using Hd Hk.
  intros Hx. assert (En : exists r, map vertex (seq 0 M) = vertex 0 :: r).
  { replace M with (S (2 * k - 1)) by lia. cbn [seq map]. eauto. }
  destruct En as [r Er]. pose proof circle_edges as CE. rewrite Er in CE |- *.
  assert (Next : forall i, (i < M)%nat -> exists j, (j < M)%nat /\ vertex j = vertex (S i) /\ vertex (S j) = vertex (S (S i))).
  { intros i Hi. destruct (Nat.eq_dec (S i) M) as [E|E]; [|exists (S i); split; [lia|auto]]. exists 0%nat. split; [lia|].
    split; [rewrite <- (vertex_round 0)|rewrite <- (vertex_round 1)]; f_equal; lia. }
  assert (Prev : forall i, (i < M)%nat -> exists j, (j < M)%nat /\ vertex (S j) = vertex i /\ vertex (S (S j)) = vertex (S i)).
  { intros i Hi. destruct i as [|i]; [|exists i; split; [lia|auto]]. exists (M - 1)%nat. split; [lia|].
    split; [rewrite <- (vertex_round 0)|rewrite <- (vertex_round 1)]; f_equal; lia. }
  apply convex_encloses.
  - intros a b Hab. apply CE in Hab. destruct Hab as (i & Hi & -> & ->). split; [apply vertex_differs|]. split.
    + destruct (Prev i Hi) as (j & Hj & E1 & E2). exists (vertex j). split; [apply CE; exists j; auto|]. rewrite <- E1, <- E2. apply vertex_turn.
    + destruct (Next i Hi) as (j & Hj & E1 & E2). exists (vertex (S (S i))). split; [apply CE; exists j; auto|]. apply vertex_turn.
  - intros a b Hab. apply CE in Hab. destruct Hab as (i & Hi & -> & ->). now apply centre_right.
Qed.
End Circle.

(** ** What round_line puts around a point *)
Definition circle (s : P2) (d : R) (n : nat) : list P2 := map flip (map (vertex (flip s) d n) (seq 0 (2 * n))).
Lemma flip_turned f : flip (turned (P 1 0) f) = P (cos f) (sin f).
Proof. unfold flip, turned. apply P2_eq; cbn [px py]; ring. Qed.
Lemma round_line_point lib s d n : real_trig lib -> (1 <= n)%N -> round_line lib (vp s, vp s) (rr d) n = Ok (map vp (circle s d (N.to_nat n))).
Proof.
  intros HT Hn. pose proof HT as (HH & _ & _).
  assert (segment_normal lib (vp s) (vp s) = None) as EN.
  { unfold segment_normal. cbn [vx vy vp pt].
    assert (hypot lib (fsub (a := RA) (Some (px s)) (Some (px s))) (fsub (a := RA) (Some (py s)) (Some (py s))) = rr 0) as ->.
    { etransitivity; [exact (HH (px s - px s) (py s - py s))|]. f_equal. rewrite <- sqrt_0. f_equal. ring. }
    rewrite fz_R. cbn. unfold reqb. destruct (Req_EM_T 0 0); [reflexivity|contradiction]. }
  unfold round_line. rewrite EN. f_equal. unfold circle, rangeN. rewrite !map_map. replace (N.to_nat (n * 2)) with (2 * N.to_nat n)%nat by lia.
  apply map_ext. intro i.
  assert (HZ : 1 <= INR (N.to_nat n)) by (apply (le_INR 1); lia).
  assert (EA : fdiv (a := RA) (fmul (fz (Z.of_N (N.of_nat i))) ftau) (fz (Z.of_N (n * 2))) = rr (INR i * (PI / INR (N.to_nat n)))).
  { rewrite !fz_R. assert (E1 : IZR (Z.of_N (N.of_nat i)) = INR i) by (rewrite nat_N_Z; symmetry; apply INR_IZR_INZ).
    assert (E2 : IZR (Z.of_N (n * 2)) = 2 * INR (N.to_nat n)) by (rewrite N2Z.inj_mul, mult_IZR, IZR_N_INR; change (IZR (Z.of_N 2)) with 2; ring).
    rewrite E1, E2. unfold rr. cbn. unfold reqb. destruct (Req_EM_T (2 * INR (N.to_nat n)) 0); [lra|]. f_equal. field. lra. }
  rewrite EA. set (f := INR i * (PI / INR (N.to_nat n))). unfold vertex. fold f. unfold vp, pt, flip, turned, rr. cbn [vx vy px py padd pscale]. cbn.
  f_equal; f_equal; ring.
Qed.
Lemma point_encloses s d n : (3 <= n)%nat -> 0 < d -> exists q0 r, circle s d n = q0 :: r /\ q0 <> last r q0 /\
  forall x, dist x s < d * cos (PI / (2 * INR n)) -> enclosed ((q0 :: r) ++ [q0]) x.
Proof.
  intros Hn Hd. pose proof (k_pos n Hn) as HZ. set (w := vertex (flip s) d n).
  exists (flip (w 0%nat)), (map flip (map w (seq 1 (2 * n - 1)))).
  assert (E : circle s d n = flip (w 0%nat) :: map flip (map w (seq 1 (2 * n - 1)))).
  { unfold circle. fold w. replace (2 * n)%nat with (S (2 * n - 1)) at 1 by lia. reflexivity. }
  split; [exact E|]. split.
  - replace (2 * n - 1)%nat with (S (2 * n - 2)) by lia. rewrite seq_S, !map_app. cbn [map]. rewrite last_last. intro K. apply (f_equal flip) in K. rewrite !flip_flip in K.
    apply (vertex_differs (flip s) d n Hd Hn (1 + (2 * n - 2))). change (vertex (flip s) d n) with w. rewrite <- K.
    replace (S (1 + (2 * n - 2))) with (2 * n + 0)%nat by lia. symmetry. apply vertex_round, Hn.
  - intros x Hx. rewrite <- E. apply enclosed_flip. unfold circle. rewrite map_app. cbn [map]. rewrite map_map. rewrite flip_flip.
    rewrite (map_ext (fun p => flip (flip p)) (fun p => p)) by (intro; apply flip_flip). rewrite map_id. apply circle_encloses; [exact Hd|exact Hn|].
    assert (dist (flip x) (flip s) = dist x s) as ->. { unfold dist, plen, pdot, flip. f_equal. cbn [psub px py]. ring. }
    replace (PI / INR n / 2) with (PI / (2 * INR n)) by (field; lra). exact Hx.
Qed.
