(** C53, C54, C55: the agent radius around obstacles. *)
From Coq Require Import List NArith ZArith Bool Reals Lra Lia Psatz.
From Verif Require Import Base Arith U32 Mesh Helpers Locate Triangulation RealArith Geometry Inflate_facts Properties_triangulation.
Import ListNotations.
Open Scope R_scope.

(** The sides of a path and of a closed outline. *)
Fixpoint sides (l : list P2) : list (P2 * P2) :=
  match l with
  | a :: ((b :: _) as r) => (a, b) :: sides r
  | _ => []
  end.
Definition outline_sides (l : list P2) : list (P2 * P2) :=
  match l with [] => [] | a :: _ => sides (l ++ [a]) end.

Lemma sides_app l1 : forall x y l2, sides ((l1 ++ [x]) ++ y :: l2) = sides (l1 ++ [x]) ++ (x, y) :: sides (y :: l2).
Proof.
  induction l1 as [|a r IH]; intros x y l2; [reflexivity|]. specialize (IH x y l2).
  destruct r as [|b r]; [reflexivity|]. cbn [app] in *. cbn [sides]. cbn [sides] in IH. rewrite IH. reflexivity.
Qed.
Lemma sides_map_seq (f : nat -> P2) n : forall k a b, In (a, b) (sides (map f (seq k (S n)))) ->
  exists i, (k <= i < k + n)%nat /\ a = f i /\ b = f (S i).
Proof.
  induction n as [|n IH]; intros k a b H; [destruct H|].
  change (seq k (S (S n))) with (k :: S k :: seq (S (S k)) n) in H. cbn [map sides] in H.
  destruct H as [H|H].
  - inversion H; subst. exists k. split; [lia|auto].
  - destruct (IH (S k) a b H) as (i & Hi & E1 & E2). exists i. split; [lia|auto].
Qed.

Lemma turned_unit v f : pdot v v = 1 -> pdot (turned v f) (turned v f) = 1.
Proof.
  unfold pdot, turned. cbn. intro H. pose proof (sin2_cos2 f) as E. unfold Rsqr in E.
  replace ((px v * cos f + py v * sin f) * (px v * cos f + py v * sin f) + (py v * cos f - px v * sin f) * (py v * cos f - px v * sin f))
    with ((px v * px v + py v * py v) * (sin f * sin f + cos f * cos f)) by ring.
  rewrite H, E. ring.
Qed.
Lemma turned_dot v f g : pdot v v = 1 -> pdot (turned v f) (turned v g) = cos (f - g).
Proof.
  unfold pdot, turned. cbn. intro H. rewrite cos_minus.
  replace ((px v * cos f + py v * sin f) * (px v * cos g + py v * sin g) + (py v * cos f - px v * sin f) * (py v * cos g - px v * sin g))
    with ((px v * px v + py v * py v) * (cos f * cos g + sin f * sin g)) by ring.
  rewrite H. ring.
Qed.
Lemma plen_scaled d w : 0 <= d -> pdot w w = 1 -> plen (pscale d w) = d.
Proof. intros Hd H. rewrite plen_scale. unfold plen. rewrite H, sqrt_1, Rabs_right by lra. ring. Qed.
Lemma plen_ge x w k : pdot w w = 1 -> k <= pdot x w -> k <= plen x.
Proof. intros H Hk. pose proof (Cauchy x w) as C. unfold plen in C at 2. rewrite H, sqrt_1 in C. lra. Qed.
Lemma plen_le a b : pdot a a <= pdot b b -> plen a <= plen b.
Proof. intro H. unfold plen. now apply sqrt_le_1_alt. Qed.

(** A chord of the arc, seen from the centre. *)
Lemma chord c d v f g t : 0 < d -> pdot v v = 1 ->
  d * cos ((g - f) / 2) <= dist (lerp (padd c (pscale d (turned v f))) (padd c (pscale d (turned v g))) t) c.
Proof.
  intros Hd Hv. unfold dist. apply plen_ge with (w := turned v ((f + g) / 2)); [now apply turned_unit|].
  pose proof (turned_dot v f ((f + g) / 2) Hv) as E1. pose proof (turned_dot v g ((f + g) / 2) Hv) as E2.
  replace (f - (f + g) / 2) with (- ((g - f) / 2)) in E1 by field. rewrite cos_neg in E1.
  replace (g - (f + g) / 2) with ((g - f) / 2) in E2 by field.
  set (F := turned v f) in *. set (G := turned v g) in *. set (M := turned v ((f + g) / 2)) in *.
  assert (pdot (psub (lerp (padd c (pscale d F)) (padd c (pscale d G)) t) c) M = d * ((1 - t) * pdot F M + t * pdot G M)) as ->.
  { unfold lerp, pdot. cbn. ring. }
  rewrite E1, E2. lra.
Qed.

(** The distance to a point of the edge is at least the distance to the end the arc is around. *)
Lemma behind c u x k : 0 <= k -> pdot (psub x c) u <= 0 -> dist x c <= dist x (padd c (pscale k u)).
Proof.
  intros Hk H. unfold dist. apply plen_le.
  assert (pdot (psub x (padd c (pscale k u))) (psub x (padd c (pscale k u))) =
          pdot (psub x c) (psub x c) - 2 * k * pdot (psub x c) u + k * k * pdot u u) as ->.
  { unfold pdot. cbn. ring. }
  pose proof (pdot_nonneg u). nra.
Qed.

(** A direction of the first arc points backwards. *)
Lemma arc_backwards v m k d t c : 0 < d -> (1 <= m)%N -> (k < N.to_nat m)%nat -> 0 <= t <= 1 ->
  pdot v v = 1 ->
  pdot (psub (lerp (arc_point c d v m k) (arc_point c d v m (S k)) t) c) (P (- py v) (px v)) <= 0.
Proof.
  intros Hd Hm Hk Ht Hv. pose proof PI_RGT_0 as HP.
  assert (0 < IZR (Z.of_N m)) as Hz by (apply IZR_lt; lia).
  assert (forall j, (j <= N.to_nat m)%nat -> 0 <= sin (INR j * PI / IZR (Z.of_N m))) as HS.
  { intros j Hj. assert (0 <= INR j <= IZR (Z.of_N m)) as Hi.
    { split; [apply pos_INR|]. rewrite IZR_N_INR. now apply le_INR. }
    assert (0 <= INR j * PI / IZR (Z.of_N m) <= PI) as Hb.
    { split.
      - apply Rmult_le_pos; [nra|]. left. now apply Rinv_0_lt_compat.
      - apply Rmult_le_reg_r with (IZR (Z.of_N m)); [exact Hz|]. unfold Rdiv. rewrite Rmult_assoc, Rinv_l by lra. nra. }
    apply sin_ge_0; lra. }
  unfold arc_point.
  assert (forall f g, pdot (psub (lerp (padd c (pscale d (turned v f))) (padd c (pscale d (turned v g))) t) c) (P (- py v) (px v))
            = - (d * pdot v v * ((1 - t) * sin f + t * sin g))) as E.
  { intros f g. unfold lerp, turned, pdot. cbn. ring. }
  rewrite E, Hv. pose proof (HS k ltac:(lia)) as H1. pose proof (HS (S k) ltac:(lia)) as H2.
  assert (0 <= (1 - t) * sin (INR k * PI / IZR (Z.of_N m))) as G1 by (apply Rmult_le_pos; lra).
  assert (0 <= t * sin (INR (S k) * PI / IZR (Z.of_N m))) as G2 by (apply Rmult_le_pos; lra).
  set (X := (1 - t) * sin (INR k * PI / IZR (Z.of_N m))) in *. set (Y := t * sin (INR (S k) * PI / IZR (Z.of_N m))) in *.
  assert (0 <= d * (X + Y)) by (apply Rmult_le_pos; lra). lra.
Qed.

Lemma arc_chord c d v m k t : 0 < d -> (1 <= m)%N -> pdot v v = 1 ->
  d * cos (PI / (2 * IZR (Z.of_N m))) <= dist (lerp (arc_point c d v m k) (arc_point c d v m (S k)) t) c.
Proof.
  intros Hd Hm Hv. unfold arc_point.
  assert (0 < IZR (Z.of_N m)) as Hz by (apply IZR_lt; lia).
  replace (PI / (2 * IZR (Z.of_N m))) with ((INR (S k) * PI / IZR (Z.of_N m) - INR k * PI / IZR (Z.of_N m)) / 2).
  - now apply chord.
  - rewrite S_INR. field. lra.
Qed.

Lemma arc_len c d v m : length (arc c d v m) = S (N.to_nat m).
Proof. unfold arc. now rewrite map_length, seq_length. Qed.
Lemma arc_snoc c d v m : (1 <= m)%N -> pdot v v = 1 ->
  exists l, arc c d v m = l ++ [psub c (pscale d v)] /\ exists l', arc c d v m = padd c (pscale d v) :: l'.
Proof.
  intros Hm Hv. assert (0 < IZR (Z.of_N m)) as Hz by (apply IZR_lt; lia).
  unfold arc. exists (map (arc_point c d v m) (seq 0 (N.to_nat m))). split.
  - rewrite seq_S, map_app. f_equal. cbn [map Nat.add]. f_equal. unfold arc_point. rewrite <- IZR_N_INR.
    replace (IZR (Z.of_N m) * PI / IZR (Z.of_N m)) with PI by (field; lra). rewrite turned_PI. apply P2_eq; cbn; ring.
  - cbn [seq map]. eexists. f_equal. unfold arc_point. cbn [INR].
    replace (0 * PI / IZR (Z.of_N m)) with 0 by (field; lra). now rewrite turned_0.
Qed.

(** The unit normal of the edge, on its left. *)
Definition left_normal (s e : P2) : P2 := P (- (py e - py s) / dist s e) ((px e - px s) / dist s e).
Lemma left_normal_unit s e : s <> e -> pdot (left_normal s e) (left_normal s e) = 1.
Proof.
  intro H. assert (0 < dist s e) as Hd.
  { pose proof (dist_nonneg s e). destruct (Req_dec (dist s e) 0) as [E|E]; [|lra]. apply dist_zero in E. contradiction. }
  unfold pdot, left_normal. cbn.
  assert (dist s e * dist s e = (px e - px s) * (px e - px s) + (py e - py s) * (py e - py s)) as E.
  { unfold dist. rewrite plen_sqr. unfold pdot. cbn. ring. }
  replace (- (py e - py s) / dist s e * (- (py e - py s) / dist s e) + (px e - px s) / dist s e * ((px e - px s) / dist s e))
    with (((px e - px s) * (px e - px s) + (py e - py s) * (py e - py s)) / (dist s e * dist s e)) by (field; lra).
  rewrite <- E. field. lra.
Qed.

Definition neg (v : P2) : P2 := pscale (-1) v.
(** The outline of an edge. *)
Definition capsule (s e : P2) (d : R) (m : N) : list P2 := arc s d (neg (left_normal s e)) m ++ arc e d (left_normal s e) m.

Lemma round_line_spec lib s e d n : real_trig lib -> s <> e -> 0 < d -> (1 <= n)%N ->
  round_line lib (vp s, vp e) (rr d) n = Ok (map vp (capsule s e d (arc_count n))).
Proof.
  intros HT Hse Hd Hn. pose proof HT as (HH & _ & _).
  assert (0 < dist s e) as HL.
  { pose proof (dist_nonneg s e). destruct (Req_dec (dist s e) 0) as [E|E]; [|lra]. apply dist_zero in E. contradiction. }
  assert (segment_normal lib (vp s) (vp e) = Some (vp (left_normal s e))) as EN.
  { unfold segment_normal. cbn [vx vy vp pt].
    assert (hypot lib (fsub (a := RA) (Some (px e)) (Some (px s))) (fsub (a := RA) (Some (py e)) (Some (py s))) = rr (dist s e)) as ->.
    { etransitivity; [exact (HH (px e - px s) (py e - py s))|]. f_equal. unfold dist, plen, pdot. f_equal. cbn. ring. }
    rewrite fz_R. cbn. unfold reqb. destruct (Req_EM_T (dist s e) 0); [lra|]. reflexivity. }
  pose proof (left_normal_unit s e Hse) as HU.
  assert (pdot (neg (left_normal s e)) (neg (left_normal s e)) = 1) as HU'.
  { unfold neg. unfold pdot in *. cbn in *. lra. }
  unfold round_line. rewrite EN.
  assert (vscale (vp (left_normal s e)) (rr d) = vp (pscale d (left_normal s e))) as ->.
  { unfold vscale, vp, pt. cbn [vx vy]. unfold rr. cbn. f_equal; f_equal; ring. }
  rewrite !vadd_vp, !vsub_vp.
  replace (psub s (pscale d (left_normal s e))) with (padd s (pscale d (neg (left_normal s e)))) by (apply P2_eq; cbn; ring).
  replace (padd s (pscale d (left_normal s e))) with (psub s (pscale d (neg (left_normal s e)))) by (apply P2_eq; cbn; ring).
  rewrite (create_arc_spec lib s d (neg (left_normal s e)) n HT Hd HU' Hn). cbn [bind].
  rewrite (create_arc_spec lib e d (left_normal s e) n HT Hd HU Hn). cbn [bind].
  unfold capsule. now rewrite map_app.
Qed.

(** C53: the outline of an obstacle edge has its corners at the agent radius, and stays at least at the radius times
    cos(pi / 2m) from every point of the edge, m being the number of segments of an arc. *)
Theorem C53_clearance lib s e d n : real_trig lib -> s <> e -> 0 < d -> (1 <= n)%N ->
  exists ps, round_line lib (vp s, vp e) (rr d) n = Ok (map vp ps) /\
    length ps = (2 * (N.to_nat (arc_count n) + 1))%nat /\
    (forall p, In p ps -> dist p s = d \/ dist p e = d) /\
    (forall a b, In (a, b) (outline_sides ps) -> forall t k, 0 <= t <= 1 -> 0 <= k <= 1 ->
       d * cos (PI / (2 * IZR (Z.of_N (arc_count n)))) <= dist (lerp a b t) (lerp s e k)).
Proof.
  intros HT Hse Hd Hn. set (m := arc_count n). pose proof (arc_count_pos n Hn) as Hm. fold m in Hm.
  pose proof (left_normal_unit s e Hse) as HU. set (v := left_normal s e) in *.
  assert (pdot (neg v) (neg v) = 1) as HU' by (unfold neg; unfold pdot in *; cbn in *; lra).
  exists (capsule s e d m). split; [exact (round_line_spec lib s e d n HT Hse Hd Hn)|].
  split; [unfold capsule; rewrite app_length, !arc_len; lia|].
  assert (forall c v k, pdot v v = 1 -> dist (arc_point c d v m k) c = d) as HA.
  { intros c w k Hw. unfold dist, arc_point.
    replace (psub (padd c (pscale d (turned w (INR k * PI / IZR (Z.of_N m))))) c) with (pscale d (turned w (INR k * PI / IZR (Z.of_N m))))
      by (apply P2_eq; cbn; ring).
    apply plen_scaled; [lra|]. now apply turned_unit. }
  split.
  - intros p Hp. unfold capsule in Hp. apply in_app_or in Hp. destruct Hp as [Hp|Hp]; unfold arc in Hp; apply in_map_iff in Hp;
      destruct Hp as (k & <- & _); [left|right]; now apply HA.
  - assert (0 < dist s e) as HL.
    { pose proof (dist_nonneg s e). destruct (Req_dec (dist s e) 0) as [E|E]; [|lra]. apply dist_zero in E. contradiction. }
    assert (psub e s = pscale (dist s e) (P (py v) (- px v))) as EV.
    { unfold v, left_normal. apply P2_eq; cbn; field; lra. }
    (* the two straight sides *)
    assert (forall w t k, pdot w w = 1 -> pdot w (psub e s) = 0 ->
              d <= dist (lerp (padd s (pscale d w)) (padd e (pscale d w)) t) (lerp s e k)) as HSide.
    { intros w t k Hw H0. unfold dist. apply plen_ge with (w := w); [exact Hw|].
      assert (pdot (psub (lerp (padd s (pscale d w)) (padd e (pscale d w)) t) (lerp s e k)) w = d * pdot w w + (t - k) * pdot w (psub e s)) as ->.
      { unfold lerp, pdot. cbn. ring. }
      rewrite Hw, H0. lra. }
    assert (cos (PI / (2 * IZR (Z.of_N m))) <= 1) as HC1 by apply COS_bound.
    assert (pdot v (psub e s) = 0) as Hperp by (rewrite EV; unfold pdot; cbn; ring).
    assert (forall k, lerp s e k = padd s (pscale (k * dist s e) (P (py v) (- px v)))) as ES1 by
      (intro k; unfold lerp; rewrite EV; apply P2_eq; cbn; ring).
    assert (forall k, lerp s e k = padd e (pscale ((1 - k) * dist s e) (P (- py v) (px v)))) as ES2.
    { intro k. assert (e = padd s (psub e s)) as Ee by (apply P2_eq; cbn; ring). unfold lerp. rewrite Ee at 2. rewrite EV.
      apply P2_eq; cbn; ring. }
    intros a b Hab t k Ht Hk. change (capsule s e d m) with (arc s d (neg v) m ++ arc e d v m) in Hab.
    destruct (arc_snoc s d (neg v) m Hm HU') as (l1 & E1 & l1' & E1').
    destruct (arc_snoc e d v m Hm HU) as (l2 & E2 & l2' & E2').
    assert (outline_sides (arc s d (neg v) m ++ arc e d v m) =
            sides (arc s d (neg v) m) ++ (psub s (pscale d (neg v)), padd e (pscale d v)) :: sides (arc e d v m) ++ [(psub e (pscale d v), padd s (pscale d (neg v)))]) as EO.
    { unfold outline_sides. rewrite E1' at 1. cbn [app]. rewrite <- app_assoc.
      rewrite E2' at 1. rewrite E1 at 1. cbn [app].
      rewrite sides_app. rewrite <- E1. f_equal. f_equal.
      change (padd e (pscale d v) :: l2' ++ [padd s (pscale d (neg v))]) with ((padd e (pscale d v) :: l2') ++ [padd s (pscale d (neg v))]).
      rewrite <- E2'. rewrite E2 at 1. rewrite (sides_app l2 _ (padd s (pscale d (neg v))) []). rewrite <- E2. reflexivity. }
    rewrite EO in Hab. clear EO.
    apply in_app_or in Hab. destruct Hab as [Hab|[Hab|Hab]].
    + unfold arc in Hab. apply sides_map_seq in Hab. destruct Hab as (i & Hi & -> & ->).
      apply Rle_trans with (dist (lerp (arc_point s d (neg v) m i) (arc_point s d (neg v) m (S i)) t) s); [now apply arc_chord|].
      rewrite ES1. apply behind; [nra|].
      pose proof (arc_backwards (neg v) m i d t s Hd Hm ltac:(lia) Ht HU') as HB.
      replace (P (py v) (- px v)) with (P (- py (neg v)) (px (neg v))) by (apply P2_eq; cbn; ring). exact HB.
    + inversion Hab; subst a b.
      replace (psub s (pscale d (neg v))) with (padd s (pscale d v)) by (apply P2_eq; cbn; ring).
      apply Rle_trans with d; [nra|]. now apply HSide.
    + apply in_app_or in Hab. destruct Hab as [Hab|[Hab|[]]].
      * unfold arc in Hab. apply sides_map_seq in Hab. destruct Hab as (i & Hi & -> & ->).
        apply Rle_trans with (dist (lerp (arc_point e d v m i) (arc_point e d v m (S i)) t) e); [now apply arc_chord|].
        rewrite ES2. apply behind; [nra|].
        exact (arc_backwards v m i d t e Hd Hm ltac:(lia) Ht HU).
      * inversion Hab; subst a b.
        replace (psub e (pscale d v)) with (padd e (pscale d (neg v))) by (apply P2_eq; cbn; ring).
        apply Rle_trans with d; [nra|].
        assert (lerp (padd e (pscale d (neg v))) (padd s (pscale d (neg v))) t = lerp (padd s (pscale d (neg v))) (padd e (pscale d (neg v))) (1 - t)) as ->
          by (unfold lerp; apply P2_eq; cbn; ring).
        apply HSide; [exact HU'|]. unfold neg. unfold pdot in *. cbn in *. lra.
Qed.

(** C53: the bound is reached, behind the start of the edge; it is less than the radius. *)
Theorem C53_bound_reached lib s e d n : real_trig lib -> s <> e -> 0 < d -> (1 <= n)%N ->
  exists ps a b, round_line lib (vp s, vp e) (rr d) n = Ok (map vp ps) /\ In (a, b) (outline_sides ps) /\
    dist (lerp a b (1 / 2)) s = d * cos (PI / (2 * IZR (Z.of_N (arc_count n)))) /\
    d * cos (PI / (2 * IZR (Z.of_N (arc_count n)))) < d.
Proof.
  intros HT Hse Hd Hn. set (m := arc_count n). pose proof (arc_count_pos n Hn) as Hm. fold m in Hm.
  pose proof PI_RGT_0 as HP. pose proof (left_normal_unit s e Hse) as HU. set (v := left_normal s e) in *.
  assert (pdot (neg v) (neg v) = 1) as HU' by (unfold neg; unfold pdot in *; cbn in *; lra).
  assert (1 <= IZR (Z.of_N m)) as Hz by (apply IZR_le; lia).
  exists (capsule s e d m), (arc_point s d (neg v) m 0), (arc_point s d (neg v) m 1).
  split; [exact (round_line_spec lib s e d n HT Hse Hd Hn)|]. split.
  { unfold capsule. fold v. unfold arc at 1. destruct (N.to_nat m) as [|k] eqn:Ek; [lia|]. cbn. now left. }
  assert (0 < PI / (2 * IZR (Z.of_N m)) <= PI / 2) as Hb.
  { split; [apply Rdiv_lt_0_compat; lra|]. apply Rmult_le_reg_r with (2 * IZR (Z.of_N m)); [lra|].
    replace (PI / (2 * IZR (Z.of_N m)) * (2 * IZR (Z.of_N m))) with PI by (field; lra). nra. }
  assert (0 <= cos (PI / (2 * IZR (Z.of_N m)))) as Hc by (apply cos_ge_0; lra).
  split.
  - set (f := PI / IZR (Z.of_N m)).
    replace (PI / (2 * IZR (Z.of_N m))) with (f / 2) in * by (unfold f; field; lra).
    assert (arc_point s d (neg v) m 0 = padd s (pscale d (turned (neg v) (f / 2 - f / 2)))) as ->.
    { unfold arc_point. cbn [INR]. do 3 f_equal. unfold f. field. lra. }
    assert (arc_point s d (neg v) m 1 = padd s (pscale d (turned (neg v) (f / 2 + f / 2)))) as ->.
    { unfold arc_point. cbn [INR]. do 3 f_equal. unfold f. field. lra. }
    unfold dist.
    replace (psub (lerp (padd s (pscale d (turned (neg v) (f / 2 - f / 2)))) (padd s (pscale d (turned (neg v) (f / 2 + f / 2)))) (1 / 2)) s)
      with (pscale (d * cos (f / 2)) (turned (neg v) (f / 2))).
    + apply plen_scaled; [nra|now apply turned_unit].
    + unfold lerp, turned. rewrite cos_minus, cos_plus, sin_minus, sin_plus. set (C := cos (f / 2)). set (S := sin (f / 2)). apply P2_eq; cbn [padd psub pscale px py]; field.
  - assert (cos (PI / (2 * IZR (Z.of_N m))) < 1) as H1; [|nra].
    rewrite <- cos_0. apply cos_decreasing_1; lra.
Qed.

(** C53: with one or two segments the obstacle is not kept at a distance at all: its corner is on the outline. *)
Theorem C53_one_segment_refuted lib s e d n : real_trig lib -> s <> e -> 0 < d -> (n = 1 \/ n = 2)%N ->
  exists ps a b, round_line lib (vp s, vp e) (rr d) n = Ok (map vp ps) /\ In (a, b) (outline_sides ps) /\ lerp a b (1 / 2) = s.
Proof.
  intros HT Hse Hd Hn. assert (1 <= n)%N as Hn1 by (destruct Hn; subst; lia).
  destruct (C53_bound_reached lib s e d n HT Hse Hd Hn1) as (ps & a & b & H1 & H2 & H3 & _).
  exists ps, a, b. split; [exact H1|]. split; [exact H2|]. apply dist_zero. rewrite H3.
  assert (arc_count n = 1%N) as -> by (destruct Hn; subst; reflexivity).
  cbn [Z.of_N]. replace (PI / (2 * 1)) with (PI / 2) by field. rewrite cos_PI2. ring.
Qed.

(** The contract of the trigonometric functions can be met. *)
Definition ratan2 (y x : R) : R :=
  if Rlt_dec y 0 then - acos (x / sqrt (x * x + y * y)) else acos (x / sqrt (x * x + y * y)).
Definition real_lib : TriLib RA :=
  @mkTriLib RA (fun _ r => r) (fun a _ => [(a, [])]) (fun _ _ => true) (fun _ => true) (fun _ => mkSub [] [])
    (lift2 ratan2) (lift2 (fun x y => sqrt (x * x + y * y)))
    (fun x => match x with Some a => rltb a 0 | None => false end) (fun _ _ => []).

Lemma real_lib_trig : real_trig real_lib.
Proof.
  split; [reflexivity|]. split; [reflexivity|]. intros x y H. exists (ratan2 y x). split; [reflexivity|].
  pose proof PI_RGT_0 as HP.
  assert (0 < x * x + y * y) as HL.
  { destruct (Req_dec x 0) as [->|Hx]; [|nra]. destruct (Req_dec y 0) as [->|Hy]; [exfalso; auto|nra]. }
  set (L := sqrt (x * x + y * y)). assert (0 < L) as HLp by (now apply sqrt_lt_R0).
  assert (L * L = x * x + y * y) as HLL by (apply sqrt_sqrt; lra).
  assert (-1 <= x / L <= 1) as Hb.
  { assert (- L <= x <= L) as Hx by (split; nra).
    split; apply Rmult_le_reg_r with L; try lra; unfold Rdiv; rewrite Rmult_assoc, Rinv_l by lra; lra. }
  assert (sqrt (1 - (x / L)²) = Rabs y / L) as ES.
  { apply sqrt_lem_1.
    - unfold Rsqr. nra.
    - apply Rmult_le_pos; [apply Rabs_pos|]. left. now apply Rinv_0_lt_compat.
    - unfold Rsqr. replace (Rabs y / L * (Rabs y / L)) with (Rabs y * Rabs y / (L * L)) by (field; lra).
      rewrite <- Rabs_mult, Rabs_right by nra. rewrite HLL. replace (x / L * (x / L)) with (x * x / (L * L)) by (field; lra).
      rewrite HLL. field. lra. }
  pose proof (acos_bound (x / L)) as HA. unfold ratan2. fold L.
  destruct (Rlt_dec y 0) as [Hy|Hy].
  - split; [lra|]. rewrite cos_neg, sin_neg, cos_acos, sin_acos, ES by exact Hb. rewrite Rabs_left by exact Hy. split; field; lra.
  - split; [lra|]. rewrite cos_acos, sin_acos, ES by exact Hb. rewrite Rabs_right by lra. split; field; lra.
Qed.

(** C53 for an obstacle edge of length 5 and the default of 5 segments. *)
Example C53_example : exists ps, round_line real_lib (vp (P 0 0), vp (P 3 4)) (rr (1 / 2)) 5 = Ok (map vp ps) /\ length ps = 12%nat.
Proof.
  destruct (C53_clearance real_lib (P 0 0) (P 3 4) (1 / 2) 5 real_lib_trig) as (ps & H1 & H2 & _); [|lra|lia|].
  - intro E. injection E. lra.
  - exists ps. split; [exact H1|exact H2].
Qed.

(** ** C54: settings that make the conversion panic *)
Section Panics.
Context {A : Arith}.

(** No segments: `segment_count - 1` overflows (debug profile), for every obstacle with an edge that is not a single point. *)
Theorem C54_zero_segments_panic (lib : TriLib A) s e d v :
  segment_normal lib s e = Some v -> round_line lib (s, e) d 0 = Panic.
Proof. intro H. unfold round_line. rewrite H. reflexivity. Qed.

(** An obstacle without points, or with one, cannot be inflated. *)
Theorem C54_short_obstacle_panics (lib : TriLib A) (o : ring A) d n :
  (length o <= 1)%nat -> inflate_ring lib o d n = Panic.
Proof. destruct o as [|a [|b r]]; cbn [length]; intro H; [reflexivity|reflexivity|lia]. Qed.

(** Asking for the agent radius on the outer edge of a triangulation made from a layer of a mesh panics. *)
Theorem C54_mesh_outer_edge_refuted (lib : TriLib A) (l : Layer A) radius :
  enough radius = true ->
  as_layer lib (agent_radius_on_outer_edge (set_agent_radius (from_mesh_layer l) radius) true) = Panic.
Proof. intro H. unfold as_layer, constraints, initial_constraints. cbn. rewrite H. reflexivity. Qed.

Lemma no_hole (lib : TriLib A) d n : (forall a b, Forall (fun u => snd u = []) (union lib a b)) ->
  forall l acc r, snd acc = [] -> foldM (fun acc ab => union_with lib acc ab d n) acc l = Ok r -> snd r = [].
Proof.
  intro HU.
  assert (forall acc e r, snd acc = [] -> union_with lib acc e d n = Ok r -> snd r = []) as HW.
  { intros acc e r Ha Hr. unfold union_with in Hr. inv_bind Hr. pose proof (HU (close (fst acc)) (close a)) as G.
    destruct (union lib (close (fst acc)) (close a)) as [|[x h] us]; [discriminate|]. inversion Hr; subst r. cbn.
    apply Forall_inv in G. cbn in G. rewrite Ha, G. reflexivity. }
  induction l as [|e l IH]; intros acc r Ha H; cbn [foldM] in H; [congruence|]. inv_bind H.
  exact (IH _ _ (HW _ _ _ Ha E) H).
Qed.

(** A radius that leaves no free space inside the outer edge panics: no union leaves a hole. *)
Theorem C54_no_space_left_panics (lib : TriLib A) (outer : ring A) obstacles radius n p :
  enough radius = true -> (forall a b, Forall (fun u => snd u = []) (union lib a b)) ->
  forall l, as_layer lib (mkTri (geo_new outer obstacles) None None (REverything radius n p)) <> Ok l.
Proof.
  intros HE HU l H. unfold as_layer in H. inv_bind H. unfold constraints in E. inv_bind E.
  unfold initial_constraints in E0. cbn [prebuilt agent_radius inner] in E0. rewrite HE in E0. inv_bind E0.
  unfold inflate in E1. inv_bind E1. inv_bind E1. inv_bind E1. rename a2 into h.
  assert (snd h = []) as Hh.
  { unfold inflate_ring in E2. destruct (ring_lines (exterior (geo_new outer obstacles))) as [|ab rest]; [discriminate|].
    inv_bind E2. inv_bind E2. rename a2 into fst0, a5 into acc.
    pose proof (no_hole lib radius n HU rest (fst0, []) acc eq_refl E6) as HN.
    destruct (is_closed _); [inversion E2; subst; exact HN|]. inv_bind E2.
    apply (no_hole lib radius n HU [(snd (last rest ab), a2)] acc h HN). cbn [foldM]. rewrite E2. reflexivity. }
  rewrite Hh in E4. discriminate.
Qed.

(** ** C55: simplify leaves the outer edge as it is, although its documentation says it simplifies the outer edge too:
    every edge of the original outer edge constrains the triangulation, whatever simplification is asked for and whatever
    the simplification algorithm does. *)
Theorem C55_outer_edge_not_simplified_refuted (lib : TriLib A) (outer : ring A) obstacles epsilon c :
  constraints lib (simplify lib (add_obstacles (from_outer_edges outer) obstacles) epsilon) = Ok c ->
  forall e, In e (ring_lines (close (close outer))) -> In e c.
Proof.
  intros H e He. unfold constraints in H. inv_bind H. inv_bind H. inv_bind H. cbn in E, E0. inversion E0; subst a0.
  rewrite (proj1 (add_rings_Ok lib _ _ _ H)). apply in_or_app. left.
  rewrite (proj1 (add_edges_Ok lib _ _ _ E)). exact He.
Qed.
End Panics.

(** The hypotheses of C54 are met, in binary32. *)
From Verif Require Import F32 Tests Tests_triangulation.
Example C54_example : enough (A := F32) (q 1 10) = true /\
  match segment_normal tri32 (Tests.pt 0 0) (Tests.pt 1 0) with Some _ => true | None => false end = true /\
  forallb (fun u : ring F32 * list (ring F32) => match snd u with [] => true | _ => false end) (union tri32 square_outer square_outer) = true.
Proof. split; [vmc|]. split; vmc. Qed.
Example C55_example : exists c, constraints tri32 (simplify tri32 (add_obstacles (from_outer_edges square_outer) [obstacle1; obstacle2]) (q 1 10)) = Ok c.
Proof. apply is_okb_ex. vmc. Qed.

Print Assumptions C53_clearance.
Print Assumptions C53_bound_reached.
Print Assumptions C53_one_segment_refuted.
Print Assumptions C54_zero_segments_panic.
Print Assumptions C54_short_obstacle_panics.
Print Assumptions C54_mesh_outer_edge_refuted.
Print Assumptions C54_no_space_left_panics.
Print Assumptions C55_outer_edge_not_simplified_refuted.
