(** Plane geometry over the reals: facts used for the properties in exact arithmetic. *)
From Coq Require Import List NArith ZArith Bool Reals Lra Psatz.
From Verif Require Import Base Arith Helpers RealArith.
Import ListNotations.
Open Scope R_scope.

Ltac pts := repeat match goal with p : P2 |- _ => let x := fresh "x" in let y := fresh "y" in destruct p as [x y] end;
  unfold orient, cross, psub, padd, pscale, pdot in *; cbn [px py] in *.

Lemma P2_eq (a b : P2) : px a = px b -> py a = py b -> a = b.
Proof. destruct a, b; simpl; intros -> ->; reflexivity. Qed.

Lemma sq_sum_zero x y : x * x + y * y = 0 -> x = 0 /\ y = 0.
Proof.
  intro H. pose proof (Rle_0_sqr x) as H1. pose proof (Rle_0_sqr y) as H2. unfold Rsqr in *.
  split; apply Rsqr_0_uniq; unfold Rsqr; lra.
Qed.
(** ** distances *)
Lemma plen_nonneg a : 0 <= plen a.
Proof. apply sqrt_pos. Qed.
Lemma dist_nonneg a b : 0 <= dist a b.
Proof. apply plen_nonneg. Qed.
Lemma plen_sqr a : plen a * plen a = pdot a a.
Proof. unfold plen. apply sqrt_sqrt. apply pdot_nonneg. Qed.
Lemma dist_sym a b : dist a b = dist b a.
Proof. unfold dist, plen. f_equal. pts. ring. Qed.
Lemma dist_refl a : dist a a = 0.
Proof. unfold dist, plen. replace (pdot (psub a a) (psub a a)) with 0; [apply sqrt_0|]. pts. ring. Qed.
Lemma dist_zero a b : dist a b = 0 -> a = b.
Proof.
  intro H. pose proof (plen_sqr (psub a b)) as H2. unfold dist in H. rewrite H in H2. unfold pdot in H2.
  rewrite Rmult_0_l in H2. symmetry in H2. apply sq_sum_zero in H2. destruct H2. unfold psub in *; cbn [px py] in *. apply P2_eq; lra.
Qed.
Lemma Cauchy a b : pdot a b <= plen a * plen b.
Proof.
  destruct (Rle_dec (pdot a b) 0) as [H|H]; [pose proof (plen_nonneg a); pose proof (plen_nonneg b); nra|].
  apply Rsqr_incr_0_var; [|pose proof (plen_nonneg a); pose proof (plen_nonneg b); nra].
  unfold Rsqr. replace (plen a * plen b * (plen a * plen b)) with ((plen a * plen a) * (plen b * plen b)) by ring.
  rewrite !plen_sqr. pts. pose proof (Rle_0_sqr (x * y0 - y * x0)) as Hs. unfold Rsqr in Hs. nra.
Qed.
Lemma plen_triangle a b : plen (padd a b) <= plen a + plen b.
Proof.
  apply Rsqr_incr_0_var; [|pose proof (plen_nonneg a); pose proof (plen_nonneg b); lra].
  unfold Rsqr. rewrite plen_sqr. pose proof (Cauchy a b). pose proof (plen_sqr a). pose proof (plen_sqr b).
  replace (pdot (padd a b) (padd a b)) with (pdot a a + 2 * pdot a b + pdot b b) by (pts; ring). nra.
Qed.
Lemma dist_triangle a b c : dist a c <= dist a b + dist b c.
Proof.
  unfold dist. replace (psub a c) with (padd (psub a b) (psub b c)); [apply plen_triangle|].
  pts. apply P2_eq; cbn [px py]; ring.
Qed.
Lemma plen_scale k a : plen (pscale k a) = Rabs k * plen a.
Proof.
  unfold plen. replace (pdot (pscale k a) (pscale k a)) with (Rsqr k * pdot a a) by (unfold Rsqr; pts; ring).
  rewrite sqrt_mult_alt by apply Rle_0_sqr. now rewrite sqrt_Rsqr_abs.
Qed.

(** the point at parameter [t] of the line from [a] to [b] *)
Definition lerp (a b : P2) (t : R) : P2 := padd a (pscale t (psub b a)).
Lemma lerp_0 a b : lerp a b 0 = a. Proof. unfold lerp. pts. apply P2_eq; cbn [px py]; ring. Qed.
Lemma lerp_1 a b : lerp a b 1 = b. Proof. unfold lerp. pts. apply P2_eq; cbn [px py]; ring. Qed.
Lemma lerp_lerp_end a b t s : lerp (lerp a b t) b s = lerp a b (t + s * (1 - t)).
Proof. unfold lerp. pts. apply P2_eq; cbn [px py]; ring. Qed.
Lemma orient_lerp a b t : orient a b (lerp a b t) = 0.
Proof. unfold lerp. pts. ring. Qed.

(** convexity of the distance *)
Lemma dist_convex r a b t : 0 <= t <= 1 -> dist r (lerp a b t) <= (1 - t) * dist r a + t * dist r b.
Proof.
  intros [H0 H1]. unfold dist.
  replace (psub r (lerp a b t)) with (padd (pscale (1 - t) (psub r a)) (pscale t (psub r b))).
  - eapply Rle_trans; [apply plen_triangle|]. rewrite !plen_scale, !Rabs_right by lra. lra.
  - unfold lerp. pts. apply P2_eq; cbn [px py]; ring.
Qed.
(** a point of the segment splits it *)
Lemma dist_between a b t : 0 <= t <= 1 -> dist a (lerp a b t) + dist (lerp a b t) b = dist a b.
Proof.
  intros [H0 H1]. unfold dist.
  replace (psub a (lerp a b t)) with (pscale t (psub a b)) by (unfold lerp; pts; apply P2_eq; cbn [px py]; ring).
  replace (psub (lerp a b t) b) with (pscale (1 - t) (psub a b)) by (unfold lerp; pts; apply P2_eq; cbn [px py]; ring).
  rewrite !plen_scale, !Rabs_right by lra. ring.
Qed.

(** ** orientation *)
Lemma orient_swap a b p : orient b a p = - orient a b p.
Proof. pts. ring. Qed.
Lemma orient_cycle a b p : orient b p a = orient a b p.
Proof. pts. ring. Qed.
Lemma orient_start a b : orient a b a = 0. Proof. pts. ring. Qed.
Lemma orient_end a b : orient a b b = 0. Proof. pts. ring. Qed.

(** ** reflection *)
Definition reflect (a b p : P2) : P2 :=
  padd a (psub (pscale (2 * (pdot (psub p a) (psub b a) / pdot (psub b a) (psub b a))) (psub b a)) (psub p a)).
Lemma pdot_pos a b : a <> b -> 0 < pdot (psub b a) (psub b a).
Proof.
  intro H. pose proof (pdot_nonneg (psub b a)) as H0. destruct H0 as [|H0]; [assumption|]. exfalso. apply H.
  unfold pdot in H0. symmetry in H0. apply sq_sum_zero in H0. destruct H0. unfold psub in *; cbn [px py] in *. apply P2_eq; lra.
Qed.
Lemma mirror_vp p a b : a <> b -> mirror (vp p) (vp a, vp b) = vp (reflect a b p).
Proof.
  intro H. pose proof (pdot_pos a b H) as HP. unfold mirror, project_onto. cbn [fst snd]. rewrite !vsub_vp, !vdot_vp.
  unfold vscale, vadd, vsub, vp, RealArith.pt. rewrite !fz_R. cbn.
  destruct (Req_EM_T _ 0) as [E|E]; [exfalso; lra|]. cbn. unfold reflect.
  set (d := pdot (psub b a) (psub b a)) in *. set (n := pdot (psub p a) (psub b a)).
  f_equal; f_equal; unfold padd, psub, pscale; cbn [px py]; field; lra.
Qed.
Lemma mirror_degenerate p a : mirror (vp p) (vp a, vp a) = V (None : F RA) None.
Proof.
  unfold mirror, project_onto. cbn [fst snd]. rewrite !vsub_vp, !vdot_vp. unfold vscale, vadd, vsub, vp, RealArith.pt.
  rewrite !fz_R. cbn. destruct (Req_EM_T _ 0) as [E|E]; [reflexivity|]. exfalso. apply E. pts. ring.
Qed.
(** a point of the line has a parameter *)
Lemma on_line a b x : a <> b -> orient a b x = 0 -> exists t, x = lerp a b t.
Proof.
  intros H Hx. pose proof (pdot_pos a b H) as HP. exists (pdot (psub x a) (psub b a) / pdot (psub b a) (psub b a)).
  unfold lerp. destruct a as [ax ay], b as [bx by_], x as [x y].
  unfold orient, cross, psub, padd, pscale, pdot in *. cbn [px py] in *.
  set (vx := bx - ax) in *. set (vy := by_ - ay) in *. clearbody vx vy.
  assert (E1 : (vx * vx + vy * vy) * (x - ax) = ((x - ax) * vx + (y - ay) * vy) * vx)
    by (replace (((x - ax) * vx + (y - ay) * vy) * vx) with ((vx * vx + vy * vy) * (x - ax) + vy * (vx * (y - ay) - vy * (x - ax))) by ring;
        rewrite Hx; ring).
  assert (E2 : (vx * vx + vy * vy) * (y - ay) = ((x - ax) * vx + (y - ay) * vy) * vy)
    by (replace (((x - ax) * vx + (y - ay) * vy) * vy) with ((vx * vx + vy * vy) * (y - ay) - vx * (vx * (y - ay) - vy * (x - ax))) by ring;
        rewrite Hx; ring).
  apply P2_eq; cbn [px py].
  - replace (((x - ax) * vx + (y - ay) * vy) / (vx * vx + vy * vy) * vx) with ((((x - ax) * vx + (y - ay) * vy) * vx) / (vx * vx + vy * vy)) by (field; lra).
    rewrite <- E1. field. lra.
  - replace (((x - ax) * vx + (y - ay) * vy) / (vx * vx + vy * vy) * vy) with ((((x - ax) * vx + (y - ay) * vy) * vy) / (vx * vx + vy * vy)) by (field; lra).
    rewrite <- E2. field. lra.
Qed.
Lemma reflect_on_line a b p x : a <> b -> orient a b x = 0 -> dist x (reflect a b p) = dist x p.
Proof.
  intros H Hx. destruct (on_line a b x H Hx) as [t ->]. pose proof (pdot_pos a b H) as HP. unfold dist, plen. f_equal.
  unfold reflect, lerp. set (d := pdot (psub b a) (psub b a)) in *. set (n := pdot (psub p a) (psub b a)).
  assert (HK : n / d * d = n) by (field; lra). set (k := n / d) in *. unfold n, d in HK. clearbody k. clear Hx n d HP.
  destruct a as [ax ay], b as [bx by_], p as [x y]. unfold psub, padd, pscale, pdot in *. cbn [px py] in *.
  set (vx := bx - ax) in *. set (vy := by_ - ay) in *. set (wx := x - ax) in *. set (wy := y - ay) in *.
  replace (ax + t * vx - (ax + (2 * k * vx - wx))) with (t * vx - 2 * k * vx + wx) by ring.
  replace (ay + t * vy - (ay + (2 * k * vy - wy))) with (t * vy - 2 * k * vy + wy) by ring.
  replace (ax + t * vx - x) with (t * vx - wx) by (unfold wx; ring).
  replace (ay + t * vy - y) with (t * vy - wy) by (unfold wy; ring).
  assert (E : (t * vx - 2 * k * vx + wx) * (t * vx - 2 * k * vx + wx) + (t * vy - 2 * k * vy + wy) * (t * vy - 2 * k * vy + wy)
     - ((t * vx - wx) * (t * vx - wx) + (t * vy - wy) * (t * vy - wy)) =
     4 * (t - k) * ((wx * vx + wy * vy) - k * (vx * vx + vy * vy))) by ring.
  rewrite HK in E. lra.
Qed.
Lemma orient_reflect a b p : a <> b -> orient a b (reflect a b p) = - orient a b p.
Proof. intros _. unfold reflect. set (k := 2 * _). clearbody k. pts. ring. Qed.
Lemma reflect_fix a b p : a <> b -> orient a b p = 0 -> reflect a b p = p.
Proof.
  intros H Hp. pose proof (reflect_on_line a b p p H Hp) as E. rewrite dist_refl in E. apply dist_zero in E. auto.
Qed.
Lemma reflect_invol a b p : a <> b -> reflect a b (reflect a b p) = p.
Proof.
  intro H. pose proof (pdot_pos a b H) as HP. unfold reflect.
  set (d := pdot (psub b a) (psub b a)) in *. set (n := pdot (psub p a) (psub b a)).
  replace (pdot (psub (padd a (psub (pscale (2 * (n / d)) (psub b a)) (psub p a))) a) (psub b a)) with n.
  - set (k := 2 * (n / d)). pts. apply P2_eq; cbn [px py]; ring.
  - replace (pdot (psub (padd a (psub (pscale (2 * (n / d)) (psub b a)) (psub p a))) a) (psub b a)) with (2 * (n / d) * d - n).
    + field. lra.
    + unfold n, d. set (k := 2 * _). pts. ring.
Qed.
(** reflecting the far end of a segment changes its squared length by four times the product of the heights *)
Lemma dist_reflect_ge a b r p : a <> b -> 0 <= orient a b r * orient a b p -> dist r p <= dist r (reflect a b p).
Proof.
  intros H Hs. pose proof (pdot_pos a b H) as HP. unfold dist, plen. apply sqrt_le_1_alt.
  assert (E : pdot (psub b a) (psub b a) * (pdot (psub r (reflect a b p)) (psub r (reflect a b p)) - pdot (psub r p) (psub r p)) =
     4 * (orient a b r * orient a b p)).
  { unfold reflect. set (d := pdot (psub b a) (psub b a)) in *. set (n := pdot (psub p a) (psub b a)).
    assert (HK : n / d * d = n) by (field; lra). set (k := n / d) in *. clearbody k. unfold n, d in *. clear n d Hs HP.
    destruct a as [ax ay], b as [bx by_], p as [x y], r as [rx ry]. unfold orient, cross, psub, padd, pscale, pdot in *. cbn [px py] in *.
    set (vx := bx - ax) in *. set (vy := by_ - ay) in *. set (wx := x - ax) in *. set (wy := y - ay) in *.
    set (ux := rx - ax). set (uy := ry - ay).
    replace (rx - (ax + (2 * k * vx - wx))) with (ux - 2 * k * vx + wx) by (unfold ux; ring).
    replace (ry - (ay + (2 * k * vy - wy))) with (uy - 2 * k * vy + wy) by (unfold uy; ring).
    replace (rx - x) with (ux - wx) by (unfold ux, wx; ring). replace (ry - y) with (uy - wy) by (unfold uy, wy; ring).
    clearbody vx vy wx wy ux uy.
    assert (E1 : (ux - 2 * k * vx + wx) * (ux - 2 * k * vx + wx) + (uy - 2 * k * vy + wy) * (uy - 2 * k * vy + wy)
      - ((ux - wx) * (ux - wx) + (uy - wy) * (uy - wy)) =
      4 * (ux * wx + uy * wy) - 4 * k * (ux * vx + uy * vy) + 4 * k * (k * (vx * vx + vy * vy) - (wx * vx + wy * vy))) by ring.
    rewrite E1. replace (k * (vx * vx + vy * vy) - (wx * vx + wy * vy)) with 0 by lra.
    replace ((vx * vx + vy * vy) * (4 * (ux * wx + uy * wy) - 4 * k * (ux * vx + uy * vy) + 4 * k * 0)) with
      (4 * (vx * vx + vy * vy) * (ux * wx + uy * wy) - 4 * (k * (vx * vx + vy * vy)) * (ux * vx + uy * vy)) by ring.
    rewrite HK. ring. }
  assert (0 <= pdot (psub r (reflect a b p)) (psub r (reflect a b p)) - pdot (psub r p) (psub r p)); [|lra].
  apply Rmult_le_reg_l with (pdot (psub b a) (psub b a)); [assumption|]. rewrite E. lra.
Qed.

(** ** intersections *)
Definition itime (l0 l1 s0 s1 : P2) : R := cross (psub l0 s0) (psub l0 l1) / cross (psub l0 l1) (psub s0 s1).
Lemma intersection_time_vp l0 l1 s0 s1 :
  intersection_time (vp l0, vp l1) (vp s0, vp s1) =
  if Req_EM_T (cross (psub l0 l1) (psub s0 s1)) 0 then None else Some (itime l0 l1 s0 s1).
Proof.
  unfold intersection_time, itime. cbn [fst snd]. rewrite !vsub_vp, !perp_dot_vp. cbn.
  destruct (Req_EM_T _ 0); reflexivity.
Qed.
Lemma cross_orient l0 l1 s0 s1 : cross (psub l0 l1) (psub s0 s1) = orient l0 l1 s1 - orient l0 l1 s0.
Proof. pts. ring. Qed.
Lemma cross_orient2 l0 l1 s0 s1 : cross (psub l0 l1) (psub s0 s1) = orient s0 s1 l0 - orient s0 s1 l1.
Proof. pts. ring. Qed.
(** the parameter of the intersection on the segment *)
Lemma itime_orient l0 l1 s0 s1 : itime l0 l1 s0 s1 = - orient l0 l1 s0 / (orient l0 l1 s1 - orient l0 l1 s0).
Proof. unfold itime. rewrite (cross_orient l0 l1 s0 s1).
  replace (cross (psub l0 s0) (psub l0 l1)) with (- orient l0 l1 s0) by (pts; ring). reflexivity. Qed.
Lemma itime_on_line l0 l1 s0 s1 : orient l0 l1 s1 <> orient l0 l1 s0 -> orient l0 l1 (lerp s0 s1 (itime l0 l1 s0 s1)) = 0.
Proof.
  intro H. rewrite itime_orient.
  assert (forall t, orient l0 l1 (lerp s0 s1 t) = orient l0 l1 s0 + t * (orient l0 l1 s1 - orient l0 l1 s0)) as -> by (intro; unfold lerp; pts; ring).
  field. lra.
Qed.
(** the same point, as a point of the line *)
Lemma itime_lerp l0 l1 s0 s1 : orient s0 s1 l0 <> orient s0 s1 l1 ->
  lerp s0 s1 (itime l0 l1 s0 s1) = lerp l0 l1 (orient s0 s1 l0 / (orient s0 s1 l0 - orient s0 s1 l1)).
Proof.
  intro H. unfold itime. rewrite (cross_orient2 l0 l1 s0 s1). unfold lerp.
  set (D := orient s0 s1 l0 - orient s0 s1 l1) in *. assert (HD : D <> 0) by (unfold D; lra).
  apply P2_eq; unfold padd, pscale; cbn [px py]; apply Rmult_eq_reg_l with D; try assumption; field_simplify; try assumption;
    unfold D; pts; ring.
Qed.

(** ** Convex hulls and closed polygons *)
(** [x] is in the convex hull of [qs]: in every half plane that contains all of them. *)
Definition in_hull (qs : list P2) (x : P2) : Prop :=
  forall u c, (forall q, In q qs -> pdot u q <= c) -> pdot u x <= c.
(** the edges of the closed polygon with corners [qs] *)
Definition poly_edges (qs : list P2) : list (P2 * P2) := combine qs (tl qs ++ firstn 1 qs).

Lemma cycle_increase {T} (s : T -> R) z : forall r q,
  (forall a b, In (a, b) (combine (q :: r) (r ++ [z])) -> s a < s b) -> s q < s z.
Proof.
  induction r as [|y r IH]; intros q H; [apply H; now left|].
  apply Rlt_trans with (s y); [apply H; now left|]. apply IH. intros a b Hab. apply H. now right.
Qed.

(** a point strictly left of all the edges of a closed polygon is in the hull of its corners *)
Lemma left_of_all_in_hull qs x : qs <> [] -> (forall a b, In (a, b) (poly_edges qs) -> 0 < orient a b x) -> in_hull qs x.
Proof.
  intros Hne HL u c Hc. destruct (Rle_dec (pdot u x) c) as [|Hx]; [assumption|exfalso].
  destruct qs as [|q r]; [congruence|].
  assert (Hd : forall a, In a (q :: r) -> pdot u (psub a x) < 0).
  { intros a Ha. apply Hc in Ha. replace (pdot u (psub a x)) with (pdot u a - pdot u x) by (pts; ring). lra. }
  set (v := P (- py u) (px u)).
  set (s := fun a => pdot v (psub a x) / pdot u (psub a x)).
  assert (Hu : 0 < pdot u u).
  { destruct (pdot_nonneg u) as [|H0]; [assumption|exfalso]. symmetry in H0. unfold pdot in H0. apply sq_sum_zero in H0.
    specialize (Hd q (or_introl eq_refl)). unfold pdot in Hd. destruct H0 as [A1 A2]. rewrite A1, A2 in Hd. lra. }
  assert (Hs : forall a b, In a (q :: r) -> In b (q :: r) -> 0 < orient a b x -> s a < s b).
  { intros a b Ha Hb Hab. unfold s. specialize (Hd a Ha) as Hda. specialize (Hd b Hb) as Hdb.
    set (da := pdot u (psub a x)) in *. set (db := pdot u (psub b x)) in *.
    set (ea := pdot v (psub a x)). set (eb := pdot v (psub b x)).
    assert (E : da * eb - ea * db = pdot u u * orient a b x).
    { unfold da, db, ea, eb, v. pts. ring. }
    assert (0 < da * eb - ea * db) by (rewrite E; now apply Rmult_lt_0_compat).
    apply Rminus_lt. replace (ea / da - eb / db) with (- ((da * eb - ea * db) * / (da * db))) by (field; lra).
    apply Ropp_lt_gt_0_contravar. apply Rmult_lt_0_compat; [assumption|]. apply Rinv_0_lt_compat.
    replace (da * db) with ((- da) * (- db)) by ring. apply Rmult_lt_0_compat; lra. }
  apply (Rlt_irrefl (s q)). apply (cycle_increase s q r q). intros a b Hab.
  pose proof (in_combine_l _ _ _ _ Hab) as Ha. pose proof (in_combine_r _ _ _ _ Hab) as Hb.
  apply Hs; [assumption| |].
  - apply in_app_or in Hb. destruct Hb as [Hb|[<-|[]]]; [now right|now left].
  - apply HL. exact Hab.
Qed.
