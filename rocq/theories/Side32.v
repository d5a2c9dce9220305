(** The cross product of helpers.rs `side` in binary32, against the exact one. *)
From Coq Require Import List NArith ZArith Bool Lia Reals Lra Psatz.
From Coq.Floats Require Import SpecFloat.
From Flocq Require Import Core BinarySingleNaN.
From Verif Require Import Base Arith RealArith F32 Spec_f32 F32_real Mesh Helpers Geometry.
Import ListNotations.
Open Scope R_scope.

(** relative errors multiply *)
Lemma rel_mul a b A B : Rabs a <= A -> Rabs b <= B -> Rabs ((1 + a) * (1 + b) - 1) <= A + B + A * B.
Proof.
  intros Ha Hb. replace ((1 + a) * (1 + b) - 1) with (a + b + a * b) by ring.
  pose proof (Rabs_triang (a + b) (a * b)). pose proof (Rabs_triang a b). rewrite Rabs_mult in H.
  pose proof (Rabs_pos a). pose proof (Rabs_pos b).
  assert (Rabs a * Rabs b <= A * B) by (apply Rmult_le_compat; assumption). lra.
Qed.
Lemma rel3 a b c : Rabs a <= u32 -> Rabs b <= u32 -> Rabs c <= u32 -> exists d, (1 + a) * (1 + b) * (1 + c) = 1 + d /\ Rabs d <= 3 * u32 + 4 * u32 * u32.
Proof.
  intros Ha Hb Hc. exists ((1 + a) * (1 + b) * (1 + c) - 1). split; [ring|]. pose proof (rel_mul a b _ _ Ha Hb) as H.
  set (d := (1 + a) * (1 + b) - 1) in *. replace ((1 + a) * (1 + b)) with (1 + d) by (unfold d; ring).
  pose proof (rel_mul d c _ _ H Hc) as H'. eapply Rle_trans; [exact H'|]. rewrite u32_eq. lra.
Qed.

Lemma u32_small : 0 < u32 <= / 1000000. Proof. rewrite u32_eq. lra. Qed.
Lemma tiny_small : 0 < tiny <= / 1180591620717411303424.
Proof. split; [apply tiny_pos|]. unfold tiny. change (/ 1180591620717411303424) with (bpow radix2 (-70)). apply bpow_le. lia. Qed.

(** p1 and p2 computed with three roundings each, then subtracted *)
Lemma cross_error p1 p2 d1 d2 e1 e2 d : Rabs d1 <= 3 * u32 + 4 * u32 * u32 -> Rabs d2 <= 3 * u32 + 4 * u32 * u32 ->
  Rabs e1 <= tiny -> Rabs e2 <= tiny -> Rabs d <= u32 ->
  Rabs ((p1 * (1 + d1) + e1 - (p2 * (1 + d2) + e2)) * (1 + d) - (p1 - p2)) <= 5 / 16777216 * (Rabs p1 + Rabs p2) + 3 * tiny.
Proof.
  intros H1 H2 H3 H4 H5. pose proof u32_small as [U0 U1]. pose proof tiny_small as [T0 T1].
  assert (U2 : 3 * u32 + 4 * u32 * u32 <= 31 / 10 * u32). { nra. }
  assert (forall di, Rabs di <= 3 * u32 + 4 * u32 * u32 -> Rabs ((1 + di) * (1 + d) - 1) <= 5 * u32) as HM.
  { intros di Hi. eapply Rle_trans; [apply (rel_mul di d _ _ Hi H5)|]. nra. }
  pose proof (HM d1 H1) as M1. pose proof (HM d2 H2) as M2. set (m1 := (1 + d1) * (1 + d) - 1) in *. set (m2 := (1 + d2) * (1 + d) - 1) in *.
  replace ((p1 * (1 + d1) + e1 - (p2 * (1 + d2) + e2)) * (1 + d) - (p1 - p2)) with ((p1 * m1 - p2 * m2) + (e1 - e2) * (1 + d)) by (unfold m1, m2; ring).
  eapply Rle_trans; [apply Rabs_triang|]. apply Rplus_le_compat.
  - eapply Rle_trans; [unfold Rminus; apply Rabs_triang|]. rewrite Rabs_Ropp, !Rabs_mult.
    pose proof (Rabs_pos p1). pose proof (Rabs_pos p2).
    assert (Rabs p1 * Rabs m1 <= Rabs p1 * (5 * u32)) by (apply Rmult_le_compat_l; assumption).
    assert (Rabs p2 * Rabs m2 <= Rabs p2 * (5 * u32)) by (apply Rmult_le_compat_l; assumption).
    rewrite u32_eq in *. lra.
  - rewrite Rabs_mult. assert (Rabs (e1 - e2) <= 2 * tiny). { eapply Rle_trans; [unfold Rminus; apply Rabs_triang|]. rewrite Rabs_Ropp. lra. }
    assert (Rabs (1 + d) <= 3 / 2). { eapply Rle_trans; [apply Rabs_triang|]. rewrite Rabs_R1. lra. }
    pose proof (Rabs_pos (e1 - e2)). pose proof (Rabs_pos (1 + d)). nra.
Qed.

Lemma abs_le a b : Rabs a <= b <-> - b <= a <= b.
Proof. split; [apply Rabs_le_inv|apply Rabs_le]. Qed.
Lemma abs_minus u v : Rabs (u - v) <= Rabs u + Rabs v.
Proof. unfold Rminus. eapply Rle_trans; [apply Rabs_triang|]. rewrite Rabs_Ropp. lra. Qed.
Lemma bpow127 : bpow radix2 127 = 170141183460469231731687303715884105728. Proof. reflexivity. Qed.
Notation B60 := 1152921504606846976.
Lemma diff_bound a b : Rabs a <= B60 -> Rabs b <= B60 -> Rabs (a - b) <= 2 * B60.
Proof. rewrite !abs_le. lra. Qed.
Lemma rel_bound a d M : Rabs a <= M -> Rabs d <= u32 -> Rabs (a * (1 + d)) <= 2 * M.
Proof.
  intros Ha Hd. rewrite Rabs_mult. pose proof u32_small. assert (Rabs (1 + d) <= 2). { eapply Rle_trans; [apply Rabs_triang|]. rewrite Rabs_R1. lra. }
  pose proof (Rabs_pos a). pose proof (Rabs_pos (1 + d)). nra.
Qed.
Lemma prod_bound a b M N : Rabs a <= M -> Rabs b <= N -> Rabs (a * b) <= M * N.
Proof. intros. rewrite Rabs_mult. apply Rmult_le_compat; auto using Rabs_pos. Qed.

(** the rounded difference of two coordinates *)
Lemma coord_sub x y a b : num x a -> num y b -> Rabs a <= B60 -> Rabs b <= B60 ->
  exists d, Rabs d <= u32 /\ num (s_sub x y) ((a - b) * (1 + d)) /\ Rabs ((a - b) * (1 + d)) <= 4 * B60.
Proof.
  intros Hx Hy Ha Hb. pose proof (diff_bound a b Ha Hb) as HD. destruct (num_sub x y a b Hx Hy) as (d & H1 & H2).
  - rewrite bpow127. lra.
  - exists d. split; [exact H1|]. split; [exact H2|]. pose proof (rel_bound _ d _ HD H1). lra.
Qed.
(** and the rounded product of two of them *)
Lemma coord_mul x y a b d1 d2 : num x (a * (1 + d1)) -> num y (b * (1 + d2)) -> Rabs d1 <= u32 -> Rabs d2 <= u32 ->
  Rabs (a * (1 + d1)) <= 4 * B60 -> Rabs (b * (1 + d2)) <= 4 * B60 ->
  exists d e, Rabs d <= 3 * u32 + 4 * u32 * u32 /\ Rabs e <= tiny /\ num (s_mul x y) (a * b * (1 + d) + e) /\ Rabs (a * b * (1 + d) + e) <= 40 * B60 * B60.
Proof.
  intros Hx Hy H1 H2 Ha Hb. pose proof (prod_bound _ _ _ _ Ha Hb) as HP. destruct (num_mul x y _ _ Hx Hy) as (d & e & H3 & H4 & H5).
  - rewrite bpow127. lra.
  - destruct (rel3 d1 d2 d H1 H2 H3) as (d' & E & H6). exists d', e. split; [exact H6|]. split; [exact H4|].
    replace (a * b * (1 + d')) with (a * (1 + d1) * (b * (1 + d2)) * (1 + d)) by (rewrite <- E; ring). split; [exact H5|].
    eapply Rle_trans; [apply Rabs_triang|]. pose proof (rel_bound _ d _ HP H3). pose proof tiny_small. lra.
Qed.

Section Side.
Context {sn cs ac : spec_float -> spec_float}.
Notation A := (F32with sn cs ac).

(** what `side` computes *)
Definition cross32 (p a b : vec2 A) : spec_float := perp_dot (vsub b a) (vsub p a).

Lemma cross32_error (vp va vb : vec2 A) x a b : at32 vp x -> at32 va a -> at32 vb b -> moderate x -> moderate a -> moderate b ->
  exists c, num (cross32 vp va vb) c /\ Rabs (c - orient a b x) <= 5 / 16777216 * spread a b x + 3 * tiny.
Proof.
  intros [Xx Xy] [Ax Ay] [Bx By] [Mx1 Mx2] [Ma1 Ma2] [Mb1 Mb2].
  destruct (coord_sub _ _ _ _ Bx Ax Mb1 Ma1) as (d1 & D1 & N1 & L1). destruct (coord_sub _ _ _ _ By Ay Mb2 Ma2) as (d2 & D2 & N2 & L2).
  destruct (coord_sub _ _ _ _ Xx Ax Mx1 Ma1) as (d3 & D3 & N3 & L3). destruct (coord_sub _ _ _ _ Xy Ay Mx2 Ma2) as (d4 & D4 & N4 & L4).
  destruct (coord_mul _ _ _ _ _ _ N1 N4 D1 D4 L1 L4) as (d5 & e5 & D5 & E5 & N5 & L5).
  destruct (coord_mul _ _ _ _ _ _ N2 N3 D2 D3 L2 L3) as (d6 & e6 & D6 & E6 & N6 & L6).
  destruct (num_sub _ _ _ _ N5 N6) as (d & D & Nc).
  { rewrite bpow127. eapply Rle_trans; [apply abs_minus|]. lra. }
  eexists. split; [exact Nc|]. unfold orient, cross, psub. cbn [px py].
  apply cross_error; assumption.
Qed.

Definition eps32 : R := 13743895 / 137438953472.
Lemma EPS32 : num (EPS (A:=A)) eps32.
Proof.
  unfold EPS. cbn [flit F32with]. 
  assert (E : s_lit 1 10000 = S754_finite false 13743895 (-37)) by (vm_compute; reflexivity). rewrite E.
  split; [reflexivity|]. split; [reflexivity|]. unfold eps32, SF2R, F2R. cbn [Fnum Fexp cond_Zopp]. change (bpow radix2 (-37)) with (/ 137438953472). unfold Rdiv. ring.
Qed.
Lemma zero32 : num (fz (A:=A) 0) 0.
Proof. unfold fz. cbn [flit F32with]. change (s_lit 0 1) with (S754_zero false). apply num_zero. Qed.
Lemma eps32_close : Rabs (eps32 - eps) <= / 274877906944.
Proof. apply abs_le. unfold eps32, eps. lra. Qed.

(** `side`, from the value of the cross product *)
Lemma side_num (vp va vb : vec2 A) c : num (cross32 vp va vb) c ->
  (side vp (va, vb) = SEdge <-> Rabs c < eps32) /\ (side vp (va, vb) = SLeft <-> eps32 <= c) /\ (side vp (va, vb) = SRight <-> c <= - eps32).
Proof.
  intro H. unfold side. cbn [fst snd]. fold (cross32 vp va vb). cbn [flt fabs F32with]. unfold fgt. cbn [flt F32with].
  assert (He : 0 < eps32) by (unfold eps32; lra).
  pose proof (num_lt _ _ _ _ (num_abs _ _ H) EPS32) as L. pose proof (num_lt _ _ _ _ zero32 H) as L0.
  assert (HA : Rabs c < eps32 <-> - eps32 < c < eps32) by (split; [intro K; apply Rabs_def2 in K; lra|intros []; now apply Rabs_def1]).
  rewrite HA in L. clear HA. assert (HA : Rabs c < eps32 <-> - eps32 < c < eps32) by (split; [intro K; apply Rabs_def2 in K; lra|intros []; now apply Rabs_def1]).
  rewrite HA. clear HA H. revert L L0. set (t1 := SFltb (SFabs _) _). set (t2 := SFltb _ _). clearbody t1 t2. intros L L0.
  destruct t1.
  - assert (- eps32 < c < eps32) by now apply L. split; [tauto|]. split; (split; [discriminate|lra]).
  - assert (HN : ~ (- eps32 < c < eps32)) by (intro K; apply L in K; discriminate). destruct t2.
    + assert (0 < c) by now apply L0. split; [split; [discriminate|tauto]|]. split; [split; [intros _|now trivial]|split; [discriminate|lra]].
      destruct (Rlt_le_dec c eps32); [exfalso; apply HN; lra|assumption].
    + assert (~ 0 < c) by (intro K; apply L0 in K; discriminate). split; [split; [discriminate|tauto]|]. split; [split; [discriminate|lra]|].
      split; [intros _|now trivial]. destruct (Rlt_le_dec (- eps32) c); [exfalso; apply HN; lra|assumption].
Qed.

(** [side] in binary32 against the exact orientation *)
Lemma side32 (vp va vb : vec2 A) x a b : at32 vp x -> at32 va a -> at32 vb b -> moderate x -> moderate a -> moderate b ->
  (side vp (va, vb) = SLeft -> eps - slack a b x <= orient a b x) /\
  (side vp (va, vb) = SRight -> orient a b x <= - eps + slack a b x) /\
  (side vp (va, vb) = SEdge -> Rabs (orient a b x) < eps + slack a b x) /\
  (eps + slack a b x <= orient a b x -> side vp (va, vb) = SLeft) /\
  (orient a b x <= - eps - slack a b x -> side vp (va, vb) = SRight) /\
  (Rabs (orient a b x) < eps - slack a b x -> side vp (va, vb) = SEdge).
Proof.
  intros Hx Ha Hb Mx Ma Mb. destruct (cross32_error vp va vb x a b Hx Ha Hb Mx Ma Mb) as (c & Nc & Hc).
  destruct (side_num vp va vb c Nc) as (S1 & S2 & S3). pose proof eps32_close as HE. rewrite abs_le in HE, Hc.
  pose proof tiny_small as [_ T]. unfold slack. set (s := 5 / 16777216 * spread a b x) in *.
  repeat split; intro G.
  - apply S2 in G. lra.
  - apply S3 in G. lra.
  - apply S1 in G. apply Rabs_def2 in G. apply Rabs_def1; lra.
  - apply S2. lra.
  - apply S3. lra.
  - apply S1. apply Rabs_def2 in G. apply Rabs_def1; lra.
Qed.

(** exact on small grids *)
Lemma cross32_grid k (vp va vb : vec2 A) x a b : (0 <= k <= 30)%Z -> at32 vp x -> at32 va a -> at32 vb b -> on_grid k x -> on_grid k a -> on_grid k b ->
  num (cross32 vp va vb) (orient a b x) /\ exists n, orient a b x = dy n (- k + - k).
Proof.
  intros Hk Hx Ha Hb (x1 & x2 & -> & X1 & X2) (a1 & a2 & -> & A1 & A2) (b1 & b2 & -> & B1 & B2).
  destruct Hx as [Xx Xy], Ha as [Ax Ay], Hb as [Bx By]. cbn [px py] in *. rewrite !dy_div in * by lia.
  assert (E : orient (P (dy a1 (- k)) (dy a2 (- k))) (P (dy b1 (- k)) (dy b2 (- k))) (P (dy x1 (- k)) (dy x2 (- k))) =
              dy ((b1 - a1) * (x2 - a2) - (b2 - a2) * (x1 - a1)) (- k + - k)).
  { unfold orient, cross, psub, dy. cbn [px py]. rewrite minus_IZR, !mult_IZR, !minus_IZR, bpow_plus. ring. }
  rewrite E. split; [|eexists; reflexivity].
  assert (forall u v, Z.abs u <= 2048 -> Z.abs v <= 2048 -> Z.abs (u * v) <= 4194304)%Z as HM.
  { intros u v Hu Hv. rewrite Z.abs_mul. assert (0 <= Z.abs u)%Z by lia. assert (0 <= Z.abs v)%Z by lia. nia. }
  pose proof (HM (b1 - a1) (x2 - a2) ltac:(lia) ltac:(lia))%Z as M1. pose proof (HM (b2 - a2) (x1 - a1) ltac:(lia) ltac:(lia))%Z as M2.
  apply num_sub_dy; [apply num_mul_dy; [apply num_sub_dy; [assumption..|lia|lia]..|lia|lia]|apply num_mul_dy; [apply num_sub_dy; [assumption..|lia|lia]..|lia|lia]|lia|lia].
Qed.
Lemma dy_small n e : (-12 <= e)%Z -> Rabs (dy n e) < eps32 -> dy n e = 0.
Proof.
  intros He H. destruct (Z.eq_dec n 0) as [->|Hn]; [unfold dy; ring|]. exfalso. unfold dy in H.
  rewrite Rabs_mult, (Rabs_pos_eq (bpow radix2 e)), <- abs_IZR in H by apply bpow_ge_0.
  assert (bpow radix2 (-12) <= bpow radix2 e) by now apply bpow_le. change (bpow radix2 (-12)) with (/ 4096) in H0.
  assert (1 <= IZR (Z.abs n)) by (apply IZR_le; lia). pose proof (bpow_gt_0 radix2 e). unfold eps32 in H. nra.
Qed.
Lemma side_grid k (vp va vb : vec2 A) x a b : (0 <= k <= 6)%Z -> at32 vp x -> at32 va a -> at32 vb b -> on_grid k x -> on_grid k a -> on_grid k b ->
  (side vp (va, vb) = SEdge <-> orient a b x = 0) /\ (side vp (va, vb) = SLeft <-> 0 < orient a b x) /\ (side vp (va, vb) = SRight <-> orient a b x < 0).
Proof.
  intros Hk Hx Ha Hb Gx Ga Gb. destruct (cross32_grid k vp va vb x a b) as (Hn & n & En); try assumption; [lia|].
  destruct (side_num vp va vb _ Hn) as (S1 & S2 & S3). assert (HZ : Rabs (orient a b x) < eps32 -> orient a b x = 0). { rewrite En. apply dy_small. lia. }
  assert (He : 0 < eps32) by (unfold eps32; lra). rewrite S1, S2, S3. 
  assert (HA : Rabs (orient a b x) < eps32 \/ eps32 <= orient a b x \/ orient a b x <= - eps32).
  { destruct (Rlt_le_dec (orient a b x) eps32); [|tauto]. destruct (Rlt_le_dec (- eps32) (orient a b x)); [|tauto]. left. now apply Rabs_def1. }
  split; [|split].
  - split; [exact HZ|intros ->; now rewrite Rabs_R0].
  - split; [lra|]. intro. destruct HA as [K|[K|K]]; [apply HZ in K; lra|assumption|lra].
  - split; [lra|]. intro. destruct HA as [K|[K|K]]; [apply HZ in K; lra|lra|assumption].
Qed.
End Side.
