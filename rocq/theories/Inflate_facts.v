(** The rounded outline of an edge (round_line, create_arc of Triangulation.v) over exact reals. *)
From Coq Require Import List NArith ZArith Bool Reals Lra Lia Psatz.
From Verif Require Import Base Arith U32 Mesh Helpers Locate Triangulation RealArith Geometry.
Import ListNotations.
Open Scope R_scope.

(** What atan2, hypot and is_sign_negative compute over the reals. *)
Definition real_trig (lib : TriLib RA) : Prop :=
  (forall x y, hypot lib (rr x) (rr y) = rr (sqrt (x * x + y * y))) /\
  (forall a, sign_negative lib (rr a) = rltb a 0) /\
  (forall x y, ~ (x = 0 /\ y = 0) -> exists a, atan2 lib (rr y) (rr x) = rr a /\ - PI <= a <= PI /\
     x = sqrt (x * x + y * y) * cos a /\ y = sqrt (x * x + y * y) * sin a).

Lemma cos_minus_one x : -2 * PI < x < 2 * PI -> cos x = -1 -> x = PI \/ x = - PI.
Proof.
  intros Hx Hc. pose proof PI_RGT_0 as HP.
  assert (cos (x / 2) = 0) as H0.
  { replace x with (2 * (x / 2)) in Hc by field. rewrite cos_2a_cos in Hc. nra. }
  destruct (Rle_or_lt 0 x) as [H|H].
  - destruct (cos_eq_0_2PI_0 (x / 2)) as [E|E]; [lra|lra|exact H0|left; lra|lra].
  - rewrite <- cos_neg in H0.
    destruct (cos_eq_0_2PI_0 (- (x / 2))) as [E|E]; [lra|lra|exact H0|right; lra|lra].
Qed.

(** A unit vector and the angle the code computes for it. *)
Lemma positive_angle_spec lib c d v : real_trig lib -> 0 < d -> pdot v v = 1 ->
  exists a, positive_angle lib (vp c) (vp (padd c (pscale d v))) = rr a /\ 0 <= a < 2 * PI /\ px v = cos a /\ py v = sin a.
Proof.
  intros (_ & HS & HA) Hd Hv. pose proof PI_RGT_0 as HP.
  unfold pdot in Hv.
  destruct (HA (px (padd c (pscale d v)) - px c) (py (padd c (pscale d v)) - py c)) as (a & A1 & A2 & A3 & A4).
  { cbn. intros [E1 E2]. nra. }
  assert (positive_angle lib (vp c) (vp (padd c (pscale d v))) =
          let x := atan2 lib (rr (py (padd c (pscale d v)) - py c)) (rr (px (padd c (pscale d v)) - px c)) in
          if sign_negative lib x then fadd x ftau else x) as EP by reflexivity.
  rewrite EP. cbv zeta.
  rewrite A1, HS.
  assert (sqrt ((px (padd c (pscale d v)) - px c) * (px (padd c (pscale d v)) - px c) +
                (py (padd c (pscale d v)) - py c) * (py (padd c (pscale d v)) - py c)) = d) as EL.
  { apply sqrt_lem_1; [nra|lra|]. cbn. replace (px c + d * px v - px c) with (d * px v) by ring.
    replace (py c + d * py v - py c) with (d * py v) by ring. nra. }
  rewrite EL in A3, A4. cbn [padd pscale px py] in A3, A4.
  assert (px v = cos a) as Ex by nra. assert (py v = sin a) as Ey by nra.
  unfold rltb. destruct (Rlt_dec a 0) as [Hn|Hn].
  - exists (a + 2 * PI). split; [reflexivity|]. split; [lra|]. rewrite cos_plus, sin_plus, cos_2PI, sin_2PI. split; lra.
  - exists a. split; [reflexivity|]. split; [lra|]. auto.
Qed.

(** The number of segments of an arc: odd. *)
Definition arc_count (n : N) : N := if N.even n then (n - 1)%N else n.
(** The direction after turning clockwise from [v] by the angle [f]. *)
Definition turned (v : P2) (f : R) : P2 := P (px v * cos f + py v * sin f) (py v * cos f - px v * sin f).
Definition arc_point (c : P2) (d : R) (v : P2) (m : N) (k : nat) : P2 :=
  padd c (pscale d (turned v (INR k * PI / IZR (Z.of_N m)))).
Definition arc (c : P2) (d : R) (v : P2) (m : N) : list P2 := map (arc_point c d v m) (seq 0 (S (N.to_nat m))).

Lemma arc_count_pos n : (1 <= n)%N -> (1 <= arc_count n)%N.
Proof.
  intro H. unfold arc_count. destruct (N.even n) eqn:E; [|exact H].
  assert (n <> 1)%N by (intros ->; discriminate). lia.
Qed.
Lemma IZR_N_INR m : IZR (Z.of_N m) = INR (N.to_nat m).
Proof. rewrite INR_IZR_INZ. f_equal. lia. Qed.

Lemma turned_0 v : turned v 0 = v.
Proof. unfold turned. rewrite cos_0, sin_0. apply P2_eq; cbn; ring. Qed.
Lemma turned_PI v : turned v PI = pscale (-1) v.
Proof. unfold turned. rewrite cos_PI, sin_PI. apply P2_eq; cbn; ring. Qed.

Lemma map_seq_ends {T} (f : nat -> T) n : map f (seq 0 (S (S n))) = f 0%nat :: map f (seq 1 n) ++ [f (S n)].
Proof. rewrite seq_S, map_app. reflexivity. Qed.

Lemma create_arc_spec lib c d v n : real_trig lib -> 0 < d -> pdot v v = 1 -> (1 <= n)%N ->
  create_arc lib (vp c) (rr d) (vp (padd c (pscale d v))) (vp (psub c (pscale d v))) n true
  = Ok (map vp (arc c d v (arc_count n))).
Proof.
  intros HT Hd Hv Hn. pose proof PI_RGT_0 as HP.
  destruct (positive_angle_spec lib c d v HT Hd Hv) as (a & A1 & A2 & A3 & A4).
  destruct (positive_angle_spec lib c d (pscale (-1) v) HT Hd) as (b & B1 & B2 & B3 & B4).
  { unfold pdot in *. cbn. nra. }
  assert (padd c (pscale d (pscale (-1) v)) = psub c (pscale d v)) as EQ by (apply P2_eq; cbn; ring).
  rewrite EQ in B1. cbn in B3, B4.
  unfold create_arc. rewrite A1, B1.
  assert ((if N.even n then if N.eqb n 0 then Panic else Ok (n - 1)%N else Ok n) = Ok (arc_count n)) as ->.
  { unfold arc_count. destruct (N.even n); [|reflexivity]. destruct (N.eqb_spec n 0); [lia|reflexivity]. }
  cbn [bind]. pose proof (arc_count_pos n Hn) as Hm. set (m := arc_count n) in *.
  assert ((if fgt (A := RA) (rr a) (rr b) then fsub (rr a) (rr b) else fsub (fadd (rr a) ftau) (rr b)) = rr PI) as ->.
  { assert (cos (a - b) = -1) as HC.
    { rewrite cos_minus, <- A3, <- A4. replace (cos b) with (- px v) by lra. replace (sin b) with (- py v) by lra.
      unfold pdot in Hv. lra. }
    unfold fgt. cbn. unfold rltb. destruct (cos_minus_one (a - b)) as [E|E]; [lra|exact HC| |].
    - destruct (Rlt_dec b a); [|lra]. unfold rr. f_equal. lra.
    - destruct (Rlt_dec b a); [lra|]. unfold rr. f_equal. lra. }
  f_equal.
  unfold arc. assert (exists k, N.to_nat m = S k) as [k Ek] by (exists (pred (N.to_nat m)); lia).
  rewrite Ek, map_seq_ends. cbn [map]. rewrite map_app, map_map. cbn [map].
  assert (IZR (Z.of_N m) <> 0) as Hz.
  { rewrite IZR_N_INR, Ek. apply not_0_INR. lia. }
  f_equal; [|f_equal; [|f_equal]].
  - unfold arc_point. cbn [INR]. replace (0 * PI / IZR (Z.of_N m)) with 0 by (field; exact Hz). now rewrite turned_0.
  - unfold rangeN. rewrite !map_map.
    replace (N.to_nat (m - 1)) with k by lia. rewrite <- (seq_shift k 0), map_map.
    apply map_ext. intro i. unfold arc_point, turned.
    rewrite !fz_R. unfold rr. cbn [fdiv fadd fmul fneg fcos fsin RA lift2 lift1 option_map rdiv vx vy vp pt].
    destruct (Req_EM_T (IZR (Z.of_N m)) 0) as [E|_]; [contradiction|]. cbn [lift2 lift1 option_map].
    replace (a + - PI / IZR (Z.of_N m) * IZR (Z.of_N (N.succ (N.of_nat i)))) with (a - INR (S i) * PI / IZR (Z.of_N m)).
    2:{ replace (IZR (Z.of_N (N.succ (N.of_nat i)))) with (INR (S i)); [field; exact Hz|]. rewrite INR_IZR_INZ. f_equal. lia. }
    rewrite cos_minus, sin_minus, <- A3, <- A4. unfold vp, pt. cbn [padd pscale px py]. f_equal; f_equal; ring.
  - unfold arc_point. rewrite <- Ek, <- IZR_N_INR.
    replace (IZR (Z.of_N m) * PI / IZR (Z.of_N m)) with PI by (field; exact Hz). rewrite turned_PI. now rewrite EQ.
Qed.
