(** Lengths in binary32. *)
From Coq Require Import List NArith ZArith Bool Lia Reals Lra Psatz.
From Coq.Floats Require Import SpecFloat.
From Flocq Require Import Core BinarySingleNaN.
From Verif Require Import Base Arith RealArith F32 Decimal32_real Spec_f32 F32_real Side32 Mesh Helpers Spec Geometry.
Import ListNotations.
Open Scope R_scope.

#[local] Existing Instance Hprec.
#[local] Existing Instance Hmax.
#[local] Existing Instance valid_exp32.
Notation tau := (/ 4722366482869645213696).
Lemma tau_bpow : tau = bpow radix2 (-72). Proof. reflexivity. Qed.
Lemma tiny_tau : tiny <= tau * tau / 32.
Proof.
  unfold tiny. rewrite tau_bpow. unfold Rdiv. change (/ 32) with (bpow radix2 (-5)). rewrite <- !bpow_plus. apply bpow_le. lia.
Qed.

(** the square root of a value known up to a relative error and an absolute one *)
Lemma sqrt_error s D a e : 0 <= D -> Rabs a <= 5 * u32 -> Rabs e <= 4 * tiny -> s = D * D * (1 + a) + e -> 0 <= s -> Rabs (sqrt s - D) <= 13 / 5 * u32 * D + tau / 2.
Proof.
  intros HD Ha He -> Hs. pose proof u32_small as [U0 U1]. pose proof tiny_tau as HT. pose proof tiny_pos as T0.
  rewrite abs_le in Ha, He. assert (0 < tau) by lra. set (t := tau) in *.
  set (r := sqrt (D * D * (1 + a) + e)). assert (Hr : 0 <= r) by apply sqrt_pos. assert (Er : r * r = D * D * (1 + a) + e) by (apply sqrt_sqrt; assumption).
  clearbody r. apply abs_le. split.
  - apply Rnot_lt_le. intro K. set (w := D - r) in *. assert (13 / 5 * u32 * D + t / 2 < w) by (unfold w; lra).
    (* r = D - w, w > 0, w <= D *)
    assert (w <= D) by (unfold w; lra). assert (r = D - w) as Ew by (unfold w; lra). rewrite Ew in Er.
    assert (E2 : w * (2 * D - w) = - (D * D * a) - e) by nra.
    assert (w * D <= w * (2 * D - w)) by nra. assert (D * (13 / 5 * u32 * D + t / 2) <= D * w) by (apply Rmult_le_compat_l; lra).
    assert (- (D * D * a) <= 5 * u32 * (D * D)) by nra.
    (* w(2D - w) >= w * (D + (D-w)) *)
    assert (w * w <= w * D) by nra.
    assert (HW : (13 / 5 * u32 * D + t / 2) * (2 * D - w) <= w * (2 * D - w)) by (apply Rmult_le_compat_r; lra).
    destruct (Rle_lt_dec w (D / 100)) as [Hw|Hw].
    + assert ((13 / 5 * u32 * D + t / 2) * (199 / 100 * D) <= (13 / 5 * u32 * D + t / 2) * (2 * D - w)).
      { apply Rmult_le_compat_l; [|lra]. assert (0 <= 13 / 5 * u32 * D) by (apply Rmult_le_pos; lra). lra. }
      assert (0 <= u32 * (D * D)) by (apply Rmult_le_pos; nra). assert (t / 2 * D <= 4 * tiny) by nra.
      (* w <= D/100 and t/2 < w *) assert (t / 2 < D / 100). { assert (0 <= 13 / 5 * u32 * D) by (apply Rmult_le_pos; lra). lra. }
      assert (t / 2 * (50 * t) <= t / 2 * D) by (apply Rmult_le_compat_l; lra). nra.
    + assert (w * w <= 5 * u32 * (D * D) + 4 * tiny) by nra. assert (D / 100 * w <= w * w) by nra.
      assert (t / 2 < w). { assert (0 <= 13 / 5 * u32 * D) by (apply Rmult_le_pos; lra). lra. } 
      assert (D * D / 10000 <= w * w) by nra. assert (5 * u32 * (D * D) <= w * w / 10) by nra. assert (t * t / 4 <= w * w) by nra. nra.
  - apply Rnot_lt_le. intro K. set (w := r - D) in *. assert (r = D + w) as Ew by (unfold w; lra). rewrite Ew in Er.
    assert (E2 : w * (2 * D + w) = D * D * a + e) by nra.
    assert (D * D * a <= 5 * u32 * (D * D)) by nra.
    assert (0 <= 13 / 5 * u32 * D) by (apply Rmult_le_pos; lra).
    assert ((13 / 5 * u32 * D + t / 2) * (2 * D) <= w * (2 * D)) by (apply Rmult_le_compat_r; lra).
    assert (t / 2 * (t / 2) <= w * w) by (apply Rmult_le_compat; lra). nra.
Qed.

Section Length.
Context {sn cs ac : spec_float -> spec_float}.
Notation A := (F32with sn cs ac).

Lemma dist_bound a b : moderate a -> moderate b -> dist a b <= 4 * B60.
Proof.
  intros [A1 A2] [B1 B2]. unfold dist, plen, pdot, psub. cbn [px py]. pose proof (diff_bound _ _ A1 B1) as D1. pose proof (diff_bound _ _ A2 B2) as D2.
  set (u := px a - px b) in *. set (v := py a - py b) in *. rewrite abs_le in D1, D2. 
  rewrite <- (sqrt_Rsqr (4 * B60)) by lra. apply sqrt_le_1_alt. unfold Rsqr.
  assert (u * u <= (2 * B60) * (2 * B60)) by nra. assert (v * v <= (2 * B60) * (2 * B60)) by nra. lra.
Qed.
Lemma dist_sq a b : dist a b * dist a b = (px a - px b) * (px a - px b) + (py a - py b) * (py a - py b).
Proof. unfold dist, plen. rewrite sqrt_sqrt by apply pdot_nonneg. reflexivity. Qed.
Lemma dist_nonneg a b : 0 <= dist a b. Proof. apply sqrt_pos. Qed.

(** the distance of two points *)
Lemma vdist32 (va vb : vec2 A) a b : at32 va a -> at32 vb b -> moderate a -> moderate b ->
  exists d, num (vdist va vb) d /\ 0 <= d /\ Rabs (d - dist a b) <= 4 * u32 * dist a b + tau.
Proof.
  intros [Ax Ay] [Bx By] Ma Mb. pose proof (dist_bound a b Ma Mb) as HD. pose proof (dist_sq a b) as HS. pose proof (dist_nonneg a b) as H0.
  destruct Ma as [Ma1 Ma2], Mb as [Mb1 Mb2].
  destruct (coord_sub _ _ _ _ Ax Bx Ma1 Mb1) as (d1 & D1 & N1 & L1). destruct (coord_sub _ _ _ _ Ay By Ma2 Mb2) as (d2 & D2 & N2 & L2).
  destruct (coord_mul _ _ _ _ _ _ N1 N1 D1 D1 L1 L1) as (d3 & e3 & D3 & E3 & N3 & L3).
  destruct (coord_mul _ _ _ _ _ _ N2 N2 D2 D2 L2 L2) as (d4 & e4 & D4 & E4 & N4 & L4).
  assert (Hsq3 : exists z, 0 <= z /\ num (s_mul (s_sub (vx va) (vx vb)) (s_sub (vx va) (vx vb))) z). 
  { eexists. split; [|apply (num_mul_rnd _ _ _ _ N1 N1)].
    - apply round_ge_generic; [typeclasses eauto..|apply generic_format_0|apply Rle_0_sqr].
    - pose proof (prod_bound _ _ _ _ L1 L1). rewrite bpow127. lra. }
  assert (Hsq4 : exists z, 0 <= z /\ num (s_mul (s_sub (vy va) (vy vb)) (s_sub (vy va) (vy vb))) z). 
  { eexists. split; [|apply (num_mul_rnd _ _ _ _ N2 N2)].
    - apply round_ge_generic; [typeclasses eauto..|apply generic_format_0|apply Rle_0_sqr].
    - pose proof (prod_bound _ _ _ _ L2 L2). rewrite bpow127. lra. }
  destruct Hsq3 as (z3 & Z3 & M3). destruct Hsq4 as (z4 & Z4 & M4). pose proof (num_fun _ _ _ M3 N3) as Q3. pose proof (num_fun _ _ _ M4 N4) as Q4.
  set (X := (px a - px b) * (px a - px b)) in *. set (Y := (py a - py b) * (py a - py b)) in *.
  destruct (num_add _ _ _ _ N3 N4) as (d & Dd & Ns).
  { rewrite bpow127. eapply Rle_trans; [apply Rabs_triang|]. lra. }
  assert (X0 : 0 <= X) by (unfold X; apply Rle_0_sqr). assert (Y0 : 0 <= Y) by (unfold Y; apply Rle_0_sqr). clearbody X Y.
  pose proof u32_small as [U0 U1]. pose proof tiny_pos as T0.
  set (s := (X * (1 + d3) + e3 + (Y * (1 + d4) + e4)) * (1 + d)) in *.
  assert (Hs : 0 <= s). { unfold s. rewrite <- Q3, <- Q4. apply Rmult_le_pos; [lra|]. rewrite abs_le in Dd. lra. }
  assert (HM : forall di, Rabs di <= 3 * u32 + 4 * u32 * u32 -> Rabs ((1 + di) * (1 + d) - 1) <= 41 / 10 * u32).
  { intros di Hi. eapply Rle_trans; [apply (rel_mul di d _ _ Hi Dd)|]. nra. }
  pose proof (HM d3 D3) as M1. pose proof (HM d4 D4) as M2. rewrite abs_le in M1, M2.
  set (m1 := (1 + d3) * (1 + d) - 1) in *. set (m2 := (1 + d4) * (1 + d) - 1) in *.
  assert (Es : s = X + Y + (X * m1 + Y * m2) + (e3 + e4) * (1 + d)) by (unfold s, m1, m2; ring).
  assert (Hrel : exists al, Rabs al <= 5 * u32 /\ X * m1 + Y * m2 = (X + Y) * al).
  { destruct (Req_dec (X + Y) 0) as [E|E].
    - exists 0. split; [rewrite Rabs_R0; lra|]. assert (X = 0) as -> by lra. assert (Y = 0) as -> by lra. ring.
    - exists ((X * m1 + Y * m2) / (X + Y)). split; [|field; assumption]. assert (0 < X + Y) by lra. apply abs_le. split.
      + apply Rmult_le_reg_r with (X + Y); [assumption|]. unfold Rdiv. rewrite Rmult_assoc, Rinv_l, Rmult_1_r by assumption. nra.
      + apply Rmult_le_reg_r with (X + Y); [assumption|]. unfold Rdiv. rewrite Rmult_assoc, Rinv_l, Rmult_1_r by assumption. nra. }
  destruct Hrel as (al & Hal & Eal).
  assert (Hee : Rabs ((e3 + e4) * (1 + d)) <= 4 * tiny).
  { rewrite Rabs_mult. assert (Rabs (e3 + e4) <= 2 * tiny) by (eapply Rle_trans; [apply Rabs_triang|lra]).
    assert (Rabs (1 + d) <= 2) by (eapply Rle_trans; [apply Rabs_triang|]; rewrite Rabs_R1; lra). pose proof (Rabs_pos (e3 + e4)). pose proof (Rabs_pos (1 + d)). nra. }
  pose proof (sqrt_error s (dist a b) al _ H0 Hal Hee) as HR. rewrite HS in HR. rewrite Es, Eal in HR.
  destruct (num_sqrt _ _ Ns Hs) as (d' & Dd' & Nr). exists (sqrt s * (1 + d')). split; [exact Nr|]. rewrite abs_le in Dd'.
  split; [apply Rmult_le_pos; [apply sqrt_pos|lra]|].
  assert (HR' : Rabs (sqrt s - dist a b) <= 13 / 5 * u32 * dist a b + tau / 2).
  { rewrite Es, Eal. apply HR; [ring|]. rewrite <- Eal, <- Es. exact Hs. }
  rewrite abs_le in HR'. set (D := dist a b) in *. set (q := sqrt s) in *. assert (0 <= q) by apply sqrt_pos.
  apply abs_le. clear - HR' Dd' U0 U1 H0 H. set (t := tau) in *. assert (0 < t) by (unfold t; lra). clearbody t q D.
  assert (q <= D * (1 + 13 / 5 * u32) + t / 2) by lra. assert (0 <= u32 * D) by nra.
  assert (- (u32 * q) <= q * d' <= u32 * q) by nra. assert (u32 * q <= u32 * (D * (1 + 13 / 5 * u32) + t / 2)) by nra.
  assert (u32 * (D * (1 + 13 / 5 * u32) + t / 2) <= 11 / 10 * u32 * D + t / 4) by nra. lra.
Qed.

Lemma walked_nonneg : forall l a, 0 <= walked a l.
Proof. induction l as [|b l IH]; intro a; cbn [walked]; [lra|]. pose proof (dist_nonneg a b). pose proof (IH b). lra. Qed.

Lemma length_error_eq n L : length_error n L = (2 * INR n + 8) * u32 * L + 2 * INR n * tau.
Proof. unfold length_error. rewrite u32_eq. unfold Rdiv. ring. Qed.
(** one more leg *)
Lemma leg_real k S L d D e u t : 0 <= k -> 0 < u -> 0 < t -> (2 * k + 10) * u <= 6 / 10 -> 0 <= L -> 0 <= D -> 0 <= S -> 0 <= d ->
  Rabs (S - L) <= (2 * k + 8) * u * L + 2 * k * t -> Rabs (d - D) <= 4 * u * D + t -> Rabs e <= u ->
  Rabs ((S + d) * (1 + e) - (L + D)) <= (2 * (k + 1) + 8) * u * (L + D) + 2 * (k + 1) * t.
Proof.
  intros Hk Hu Ht HU HL HD HS Hd H1 H2 He. set (s := S - L) in *. set (g := d - D) in *.
  replace ((S + d) * (1 + e) - (L + D)) with (s + g + (L + D) * e + (s + g) * e) by (unfold s, g; ring).
  assert (HW : Rabs (s + g) <= (2 * k + 8) * u * (L + D) + (2 * k + 1) * t).
  { eapply Rle_trans; [apply Rabs_triang|]. assert (0 <= (2 * k + 4) * u * D) by (apply Rmult_le_pos; [apply Rmult_le_pos|]; lra). nra. }
  set (w := s + g) in *. 
  assert (Rabs (w + (L + D) * e + w * e) <= Rabs w + (L + D) * u + Rabs w * u).
  { eapply Rle_trans; [apply Rabs_triang|]. apply Rplus_le_compat.
    - eapply Rle_trans; [apply Rabs_triang|]. apply Rplus_le_compat_l. rewrite Rabs_mult, (Rabs_pos_eq (L + D)) by lra. apply Rmult_le_compat_l; lra.
    - rewrite Rabs_mult. apply Rmult_le_compat_l; [apply Rabs_pos|assumption]. }
  set (M := L + D) in *. assert (0 <= M) by (unfold M; lra).
  assert (Rabs w * u <= ((2 * k + 8) * u * M + (2 * k + 1) * t) * u) by (apply Rmult_le_compat_r; lra).
  assert (((2 * k + 8) * u * M + (2 * k + 1) * t) * u = (2 * k + 8) * u * (u * M) + (2 * k + 1) * u * t) as E by ring.
  assert (0 <= u * M) by (apply Rmult_le_pos; lra).
  assert ((2 * k + 8) * u * (u * M) <= u * M). { rewrite <- (Rmult_1_l (u * M)) at 2. apply Rmult_le_compat_r; lra. }
  assert ((2 * k + 1) * u * t <= t). { rewrite <- (Rmult_1_l t) at 2. apply Rmult_le_compat_r; lra. }
  lra.
Qed.
Lemma leg_step x y n S d L D : num x S -> num y d -> 0 <= d -> 0 <= S -> 0 <= L -> 0 <= D -> L + D <= 16777216 * B60 -> INR n <= 4194304 ->
  Rabs (S - L) <= length_error n L -> Rabs (d - D) <= 4 * u32 * D + tau ->
  exists S', num (s_add x y) S' /\ 0 <= S' /\ Rabs (S' - (L + D)) <= length_error (1 + n) (L + D).
Proof.
  intros Hx Hy Hd0 HS0 HL HD HB Hn HE HDE. rewrite length_error_eq in *. change (1 + n)%nat with (Datatypes.S n). rewrite S_INR.
  pose proof (pos_INR n) as Hk. set (k := INR n) in *. clearbody k.
  assert (HU : (2 * k + 10) * u32 <= 6 / 10) by (rewrite u32_eq; lra). pose proof u32_small as [U0 U1].
  destruct (num_add x y S d Hx Hy) as (e & He & HN).
  { rewrite bpow127, Rabs_pos_eq by lra. rewrite abs_le in HE, HDE. assert ((2 * k + 8) * u32 * L <= 1 * L) by (apply Rmult_le_compat_r; lra).
    assert (4 * u32 * D <= 1 * D) by (apply Rmult_le_compat_r; lra). assert (2 * k * tau <= 1) by lra. lra. }
  exists ((S + d) * (1 + e)). split; [exact HN|]. split; [rewrite abs_le in He; apply Rmult_le_pos; lra|].
  apply leg_real; try assumption. lra.
Qed.

(** the whole walk *)
Lemma walk_length32 : forall (vs : list (vec2 A)) ps va a x n S L, Forall2 at32 vs ps -> at32 va a -> moderate a -> Forall moderate ps ->
  num x S -> 0 <= S -> 0 <= L -> Rabs (S - L) <= length_error n L -> L <= 4 * B60 * INR n -> INR (n + length ps) <= 4194304 ->
  exists S', num (walk_length (A:=A) x va vs) S' /\ 0 <= S' /\ Rabs (S' - (L + walked a ps)) <= length_error (n + length ps) (L + walked a ps).
Proof.
  induction vs as [|v vs IH]; intros ps va a x n S L H Ha Ma Mp Hx HS HL HE HB Hn; inversion H as [|v' q vs' qs Hq Hr]; subst.
  - cbn [walk_length walked length]. exists S. rewrite Nat.add_0_r, Rplus_0_r. auto.
  - inversion_clear Mp as [|? ? Mq Mr]. cbn [walk_length walked length] in *.
    destruct (vdist32 va v a q Ha Hq Ma Mq) as (d & Nd & D0 & DE). pose proof (dist_bound a q Ma Mq) as HD. pose proof (dist_nonneg a q) as HD0.
    assert (Hn' : INR n + 1 + INR (length qs) <= 4194304). { rewrite <- S_INR, <- plus_INR. eapply Rle_trans; [|exact Hn]. apply le_INR. lia. }
    pose proof (pos_INR (length qs)) as P1. pose proof (pos_INR n) as P2.
    destruct (leg_step x (vdist va v) n S d L (dist a q)) as (S1 & N1 & S10 & E1); try assumption; try lra.
    destruct (IH qs v q (s_add x (vdist va v)) (1 + n)%nat S1 (L + dist a q)) as (S2 & N2 & S20 & E2); try assumption; try lra.
    + rewrite plus_INR. cbn [INR]. lra.
    + eapply Rle_trans; [|exact Hn]. apply le_INR. lia.
    + exists S2. split; [exact N2|]. split; [assumption|]. rewrite <- Rplus_assoc. replace (n + Datatypes.S (length qs))%nat with (1 + n + length qs)%nat by lia. exact E2.
Qed.
Lemma polyline_length32 (vs : list (vec2 A)) ps va a : Forall2 at32 vs ps -> at32 va a -> moderate a -> Forall moderate ps -> INR (length ps) <= 4194304 ->
  exists S, num (polyline_length va vs) S /\ 0 <= S /\ Rabs (S - walked a ps) <= length_error (length ps) (walked a ps).
Proof.
  intros H Ha Ma Mp Hn. destruct (walk_length32 vs ps va a (fz (A:=A) 0) 0%nat 0 0 H Ha Ma Mp) as (S & H1 & H2 & H3); try lra.
  - apply zero32.
  - rewrite length_error_eq. cbn [INR]. rewrite Rminus_0_r, Rabs_R0. lra.
  - cbn [INR]. lra.
  - exact Hn.
  - exists S. split; [exact H1|]. split; [exact H2|]. rewrite Rplus_0_l in H3. exact H3.
Qed.
End Length.
