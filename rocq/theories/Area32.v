(** Areas in binary32: the shoelace sum of moderate coordinates never overflows, however many vertices there are. *)
From Coq Require Import List NArith ZArith Bool Lia Reals Lra Psatz.
From Coq.Floats Require Import SpecFloat.
From Flocq Require Import Core BinarySingleNaN.
From Verif Require Import Base Arith RealArith F32 Decimal32_real Spec_f32 F32_real Side32 Mesh Helpers Tests_merge.
Import ListNotations.
Open Scope R_scope.

#[local] Existing Instance Hprec.
#[local] Existing Instance Hmax.
#[local] Existing Instance valid_exp32.
Notation B40 := 1099511627776.
Notation rnd := (round radix2 fexp32 ZnearestE).

(** rounding a sum of a bounded value and a small one stays in the bound *)
Lemma rnd_saturates x : x <= bpow radix2 120 + bpow radix2 90 -> rnd x <= bpow radix2 120.
Proof.
  intro H. assert (Hf : generic_format radix2 fexp32 (bpow radix2 120)) by (apply generic_format_bpow; rewrite fexp32_eq; lia).
  apply round_N_le_midp; [exact valid_exp32|exact Hf|]. rewrite succ_eq_pos by apply bpow_ge_0. rewrite ulp_bpow. rewrite fexp32_eq.
  change (Z.max (120 + 1 - 24) (-149)) with 97%Z. eapply Rle_lt_trans; [exact H|].
  assert (bpow radix2 90 < bpow radix2 97 / 2); [|lra]. change (bpow radix2 97) with (bpow radix2 (96 + 1)). rewrite bpow_plus.
  change (bpow radix2 1) with 2. assert (bpow radix2 90 < bpow radix2 96) by (apply bpow_lt; lia). lra.
Qed.
Lemma rnd_bounded x : Rabs x <= bpow radix2 120 + bpow radix2 90 -> Rabs (rnd x) <= bpow radix2 120.
Proof.
  intro H. apply Rabs_le. assert (x <= bpow radix2 120 + bpow radix2 90 /\ - x <= bpow radix2 120 + bpow radix2 90) as [H1 H2].
  { split; (eapply Rle_trans; [|exact H]); [apply Rle_abs|]. rewrite <- Rabs_Ropp. apply Rle_abs. }
  split; [|now apply rnd_saturates]. apply rnd_saturates in H2. rewrite round_NE_opp in H2. lra.
Qed.
(** rounding stays below a power of two *)
Lemma rnd_pow x k : (-149 <= k)%Z -> Rabs x <= bpow radix2 k -> Rabs (rnd x) <= bpow radix2 k.
Proof.
  intros Hk H. apply abs_round_le_generic; [exact valid_exp32|typeclasses eauto| |exact H]. apply generic_format_bpow. rewrite fexp32_eq. lia.
Qed.

Section Area.
Context {sn cs ac : spec_float -> spec_float}.
Notation A := (F32with sn cs ac).
Definition small32 (v : vec2 A) : Prop := exists p, at32 v p /\ within B40 p.

Lemma bounded_sub x y a b k : num x a -> num y b -> Rabs a <= bpow radix2 k -> Rabs b <= bpow radix2 k -> (-149 <= k < 126)%Z ->
  exists c, num (s_sub x y) c /\ Rabs c <= bpow radix2 (k + 1).
Proof.
  intros Hx Hy Ha Hb Hk. assert (Rabs (a - b) <= bpow radix2 (k + 1)).
  { rewrite bpow_plus. change (bpow radix2 1) with 2. eapply Rle_trans; [apply Rabs_triang|]. rewrite Rabs_Ropp. lra. }
  exists (rnd (a - b)). split; [|apply rnd_pow; [lia|assumption]]. apply num_sub_rnd; try assumption. eapply Rle_trans; [eassumption|]. apply bpow_le. lia.
Qed.
Lemma bounded_mul x y a b k : num x a -> num y b -> Rabs a <= bpow radix2 k -> Rabs b <= bpow radix2 k -> (0 <= k <= 60)%Z ->
  exists c, num (s_mul x y) c /\ Rabs c <= bpow radix2 (k + k).
Proof.
  intros Hx Hy Ha Hb Hk. assert (Rabs (a * b) <= bpow radix2 (k + k)) by (rewrite bpow_plus; now apply prod_bound).
  exists (rnd (a * b)). split; [|apply rnd_pow; [lia|assumption]]. apply num_mul_rnd; try assumption. eapply Rle_trans; [eassumption|]. apply bpow_le. lia.
Qed.
Lemma perp_small (u v w : vec2 A) : small32 u -> small32 v -> small32 w -> exists c, num (perp_dot (A:=A) (vsub u w) (vsub v w)) c /\ Rabs c <= bpow radix2 83.
Proof.
  intros (p & [P1 P2] & [P3 P4]) (q & [Q1 Q2] & [Q3 Q4]) (r & [R1 R2] & [R3 R4]).
  change B40 with (bpow radix2 40) in *.
  destruct (bounded_sub _ _ _ _ 40 P1 R1 P3 R3 ltac:(lia)) as (a & A1 & A2). destruct (bounded_sub _ _ _ _ 40 P2 R2 P4 R4 ltac:(lia)) as (b & B1 & B2).
  destruct (bounded_sub _ _ _ _ 40 Q1 R1 Q3 R3 ltac:(lia)) as (c & C1 & C2). destruct (bounded_sub _ _ _ _ 40 Q2 R2 Q4 R4 ltac:(lia)) as (d & D1 & D2).
  destruct (bounded_mul _ _ _ _ 41 A1 D1 A2 D2 ltac:(lia)) as (e & E1 & E2). destruct (bounded_mul _ _ _ _ 41 B1 C1 B2 C2 ltac:(lia)) as (f & F1 & F2).
  destruct (bounded_sub _ _ _ _ 82 E1 F1 E2 F2 ltac:(lia)) as (g & G1 & G2). exists g. split; [exact G1|exact G2].
Qed.

Lemma shoelace_small (o : vec2 A) l : small32 o -> Forall small32 l -> exists c, num (shoelace (A:=A) o l) c /\ Rabs c <= bpow radix2 120.
Proof.
  intros Ho H. assert (Z : exists c, num (fz (A:=A) 0) c /\ Rabs c <= bpow radix2 120).
  { exists 0. split; [apply num_zero|]. rewrite Rabs_R0. apply bpow_ge_0. }
  induction H as [|a l Ha H IH]; [exact Z|]. destruct H as [|b l Hb H]; [exact Z|].
  change (shoelace o (a :: b :: l)) with (s_add (perp_dot (A:=A) (vsub a o) (vsub b o)) (shoelace (A:=A) o (b :: l))).
  destruct (perp_small a b o Ha Hb Ho) as (d & D1 & D2). destruct IH as (s & S1 & S2).
  assert (Hs : Rabs (d + s) <= bpow radix2 120 + bpow radix2 90).
  { eapply Rle_trans; [apply Rabs_triang|]. assert (bpow radix2 83 <= bpow radix2 90) by (apply bpow_le; lia). lra. }
  exists (rnd (d + s)). split; [|now apply rnd_bounded]. apply num_add_rnd; [assumption|assumption|]. eapply Rle_trans; [exact Hs|].
  apply Rle_trans with (bpow radix2 120 * 2).
  - assert (bpow radix2 90 <= bpow radix2 120) by (apply bpow_le; lia). lra.
  - change 2 with (bpow radix2 1). rewrite <- bpow_plus. apply bpow_le. lia.
Qed.

Theorem area_is_a_number ps : Forall small32 ps -> fnan (std_area (A:=A) ps) = false.
Proof.
  intro H. destruct H as [|o l Ho H]; [reflexivity|]. unfold std_area.
  destruct (shoelace_small o (o :: l) Ho (Forall_cons _ Ho H)) as (s & S1 & S2).
  assert (N2 : num (fz (A:=A) 2) 2). { split; [reflexivity|]. split; [reflexivity|]. unfold SF2R, F2R. cbn -[bpow]. change (bpow radix2 (-22)) with (/ 4194304). lra. }
  assert (HB : Rabs (s / 2) <= bpow radix2 127).
  { unfold Rdiv. rewrite Rabs_mult. rewrite (Rabs_pos_eq (/ 2)) by lra. assert (bpow radix2 120 <= bpow radix2 127) by (apply bpow_le; lia). pose proof (Rabs_pos s). lra. }
  assert (H2 : 2 <> 0) by lra. exact (num_not_nan _ _ (num_abs _ _ (num_div_rnd _ _ _ _ S1 N2 H2 HB))).
Qed.
End Area.
