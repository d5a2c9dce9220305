(** The end of a path in binary32: the turning point and the heuristic agree when the positions are clear. *)
From Coq Require Import List NArith ZArith Bool Lia Reals Lra Psatz.
From Coq.Floats Require Import SpecFloat.
From Flocq Require Import Core BinarySingleNaN.
From Verif Require Import Base Arith RealArith F32 Decimal32_real Spec_f32 F32_real Side32 Length32 Reach32 U32 Mesh Helpers Locate Spec Heuristic.
Import ListNotations.
Open Scope R_scope.

#[local] Existing Instance Hprec.
#[local] Existing Instance Hmax.
#[local] Existing Instance valid_exp32.

Lemma slack_nonneg a b x : / 137438953472 <= slack a b x.
Proof. unfold slack, spread. pose proof (Rabs_pos ((px b - px a) * (py x - py a))). pose proof (Rabs_pos ((py b - py a) * (px x - px a))). lra. Qed.
Lemma orient_spread a b x : Rabs (orient a b x) <= spread a b x.
Proof. unfold orient, cross, psub, spread. cbn [px py]. apply abs_minus. Qed.

Section End.
Context {sn cs ac : spec_float -> spec_float}.
Notation A := (F32with sn cs ac).
Notation B50 := 1125899906842624.

Lemma perp32 (vp vq vr vs : vec2 A) p q r s : at32 vp p -> at32 vq q -> at32 vr r -> at32 vs s ->
  moderate p -> moderate q -> moderate r -> moderate s ->
  exists c, num (perp_dot (vsub vp vq) (vsub vr vs)) c /\
    Rabs (c - cross (psub p q) (psub r s)) <= 5 / 16777216 * (Rabs ((px p - px q) * (py r - py s)) + Rabs ((py p - py q) * (px r - px s))) + 3 * tiny.
Proof.
  intros [Px Py] [Qx Qy] [Rx Ry] [Sx Sy] [Mp1 Mp2] [Mq1 Mq2] [Mr1 Mr2] [Ms1 Ms2].
  destruct (coord_sub _ _ _ _ Px Qx Mp1 Mq1) as (d1 & D1 & N1 & L1). destruct (coord_sub _ _ _ _ Py Qy Mp2 Mq2) as (d2 & D2 & N2 & L2).
  destruct (coord_sub _ _ _ _ Rx Sx Mr1 Ms1) as (d3 & D3 & N3 & L3). destruct (coord_sub _ _ _ _ Ry Sy Mr2 Ms2) as (d4 & D4 & N4 & L4).
  destruct (coord_mul _ _ _ _ _ _ N1 N4 D1 D4 L1 L4) as (d5 & e5 & D5 & E5 & N5 & L5).
  destruct (coord_mul _ _ _ _ _ _ N2 N3 D2 D3 L2 L3) as (d6 & e6 & D6 & E6 & N6 & L6).
  destruct (num_sub _ _ _ _ N5 N6) as (d & D & Nc).
  { rewrite bpow127. eapply Rle_trans; [apply abs_minus|]. lra. }
  eexists. split; [exact Nc|]. unfold cross, psub. cbn [px py]. apply cross_error; assumption.
Qed.

(** on the very ends of the edge: exactly 0 *)
Lemma side_end0 (vr v0 v1 : vec2 A) i0 i1 : at32 vr i0 -> at32 v0 i0 -> at32 v1 i1 -> moderate i0 -> moderate i1 -> side vr (v0, v1) = SEdge.
Proof.
  intros Hr H0 H1 M0 M1. destruct (side32 vr v0 v1 i0 i0 i1 Hr H0 H1 M0 M0 M1) as (_ & _ & _ & _ & _ & S). apply S.
  unfold slack, spread, orient, cross, psub. cbn [px py]. rewrite !(Rminus_diag_eq _ _ eq_refl), !Rmult_0_r, Rminus_0_r, Rabs_R0. unfold eps. lra.
Qed.
Lemma side_end1 (vr v0 v1 : vec2 A) i0 i1 : at32 vr i1 -> at32 v0 i0 -> at32 v1 i1 -> moderate i0 -> moderate i1 -> side vr (v0, v1) = SEdge.
Proof.
  intros [Rx Ry] [Zx Zy] [Ox Oy] [M01 M02] [M11 M12].
  assert (Hd : forall a b, Rabs a <= B60 -> Rabs b <= B60 -> Rabs (a - b) <= bpow radix2 61).
  { intros a b Ha Hb. change (bpow radix2 61) with (2 * B60). eapply Rle_trans; [apply abs_minus|]. lra. }
  assert (Hle : bpow radix2 61 <= bpow radix2 127) by (apply bpow_le; lia).
  pose proof (num_sub_rnd _ _ _ _ Ox Zx ltac:(eapply Rle_trans; [apply Hd; assumption|exact Hle])) as N1.
  pose proof (num_sub_rnd _ _ _ _ Oy Zy ltac:(eapply Rle_trans; [apply Hd; assumption|exact Hle])) as N2.
  pose proof (num_sub_rnd _ _ _ _ Rx Zx ltac:(eapply Rle_trans; [apply Hd; assumption|exact Hle])) as N3.
  pose proof (num_sub_rnd _ _ _ _ Ry Zy ltac:(eapply Rle_trans; [apply Hd; assumption|exact Hle])) as N4.
  set (dx := rnd (px i1 - px i0)) in *. set (dy := rnd (py i1 - py i0)) in *.
  assert (Bx : Rabs dx <= bpow radix2 61) by (apply rnd_bound; [lia|now apply Hd]).
  assert (By : Rabs dy <= bpow radix2 61) by (apply rnd_bound; [lia|now apply Hd]).
  assert (HP : Rabs (dx * dy) <= bpow radix2 122). { rewrite Rabs_mult. change 122%Z with (61 + 61)%Z. rewrite bpow_plus. apply Rmult_le_compat; auto using Rabs_pos. }
  assert (H2 : bpow radix2 122 <= bpow radix2 127) by (apply bpow_le; lia).
  pose proof (num_mul_rnd _ _ _ _ N1 N4 ltac:(lra)) as N5. pose proof (num_mul_rnd _ _ _ _ N2 N3 ltac:(rewrite Rmult_comm; lra)) as N6. rewrite (Rmult_comm dy dx) in N6.
  destruct (num_sub _ _ _ _ N5 N6) as (d & D & Nc). { rewrite (Rminus_diag_eq _ _ eq_refl), Rabs_R0. apply bpow_ge_0. }
  rewrite (Rminus_diag_eq _ _ eq_refl), Rmult_0_l in Nc.
  destruct (side_num vr v0 v1 0 Nc) as (S1 & _). apply S1. rewrite Rabs_R0. unfold eps32. lra.
Qed.

Lemma within_moderate p : within B50 p -> moderate p.
Proof. apply within_le. lra. Qed.

(** the time, from its two cross products *)
Lemma time_sign (x y : spec_float) n d : num x n -> num y d -> Rabs n <= 2 ^ 110 -> eps <= d -> d <= 2 ^ 110 ->
  exists t, num (s_div x y) t /\ (n <= - eps -> t < 0) /\ (0 <= n -> 0 <= t) /\ (n <= d -> t <= 1) /\ (d * (1 + 4 * u32) <= n -> 1 < t).
Proof.
  intros Hx Hy Bn Hd Bd. pose proof u32_small as [U0 U1].
  assert (He : 0 < eps) by (unfold eps; lra). assert (Hd0 : 0 < d) by lra.
  assert (HQ : Rabs (n / d) <= bpow radix2 127).
  { unfold Rdiv. rewrite Rabs_mult, Rabs_inv, (Rabs_pos_eq d) by lra.
    assert (/ d <= 10000). { replace 10000 with (/ eps) by (unfold eps; field). apply Rinv_le; assumption. }
    assert (0 < / d) by now apply Rinv_0_lt_compat. rewrite bpow127. pose proof (Rabs_pos n).
    assert (Rabs n * / d <= 2 ^ 110 * 10000) by (apply Rmult_le_compat; lra). lra. }
  exists (rnd (n / d)). split; [apply num_div_rnd; try assumption; lra|]. split; [|split; [|split]].
  - intro Hn. assert (Hq : n / d <= - bpow radix2 (-149)).
    { apply Rmult_le_reg_r with d; [assumption|]. unfold Rdiv. rewrite Rmult_assoc, Rinv_l, Rmult_1_r by lra.
      assert (bpow radix2 (-149) * d <= eps). { 
        apply Rle_trans with (bpow radix2 (-149) * 2 ^ 110); [apply Rmult_le_compat_l; [apply bpow_ge_0|assumption]|].
        replace (2 ^ 110) with (bpow radix2 110) by (change (bpow radix2 110) with 1298074214633706907132624082305024; lra). rewrite <- bpow_plus. change (bpow radix2 (-149 + 110)) with (/ 549755813888). unfold eps. lra. }
      lra. }
    assert (HR : rnd (n / d) <= - bpow radix2 (-149)). { apply round_le_generic; [typeclasses eauto..| |assumption]. apply generic_format_opp. apply generic_format_bpow. unfold SpecFloat.fexp, emin, prec32, emax32. cbn. lia. }
    pose proof (bpow_gt_0 radix2 (-149)). lra.
  - intro Hn. apply round_ge_generic; [typeclasses eauto..|apply generic_format_0|]. unfold Rdiv. apply Rmult_le_pos; [assumption|]. left. now apply Rinv_0_lt_compat.
  - intro Hn. apply round_le_generic; [typeclasses eauto..| |]. { change 1 with (bpow radix2 0). apply generic_format_bpow. cbn. lia. }
    apply Rmult_le_reg_r with d; [assumption|]. unfold Rdiv. rewrite Rmult_assoc, Rinv_l, Rmult_1_r, Rmult_1_l by lra. assumption.
  - intro Hn. destruct (rnd_error (n / d)) as (e & f & E1 & E2 & ->). pose proof tiny_small as [T0 T1].
    assert (HT : tiny <= u32 / 8). { rewrite u32_eq. lra. }
    apply abs_le in E1. apply abs_le in E2. assert (1 + 4 * u32 <= n / d).
    { apply Rmult_le_reg_r with d; [assumption|]. unfold Rdiv. rewrite Rmult_assoc, Rinv_l, Rmult_1_r by lra. lra. }
    set (q := n / d) in *. assert (q * (1 + e) >= (1 + 4 * u32) * (1 - u32)) by nra. nra.
Qed.

(** the cross products of small numbers are small *)
Lemma prod50 a b c d : Rabs a <= B50 -> Rabs b <= B50 -> Rabs c <= B50 -> Rabs d <= B50 -> Rabs ((a - b) * (c - d)) <= 4 * B50 * B50.
Proof.
  intros. rewrite Rabs_mult. assert (Rabs (a - b) <= 2 * B50) by (eapply Rle_trans; [apply abs_minus|lra]). assert (Rabs (c - d) <= 2 * B50) by (eapply Rle_trans; [apply abs_minus|lra]).
  pose proof (Rabs_pos (a - b)). pose proof (Rabs_pos (c - d)). replace (4 * B50 * B50) with (2 * B50 * (2 * B50)) by ring. apply Rmult_le_compat; assumption.
Qed.
Lemma abs_split a b c : Rabs (a - b) <= Rabs (a - c) + Rabs (b - c).
Proof. replace (a - b) with ((a - c) - (b - c)) by ring. apply abs_minus. Qed.

(** not mirrored: the goal behind the interval, and the root in front of it or an end of it *)
Lemma not_mirrored (vr vg v0 v1 : vec2 A) r g i0 i1 : at32 vr r -> at32 vg g -> at32 v0 i0 -> at32 v1 i1 ->
  moderate r -> moderate g -> moderate i0 -> moderate i1 ->
  r = i0 \/ r = i1 \/ eps + slack i0 i1 r <= orient i0 i1 r -> orient i0 i1 g <= - eps - slack i0 i1 g ->
  mirrored_goal vr vg (v0, v1) = vg.
Proof.
  intros Hr Hg H0 H1 Mr Mg M0 M1 C1 C2. unfold mirrored_goal.
  assert (side vg (v0, v1) = SRight) as -> by (apply (side32 vg v0 v1 g i0 i1); assumption).
  assert (side vr (v0, v1) <> SRight) as Hn.
  { destruct C1 as [E|[E|C1]].
    - subst r. rewrite (side_end0 vr v0 v1 i0 i1); try assumption. discriminate.
    - subst r. rewrite (side_end1 vr v0 v1 i0 i1); try assumption. discriminate.
    - destruct (side32 vr v0 v1 r i0 i1) as (_ & _ & _ & S & _); try assumption. rewrite (S C1). discriminate. }
  destruct (side vr (v0, v1)); try reflexivity. contradiction.
Qed.

Lemma plain_end32 (vr vg v0 v1 : vec2 A) r g i0 i1 : at32 vr r -> at32 vg g -> at32 v0 i0 -> at32 v1 i1 ->
  within B50 r -> within B50 g -> within B50 i0 -> within B50 i1 -> clear_end r i0 i1 g ->
  (turning_point vr vg (v0, v1) = None /\ heuristic vr vg (v0, v1) = vdist vr vg) \/
  (exists vt t, (vt = v0 /\ t = i0 \/ vt = v1 /\ t = i1) /\ turning_point vr vg (v0, v1) = Some vt /\ heuristic vr vg (v0, v1) = fadd (vdist vr vt) (vdist vt vg)).
Proof.
  intros Hr Hg H0 H1 Wr Wg W0 W1 (C2 & C1).
  pose proof (within_moderate _ Wr) as Mr. pose proof (within_moderate _ Wg) as Mg. pose proof (within_moderate _ W0) as M0. pose proof (within_moderate _ W1) as M1.
  unfold rounding in C1, C2. pose proof (slack_nonneg r i0 g) as L1. pose proof (slack_nonneg r i1 g) as L2. pose proof (slack_nonneg i0 i1 r) as L3. pose proof (slack_nonneg i0 i1 g) as L4.
  set (m := eps + 2 * (slack r i0 g + slack r i1 g + slack i0 i1 r + slack i0 i1 g)) in *.
  assert (NM : mirrored_goal vr vg (v0, v1) = vg).
  { apply (not_mirrored vr vg v0 v1 r g i0 i1); try assumption; [|unfold m in C2; lra]. destruct C1 as [C1|[C1|(C1 & _)]]; auto. right; right. unfold m in C1. lra. }
  unfold turning_point, heuristic. rewrite NM. cbv zeta. cbn [fst snd].
  pose proof (veq32 vr v0 r i0 Hr H0) as V0. pose proof (veq32 vr v1 r i1 Hr H1) as V1.
  destruct (veq vr v0) eqn:E0; [left; split; reflexivity|]. cbn [orb].
  assert (Nr0 : r <> i0) by (intro; subst r; destruct V0 as [_ V0]; specialize (V0 eq_refl); discriminate).
  destruct (veq vr v1) eqn:E1.
  - left. split; [|reflexivity]. assert (r = i1) by now apply V1. clear C1. subst r.
    assert (side vg (vr, v0) = SLeft) as ->.
    { destruct (side32 vg vr v0 g i1 i0 Hg Hr H0) as (_ & _ & _ & S & _); try assumption. apply S.
      replace (orient i1 i0 g) with (- orient i0 i1 g) by (unfold orient, cross, psub; cbn [px py]; ring). unfold m in C2. lra. }
    cbn [side_eqb]. assert (side vg (vr, v1) = SEdge) as ->; [|reflexivity].
    { destruct (side32 vg vr v1 g i1 i1 Hg Hr H1) as (_ & _ & _ & _ & _ & S); try assumption. apply S. 
      unfold slack, spread, orient, cross, psub. cbn [px py]. rewrite !(Rminus_diag_eq (px i1) _ eq_refl), !(Rminus_diag_eq (py i1) _ eq_refl), !Rmult_0_l, Rminus_0_r, Rabs_R0. unfold eps. lra. }
  - assert (Nr1 : r <> i1) by (intro; subst r; destruct V1 as [_ V1]; specialize (V1 eq_refl); discriminate).
    destruct C1 as [C1|[C1|(C1 & C3 & C4)]]; [contradiction..|]. clear V0 V1 Nr0 Nr1 NM.
    destruct (side32 vg vr v0 g r i0 Hg Hr H0) as (_ & _ & _ & SL0 & SR0 & _); try assumption.
    destruct (side32 vg vr v1 g r i1 Hg Hr H1) as (_ & _ & _ & SL1 & SR1 & _); try assumption.
    unfold intersection_time. cbn [fst snd].
    destruct (perp32 vr v0 vr vg r i0 r g) as (n & Nn & Hn); try assumption.
    destruct (perp32 vr vg v0 v1 r g i0 i1) as (d & Nd & Hd); try assumption.
    assert (EN : cross (psub r i0) (psub r g) = orient r i0 g) by (unfold orient, cross, psub; cbn [px py]; ring).
    assert (ED : cross (psub r g) (psub i0 i1) = orient i0 i1 r - orient i0 i1 g) by (unfold orient, cross, psub; cbn [px py]; ring).
    assert (EE : orient i0 i1 r - orient i0 i1 g = orient r i0 g - orient r i1 g) by (unfold orient, cross, psub; cbn [px py]; ring).
    rewrite EN in Hn. rewrite ED in Hd. pose proof tiny_small as [T0 T1]. pose proof u32_small as [U0 U1].
    assert (SN : Rabs ((px r - px i0) * (py r - py g)) + Rabs ((py r - py i0) * (px r - px g)) = spread r i0 g).
    { unfold spread. f_equal; rewrite <- Rabs_Ropp, !Rabs_mult.
      - rewrite Rabs_Ropp, Rabs_mult. now rewrite (Rabs_minus_sym (px i0)), (Rabs_minus_sym (py g)).
      - rewrite Rabs_Ropp, Rabs_mult. now rewrite (Rabs_minus_sym (py i0)), (Rabs_minus_sym (px g)). }
    assert (SD : Rabs ((px r - px g) * (py i0 - py i1)) + Rabs ((py r - py g) * (px i0 - px i1)) <= spread i0 i1 r + spread i0 i1 g).
    { unfold spread. rewrite !Rabs_mult. rewrite (Rabs_minus_sym (py i0)), (Rabs_minus_sym (px i0) (px i1)).
      pose proof (abs_split (px r) (px g) (px i0)). pose proof (abs_split (py r) (py g) (py i0)). pose proof (Rabs_pos (py i1 - py i0)). pose proof (Rabs_pos (px i1 - px i0)). nra. }
    rewrite SN in Hn. assert (BN : spread r i0 g <= 8 * B50 * B50).
    { rewrite <- SN. destruct Wr as [W1' W2], W0 as [W3 W4], Wg as [W5 W6]. pose proof (prod50 (px r) (px i0) (py r) (py g) W1' W3 W2 W6). pose proof (prod50 (py r) (py i0) (px r) (px g) W2 W4 W1' W5). lra. }
    assert (BD : Rabs ((px r - px g) * (py i0 - py i1)) + Rabs ((py r - py g) * (px i0 - px i1)) <= 8 * B50 * B50).
    { destruct Wr as [W1' W2], W0 as [W3 W4], Wg as [W5 W6], W1 as [W7 W8]. pose proof (prod50 (px r) (px g) (py i0) (py i1) W1' W5 W4 W8). pose proof (prod50 (py r) (py g) (px i0) (px i1) W2 W6 W3 W7). lra. }
    assert (OD : Rabs (orient i0 i1 r - orient i0 i1 g) <= 8 * B50 * B50). { rewrite <- ED. unfold cross, psub. cbn [px py]. eapply Rle_trans; [apply abs_minus|]. assumption. }
    pose proof (orient_spread r i0 g) as ON.
    set (sd := Rabs ((px r - px g) * (py i0 - py i1)) + Rabs ((py r - py g) * (px i0 - px i1))) in *. clearbody sd.
    assert (OD2 : Rabs (orient i0 i1 r - orient i0 i1 g) <= spread i0 i1 r + spread i0 i1 g).
    { eapply Rle_trans; [apply abs_minus|]. pose proof (orient_spread i0 i1 r). pose proof (orient_spread i0 i1 g). lra. }
    unfold slack in *. set (s1 := spread r i0 g) in *. set (s2 := spread r i1 g) in *. set (s3 := spread i0 i1 r) in *. set (s4 := spread i0 i1 g) in *.
    set (o0 := orient r i0 g) in *. set (o1 := orient r i1 g) in *. set (or := orient i0 i1 r) in *. set (og := orient i0 i1 g) in *.
    clearbody s1 s2 s3 s4 o0 o1 or og. apply abs_le in Hn, Hd, ON, OD, OD2.
    assert (He : 0 < eps) by (unfold eps; lra). assert (HD : eps <= d) by (unfold m in *; lra).
    destruct (time_sign _ _ n d Nn Nd) as (t & Nt & T1' & T2 & T3 & T4); [apply abs_le; lra|exact HD|lra|].
    pose proof (num_lt _ _ _ _ Nt (@zero32 sn cs ac)) as Q0. pose proof (num_lt _ _ _ _ (@one32 sn cs ac) Nt) as Q1. unfold fgt. cbn [flt fdiv F32with] in *.
    cbn [F F32with] in *.
    revert Q0 Q1. generalize (s_div (perp_dot (vsub vr v0) (vsub vr vg)) (perp_dot (vsub vr vg) (vsub v0 v1))). clear Nt. intros w Q0 Q1.
    destruct (Rle_lt_dec o0 0) as [K0|K0].
    + assert (J0 : o0 <= - m) by (rewrite Rabs_left1 in C3; lra). right. exists v0, i0. split; [now left|].
      rewrite SR0 by (unfold m in J0; lra). cbn [side_eqb]. split; [reflexivity|].
      assert (Ht : t < 0) by (apply T1'; unfold m in J0; lra). destruct (SFltb w _); [reflexivity|]. apply Q0 in Ht. discriminate.
    + assert (J0 : m <= o0) by (rewrite Rabs_pos_eq in C3; lra). rewrite SL0 by (unfold m in J0; lra). cbn [side_eqb].
      assert (Ht : 0 <= t) by (apply T2; unfold m in J0; lra). destruct (SFltb w (fz (A:=A) 0)) eqn:F0; [exfalso; destruct Q0 as [Q0 _]; specialize (Q0 eq_refl); lra|].
      destruct (Rle_lt_dec o1 0) as [K1|K1].
      * assert (J1 : o1 <= - m) by (rewrite Rabs_left1 in C4; lra). rewrite SR1 by (unfold m in J1; lra). cbn [side_eqb]. left. split; [reflexivity|].
        assert (Ht1 : t <= 1) by (apply T3; unfold m in *; lra). destruct (SFltb (fz (A:=A) 1) w) eqn:F1; [|reflexivity]. destruct Q1 as [Q1 _]. specialize (Q1 eq_refl). lra.
      * assert (J1 : m <= o1) by (rewrite Rabs_pos_eq in C4; lra). rewrite SL1 by (unfold m in J1; lra). cbn [side_eqb]. right. exists v1, i1. split; [now right|]. split; [reflexivity|].
        assert (Ht1 : 1 < t).
        { apply T4. rewrite u32_eq. unfold m in *. lra. }
        destruct (SFltb (fz (A:=A) 1) w) eqn:F1; [reflexivity|]. apply Q1 in Ht1. discriminate.
Qed.
End End.
