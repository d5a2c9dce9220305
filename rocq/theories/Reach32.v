(** All that the search handles in binary32 is finite: roots, intervals and turns. *)
From Coq Require Import List NArith ZArith Bool Lia Reals Lra Psatz.
From Coq.Floats Require Import SpecFloat.
From Flocq Require Import Core BinarySingleNaN.
From Verif Require Import Base Arith RealArith F32 Decimal32_real Spec_f32 F32_real Side32 Length32 U32 Mesh Helpers Locate Bake Search StdLib Spec
  Search_facts Search_props Search_cost F32_facts.
Import ListNotations.
Open Scope R_scope.

#[local] Existing Instance Hprec.
#[local] Existing Instance Hmax.

(** the quotient of any two numbers is a binary32 number *)
Lemma s_div_valid x y : valid_binary prec32 emax32 (s_div x y) = true.
Proof.
  unfold s_div. destruct x as [sx|sx| |sx mx ex], y as [sy|sy| |sy my ey]; try reflexivity.
  pose proof (Bdiv_correct_aux prec32 emax32 Hprec Hmax mode_NE sx mx ex sy my ey) as C. cbv zeta in C.
  unfold SFdiv. destruct (SFdiv_core_binary prec32 emax32 (Z.pos mx) ex (Z.pos my) ey) as [[mz ez] lz]. rewrite binary_round_aux_NE. exact (proj1 C).
Qed.

Section Reach.
Context {sn cs ac : spec_float -> spec_float}.
Notation A := (F32with sn cs ac).

Lemma num_of x : valid_binary prec32 emax32 x = true -> is_finite_SF x = true -> num x (SF2R radix2 x).
Proof. intros. split; [assumption|]. split; [assumption|reflexivity]. Qed.

Notation EPS32' := (@EPS32 sn cs ac).
Lemma one32 : num (fz (A:=A) 1) 1.
Proof.
  unfold fz. cbn [flit F32with]. assert (E : s_lit 1 1 = S754_finite false 8388608 (-23)) by (vm_compute; reflexivity). rewrite E.
  split; [reflexivity|]. split; [reflexivity|]. unfold SF2R, F2R. cbn [Fnum Fexp cond_Zopp]. change (bpow radix2 (-23)) with (/ 8388608). lra.
Qed.
Lemma upper32 : exists h, num (fadd (fz (A:=A) 1) EPS) h /\ h <= 11 / 10.
Proof.
  destruct (num_add _ _ _ _ one32 EPS32') as (d & Hd & HN); [rewrite bpow127; unfold eps32; rewrite Rabs_pos_eq; lra|].
  exists ((1 + eps32) * (1 + d)). split; [exact HN|]. apply abs_le in Hd. pose proof u32_small. unfold eps32. nra.
Qed.

(** the time of a cut is a finite number between -1 and 11/10 *)
Lemma time32 (t : spec_float) : valid_binary prec32 emax32 t = true ->
  negb (in_range (A:=A) (fneg EPS) (fadd (fz 1) EPS) t) || s_isnan t = false -> exists r, num t r /\ -1 <= r <= 11 / 10.
Proof.
  intros V H. apply orb_false_iff in H. destruct H as [H N]. apply negb_false_iff in H. unfold in_range in H. apply andb_prop in H. destruct H as [H1 H2].
  destruct upper32 as (h & Nh & Hh). pose proof (num_opp _ _ EPS32') as Nl. cbn [fneg fle F32with] in H1, H2.
  assert (F : is_finite_SF t = true).
  { destruct t as [s|s| |s m e]; try reflexivity; try discriminate.
    - exfalso. destruct s.
      + assert (E : SFopp (EPS (A:=A)) = S754_finite true 13743895 (-37)). { unfold EPS. cbn [flit F32with]. vm_compute. reflexivity. }
        rewrite E in H1. discriminate.
      + destruct Nh as (_ & Fh & _). revert Fh H2. generalize (@fadd A (fz 1) EPS). intros w Fh H2. cbn [F F32with] in w. destruct w as [w|w| |w m e]; try discriminate; destruct w; discriminate. }
  exists (SF2R radix2 t). pose proof (num_of t V F) as Nt. split; [exact Nt|].
  apply (num_le _ _ _ _ Nl Nt) in H1. apply (num_le _ _ _ _ Nt Nh) in H2. unfold eps32 in H1. lra.
Qed.

Lemma cut_coord (t x y : spec_float) r a b M : num t r -> -1 <= r <= 11 / 10 -> num x a -> num y b -> 1 <= M <= B60 / 4 -> Rabs a <= M -> Rabs b <= M ->
  exists z, num (s_add x (s_mul t (s_sub y x))) z /\ Rabs z <= 4 * M.
Proof.
  intros Ht Hr Hx Hy HM Ha Hb. pose proof u32_small as [U0 U1]. pose proof tiny_small as [T0 T1].
  destruct (num_sub _ _ _ _ Hy Hx) as (d & Hd & Nd). { rewrite bpow127. eapply Rle_trans; [apply abs_minus|]. lra. }
  assert (Bd : Rabs ((b - a) * (1 + d)) <= 2001 / 1000 * M).
  { rewrite Rabs_mult. assert (Rabs (b - a) <= 2 * M) by (eapply Rle_trans; [apply abs_minus|]; lra).
    assert (Rabs (1 + d) <= 10001 / 10000). { eapply Rle_trans; [apply Rabs_triang|]. rewrite Rabs_R1. lra. }
    pose proof (Rabs_pos (b - a)). pose proof (Rabs_pos (1 + d)). nra. }
  set (D := (b - a) * (1 + d)) in *. clearbody D.
  assert (Bp : Rabs (r * D) <= 222 / 100 * M).
  { rewrite Rabs_mult. assert (Rabs r <= 11 / 10) by (apply abs_le; lra). pose proof (Rabs_pos r). pose proof (Rabs_pos D). nra. }
  destruct (num_mul _ _ _ _ Ht Nd) as (e & f & He & Hf & Np). { rewrite bpow127. lra. }
  assert (Bq : Rabs (r * D * (1 + e) + f) <= 223 / 100 * M).
  { eapply Rle_trans; [apply Rabs_triang|]. rewrite Rabs_mult. assert (Rabs (1 + e) <= 1000001 / 1000000). { eapply Rle_trans; [apply Rabs_triang|]. rewrite Rabs_R1. lra. }
    pose proof (Rabs_pos (r * D)). pose proof (Rabs_pos (1 + e)). nra. }
  set (Q := r * D * (1 + e) + f) in *. clearbody Q.
  destruct (num_add _ _ _ _ Hx Np) as (g & Hg & Ns). { rewrite bpow127. eapply Rle_trans; [apply Rabs_triang|]. lra. }
  exists ((a + Q) * (1 + g)). split; [exact Ns|]. rewrite Rabs_mult.
  assert (Rabs (a + Q) <= 323 / 100 * M) by (eapply Rle_trans; [apply Rabs_triang|]; lra).
  assert (Rabs (1 + g) <= 11 / 10). { eapply Rle_trans; [apply Rabs_triang|]. rewrite Rabs_R1. lra. }
  pose proof (Rabs_pos (a + Q)). pose proof (Rabs_pos (1 + g)). nra.
Qed.
Lemma cut32 (line : vec2 A * vec2 A) sp ep x s e M : line_intersect_segment line (sp, ep) = Some x ->
  at32 sp s -> at32 ep e -> 1 <= M <= B60 / 4 -> within M s -> within M e -> exists q, at32 x q /\ within (4 * M) q.
Proof.
  unfold line_intersect_segment. intros H [S1 S2] [E1 E2] HM [B1 B2] [B3 B4].
  set (t := intersection_time line (sp, ep)) in *. 
  assert (V : valid_binary prec32 emax32 t = true) by apply s_div_valid.
  cbn [fnan F32with] in H. destruct (negb _ || s_isnan t) eqn:Et; [discriminate|]. destruct (time32 t V Et) as (r & Nr & Hr).
  cbn [fst snd] in H. injection H as <-.
  destruct (cut_coord t _ _ r _ _ M Nr Hr S1 E1 HM B1 B3) as (z1 & N1 & Z1). destruct (cut_coord t _ _ r _ _ M Nr Hr S2 E2 HM B2 B4) as (z2 & N2 & Z2).
  exists (P z1 z2). split; split; assumption.
Qed.

Lemma within_le r r' q : r <= r' -> within r q -> within r' q.
Proof. intros H [H1 H2]. split; lra. Qed.

Lemma edge_point32 (sp ep x : vec2 A) s e : edge_point sp ep x -> at32 sp s -> at32 ep e -> within 70368744177664 s -> within 70368744177664 e ->
  exists q, at32 x q /\ within 1125899906842624 q.
Proof.
  intros H Hs He Ws We. destruct H as [| |ln x H|ln ln2 x y H H'].
  - exists s. split; [assumption|]. eapply within_le; [|exact Ws]. lra.
  - exists e. split; [assumption|]. eapply within_le; [|exact We]. lra.
  - destruct (cut32 ln sp ep x s e 70368744177664 H) as (q & Hq & Wq); try assumption; [lra|]. exists q. split; [assumption|]. eapply within_le; [|exact Wq]. lra.
  - destruct (cut32 ln sp ep x s e 70368744177664 H) as (q & Hq & Wq); try assumption; [lra|].
    destruct (cut32 ln2 x ep y q e (4 * 70368744177664) H') as (q' & Hq' & Wq'); try assumption; [lra|eapply within_le; [|exact We]; lra|].
    exists q'. split; [assumption|]. eapply within_le; [|exact Wq']. lra.
Qed.
Lemma crossing_point32 (m : Mesh A) x pt : mesh32 m -> crossing_point m x pt -> exists q, at32 pt q /\ within 1125899906842624 q.
Proof.
  intros Hm (l & p & va & vb & [HL _] & Ha & Hb & He).
  apply nthN_In in HL, Ha, Hb. destruct (Hm l va HL Ha) as (qa & Qa & Wa). destruct (Hm l vb HL Hb) as (qb & Qb & Wb).
  exact (edge_point32 _ _ pt qa qb He Qa Qb Wa Wb).
Qed.

Lemma veq32 (u v : vec2 A) a b : at32 u a -> at32 v b -> veq u v = true <-> a = b.
Proof.
  intros [U1 U2] [V1 V2]. unfold veq. destruct a as [ax ay], b as [bx by_]. cbn [px py] in *. rewrite andb_true_iff.
  change (@feq A (vx u) (vx v)) with (SFeqb (vx u) (vx v)). change (@feq A (vy u) (vy v)) with (SFeqb (vy u) (vy v)).
  rewrite (num_eq _ _ _ _ U1 V1), (num_eq _ _ _ _ U2 V2). split; [intros [-> ->]; reflexivity|intro H; injection H as -> ->; auto].
Qed.

(** The root, the interval and the turns of a node. *)
Definition node32 (a : P2) (n : Node A) (turns : list P2) (i0 i1 : P2) : Prop :=
  Forall2 at32 (npath n) turns /\ at32 (nroot n) (last turns a) /\ at32 (fst (ninterval n)) i0 /\ at32 (snd (ninterval n)) i1 /\
  Forall (within 1125899906842624) turns /\ within 1125899906842624 i0 /\ within 1125899906842624 i1.

Lemma reachable32 (c : Ctx A) (start : vec2 A) ps n a : mesh32 (cmesh c) -> cpto c <> MAX -> at32 start a -> reachable c start ps n ->
  exists turns i0 i1, node32 a n turns i0 i1.
Proof.
  intros Hm Hp Ha Hr.
  assert (HI : forall n, reachable c start ps n -> exists i0 i1, at32 (fst (ninterval n)) i0 /\ at32 (snd (ninterval n)) i1 /\ within 1125899906842624 i0 /\ within 1125899906842624 i1).
  { intros n1 H1. destruct (reachable_supported c start ps n1 (F32_nan_sane _ _ _) Hp H1) as [_ _ S0 S1].
    destruct (crossing_point32 _ _ _ Hm S0) as (i0 & I0 & W0). destruct (crossing_point32 _ _ _ Hm S1) as (i1 & I1 & W1). eauto 10. }
  destruct Hr as [h Hh]. remember (n :: h) as hh eqn:E. revert n h E.
  induction Hh as [n0 H0|n0 n1 h0 Hr IH Hg]; intros n h E; inversion E; subst.
  - assert (HR : reachable c start ps n) by (exists []; now constructor). destruct (HI n HR) as (i0 & i1 & I0 & I1 & W0 & W1).
    exists [], i0, i1. destruct H0 as (l & p & va & vb & sv & ev & _ & _ & _ & _ & _ & _ & -> & _). unfold node32. cbn [npath new_node nroot empty_node] in *.
    rewrite (proj2 (veq32 start start a a Ha Ha) eq_refl). cbn [negb last]. auto 10.
  - assert (HR : reachable c start ps n) by (exists (n0 :: h0); econstructor; eauto). destruct (HI n HR) as (i0 & i1 & I0 & I1 & W0 & W1).
    destruct (IH n0 h0 eq_refl) as (turns & j0 & j1 & T & R0 & J0 & J1 & Wt & V0 & V1).
    destruct Hg as (s & root & l & ss & sv & ev & _ & _ & _ & _ & _ & _ & _ & _ & _ & HC & _ & -> & _).
    assert (exists r, at32 root r /\ (r = last turns a \/ within 1125899906842624 r)) as (r & Hroot & Wr).
    { unfold root_choice in HC. destruct (sty s).
      - destruct HC as (_ & _ & ->). eauto.
      - subst. eauto.
      - destruct HC as (_ & _ & ->). eauto. }
    unfold node32. cbn [npath new_node nroot] in *. pose proof (veq32 root (nroot n0) r _ Hroot R0) as HV.
    destruct (veq root (nroot n0)); cbn [negb].
    + exists turns, i0, i1. assert (r = last turns a) as <- by now apply HV. auto 10.
    + exists (turns ++ [r]), i0, i1. destruct Wr as [Wr|Wr]; [apply HV in Wr; discriminate|]. rewrite last_last.
      split; [apply Forall2_app; auto|]. repeat (split; [assumption|]). split; [apply Forall_app; auto|auto].
Qed.
End Reach.
