(** C62: general position of the start and the corners keeps every node of the search outside of the tolerances. *)
From Coq Require Import List NArith ZArith Bool Reals Lra Psatz Lia.
From Verif Require Import Base Arith U32 Mesh Helpers Locate Search AsyncPath StdLib Spec Locate_facts Search_facts Search_props Rings
  RealArith Geometry Heuristic F32_facts Properties_geometry Properties_expand Spec_inside Sight Sight_search Sight_final.
Import ListNotations.
Open Scope R_scope.

(** ** Distances *)
Lemma cross_bound a b : Rabs (cross a b) <= plen a * plen b.
Proof.
  set (c := P (- py b) (px b)).
  assert (E : cross a b = - pdot a c) by (unfold cross, pdot, c; cbn; ring).
  assert (E2 : plen c = plen b) by (unfold plen, pdot, c; cbn; f_equal; ring).
  pose proof (Cauchy a c) as H1. pose proof (Cauchy (pscale (-1) a) c) as H2.
  rewrite plen_scale in H2. replace (Rabs (-1)) with 1 in H2 by (rewrite Rabs_left; lra).
  replace (pdot (pscale (-1) a) c) with (- pdot a c) in H2 by (pts; ring).
  rewrite E2 in *. rewrite E. apply Rabs_le. lra.
Qed.
Lemma orient_gap a b x y : Rabs (orient a b x - orient a b y) <= dist a b * dist x y.
Proof.
  replace (orient a b x - orient a b y) with (cross (psub b a) (psub x y)) by (pts; ring).
  eapply Rle_trans; [apply cross_bound|]. unfold dist. right. f_equal. change (dist b a = dist a b). apply dist_sym.
Qed.
Lemma dist_lerp a b k : dist a (lerp a b k) = Rabs k * dist a b.
Proof.
  unfold dist. replace (psub a (lerp a b k)) with (pscale k (psub a b)) by (unfold lerp; pts; apply P2_eq; cbn [px py]; ring). apply plen_scale.
Qed.
Lemma dist_lerp2 a b s t : dist (lerp a b s) (lerp a b t) = Rabs (t - s) * dist a b.
Proof.
  unfold dist. replace (psub (lerp a b s) (lerp a b t)) with (pscale (t - s) (psub a b)) by (unfold lerp; pts; apply P2_eq; cbn [px py]; ring). apply plen_scale.
Qed.
Lemma dist_pos a b : a <> b -> 0 < dist a b.
Proof. intro H. pose proof (dist_nonneg a b). destruct (Req_EM_T (dist a b) 0) as [E|E]; [apply dist_zero in E; contradiction|lra]. Qed.
Lemma off_gap s e r q : s <> e -> off_line s e r -> orient s e r <> 0 -> orient s e q = 0 -> 1 / 100 <= dist r q.
Proof.
  intros H [H1|H1] H2 H3; [contradiction|]. pose proof (orient_gap s e r q) as G. rewrite H3, Rminus_0_r in G. pose proof (dist_pos s e H).
  apply Rmult_le_reg_l with (dist s e); [assumption|]. lra.
Qed.
Lemma on_scale r w i x : w <> r -> orient r w i = 0 -> exists k, i = lerp r w k /\ orient r i x = k * orient r w x.
Proof.
  intros H H0. destruct (on_line r w i) as [k Ek]; [congruence|assumption|]. exists k. split; [exact Ek|]. rewrite Ek. rewrite orient_lerp2.
  replace (orient r r x) with 0 by (pts; ring). ring.
Qed.
(** Two different zeros of a line on an edge: the whole edge is on it. *)
Lemma two_zeros r i s e k t : orient r i (lerp s e k) = 0 -> orient r i (lerp s e t) = 0 -> lerp s e k <> lerp s e t -> orient r i s = 0 /\ orient r i e = 0.
Proof.
  intros H1 H2 Hne. assert (k <> t) by congruence. rewrite orient_lerp3 in H1, H2. set (x := orient r i s) in *. set (y := orient r i e) in *.
  assert ((k - t) * (y - x) = 0) by lra. assert (y = x) by (apply Rmult_integral in H0; destruct H0; lra). split; nra.
Qed.

Lemma orient_same r x : orient r r x = 0. Proof. pts. ring. Qed.

Section Static.
Context (m : Mesh RA) (start : P2) (HM : plane_mesh m) (HS : steady m start).

Definition view (r i : P2) : Prop := i = r \/ (1 / 100 <= dist r i /\ exists w, place m start w /\ w <> r /\ orient r w i = 0).
Definition at_end (a b i : P2) : Prop := i = a \/ i = b \/ (1 / 1000 < dist i a /\ 1 / 1000 < dist i b).

Lemma view_off r i x : place m start r -> view r i -> (forall u w, place m start u -> place m start w -> u <> w -> off_line u w x) -> orient r i x = 0 \/ eps <= Rabs (orient r i x).
Proof using.
  intros Hr [->|(Hd & w & Hw & Hne & Hl)] Hx; [left; apply orient_same|].
  destruct (on_scale r w i x Hne Hl) as (k & Ek & E). rewrite E. rewrite Ek, dist_lerp in Hd.
  destruct (Hx r w Hr Hw ltac:(congruence)) as [H|H]; [left; rewrite H; ring|right].
  rewrite Rabs_mult. unfold eps. pose proof (Rabs_pos k). set (ak := Rabs k) in *. set (d := dist r w) in *. set (o := Rabs (orient r w x)) in *.
  assert (ak * (d / 100) <= ak * o) by (apply Rmult_le_compat_l; lra). lra.
Qed.
Lemma view_off_dist r i x : place m start r -> view r i -> place m start x -> orient r i x = 0 \/ dist r i / 100 <= Rabs (orient r i x).
Proof using HS.
  intros Hr [->|(Hd & w & Hw & Hne & Hl)] Hx; [left; apply orient_same|].
  destruct (on_scale r w i x Hne Hl) as (k & Ek & E). rewrite E. rewrite Ek, dist_lerp.
  destruct (st_off _ _ HS r w x Hr Hw Hx ltac:(congruence)) as [H|H]; [left; rewrite H; ring|right].
  rewrite Rabs_mult. pose proof (Rabs_pos k). set (ak := Rabs k) in *. set (d := dist r w) in *. set (o := Rabs (orient r w x)) in *.
  assert (ak * (d / 100) <= ak * o) by (apply Rmult_le_compat_l; lra). lra.
Qed.
Lemma view_sharp r i id qs s e : place m start r -> view r i -> corners m id qs -> In (s, e) (poly_edges qs) -> In s qs -> In e qs -> sharp r i s e.
Proof using HS.
  intros Hr Hv Hqs He Hs1 He1. assert (Ps : place m start s) by (right; eauto). assert (Pe : place m start e) by (right; eauto).
  assert (Off : forall x, place m start x -> forall u w, place m start u -> place m start w -> u <> w -> off_line u w x)
    by (intros; now apply (st_off _ _ HS)).
  split; [exact (view_off r i s Hr Hv (Off s Ps))|]. split; [exact (view_off r i e Hr Hv (Off e Pe))|].
  intros Hne t Ht Hz.
  assert (Hri : r <> i). { intros <-. apply Hne. now rewrite !orient_same. }
  pose proof (dist_pos r i Hri) as Dp.
  pose proof (st_edges _ _ HS id qs s e Hqs He) as Dl.
  destruct (view_off_dist r i s Hr Hv Ps) as [Zs|Zs].
  { left. rewrite orient_lerp3, Zs in Hz. assert (t * orient r i e = 0) by lra. apply Rmult_integral in H. destruct H; [assumption|congruence]. }
  destruct (view_off_dist r i e Hr Hv Pe) as [Ze|Ze].
  { right. left. rewrite orient_lerp3, Ze in Hz. assert ((1 - t) * orient r i s = 0) by lra. apply Rmult_integral in H. destruct H; [lra|congruence]. }
  assert (Gs : 1 / 100 <= dist (lerp s e t) s).
  { pose proof (orient_gap r i s (lerp s e t)) as G. rewrite Hz, Rminus_0_r in G. rewrite dist_sym. apply Rmult_le_reg_l with (dist r i); lra. }
  assert (Ge : 1 / 100 <= dist (lerp s e t) e).
  { pose proof (orient_gap r i e (lerp s e t)) as G. rewrite Hz, Rminus_0_r in G. rewrite dist_sym. apply Rmult_le_reg_l with (dist r i); lra. }
  assert (Dlen : 0 < dist s e). { apply dist_pos. intros <-. apply Hne. reflexivity. }
  right. right. unfold eps in Ht. split; [|lra]. rewrite dist_sym, dist_lerp in Gs.
  rewrite lerp_swap, (dist_sym _ e), dist_lerp, (dist_sym e s) in Ge.
  split.
  - destruct (Rlt_dec 0 t); [assumption|exfalso]. rewrite Rabs_left1 in Gs by lra. nra.
  - destruct (Rlt_dec t 1); [assumption|exfalso]. rewrite Rabs_left1 in Ge by lra. nra.
Qed.

Lemma view_corner r q : place m start r -> place m start q -> view r q.
Proof using HS.
  intros Hr Hq. destruct (P2_dec q r) as [E|E]; [left; exact E|right]. split; [apply (st_apart _ _ HS); auto|]. exists q. split; [exact Hq|]. split; [exact E|].
  apply orient_end.
Qed.
(** A cut by a line of the search is seen from the points of that line. *)
Lemma view_cut r i sp ep q r' t : place m start r -> view r i -> place m start sp -> place m start ep -> q = lerp sp ep t -> orient r i q = 0 ->
  orient r i sp <> 0 \/ orient r i ep <> 0 -> place m start r' -> r' = r \/ r' = i -> view r' q.
Proof using HS.
  intros Hr Hv Ps Pe Eq Hz Hn Hr' Hor.
  assert (Hri : i <> r). { intros ->. destruct Hn as [Hn|Hn]; apply Hn; apply orient_same. }
  destruct (P2_dec q r') as [E|E]; [left; exact E|right].
  assert (Hzr : orient r i r' = 0) by (destruct Hor as [->| ->]; [apply orient_start|apply orient_end]).
  assert (Hse : sp <> ep).
  { intros <-. rewrite lerp_same in Eq. subst q. destruct Hn; contradiction. }
  split.
  - apply (off_gap sp ep r' q Hse).
    + now apply (st_off _ _ HS).
    + intro Z. destruct (on_line sp ep r' Hse Z) as [k Ek]. rewrite Ek in Hzr. rewrite Eq in Hz.
      destruct (two_zeros r i sp ep k t Hzr Hz); [rewrite <- Ek, <- Eq; congruence|]. destruct Hn; contradiction.
    + rewrite Eq, orient_lerp3, orient_start, orient_end. ring.
  - destruct Hor as [->| ->].
    + destruct Hv as [->|(Hd & w & Hw & Hne & Hl)]; [contradiction|]. exists w. split; [exact Hw|]. split; [exact Hne|].
      destruct (on_scale r w i q Hne Hl) as (k & Ek & E2). rewrite Hz in E2. symmetry in E2. apply Rmult_integral in E2. destruct E2 as [->|E2]; [|exact E2].
      rewrite lerp_0 in Ek. contradiction.
    + exists r. split; [exact Hr|]. split; [congruence|]. rewrite orient_213. lra.
Qed.
Lemma cut_candidate r i sp ep q t : place m start r -> view r i -> 0 <= t <= 1 -> q = lerp sp ep t -> orient r i q = 0 ->
  orient r i sp <> 0 \/ orient r i ep <> 0 -> cut_point m start sp ep q.
Proof using.
  intros Hr Hv Ht Eq Hz Hn. assert (Hri : i <> r). { intros ->. destruct Hn as [Hn|Hn]; apply Hn; apply orient_same. }
  destruct Hv as [->|(Hd & w & Hw & Hne & Hl)]; [contradiction|]. right. right. exists t, r, w.
  split; [exact Ht|]. split; [exact Eq|]. split; [exact Hr|]. split; [exact Hw|]. split; [congruence|].
  destruct (on_scale r w i q Hne Hl) as (k & Ek & E2). destruct (on_scale r w i sp Hne Hl) as (k3 & Ek3 & E3). destruct (on_scale r w i ep Hne Hl) as (k4 & Ek4 & E4).
  split.
  - rewrite Hz in E2. symmetry in E2. apply Rmult_integral in E2. destruct E2 as [->|E2]; [|exact E2]. rewrite lerp_0 in Ek. contradiction.
  - destruct Hn as [Hn|Hn]; [left|right]; intro Q; rewrite Q in *; apply Hn; [rewrite E3|rewrite E4]; ring.
Qed.
Lemma sharp_at_end r i sp ep q t : sharp r i sp ep -> 0 <= t <= 1 -> q = lerp sp ep t -> orient r i q = 0 ->
  orient r i sp <> 0 \/ orient r i ep <> 0 -> at_end sp ep q.
Proof using.
  intros (_ & _ & H) Ht Eq Hz Hn. pose proof eps_pos. unfold at_end.
  assert (Hd : orient r i sp <> orient r i ep).
  { intro E. rewrite Eq, orient_lerp3, E in Hz. assert (orient r i ep = 0) by lra. destruct Hn; congruence. }
  destruct (H Hd t ltac:(lra)) as [->|[->|(_ & H1 & H2)]]; [rewrite <- Eq; exact Hz|left; now rewrite lerp_0 in Eq|right; left; now rewrite lerp_1 in Eq|].
  right. right. rewrite Eq. auto.
Qed.

(** ** The invariant *)
Record lined (n : Node RA) : Prop := {
  lined_all : exists l p a b r i0 i1,
    polygon_at m (nfrom n) l p /\ at_world l (fst (nedge n)) a /\ at_world l (snd (nedge n)) b /\
    nroot n = vp r /\ ninterval n = (vp i0, vp i1) /\ place m start r /\ view r i0 /\ view r i1 /\
    at_end a b i0 /\ at_end a b i1 /\ cut_point m start a b i0 /\ cut_point m start a b i1
}.

Lemma edge_In qs u w : In (u, w) (poly_edges qs) -> In u qs /\ In w qs.
Proof using.
  rewrite poly_edges_In. intros [(x1 & y1 & E)|(x1 & y1 & E & E2)].
  - rewrite E. split; apply in_or_app; right; [left|right; left]; reflexivity.
  - split; [rewrite E; apply in_or_app; right; left; reflexivity|rewrite E2; left; reflexivity].
Qed.

Lemma lined_clear n : u32_crossing m (node_crossing n) -> lined n -> clear_view m n.
Proof using HM HS.
  intros HV [(l & p & a & b & r & i0 & i1 & HP & Ha & Hb & Er & EI & Hr & V0 & V1 & _)] r' i0' i1' l' p' a' b' qs Er' EI' HP' Ha' Hb' Hqs.
  rewrite Er in Er'. apply vp_inj in Er'. subst r'. rewrite EI in EI'. injection EI' as X1 X2 X3 X4.
  assert (i0' = i0) by (symmetry; now apply P2_eq). assert (i1' = i1) by (symmetry; now apply P2_eq). subst i0' i1'. clear X1 X2 X3 X4.
  pose proof (proj2 HM _ l' p' a' b' qs HV HP' Ha' Hb' Hqs) as Hba. destruct (edge_In _ _ _ Hba) as [Bi Ai]. split.
  - intros s e He _. destruct (edge_In _ _ _ He). split; eapply view_sharp; eauto.
  - intros Hz. right. intros v Hv N1 N2 Hz2. apply (st_strict _ _ HS (nto n) qs a' b' v); auto.
    intros ->. destruct Hqs as (l2 & p2 & HP2 & HF2). destruct (plane_corners _ _ _ _ HM HP2) as (qs' & Hqs' & _ & Hcx & _).
    assert (qs' = qs) by (eapply corners_fun; [exact Hqs'|exists l2, p2; auto]). subst qs'.
    destruct (proj2 Hcx b' b' Hba) as (z & _ & Hz3). rewrite orient_same in Hz3. lra.
Qed.

Lemma lined_start (c : Ctx RA) ps n : cmesh c = m -> gen_start c (vp start) ps n -> lined n.
Proof using HM HS.
  intros Ec (l & p & u & w & sv & ev & HP & HB & Hu & Hw & H). cbv zeta in H. destruct H as (_ & _ & En & _ & _). rewrite Ec in HP.
  destruct (plane_corners _ _ _ _ HM HP) as (qs & Hqs & HF & Hcx & Hsp).
  assert (HB' := HB). destruct HB' as (i & H1 & H2).
  destruct (nth_error_split _ _ H1) as (x & y & EV & _). assert (HF1 := HF). rewrite EV in HF1.
  destruct (Forall2_mid _ _ _ _ _ HF1) as (X & a & Y & EX & _ & Fa & _).
  destruct (nth_error_split _ _ H2) as (x' & y' & EV' & _). assert (HF2 := HF). rewrite EV' in HF2.
  destruct (Forall2_mid _ _ _ _ _ HF2) as (X' & b & Y' & EX' & _ & Fb & _).
  assert (Pa : place m start a). { right. exists ps, qs. split; [exact Hqs|]. rewrite EX. apply in_or_app. right. now left. }
  assert (Pb : place m start b). { right. exists ps, qs. split; [exact Hqs|]. rewrite EX'. apply in_or_app. right. now left. }
  assert (P0 : place m start start) by now left.
  split. exists l, p, a, b, start, a, b.
  assert (EA : world l sv = vp a). { destruct Fa as (v & V1 & V2). congruence. }
  assert (EB : world l ev = vp b). { destruct Fb as (v & V1 & V2). congruence. }
  unfold world in EA, EB. rewrite EA, EB in En. rewrite En. cbn [nfrom nedge ninterval nroot new_node fst snd empty_node nto].
  split; [exact HP|]. split; [exact Fa|]. split; [exact Fb|]. split; [reflexivity|]. split; [reflexivity|]. split; [exact P0|].
  split; [now apply view_corner|]. split; [now apply view_corner|]. unfold at_end, cut_point. auto 10.
Qed.

Lemma corner_close (c : Ctx RA) n vi i l a : nthN (layers (cmesh c)) (nprev n) = Some l -> at_world l vi a -> corner_ok c n vi (vp i) = Ok true ->
  dist a i < 1 / 1000.
Proof using.
  intros Hl (v & V1 & V2) H. unfold corner_ok in H. rewrite (proj2 (index_Ok _ _ _) Hl) in H. cbn [bind] in H.
  rewrite (proj2 (index_Ok _ _ _) V1) in H. cbn [bind] in H. match type of H with Ok ?x = _ => assert (Hx : x = true) by congruence end. clear H. apply andb_prop in Hx. destruct Hx as [_ H].
  unfold world in V2. rewrite V2, vdist2_vp, c1em10_R in H. apply lt_R in H.
  unfold dist. pose proof (plen_sqr (psub a i)) as Q. pose proof (plen_nonneg (psub a i)). set (d := plen (psub a i)) in *. clearbody d.
  destruct (Rlt_dec d (1 / 1000)); [assumption|exfalso]. nra.
Qed.

Lemma lined_step (c : Ctx RA) ps n n' : cmesh c = m -> nprev n = id_layer (nfrom n) -> u32_crossing m (node_crossing n) ->
  seen m (cblocked c) start ps n -> lined n -> gen_step c n n' -> lined n'.
Proof using HM HS.
  intros Ec Hprev HV HSn HLn (s & root & l2 & ss & sv & ev & Hl2 & Hss & Hs & Hsv & Hev & H). cbv zeta in H.
  destruct H as (_ & _ & _ & _ & HRC & Hfar & En & _ & _).
  pose proof (lined_clear n HV HLn) as HC.
  destruct HSn as [(l & p & a & b & t0 & t1 & r & turns & ids & ids' & xs & HP & Ha & Hb & Ht & EI & Er & Hr & _)].
  destruct HLn as [(l1 & p1 & a1 & b1 & r1 & i0 & i1 & HP1 & Ha1 & Hb1 & Er1 & EI1 & Pr & V0 & V1 & A0 & A1 & _)].
  assert (l1 = l) by (destruct HP, HP1; congruence). subst l1.
  assert (a1 = a) by (eapply at_world_fun; eauto). assert (b1 = b) by (eapply at_world_fun; eauto). subst a1 b1.
  rewrite Er in Er1. apply vp_inj in Er1. subst r1.
  assert (EIs := EI1). rewrite EI in EIs. injection EIs as X1 X2 X3 X4.
  assert (E0 : lerp a b t0 = i0) by now apply P2_eq. assert (E1 : lerp a b t1 = i1) by now apply P2_eq. clear X1 X2 X3 X4.
  assert (HMc : plane_mesh (cmesh c)) by (rewrite Ec; exact HM). assert (HPc : polygon_at (cmesh c) (nfrom n) l p) by (rewrite Ec; exact HP).
  assert (HVc : u32_crossing (cmesh c) (node_crossing n)) by (rewrite Ec; exact HV). assert (HCc : clear_view (cmesh c) n) by (rewrite Ec; exact HC).
  destruct (node_far c n l p a b r t0 t1 ss HMc HPc Ha Hb Hprev HVc Er EI Ht Hr HCc Hss)
    as (l' & p' & qs & M & HP' & Hqs & Hcx & Haq & Hbq & HT & HD & HZ & HE & HSu).
  rewrite Ec in HP', Hqs, Hl2.
  assert (l2 = l') by (destruct HP' as [HP' _]; congruence). subst l2.
  destruct (HSu s Hs) as (pre & sp & ep & later & ELL & Hsp & Hep & (q1 & q2 & (EQI & s0 & s1 & Hs01 & Hs1 & EQ1 & EQ2) & O1 & O2 & _)).
  rewrite E0, E1 in O1, O2.
  pose proof (HE _ _ _ _ ELL) as Hedge. destruct (edge_In _ _ _ Hedge) as [Isp Iep].
  assert (Psp : place m start sp) by (right; eauto). assert (Pep : place m start ep) by (right; eauto).
  assert (Pa : place m start a) by (right; eauto). assert (Pb : place m start b) by (right; eauto).
  assert (Hab : a <> b) by (apply (far_ends a b M HD)).
  assert (Sh0 : sharp r i0 sp ep) by (eapply view_sharp; eauto). assert (Sh1 : sharp r i1 sp ep) by (eapply view_sharp; eauto).
  (* an end of the new interval, seen from the new root *)
  assert (End : forall i q t r', (i = i0 \/ i = i1) -> 0 <= t <= 1 -> q = lerp sp ep t -> cut_at r i sp ep q -> place m start r' -> r' = r \/ r' = i ->
     view r' q /\ at_end sp ep q /\ cut_point m start sp ep q).
  { intros i q t r' Hi Htt Eq Hcut Pr' Hor.
    assert (Vi : view r i) by (destruct Hi as [->| ->]; assumption). assert (Shi : sharp r i sp ep) by (destruct Hi as [->| ->]; assumption).
    destruct Hcut as [Q|[Q|[Q1 Q2]]].
    - subst q. rewrite Q. split; [now apply view_corner|]. unfold at_end, cut_point. auto.
    - subst q. rewrite Q. split; [now apply view_corner|]. unfold at_end, cut_point. auto.
    - split; [exact (view_cut r i sp ep q r' t Pr Vi Psp Pep Eq Q1 Q2 Pr' Hor)|].
      split; [exact (sharp_at_end r i sp ep q t Shi Htt Eq Q1 Q2)|exact (cut_candidate r i sp ep q t Pr Vi Htt Eq Q1 Q2)]. }
  assert (T0 : 0 <= s0 <= 1) by lra. assert (T1 : 0 <= s1 <= 1) by lra.
  assert (Build : forall r', root = vp r' -> place m start r' ->
     (view r' q1 /\ at_end sp ep q1 /\ cut_point m start sp ep q1) -> (view r' q2 /\ at_end sp ep q2 /\ cut_point m start sp ep q2) -> lined n').
  { intros r' Er' Pr' (U1 & U2 & U3) (W1 & W2 & W3). split. exists l', p', sp, ep, r', q1, q2.
    rewrite En. cbn [nfrom nedge nroot ninterval new_node fst snd]. rewrite EQI. cbn [fst snd]. auto 15. }
  assert (Hpl : nthN (layers (cmesh c)) (nprev n) = Some l) by (rewrite Hprev, Ec; apply HP).
  unfold root_choice in HRC. rewrite EI1 in HRC. cbn [fst snd] in HRC. destruct (sty s) eqn:Ety; cbn [end_ok] in O1, O2.
  - destruct HRC as (_ & HK & ->). pose proof (corner_close c n _ i1 l b Hpl Hb HK) as Q. rewrite dist_sym in Q.
    assert (i1 = b) as Eb.
    { destruct A1 as [A1|[A1|[_ A1]]]; [|exact A1|lra]. exfalso. rewrite A1 in Q. pose proof (st_apart _ _ HS a b Pa Pb Hab). lra. }
    assert (Pi : place m start i1) by (rewrite Eb; exact Pb).
    apply (Build i1); auto; [apply (End i1 q1 s0)|apply (End i1 q2 s1)]; auto.
  - subst root. apply (Build r); auto; [destruct O1 as [O1|O1]; [apply (End i0 q1 s0)|apply (End i1 q1 s0)]|destruct O2 as [O2|O2]; [apply (End i0 q2 s1)|apply (End i1 q2 s1)]]; auto.
  - destruct HRC as (_ & HK & ->). pose proof (corner_close c n _ i0 l a Hpl Ha HK) as Q. rewrite dist_sym in Q.
    assert (i0 = a) as Ea.
    { destruct A0 as [A0|[A0|[A0 _]]]; [exact A0| |lra]. exfalso. rewrite A0 in Q. pose proof (st_apart _ _ HS b a Pb Pa ltac:(congruence)). lra. }
    assert (Pi : place m start i0) by (rewrite Ea; exact Pa).
    apply (Build i0); auto; [apply (End i0 q1 s0)|apply (End i0 q2 s1)]; auto.
Qed.

Lemma reachable_lined (c : Ctx RA) ps : cmesh c = m -> u32_ids m -> (ps < 2^32)%N -> cpto c <> MAX -> (exists qs, corners m ps qs /\ inside qs start) ->
  forall n, reachable c (vp start) ps n -> seen m (cblocked c) start ps n /\ lined n.
Proof using HM HS.
  intros Ec HU HP32 HMAX HI n [h Hh]. remember (n :: h) as nh eqn:E. revert n h E. induction Hh as [n0 H|n0 n1 h0 Hh IH H]; intros n h E; injection E as <- <-.
  - split; [|now apply (lined_start c ps)]. rewrite <- Ec. apply seen_start; [rewrite Ec; exact HM|rewrite Ec; exact HI|exact H].
  - assert (Hr : reachable c (vp start) ps n0) by (exists h0; exact Hh).
    pose proof (reachable_supported c (vp start) ps n0 RA_nan_sane HMAX Hr) as HSup.
    destruct (IH n0 h0 eq_refl) as [IH1 IH2]. destruct (sup_chain _ _ _ _ HSup) as (xs & HX & _). rewrite Ec in HX.
    apply (corridor_u32 _ _ _ _ _ HU HP32) in HX. pose proof (sup_prev _ _ _ _ HSup) as Hprev.
    split; [|apply (lined_step c ps n0); auto; tauto].
    rewrite <- Ec. apply (seen_step c start ps n0); auto; rewrite Ec; [exact HM|tauto| |exact IH1]. apply lined_clear; [tauto|exact IH2].
Qed.
End Static.

Lemma cut_point_swap m start s e i : cut_point m start s e i -> cut_point m start e s i.
Proof.
  intros [H|[H|(t & u & w & Ht & Ei & Pu & Pw & Hne & Hz & Hn)]]; [right; now left|now left|]. right. right. exists (1 - t), u, w.
  split; [lra|]. split; [rewrite Ei; apply lerp_swap|]. tauto.
Qed.
Lemma lined_goal m blocked start ps pe n goal : plane_mesh m -> steady m start -> steady_goal m start pe goal ->
  u32_crossing m (node_crossing n) -> nto n = pe -> seen m blocked start ps n -> lined m start n -> clear_goal n goal.
Proof.
  intros HM HS HG HV Hto [(l & p & a & b & t0 & t1 & r & turns & ids & ids' & xs & HP & Ha & Hb & Ht & EI & Er & Hr & _)]
    [(l1 & p1 & a1 & b1 & r1 & i0 & i1 & HP1 & Ha1 & Hb1 & Er1 & EI1 & Pr & V0 & V1 & A0 & A1 & K0 & K1)] r' i0' i1' Er' EI'.
  assert (l1 = l) by (destruct HP, HP1; congruence). subst l1.
  assert (a1 = a) by (eapply at_world_fun; eauto). assert (b1 = b) by (eapply at_world_fun; eauto). subst a1 b1.
  rewrite Er in Er1. apply vp_inj in Er1. subst r1. rewrite Er in Er'. apply vp_inj in Er'. subst r'.
  rewrite EI1 in EI'. injection EI' as X1 X2 X3 X4. assert (i0 = i0') by now apply P2_eq. assert (i1 = i1') by now apply P2_eq. subst i0' i1'. clear X1 X2 X3 X4.
  rewrite EI in EI1. injection EI1 as X1 X2 X3 X4. assert (E0 : lerp a b t0 = i0) by now apply P2_eq. assert (E1 : lerp a b t1 = i1) by now apply P2_eq. clear X1 X2 X3 X4.
  destruct (sg_in _ _ _ _ HG) as (qs & Hqs & Hin). assert (Hqs' := Hqs). rewrite <- Hto in Hqs'.
  pose proof (proj2 HM _ l p a b qs HV HP Ha Hb Hqs') as Hba. destruct (edge_In _ _ _ Hba) as [Bi Ai].
  pose proof (Hin b a Hba) as Dg. rewrite orient_213 in Dg.
  assert (Hab : a <> b). { intros ->. rewrite orient_same in Dg. lra. }
  assert (Pa : place m start a) by (right; eauto). assert (Pb : place m start b) by (right; eauto).
  assert (Hi : i0 <> i1). { rewrite <- E0, <- E1. intro E. apply lerp_inj in E; auto; lra. }
  pose proof (sg_cuts _ _ _ _ HG qs b a i0 i1 Hqs Hba (cut_point_swap _ _ _ _ _ K0) (cut_point_swap _ _ _ _ _ K1) Hi) as Dc.
  rewrite <- E0, <- E1, dist_lerp2, Rabs_right in Dc by lra.
  assert (D : orient i0 i1 goal = (t1 - t0) * orient a b goal) by (rewrite <- E0, <- E1; apply orient_line).
  split.
  - right. rewrite D, Rabs_mult, (Rabs_right (t1 - t0)) by lra. unfold eps.
    destruct (sg_off _ _ _ _ HG a b Pa Pb Hab) as [Q|Q]; [lra|].
    assert ((t1 - t0) * (dist a b / 100) <= (t1 - t0) * Rabs (orient a b goal)) by (apply Rmult_le_compat_l; lra). lra.
  - split; [apply (view_off m start r i0 goal Pr V0 (sg_off _ _ _ _ HG))|]. split; [apply (view_off m start r i1 goal Pr V1 (sg_off _ _ _ _ HG))|].
    right. rewrite D. assert (0 < (t1 - t0) * - orient a b goal) by (apply Rmult_lt_0_compat; lra). lra.
Qed.
