(** C63: the roots of the search are reached over routes, and a node of the queue is always on a best route. *)
From Coq Require Import List NArith ZArith Bool Reals Lra Psatz Lia Classical.
From Verif Require Import Base Arith U32 Mesh Helpers Search StdLib Spec Search_facts Search_props Search_hist Search_safe RealArith Geometry Heuristic F32_facts
  Properties_expand Properties_geometry Properties_heuristic Rings Spec_inside Sight Sight_search Sight_static Spec_shortest Shortest_routes Shortest_bend Shortest_pieces
  Shortest_nodes Shortest_cover.
Import ListNotations.
Open Scope R_scope.

(** Past the end of an interval, one better goes by this end. *)
Lemma corner_cut a b r y t0 t : 0 < orient a b r -> orient a b y <= 0 -> (t - t0) * orient r (lerp a b t0) y <= 0 ->
  dist r (lerp a b t0) + dist (lerp a b t0) y <= dist r (lerp a b t) + dist (lerp a b t) y.
Proof.
  intros Hr Hy Hs. destruct (Req_EM_T t t0) as [->|Hne]; [lra|].
  set (i := lerp a b t0) in *. set (x := lerp a b t).
  assert (Fx : orient r i x = (t - t0) * orient a b r) by (rewrite orient_231; unfold i, x; apply orient_line).
  set (f := orient r i) in *. assert (Hfx : f x <> 0). { rewrite Fx. intro E. apply Rmult_integral in E. lra. }
  assert (Hxy : f x * f y <= 0). { rewrite Fx. replace ((t - t0) * orient a b r * f y) with (orient a b r * ((t - t0) * f y)) by ring.
    assert (0 <= orient a b r * - ((t - t0) * f y)) by (apply Rmult_le_pos; lra). lra. }
  assert (Hd : f x - f y <> 0). { intro E. assert (f x = f y) by lra. rewrite <- H in Hxy. assert (0 < f x * f x) by nra. lra. }
  set (s := f x / (f x - f y)).
  assert (Hs01 : 0 <= s <= 1).
  { assert (0 < (f x - f y) * (f x - f y)) by nra. unfold s. replace (f x / (f x - f y)) with (f x * (f x - f y) / ((f x - f y) * (f x - f y))) by (field; exact Hd).
    split; [apply Rmult_le_pos; [nra|left; now apply Rinv_0_lt_compat]|]. apply (Rmult_le_reg_r ((f x - f y) * (f x - f y))); [assumption|].
    unfold Rdiv. rewrite Rmult_assoc, Rinv_l by lra. nra. }
  set (z := lerp x y s).
  assert (Fz : f z = 0). { unfold z, f. rewrite orient_lerp3. fold f. unfold s. field. exact Hd. }
  assert (Dz : orient a b z <= 0). { unfold z. rewrite orient_lerp3. unfold x at 1. rewrite orient_lerp. assert (0 <= s * - orient a b y) by (apply Rmult_le_pos; lra). lra. }
  destruct (behind a b r Hr t0 z Fz Dz) as (k & Hk & Ek). fold i in Ek. destruct (behind_lerp i r k Hk) as [E1 E2]. rewrite <- Ek in E1.
  assert (dist r i + dist i z = dist r z) by (rewrite E1; now apply dist_between).
  assert (dist x z + dist z y = dist x y) by (unfold z; now apply dist_between).
  pose proof (dist_triangle i z y). pose proof (dist_triangle r x z). lra.
Qed.

Lemma lt_false_R x y : y <= x -> flt (Some x : F RA) (Some y) = false.
Proof. intro H. destruct (flt (Some x : F RA) (Some y)) eqn:E; [|reflexivity]. apply lt_R in E. lra. Qed.

Section Routed.
Context (m : Mesh RA) (blocked : list N) (start goal : P2) (ps pe : N).
Context (HM : plane_mesh m) (HI : ids_wf m) (HG : generic m start ps pe goal) (HF : faultless m blocked ps).
Context (c : Ctx RA) (Ec : cmesh c = m) (Eb : cblocked c = blocked) (Ep : cpto c = pe) (Eg : cgoal c = vp goal).
Context (HU : u32_ids m) (HP32 : (ps < 2 ^ 32)%N) (HMAX : pe <> MAX).
Notation links := (links m blocked).
Notation best := (best m blocked ps pe start goal).
Notation node_at := (node_at m start).

(** The root of [n] is reached over [pre]; the points of its interval are reached from there on a straight line, over [cs]. *)
Definition routed (n : Node RA) (a b r : P2) (t0 t1 : R) (pre : list stop) (cs : list Crossing) : Prop :=
  endp start pre = r /\ ng n = Some (len start pre r) /\ (pre = [] \/ exists id w, vertex_of m id w r /\ turnable blocked w) /\
  forall x, between (lerp a b t0) (lerp a b t1) x -> exists post, map fst post = cs /\ links ps (pre ++ post) (nfrom n) /\ len r post x = dist r x.

Lemma reachable_open n : reachable c (vp start) ps n -> open_crossing m blocked (node_crossing n).
Proof using Ec Eb Ep HU HP32 HMAX.
  intro Hn. pose proof (reachable_supported c (vp start) ps n RA_nan_sane ltac:(rewrite Ep; exact HMAX) Hn) as HSup.
  destruct (sup_chain _ _ _ _ HSup) as (xs & HX & HB & _). rewrite Ec in HX. rewrite Eb in HB. split; [|apply HB; apply in_or_app; right; now left].
  apply (corridor_u32 _ _ _ _ _ HU HP32) in HX. apply HX.
Qed.

(** the corner of a turn *)
Lemma turn_vertex n a b r t0 t1 : node_at n a b r t0 t1 ->
  (forall pt, corner_ok c n (fst (nedge n)) pt = Ok true -> exists w, vertex_of m (nfrom n) w a /\ turnable blocked w) /\
  (forall pt, corner_ok c n (snd (nedge n)) pt = Ok true -> exists w, vertex_of m (nfrom n) w b /\ turnable blocked w).
Proof using Ec Eb.
  intro HN. destruct (na_edge _ _ _ _ _ _ _ _ HN) as (l & p & HP & (va & A1 & A2) & (vb & B1 & B2)).
  pose proof (na_cross _ _ _ _ _ _ _ _ HN) as ((l' & p' & va' & vb' & HP' & HB & _) & _). cbn [node_crossing cr_from cr_a cr_b] in HP', HB.
  assert (p' = p) by (destruct HP, HP'; congruence). subst p'. apply boundary_In in HB.
  assert (HT : forall vi v pt, nthN (vertices l) vi = Some v -> corner_ok c n vi pt = Ok true -> turnable blocked v).
  { intros vi v pt Hv H. unfold corner_ok in H. rewrite (na_prev _ _ _ _ _ _ _ _ HN), Ec in H. inv_bind H. inv_bind H. apply index_Ok in E, E0.
    destruct HP as [HL _]. rewrite HL in E. assert (a0 = l) by congruence. subst a0. assert (a1 = v) by congruence. subst a1.
    assert (H0 : (is_corner v || negb (match cblocked c with [] => true | _ :: _ => false end) && existsb (fun p0 : N => (p0 =? MAX)%N || memN (id_layer p0) (cblocked c)) (vpolys v)) = true).
    { destruct (_ || _); [reflexivity|discriminate]. }
    apply orb_prop in H0. destruct H0 as [H0|H0]; [left; exact H0|right]. apply andb_prop in H0. destruct H0 as [H1 H2]. rewrite Eb in H1, H2.
    split; [intro E1; rewrite E1 in H1; discriminate|]. apply existsb_exists in H2. destruct H2 as (q & Q1 & Q2). exists q. split; [exact Q1|].
    apply orb_prop in Q2. destruct Q2 as [Q2|Q2]; [left; now apply N.eqb_eq|right]. now apply memN_In. }
  split; intros pt H.
  - exists va. split; [exists l, p, (fst (nedge n)); repeat split; try apply HP; try apply HB; assumption|]. eapply HT; eauto.
  - exists vb. split; [exists l, p, (snd (nedge n)); repeat split; try apply HP; try apply HB; assumption|]. eapply HT; eauto.
Qed.

Lemma interval_on_edge n a b r t0 t1 x : node_at n a b r t0 t1 -> between (lerp a b t0) (lerp a b t1) x -> exists t, t0 <= t <= t1 /\ x = lerp a b t.
Proof using.
  intros HN (k & Hk & ->). pose proof (na_t _ _ _ _ _ _ _ _ HN). rewrite lerp_lerp. eexists. split; [|reflexivity]. split; nra.
Qed.
Lemma interval_crossed n a b r t0 t1 x : node_at n a b r t0 t1 -> between (lerp a b t0) (lerp a b t1) x -> on_edge m (node_crossing n) x.
Proof using.
  intros HN Hx. destruct (interval_on_edge _ _ _ _ _ _ _ HN Hx) as (t & Ht & ->). pose proof (na_t _ _ _ _ _ _ _ _ HN).
  exists a, b, t. split; [eapply node_ends; eauto|]. split; [lra|reflexivity].
Qed.

Lemma routed_start n a b r t0 t1 : gen_start c (vp start) ps n -> node_at n a b r t0 t1 -> routed n a b r t0 t1 [] [].
Proof using.
  intros (l & p & u & w & sv & ev & _ & _ & _ & _ & H) HN. cbv zeta in H. destruct H as (_ & _ & En & _ & _).
  pose proof (na_root _ _ _ _ _ _ _ _ HN) as Er. rewrite En in Er. cbn [nroot new_node] in Er. apply vp_inj in Er.
  split; [exact Er|]. split.
  - rewrite En. cbn [ng new_node empty_node nroot]. rewrite (proj2 (veq_vp start start) eq_refl). cbn [negb]. rewrite fz_R, Er. cbn [len]. rewrite dist_refl. reflexivity.
  - split; [left; reflexivity|]. intros x _. exists []. split; [reflexivity|]. split; [|reflexivity]. rewrite En. cbn [nfrom new_node empty_node nto]. constructor.
Qed.

Lemma routed_step n n' s root a b r t0 t1 a' b' r' u0 u1 pre cs : node_at n a b r t0 t1 -> node_at n' a' b' r' u0 u1 -> gen_step_via c n s root n' ->
  open_crossing m blocked (node_crossing n) -> routed n a b r t0 t1 pre cs ->
  match sty s with
  | Obs => r' = r /\ routed n' a' b' r' u0 u1 pre (cs ++ [node_crossing n])
  | LeftNonObs => r' = lerp a b t1 /\ forall post, links ps (pre ++ post) (nfrom n) -> len r post r' = dist r r' ->
                    routed n' a' b' r' u0 u1 ((pre ++ post) ++ [(node_crossing n, r')]) []
  | RightNonObs => r' = lerp a b t0 /\ forall post, links ps (pre ++ post) (nfrom n) -> len r post r' = dist r r' ->
                    routed n' a' b' r' u0 u1 ((pre ++ post) ++ [(node_crossing n, r')]) []
  end.
Proof using HM HI HG Ec Eb.
  intros HN HN' Hgen HO (R1 & R2 & R3 & R4). destruct Hgen as (l2 & ss & sv & ev & Hl2 & Hss & Hs & Hsv & Hev & H).
  cbv zeta in H. destruct H as (_ & _ & _ & _ & HRC & Hfar & En & _ & _).
  pose proof (na_edge _ _ _ _ _ _ _ _ HN) as (l & p & HP & Ha & Hb).
  destruct (node_far c n l p a b r t0 t1 ss) as (l' & p' & qs & M & HP' & Hqs & Hcx & Haq & Hbq & HT & HD & HZ & HE & HSu).
  all: try (rewrite Ec; assumption); auto.
  1: apply (na_prev _ _ _ _ _ _ _ _ HN). 1: rewrite Ec; apply (na_cross _ _ _ _ _ _ _ _ HN). 1: apply (na_root _ _ _ _ _ _ _ _ HN). 1: apply (na_interval _ _ _ _ _ _ _ _ HN).
  1: apply (na_t _ _ _ _ _ _ _ _ HN). 1: apply (na_side _ _ _ _ _ _ _ _ HN). 1: rewrite Ec; apply (na_clear _ _ _ _ _ _ _ _ HN).
  rewrite Ec in HP', Hqs, Hl2. assert (l2 = l') by (destruct HP' as [HP' _]; congruence). subst l2.
  destruct (HSu s Hs) as (pr & sp & ep & later & ELL & Hsp & Hep & (q1 & q2 & (EQI & s0 & s1 & Hs01 & Hs1 & EQ1 & EQ2) & _ & _ & HObs)).
  assert (Ef : nfrom n' = nto n) by (rewrite En; reflexivity).
  assert (a' = sp /\ b' = ep) as [-> ->].
  { destruct (na_edge _ _ _ _ _ _ _ _ HN') as (l1 & p1 & HP1 & Ha' & Hb'). rewrite Ef in HP1. assert (l1 = l') by (destruct HP1, HP'; congruence). subst l1.
    rewrite En in Ha', Hb'. cbn [nedge new_node fst snd] in Ha', Hb'. split; eapply at_world_fun; eauto. }
  assert (EI' : q1 = lerp sp ep u0 /\ q2 = lerp sp ep u1).
  { pose proof (na_interval _ _ _ _ _ _ _ _ HN') as EI'. rewrite En in EI'. cbn [ninterval new_node fst snd] in EI'. rewrite EQI in EI'. cbn [fst snd] in EI'.
    injection EI' as X1 X2 X3 X4. split; now apply P2_eq. }
  destruct EI' as [EU0 EU1]. pose proof (na_t _ _ _ _ _ _ _ _ HN') as Hu. pose proof (na_t _ _ _ _ _ _ _ _ HN) as Ht.
  pose proof (HE _ _ _ _ ELL) as Hedge. pose proof (edge_distinct _ _ _ Hcx Hedge) as Hne.
  pose proof (na_root _ _ _ _ _ _ _ _ HN) as Er. pose proof (na_root _ _ _ _ _ _ _ _ HN') as Er'. rewrite En in Er'. cbn [nroot new_node] in Er'.
  (* a turn at the point i *)
  assert (Turn : forall i, root = vp i -> between (lerp a b t0) (lerp a b t1) i -> (exists id w, vertex_of m id w i /\ turnable blocked w) ->
     r' = i /\ forall post, links ps (pre ++ post) (nfrom n) -> len r post r' = dist r r' -> routed n' sp ep r' u0 u1 ((pre ++ post) ++ [(node_crossing n, r')]) []).
  { intros i Ei Hi Hw. assert (r' = i) by (apply vp_inj; congruence). subst r'. split; [reflexivity|]. intros post P2 P3.
    split; [now rewrite endp_snoc|]. split; [|split; [right; exact Hw|]].
    - rewrite En. cbn [ng new_node]. rewrite Ei, Er. rewrite len_app. cbn [snd len]. rewrite dist_refl, len_app2, R1, P3.
      destruct (P2_dec i r) as [E|E].
      + rewrite (proj2 (veq_vp i r) E). cbn [negb]. rewrite R2, E, dist_refl. f_equal. ring.
      + rewrite (proj2 (veq_vp_false i r) E). cbn [negb]. rewrite R2, vdist_vp. cbn. f_equal. ring.
    - intros x Hx. exists []. split; [reflexivity|]. split; [|reflexivity]. rewrite app_nil_r, Ef. change (nto n) with (cr_to (node_crossing n)).
      apply links_snoc; [exact P2|exact HO|]. eapply interval_crossed; eauto. }
  pose proof (na_interval _ _ _ _ _ _ _ _ HN) as EI. destruct (turn_vertex _ _ _ _ _ _ HN) as [TV0 TV1].
  destruct (corner_end m start goal ps pe HM HI HG c n a b r t0 t1 Ec HN) as [CE0 CE1].
  unfold root_choice in HRC. destruct (sty s) eqn:Ety.
  - destruct HRC as (_ & HK & Hroot). rewrite EI in Hroot. cbn [snd] in Hroot. apply (Turn _ Hroot).
    + exists 1. split; [lra|now rewrite lerp_1].
    + destruct (TV1 _ HK) as (w & W1 & W2). exists (nfrom n), w. rewrite (CE1 HK), lerp_1. auto.
  - rewrite HRC, Er in Er'. apply vp_inj in Er'. subst r'. split; [reflexivity|]. split; [exact R1|]. split; [|split; [exact R3|]].
    + rewrite En. cbn [ng new_node]. rewrite HRC, Er. rewrite (proj2 (veq_vp r r) eq_refl). cbn [negb]. exact R2.
    + intros y Hy. rewrite <- EU0, <- EU1 in Hy.
      assert (Hth : through a b r t0 t1 y).
      { destruct (HObs eq_refl) as [Hb1|(Hpos & C1 & C2)].
        - rewrite EU0, EU1. intro E. apply lerp_inj in E; auto. lra.
        - apply through_on; auto.
        - rewrite EQ1 in C1. rewrite EQ2 in C2. rewrite EQ1, EQ2 in Hy. apply (through_cone a b M HT HD r t0 t1 Ht pr sp ep later s0 s1); auto. }
      destruct Hth as (x & Hx & Dx). destruct (R4 x Hx) as (post & P1 & P2 & P3). exists (post ++ [(node_crossing n, x)]).
      split; [rewrite map_app, P1; reflexivity|]. split.
      * rewrite app_assoc, Ef. change (nto n) with (cr_to (node_crossing n)). apply links_snoc; [exact P2|exact HO|]. eapply interval_crossed; eauto.
      * rewrite len_app. cbn [snd len]. lra.
  - destruct HRC as (_ & HK & Hroot). rewrite EI in Hroot. cbn [fst] in Hroot. apply (Turn _ Hroot).
    + exists 0. split; [lra|now rewrite lerp_0].
    + destruct (TV0 _ HK) as (w & W1 & W2). exists (nfrom n), w. rewrite (CE0 HK), lerp_0. auto.
Qed.

Lemma reachable_routed n : reachable c (vp start) ps n -> exists a b r t0 t1 pre cs, node_at n a b r t0 t1 /\ routed n a b r t0 t1 pre cs.
Proof using HM HI HG Ec Eb Ep HU HP32 HMAX.
  assert (At : forall n, reachable c (vp start) ps n -> exists a b r t0 t1, node_at n a b r t0 t1).
  { apply (reachable_at m start goal ps pe HM HI HG c Ec HU HP32). rewrite Ep. exact HMAX. }
  intros [h Hh]. remember (n :: h) as nh eqn:E. revert n h E. induction Hh as [n0 H|n0 n1 h0 Hh IH H]; intros n h E; injection E as <- <-.
  - destruct (At n0) as (a & b & r & t0 & t1 & HN); [exists []; now constructor|]. exists a, b, r, t0, t1, [], []. split; [exact HN|]. now apply routed_start.
  - destruct (IH n0 h0 eq_refl) as (a & b & r & t0 & t1 & pre & cs & HN & HR).
    destruct (At n1) as (a' & b' & r' & u0 & u1 & HN'); [exists (n0 :: h0); now constructor|].
    destruct H as (s & root & H). pose proof (routed_step n0 n1 s root a b r t0 t1 a' b' r' u0 u1 pre cs HN HN' H ltac:(apply reachable_open; exists h0; exact Hh) HR) as HS.
    destruct HR as (_ & _ & _ & R4). destruct (sty s).
    + destruct HS as [Er HS]. destruct (R4 r') as (post & P1 & P2 & P3); [rewrite Er; exists 1; rewrite lerp_1; split; [lra|reflexivity]|]. exists a', b', r', u0, u1. eauto.
    + destruct HS as [_ HS]. exists a', b', r', u0, u1. eauto.
    + destruct HS as [Er HS]. destruct (R4 r') as (post & P1 & P2 & P3); [rewrite Er; exists 0; rewrite lerp_0; split; [lra|reflexivity]|]. exists a', b', r', u0, u1. eauto.
Qed.

(** ** Nodes on a best route are not dominated *)
Lemma not_dominated n a b r t0 t1 pre cs C o : node_at n a b r t0 t1 -> routed n a b r t0 t1 pre cs -> best (pre ++ C) ->
  attained c (vp start) ps (vp r) o -> flt o (ng n) = false.
Proof using HM HI HG HF Ec Eb Ep HU HP32 HMAX.
  intros HN (R1 & R2 & R3 & R4) HB HA. rewrite R2. pose proof (na_place _ _ _ _ _ _ _ _ HN) as Pr.
  (* the point r is a corner of the polygons on both sides *)
  assert (HCor : forall A P, links ps A P -> endp start A = r -> A <> [] -> exists cc, P = cr_to cc /\ open_crossing m blocked cc /\ exists qs, corners m P qs /\ In r qs /\ inside qs r).
  { intros A P HA' EA NA. destruct (exists_last NA) as (A0 & (cc & y) & ->). rewrite endp_snoc in EA. cbn [snd] in EA. subst y.
    destruct (links_snoc_inv m blocked _ _ _ _ HA') as (_ & H1 & H2 & H3). cbn [fst snd] in *. exists cc. split; [congruence|]. split; [exact H1|].
    destruct (stop_corner m start goal ps pe HM HI HG cc r (proj1 H1) H2 Pr) as [_ H4]. destruct (crossing_to m HI cc (proj1 H1)) as (l & p & HP).
    destruct (plane_corners _ _ _ _ HM HP) as (qs & Hqs & _ & Hcx & _). rewrite <- H3. exists qs. split; [exact Hqs|]. split; [now apply H4|]. apply convex_corner; auto. }
  destruct HB as [[HL HS] _]. destruct (links_split m blocked _ _ _ _ HL) as (P1 & L1 & L2).
  destruct HA as [[HV ->]|(n2 & Hn2 & V2 & <-)].
  - apply veq_vp in HV. rewrite fz_R. apply lt_false_R. assert (E : pre = []).
    { destruct pre as [|x0 pre0] eqn:Epre; [reflexivity|exfalso]. destruct (HCor _ _ L1 R1 ltac:(discriminate)) as (_ & _ & _ & qs & Q1 & Q2 & _).
      apply (ge_corner _ _ _ _ _ HG P1 qs Q1). now rewrite HV. }
    rewrite E. cbn [len]. rewrite HV, dist_refl. lra.
  - destruct (reachable_routed n2 Hn2) as (a2 & b2 & r2 & u0 & u1 & pre2 & cs2 & HN2 & (Q1 & Q2 & _ & Q4)).
    rewrite (na_root _ _ _ _ _ _ _ _ HN2) in V2. apply veq_vp in V2. subst r2. rewrite Q2. apply lt_false_R.
    destruct (Rle_dec (len start pre r) (len start pre2 r)) as [L|L]; [exact L|exfalso].
    destruct (Q4 (lerp a2 b2 u0)) as (post2 & _ & L3 & _); [exists 0; rewrite lerp_0; split; [lra|reflexivity]|].
    destruct (links_split m blocked _ _ _ _ L3) as (P2' & L4 & _).
    destruct R3 as [E|(id & w & Hw & _)].
    { rewrite E in R1, L. cbn [endp len] in R1, L. rewrite <- R1, dist_refl in L. apply L. apply len_nonneg. }
    assert (NP : pre <> []).
    { intros E. rewrite E in R1, L. cbn [endp len] in R1, L. rewrite <- R1, dist_refl in L. apply L. apply len_nonneg. }
    destruct (HCor pre P1 L1 R1 NP) as (c1 & E1 & O1 & qs1 & C1 & I1 & J1).
    assert (NP2 : pre2 <> []).
    { intros E. rewrite E in Q1. cbn [endp] in Q1. apply (ge_corner _ _ _ _ _ HG P1 qs1 C1). now rewrite Q1. }
    destruct (HCor pre2 P2' L4 Q1 NP2) as (c2 & E2 & O2 & qs2 & C2 & I2 & J2).
    destruct (way_links m blocked P2' r P1 r (dist r r)) as (A & A1 & A2).
    { apply (fl_fan _ _ _ HF id w r Hw P2' P1 qs2 qs1); auto; [exact (links_u32 m blocked _ _ _ HU HP32 L4)|exact (links_u32 m blocked _ _ _ HU HP32 L1)|..]; try (rewrite dist_refl; lra); right; [rewrite E2; apply O2|rewrite E1; apply O1]. }
    rewrite dist_refl in A2. specialize (HS (pre2 ++ A ++ C)). assert (links ps (pre2 ++ A ++ C) pe) as HL2 by (eapply links_app; [exact L4|eapply links_app; eauto]).
    specialize (HS HL2). rewrite (len_app2 pre), R1 in HS. rewrite (len_app2 pre2), Q1 in HS. rewrite (len_app2 A) in HS.
    pose proof (len_left C (endp r A) r goal). rewrite (len_endp A r r) in A2. lra.
Qed.

(** ** The next node on a best route *)
(** [n] is on a best route: the crossings [X1] before it, and [X2] after it. *)
Definition good (X1 X2 : list Crossing) (n : Node RA) : Prop :=
  reachable c (vp start) ps n /\ exists a b r t0 t1 pre post x B, node_at n a b r t0 t1 /\ routed n a b r t0 t1 pre (map fst post) /\
    between (lerp a b t0) (lerp a b t1) x /\ len r post x = dist r x /\ best (pre ++ post ++ (node_crossing n, x) :: B) /\
    map fst (pre ++ post) = X1 /\ map fst B = X2.

Lemma other_side_found (sv ev : Vertex RA) p q : In q (vpolys sv) -> In q (vpolys ev) -> q <> MAX -> q <> p -> other_side sv ev p <> MAX.
Proof using.
  intros H1 H2 H3 H4. unfold other_side. destruct (find _ _) as [i|] eqn:E.
  - apply find_some in E. destruct E as [E _]. apply filter_In in E. destruct E as [_ E]. apply andb_prop in E. destruct E as [E _].
    apply negb_true_iff, N.eqb_neq in E. exact E.
  - exfalso. eapply find_none with (x := q) in E.
    + apply negb_false_iff, N.eqb_eq in E. contradiction.
    + apply filter_In. split; [exact H1|]. apply andb_true_intro. split; [now apply negb_true_iff, N.eqb_neq|now apply memN_In].
Qed.
Lemma crossing_other_side x l p sv ev : u32_crossing m x -> polygon_at m (cr_from x) l p -> nthN (vertices l) (cr_a x) = Some sv -> nthN (vertices l) (cr_b x) = Some ev ->
  other_side sv ev (cr_from x) = cr_to x.
Proof using HF.
  intros HX HP Hs He. assert (HX0 := HX). destruct HX as ((l' & p' & va & vb & HP' & HB & Ha & Hb & Ta & Tb & N1 & N2) & H32).
  assert (l' = l) by (destruct HP, HP'; congruence). subst l'. assert (va = sv) by congruence. assert (vb = ev) by congruence. subst va vb.
  pose proof (other_side_found sv ev (cr_from x) (cr_to x) Ta Tb N1 N2) as HN.
  destruct (other_side_spec sv ev (cr_from x)) as [E|(_ & D1 & D2 & D3)]; [contradiction|].
  set (os := other_side sv ev (cr_from x)) in *.
  assert (HY : u32_crossing m (mkCross (cr_from x) (cr_a x) (cr_b x) os)).
  { split; [|exact H32]. exists l, p', sv, ev. cbn [cr_from cr_a cr_b cr_to]. repeat split; auto; apply HP'. }
  exact (fl_side _ _ _ HF _ x HY HX0 eq_refl eq_refl eq_refl).
Qed.

Lemma turn_ok n l p vi v q : nprev n = id_layer (nfrom n) -> polygon_at m (nfrom n) l p -> nthN (vertices l) vi = Some v -> world l v = vp q -> turnable blocked v ->
  corner_ok c n vi (vp q) = Ok true.
Proof using Ec Eb.
  intros Hprev HP Hv Hq HT. unfold corner_ok. rewrite Ec, Hprev, (proj2 (index_Ok _ _ _) (proj1 HP)). cbn [bind]. rewrite (proj2 (index_Ok _ _ _) Hv). cbn [bind].
  fold (world l v). rewrite Hq, vdist2_vp.
  assert (H2 : flt (Some (pdot (psub q q) (psub q q)) : F RA) c1em10 = true).
  { rewrite c1em10_R. apply lt_R. replace (pdot (psub q q) (psub q q)) with 0 by (clear; pts; ring). lra. }
  rewrite H2, andb_true_r. f_equal. destruct HT as [HT|(H3 & z & Z1 & Z2)]; [rewrite HT; reflexivity|]. apply orb_true_iff. right.
  apply andb_true_intro. split; [destruct (cblocked c) eqn:E1; [congruence|reflexivity]|]. rewrite Eb. apply existsb_exists. exists z. split; [exact Z1|].
  apply orb_true_iff. destruct Z2 as [->|Z2]; [left; apply N.eqb_refl|right; now apply memN_In].
Qed.
Lemma tiny_false q : fgt (Some (pdot (psub q q) (psub q q)) : F RA) c1em10 = false.
Proof using.
  replace (pdot (psub q q) (psub q q)) with 0 by (clear; pts; ring). rewrite c1em10_R. unfold fgt. apply lt_false_R. lra.
Qed.
Lemma large_false q1 q2 : 1 / 100 <= dist q1 q2 -> flt (Some (pdot (psub q1 q2) (psub q1 q2)) : F RA) c1em10 = false.
Proof using.
  intro H. rewrite c1em10_R. apply lt_false_R. unfold dist in H. rewrite <- plen_sqr.
  set (d := plen (psub q1 q2)) in *. clearbody d. nra.
Qed.
Lemma sub_between s e s0 s1 k : s0 <= k <= s1 -> s0 < s1 -> between (lerp s e s0) (lerp s e s1) (lerp s e k).
Proof using.
  intros Hk Hs. exists ((k - s0) / (s1 - s0)). assert (0 < / (s1 - s0)) by (apply Rinv_0_lt_compat; lra). split.
  - split; [apply Rmult_le_pos; lra|]. apply (Rmult_le_reg_r (s1 - s0)); [lra|]. unfold Rdiv. rewrite Rmult_assoc, Rinv_l by lra. lra.
  - rewrite lerp_lerp. f_equal. field. lra.
Qed.

Lemma vertex_corner id w v : vertex_of m id w v -> exists qs, corners m id qs /\ In v qs.
Proof using HM.
  intros (l & p & i & HP & Hi & Hv & Hw). destruct (plane_corners _ _ _ _ HM HP) as (qs & Hqs & HFo & _). exists qs. split; [exact Hqs|].
  clear - HFo Hi Hv Hw. induction HFo as [|j q vs qs Hj HFo IH]; [destruct Hi|]. destruct Hi as [->|Hi]; [left|right; auto].
  destruct Hj as (v' & J1 & J2). assert (v' = w) by congruence. subst v'. apply vp_inj. congruence.
Qed.
(** a turn is allowed where a best route goes *)
Lemma turn_allowed n a b r t0 t1 pre cs post i B id w : node_at n a b r t0 t1 -> routed n a b r t0 t1 pre cs -> best (pre ++ post ++ (node_crossing n, i) :: B) ->
  len r post i = dist r i -> vertex_of m id w i -> turnable blocked w.
Proof using HM HI HG HF HU HP32.
  intros HN (R1 & _ & R3 & _) HB HL Hw. destruct (P2_dec r i) as [E|E].
  - destruct R3 as [R3|(id' & w' & V1 & V2)].
    + exfalso. rewrite R3 in R1. cbn [endp] in R1. destruct (vertex_corner _ _ _ Hw) as (qs & Hqs & Hin). apply (ge_corner _ _ _ _ _ HG id qs Hqs). now rewrite R1, E.
    + rewrite <- E in Hw. exact (fl_same _ _ _ HF id' id w' w r V1 Hw V2).
  - destruct (classic (turnable blocked w)) as [H|H]; [exact H|exfalso].
    exact (no_stop m blocked start goal ps pe HM HI HG HF pre post (node_crossing n) i B r id w HU HP32 HB R1 (na_place _ _ _ _ _ _ _ _ HN) E HL Hw H).
Qed.
(** a best route is straight inside of the edge *)
Lemma straight_inside n a b r t0 t1 pre cs post t y B c' : node_at n a b r t0 t1 -> routed n a b r t0 t1 pre cs ->
  best (pre ++ post ++ (node_crossing n, lerp a b t) :: (c', y) :: B) -> len r post (lerp a b t) = dist r (lerp a b t) -> 0 < t < 1 -> orient r (lerp a b t) y = 0.
Proof using HM HI HG HF.
  intros HN (R1 & _ & _ & _) HB HL Ht. rewrite app_assoc in HB. pose proof (node_ends _ _ _ _ _ _ _ _ HN) as HE. set (i := lerp a b t) in *.
  pose proof (best_bend m blocked start goal ps pe HM HI HG _ _ _ _ a b t HB HE eq_refl Ht) as Hb.
  pose proof (prev_differs m blocked start goal ps pe HM HI HG HF _ _ _ _ a b t HB HE eq_refl Ht) as Hp.
  rewrite endp_app, R1 in Hb, Hp. cbn [nextp snd] in Hb. set (q := endp r post) in *.
  rewrite (len_endp post r i) in HL. fold q in HL. pose proof (len_ge post r q). pose proof (dist_triangle r q i).
  destruct (dist_eq_between r q i) as (k & Hk & Eq); [lra|]. destruct (dist_eq_between q i y Hb) as (k2 & Hk2 & Ei).
  assert (Hk1 : k <> 1) by (intros ->; rewrite lerp_1 in Eq; contradiction).
  assert (Z : orient q i y = 0) by (rewrite Ei at 1; rewrite orient_lerp2, orient_end, orient_same; ring).
  rewrite Eq, orient_lerp1, orient_same in Z. assert (Z2 : (1 - k) * orient r i y = 0) by lra. apply Rmult_integral in Z2. lra.
Qed.

Lemma good_next X1 X2 n ss : good X1 X2 n -> nto n <> pe -> edges_between c n = Ok ss ->
  exists s root n' X2', X2 = node_crossing n' :: X2' /\ gen_step_via c n s root n' /\ good (X1 ++ [node_crossing n]) X2' n'.
Proof using HM HI HG HF Ec Eb Ep Eg HU HP32 HMAX.
  intros [HR (a & b & r & t0 & t1 & pre & post & x & B & HN & HRt & Hx & Dx & HB & E1 & E2)] Hto Hss.
  pose proof (reachable_open n HR) as HO. assert (HRt' := HRt). destruct HRt' as (R1 & R2 & R3 & R4).
  rewrite app_assoc in HB. destruct (best_links m blocked start goal ps pe _ _ _ _ HB) as (L1 & _ & Hxe & L2). cbn [node_crossing cr_to cr_from] in L1, L2.
  destruct B as [|[c' y] B]; [apply links_nil_inv in L2; contradiction|].
  destruct (links_cons_inv _ _ _ _ _ _ _ L2) as (Ef & HO' & Hy & L3). assert (Hy' := Hy). destruct Hy' as (sp & ep & k & HE & Hk & Ey).
  pose proof (node_ends _ _ _ _ _ _ _ _ HN) as HEn. pose proof (next_edge m blocked start goal ps pe HF _ _ _ _ _ _ _ _ _ _ HB HEn HE) as Hback.
  destruct (node_cover m start goal ps pe HM HI HG c n a b r t0 t1 ss c' sp ep k Ec HN Hss (proj1 HO') (eq_sym Ef) HE Hback Hk)
    as (s & s0 & s1 & Hs & Ese & EI & Hs01 & Hs1 & Hks & Hfit & Hbig).
  rewrite <- Ey in Hfit. set (q1 := lerp sp ep s0) in *. set (q2 := lerp sp ep s1) in *.
  assert (Hq12 : q1 <> q2) by (intro E; rewrite E, dist_refl in Hbig; lra).
  (* the edge *)
  destruct (proj1 HO') as ((l' & p' & sv & ev & HP' & HBd & Hsv & Hev & _) & _).
  pose proof (crossing_other_side c' l' p' sv ev (proj1 HO') HP' Hsv Hev) as Hos. rewrite <- Ef in HP', Hos.
  assert (Hwsp : world l' sv = vp sp /\ world l' ev = vp ep).
  { destruct HE as (l1 & p1 & HP1 & (v1 & A1 & A2) & (v2 & B1 & B2)). rewrite <- Ef in HP1. assert (l1 = l') by (destruct HP1, HP'; congruence). subst l1.
    assert (v1 = sv) by congruence. assert (v2 = ev) by congruence. now subst v1 v2. }
  destruct Hwsp as [Wsp Wep].
  assert (Hnb : cr_to c' <> nfrom n) by (apply (not_back m blocked start goal ps pe _ _ _ _ _ _ HB)).
  assert (Hdead : cr_to c' = cpto c \/ exists q, mesh_polygon (cmesh c) (cr_to c') = Ok q /\ is_one_way q = false).
  { destruct (N.eq_dec (cr_to c') (cpto c)) as [E|E]; [left; exact E|right].
    destruct (crossing_to m HI c' (proj1 HO')) as (l2 & p2 & HP2). exists p2. split.
    - unfold mesh_polygon. rewrite Ec, (proj2 (index_Ok _ _ _) (proj1 HP2)). cbn [bind]. apply index_Ok. apply HP2.
    - destruct (is_one_way p2) eqn:Eo; [exfalso|reflexivity]. destruct B as [|[c2 z] B]; [apply links_nil_inv in L3; congruence|].
      destruct (links_cons_inv _ _ _ _ _ _ _ L3) as (Ef2 & HO2 & _ & _). pose proof (fl_dead _ _ _ HF l2 p2 c' c2 HP2 Eo HO' HO2 (eq_sym Ef2)) as Q.
      assert (HB2 : best (((pre ++ post) ++ [(node_crossing n, x)]) ++ (c', y) :: (c2, z) :: B)) by (rewrite <- app_assoc; exact HB).
      exact (not_back m blocked start goal ps pe _ _ _ _ _ _ HB2 Q). }
  assert (Hb' : memN (id_layer (cr_to c')) (cblocked c) = false).
  { destruct (memN _ _) eqn:E; [|reflexivity]. exfalso. apply memN_In in E. rewrite Eb in E. apply (proj2 HO'). exact E. }
  assert (HM' : cr_to c' <> MAX) by (destruct (proj1 HO') as ((? & ? & ? & ? & _ & _ & _ & _ & _ & _ & H & _) & _); exact H).
  pose proof (na_root _ _ _ _ _ _ _ _ HN) as Er. pose proof (na_t _ _ _ _ _ _ _ _ HN) as Ht.
  pose proof (na_interval _ _ _ _ _ _ _ _ HN) as EIn.
  (* the node *)
  assert (Via : forall i, root_choice c n l' sv ev s (vp i) ->
     exists n' a' b' r' u0 u1, gen_step_via c n s (vp i) n' /\ reachable c (vp start) ps n' /\ node_at n' a' b' r' u0 u1 /\ node_crossing n' = c' /\
       between (lerp a' b' u0) (lerp a' b' u1) y).
  { intros i HRC. set (n' := new_node c (vp i) (cr_to c') (fst (sinterval s), fst (sedge s)) (snd (sinterval s), snd (sedge s)) n).
    assert (Hvia : gen_step_via c n s (vp i) n').
    { exists l', ss, sv, ev. rewrite Ec. split; [apply HP'|]. split; [exact Hss|]. split; [exact Hs|]. rewrite Ese. cbn [fst snd]. split; [exact Hsv|]. split; [exact Hev|].
      cbv zeta. rewrite Hos. split; [exact HM'|]. split; [exact Hb'|]. split; [rewrite Ec in Hdead; exact Hdead|]. split; [congruence|]. split; [exact HRC|].
      split; [rewrite EI; cbn [fst snd]; rewrite vdist2_vp; now apply large_false|]. split; [unfold n'; rewrite Ese; reflexivity|].
      unfold n'. cbn [ng nh new_node]. split.
      - rewrite Er, R2, vdist_vp. destruct (veq _ _); reflexivity.
      - rewrite Eg, EI. cbn [fst snd]. rewrite heuristic_vp by exact Hq12. reflexivity. }
    assert (HR' : reachable c (vp start) ps n') by (eapply reachable_step; [exact HR|exists s, (vp i); exact Hvia]).
    destruct (reachable_at m start goal ps pe HM HI HG c Ec HU HP32 ltac:(rewrite Ep; exact HMAX) n' HR') as (a' & b' & r' & u0 & u1 & HN').
    exists n', a', b', r', u0, u1. split; [exact Hvia|]. split; [exact HR'|]. split; [exact HN'|]. split.
    - unfold node_crossing, n'. cbn [nfrom nedge nto new_node fst snd]. rewrite Ese. cbn [fst snd]. rewrite Ef. destruct c'; reflexivity.
    - pose proof (na_interval _ _ _ _ _ _ _ _ HN') as EI'. unfold n' in EI'. cbn [ninterval new_node fst snd] in EI'. rewrite EI in EI'. cbn [fst snd] in EI'.
      injection EI' as Y1 Y2 Y3 Y4. assert (Z1 : q1 = lerp a' b' u0) by now apply P2_eq. assert (Z2 : q2 = lerp a' b' u1) by now apply P2_eq.
      rewrite <- Z1, <- Z2, Ey. apply sub_between; lra. }
  destruct (node_edge m start HM HI _ _ _ _ _ _ HN) as (qs0 & qs & Hqs0 & Hqs & Hcx0 & Hcx & He0 & He1 & Hab & Pa & Pb).
  (* going through another point of the interval *)
  assert (Move : forall x', between (lerp a b t0) (lerp a b t1) x' -> dist r x' + dist x' y <= dist r x + dist x y ->
     exists post', map fst post' = map fst post /\ links ps (pre ++ post') (nfrom n) /\ len r post' x' = dist r x' /\ best (pre ++ post' ++ (node_crossing n, x') :: (c', y) :: B)).
  { intros x' Hx' Hd. destruct (R4 x' Hx') as (post' & P1 & P2 & P3). exists post'. split; [exact P1|]. split; [exact P2|]. split; [exact P3|].
    rewrite app_assoc. apply (best_other m blocked ps pe start goal _ _ HB).
    - eapply links_app; [exact P2|]. change (nfrom n) with (cr_from (node_crossing n)). constructor; [exact HO|eapply interval_crossed; eauto|exact L2].
    - rewrite !(len_app (pre ++ _)). cbn [snd len]. rewrite !(len_app2 pre), R1, P3, Dx. lra.
    - assert (EL : length (map fst post') = length (map fst post)) by now rewrite P1. rewrite !map_length in EL. rewrite !app_length, EL. apply le_n. }
  assert (Fst : forall post' : list stop, map fst post' = map fst post -> map fst (pre ++ post') = X1).
  { intros post' P0. rewrite <- E1. etransitivity; [apply map_app|]. etransitivity; [|symmetry; apply map_app]. f_equal. exact P0. }
  (* the point y is behind the edge *)
  assert (Dy : orient a b y <= 0).
  { destruct (on_edge_inside m HM HI c' y (proj1 HO') Hy) as [Q _]. rewrite <- Ef in Q. specialize (Q qs Hqs b a He1). rewrite orient_213 in Q. lra. }
  destruct (interval_on_edge _ _ _ _ _ _ _ HN Hx) as (t & Htt & Ext).
  destruct (na_edge _ _ _ _ _ _ _ _ HN) as (l & p & HP & (va & A1 & A2) & (vb & B1 & B2)).
  assert (Vab : vertex_of m (nfrom n) va a /\ vertex_of m (nfrom n) vb b).
  { destruct (na_cross _ _ _ _ _ _ _ _ HN) as ((l1 & p1 & va' & vb' & HP1 & HBd1 & _) & _). cbn [node_crossing cr_from cr_a cr_b] in HP1, HBd1.
    assert (p1 = p) by (destruct HP, HP1; congruence). subst p1. apply boundary_In in HBd1. destruct HBd1.
    split; [exists l, p, (fst (nedge n))|exists l, p, (snd (nedge n))]; repeat split; try apply HP; assumption. }
  destruct Vab as [Va Vb]. pose proof (na_prev _ _ _ _ _ _ _ _ HN) as Hprev.
  (* a turn *)
  assert (TurnAt : forall i, (match sty s with Obs => False | LeftNonObs => i = lerp a b t1 | RightNonObs => i = lerp a b t0 end) -> root_choice c n l' sv ev s (vp i) ->
     between (lerp a b t0) (lerp a b t1) i -> dist r i + dist i y <= dist r x + dist x y ->
     exists s root n' X2', X2 = node_crossing n' :: X2' /\ gen_step_via c n s root n' /\ good (X1 ++ [node_crossing n]) X2' n').
  { intros i Hi HRC Hbt Hd. destruct (Via i HRC) as (n' & a' & b' & r' & u0 & u1 & Hvia & HR' & HN' & Enc & Hyb).
    destruct (Move i Hbt Hd) as (post' & P1 & P2 & P3 & HB').
    pose proof (routed_step n n' s (vp i) a b r t0 t1 a' b' r' u0 u1 pre _ HN HN' Hvia HO HRt) as HS.
    assert (Er' : r' = i /\ forall post0, links ps (pre ++ post0) (nfrom n) -> len r post0 r' = dist r r' -> routed n' a' b' r' u0 u1 ((pre ++ post0) ++ [(node_crossing n, r')]) []).
    { destruct (sty s); [|destruct Hi|]; destruct HS as [Q1 Q2]; split; auto; congruence. }
    destruct Er' as [Er' HS']. rewrite Er' in HS', HN'.
    exists s, (vp i), n', (map fst B). rewrite Enc. split; [rewrite <- E2; reflexivity|]. split; [exact Hvia|]. split; [exact HR'|].
    exists a', b', i, u0, u1, ((pre ++ post') ++ [(node_crossing n, i)]), [], y, B. split; [exact HN'|]. split; [exact (HS' post' P2 P3)|]. split; [exact Hyb|].
    split; [reflexivity|]. rewrite Enc. split; [cbn [app]; rewrite <- !app_assoc; exact HB'|]. split; [|reflexivity].
    rewrite app_nil_r. etransitivity; [apply map_app|]. f_equal. apply Fst. exact P1. }
  destruct (sty s) eqn:Ety; cbn [fits] in Hfit.
  - (* left *)
    destruct Hfit as (Eq2 & Hpos & Hs2 & Hb1).
    assert (Hd : dist r (lerp a b t1) + dist (lerp a b t1) y <= dist r x + dist x y).
    { destruct Hpos as [Hpos|Hpos].
      - rewrite Ext. apply corner_cut; auto. assert (0 <= (t1 - t) * orient r (lerp a b t1) y) by (apply Rmult_le_pos; lra). lra.
      - rewrite <- Hpos, dist_refl. pose proof (dist_triangle r x y). lra. }
    assert (Hbt : between (lerp a b t0) (lerp a b t1) (lerp a b t1)) by (exists 1; rewrite lerp_1; split; [lra|reflexivity]).
    assert (Et1 : t1 = 1).
    { destruct (Req_EM_T t1 1) as [E|E]; [exact E|exfalso]. destruct Hb1 as [Hb1|Hb1].
      - rewrite <- (lerp_1 a b) in Hb1 at 2. apply lerp_inj in Hb1; auto.
      - destruct (Move _ Hbt Hd) as (post' & P1 & P2 & P3 & HB').
        pose proof (straight_inside n a b r t0 t1 pre _ post' t1 y B c' HN HRt HB' P3 ltac:(lra)). lra. }
    assert (Ei : lerp a b t1 = b) by (rewrite Et1; apply lerp_1).
    apply (TurnAt (lerp a b t1)); auto. unfold root_choice. rewrite Ety. split; [|split].
    + rewrite EI. cbn [snd]. fold (world l' ev). rewrite Wep, Eq2, vdist2_vp. apply tiny_false.
    + rewrite EIn. cbn [snd]. rewrite Ei. apply (turn_ok n l p (snd (nedge n)) vb b); auto.
      destruct (Move _ Hbt Hd) as (post' & P1 & P2 & P3 & HB'). rewrite Ei in HB', P3.
      exact (turn_allowed n a b r t0 t1 pre _ post' b _ (nfrom n) vb HN HRt HB' P3 Vb).
    + rewrite EIn. reflexivity.
  - (* straight on *)
    destruct (Via r) as (n' & a' & b' & r' & u0 & u1 & Hvia & HR' & HN' & Enc & Hyb); [unfold root_choice; rewrite Ety; congruence|].
    destruct (Hfit y) as (x' & Hx' & Hd); [rewrite Ey; apply sub_between; lra|].
    destruct (Move x' Hx') as (post' & P1 & P2 & P3 & HB'); [pose proof (dist_triangle r x y); lra|].
    pose proof (routed_step n n' s (vp r) a b r t0 t1 a' b' r' u0 u1 pre _ HN HN' Hvia HO HRt) as HS. rewrite Ety in HS. destruct HS as [Er' HS]. subst r'.
    exists s, (vp r), n', (map fst B). rewrite Enc. split; [rewrite <- E2; reflexivity|]. split; [exact Hvia|]. split; [exact HR'|].
    exists a', b', r, u0, u1, pre, (post' ++ [(node_crossing n, x')]), y, B. split; [exact HN'|]. split; [rewrite map_app, P1; exact HS|]. split; [exact Hyb|].
    split; [rewrite len_app; cbn [snd len]; lra|]. rewrite Enc. split; [rewrite <- !app_assoc; exact HB'|]. split; [|reflexivity].
    rewrite app_assoc. etransitivity; [apply map_app|]. f_equal. apply Fst. exact P1.
  - (* right *)
    destruct Hfit as (Eq1 & Hpos & Hs2 & Hb1).
    assert (Hd : dist r (lerp a b t0) + dist (lerp a b t0) y <= dist r x + dist x y).
    { rewrite Ext. apply corner_cut; auto. assert (0 <= (t - t0) * - orient r (lerp a b t0) y) by (apply Rmult_le_pos; lra). lra. }
    assert (Hbt : between (lerp a b t0) (lerp a b t1) (lerp a b t0)) by (exists 0; rewrite lerp_0; split; [lra|reflexivity]).
    assert (Et0 : t0 = 0).
    { destruct (Req_EM_T t0 0) as [E|E]; [exact E|exfalso]. destruct Hb1 as [Hb1|Hb1].
      - rewrite <- (lerp_0 a b) in Hb1 at 2. apply lerp_inj in Hb1; auto.
      - destruct (Move _ Hbt Hd) as (post' & P1 & P2 & P3 & HB').
        pose proof (straight_inside n a b r t0 t1 pre _ post' t0 y B c' HN HRt HB' P3 ltac:(lra)). lra. }
    assert (Ei : lerp a b t0 = a) by (rewrite Et0; apply lerp_0).
    apply (TurnAt (lerp a b t0)); auto. unfold root_choice. rewrite Ety. split; [|split].
    + rewrite EI. cbn [fst]. fold (world l' sv). rewrite Wsp, Eq1, vdist2_vp. apply tiny_false.
    + rewrite EIn. cbn [fst]. rewrite Ei. apply (turn_ok n l p (fst (nedge n)) va a); auto.
      destruct (Move _ Hbt Hd) as (post' & P1 & P2 & P3 & HB'). rewrite Ei in HB', P3.
      exact (turn_allowed n a b r t0 t1 pre _ post' a _ (nfrom n) va HN HRt HB' P3 Va).
    + rewrite EIn. reflexivity.
Qed.
End Routed.
