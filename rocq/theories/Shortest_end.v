(** The search ends: there are only finitely many nodes below any cost. *)
From Coq Require Import List NArith ZArith Bool Lia Reals Lra Psatz Permutation.
From Verif Require Import Base Arith U32 Mesh Helpers Search StdLib Spec RealArith Geometry Heuristic Search_facts Search_props Search_cost Search_hist F32_facts
  Properties_geometry Properties_heuristic Spec_inside Sight Sight_search Sight_static Spec_shortest Shortest_exists Shortest_routes Shortest_bend Shortest_pieces Shortest_nodes
  Shortest_cover Shortest_search Shortest_run.
Import ListNotations.
Open Scope R_scope.

Lemma turning_snoc m blocked q right P xs x : turning m blocked q right P xs (cr_from x) -> open_crossing m blocked x ->
  (exists o, if right : bool then ends m x q o else ends m x o q) -> turning m blocked q right P (xs ++ [x]) (cr_to x).
Proof.
  intro H. remember (cr_from x) as Q eqn:EQ. induction H as [right y H1 H2|right y ys Q H1 H2 H IH]; intros Hx Ho.
  - cbn [app]. apply turning_more; auto. rewrite EQ. now apply turning_one.
  - cbn [app]. apply turning_more; auto.
Qed.
Lemma turning_tail m blocked q right P A x B Q : turning m blocked q right P (A ++ x :: B) Q -> B <> [] -> turning m blocked q right (cr_to x) B Q.
Proof.
  revert P. induction A as [|y A IH]; intros P H HB; cbn [app] in H.
  - inversion H; subst; [congruence|assumption].
  - inversion H; subst; [destruct A; discriminate|]. eapply IH; eauto.
Qed.
Lemma turning_prefix m blocked q right P A x B Q : turning m blocked q right P (A ++ x :: B) Q -> turning m blocked q right P (A ++ [x]) (cr_to x).
Proof.
  revert P. induction A as [|y A IH]; intros P H; cbn [app] in *.
  - inversion H; subst; now apply turning_one.
  - inversion H; subst; [destruct A; discriminate|]. apply turning_more; auto.
Qed.
(** a chain that turns and never comes back visits no polygon twice *)
Lemma turning_simple m blocked q right P xs Q : (forall P xs, ~ turning m blocked q right P xs P) -> turning m blocked q right P xs Q -> NoDup (map cr_to xs).
Proof.
  intros HB H. destruct (ListDec.NoDup_dec N.eq_dec (map cr_to xs)) as [Y|Hn]; [exact Y|exfalso].
  assert (G : forall l : list N, ~ NoDup l -> exists A x B C, l = A ++ x :: B ++ x :: C).
  { clear. induction l as [|x l IH]; intro H; [exfalso; apply H; constructor|]. destruct (in_dec N.eq_dec x l) as [Hin|Hin].
    - apply in_split in Hin. destruct Hin as (B & C & ->). exists [], x, B, C. reflexivity.
    - destruct IH as (A & y & B & C & ->); [intro H1; apply H; now constructor|]. exists (x :: A), y, B, C. reflexivity. }
  destruct (G _ Hn) as (A & k & B & C & E). apply map_eq_app in E. destruct E as (A' & r1 & -> & _ & E). apply map_eq_cons in E. destruct E as (x & r2 & -> & Ex & E).
  apply map_eq_app in E. destruct E as (B' & r3 & -> & _ & E). apply map_eq_cons in E. destruct E as (y & C' & -> & Ey & _).
  assert (H1 : turning m blocked q right (cr_to x) (B' ++ y :: C') Q) by (eapply turning_tail; [exact H|destruct B'; discriminate]).
  apply turning_prefix in H1. rewrite Ey, <- Ex in H1. exact (HB _ _ H1).
Qed.
Lemma nodup_small K (l : list N) : NoDup l -> (forall x, In x l -> (x < K)%N) -> (length l <= N.to_nat K)%nat.
Proof.
  intros H1 H2. assert (length l <= length (map N.of_nat (seq 0 (N.to_nat K))))%nat as Q.
  { apply NoDup_incl_length; [exact H1|]. intros k Hk. apply in_map_iff. exists (N.to_nat k). specialize (H2 k Hk). split; [lia|apply in_seq; lia]. }
  rewrite map_length, seq_length in Q. exact Q.
Qed.

Lemma INR_above x : exists n : nat, x < INR n.
Proof.
  destruct (archimed x) as [H _]. destruct (Z_le_gt_dec 0 (up x)) as [Hz|Hz].
  - exists (Z.to_nat (up x)). rewrite INR_IZR_INZ, Z2Nat.id by exact Hz. lra.
  - exists 0%nat. cbn [INR]. apply Z.gt_lt, IZR_lt in Hz. lra.
Qed.
Lemma NoDup_app_intro_local (l : list N) x : NoDup l -> ~ In x l -> NoDup (l ++ [x]).
Proof.
  intros H Hx. apply (Permutation_NoDup (l := x :: l)); [|now constructor]. replace (x :: l) with ([x] ++ l) by reflexivity. apply Permutation_app_comm.
Qed.

Section End.
Context (m : Mesh RA) (blocked : list N) (start goal : P2) (ps pe : N).
Context (HM : plane_mesh m) (HI : ids_wf m) (HG : generic m start ps pe goal) (HF : faultless m blocked ps).
Context (c : Ctx RA) (Ec : cmesh c = m) (Eb : cblocked c = blocked) (Ep : cpto c = pe) (Eg : cgoal c = vp goal).
Context (HU : u32_ids m) (HP32 : (ps < 2 ^ 32)%N) (HMAX : pe <> MAX) (HBo : at_border m blocked).
Notation node_at := (node_at m start).
Notation reachable := (reachable c (vp start) ps).

(** what one step of the search does, seen geometrically *)
Lemma step_edge n n' s root a b r t0 t1 a' b' r' u0 u1 : node_at n a b r t0 t1 -> node_at n' a' b' r' u0 u1 -> gen_step_via c n s root n' ->
  exists qs M pre later, corners m (nto n) qs /\ convex qs /\ In (b, a) (poly_edges qs) /\ turns_left (a :: M ++ [b]) /\ distinct (a :: M ++ [b]) /\
    (exists z, In z (a :: M ++ [b]) /\ orient a b z < 0) /\ a :: M ++ [b] = pre ++ a' :: b' :: later /\ In (a', b') (poly_edges qs) /\
    nfrom n' = nto n /\ (forall g, ng n = Some g -> ng n' = Some (g + dist r r')) /\
    ((exists t, t0 <= t <= t1 /\ r' = lerp a b t) \/
     (r' = r /\ (orient a b r = 0 \/ (0 < orient a b r /\ in_cone (orient r (lerp a b t0)) (orient r (lerp a b t1)) (lerp a' b' u0) /\
                                      in_cone (orient r (lerp a b t0)) (orient r (lerp a b t1)) (lerp a' b' u1))))).
Proof using HM HI HG Ec.
  intros HN HN' Hgen. destruct Hgen as (l2 & ss & sv & ev & Hl2 & Hss & Hs & Hsv & Hev & H).
  cbv zeta in H. destruct H as (_ & _ & _ & _ & HRC & Hfar & En & _ & _).
  pose proof (na_edge _ _ _ _ _ _ _ _ HN) as (l & p & HP & Ha & Hb).
  destruct (node_edge m start HM HI _ _ _ _ _ _ HN) as (qsf & qst & _ & Hqst & _ & _ & _ & Hba & _).
  destruct (node_far c n l p a b r t0 t1 ss) as (l' & p' & qs & M & HP' & Hqs & Hcx & Haq & Hbq & HT & HD & HZ & HE & HSu).
  all: try (rewrite Ec; assumption); auto.
  1: apply (na_prev _ _ _ _ _ _ _ _ HN). 1: rewrite Ec; apply (na_cross _ _ _ _ _ _ _ _ HN). 1: apply (na_root _ _ _ _ _ _ _ _ HN). 1: apply (na_interval _ _ _ _ _ _ _ _ HN).
  1: apply (na_t _ _ _ _ _ _ _ _ HN). 1: apply (na_side _ _ _ _ _ _ _ _ HN). 1: rewrite Ec; apply (na_clear _ _ _ _ _ _ _ _ HN).
  rewrite Ec in HP', Hqs, Hl2. assert (l2 = l') by (destruct HP' as [HP' _]; congruence). subst l2.
  assert (qst = qs) by (eapply corners_fun; eauto). subst qst.
  destruct (HSu s Hs) as (pr & sp & ep & later & ELL & Hsp & Hep & (q1 & q2 & (EQI & s0 & s1 & Hs01 & Hs1 & EQ1 & EQ2) & _ & _ & HObs)).
  assert (Ef : nfrom n' = nto n) by (rewrite En; reflexivity).
  assert (a' = sp /\ b' = ep) as [-> ->].
  { destruct (na_edge _ _ _ _ _ _ _ _ HN') as (l1 & p1 & HP1 & Ha' & Hb'). rewrite Ef in HP1. assert (l1 = l') by (destruct HP1, HP'; congruence). subst l1.
    rewrite En in Ha', Hb'. cbn [nedge new_node fst snd] in Ha', Hb'. split; eapply at_world_fun; eauto. }
  assert (EI' : q1 = lerp sp ep u0 /\ q2 = lerp sp ep u1).
  { pose proof (na_interval _ _ _ _ _ _ _ _ HN') as EI'. rewrite En in EI'. cbn [ninterval new_node fst snd] in EI'. rewrite EQI in EI'. cbn [fst snd] in EI'.
    injection EI' as X1 X2 X3 X4. split; now apply P2_eq. }
  destruct EI' as [EU0 EU1]. pose proof (na_t _ _ _ _ _ _ _ _ HN') as Hu. pose proof (na_t _ _ _ _ _ _ _ _ HN) as Ht.
  pose proof (HE _ _ _ _ ELL) as Hedge. pose proof (edge_distinct _ _ _ Hcx Hedge) as Hne.
  pose proof (na_root _ _ _ _ _ _ _ _ HN) as Er. pose proof (na_root _ _ _ _ _ _ _ _ HN') as Er'. rewrite En in Er'. cbn [nroot new_node] in Er'.
  exists qs, M, pr, later. repeat (split; [assumption|]). split.
  { intros g Hg. rewrite En. cbn [ng new_node]. rewrite Er', Er, Hg. destruct (P2_dec r' r) as [E|E].
    - rewrite (proj2 (veq_vp r' r) E). cbn [negb]. rewrite E, dist_refl. f_equal. ring.
    - rewrite (proj2 (veq_vp_false r' r) E). cbn [negb]. rewrite vdist_vp. reflexivity. }
  pose proof (na_interval _ _ _ _ _ _ _ _ HN) as EI. unfold root_choice in HRC. destruct (sty s) eqn:Ety.
  - left. destruct HRC as (_ & _ & Hroot). exists t1. split; [lra|]. apply vp_inj. rewrite <- Er', Hroot, EI. reflexivity.
  - right. assert (r' = r) by (apply vp_inj; congruence). split; [assumption|]. rewrite <- EU0, <- EU1. destruct (HObs eq_refl) as [Hb1|Hc].
    + intro E. rewrite EU0, EU1 in E. apply lerp_inj in E; auto. lra.
    + left. destruct Hb1 as (k & Hk & ->). rewrite lerp_lerp. apply orient_lerp.
    + right. exact Hc.
  - left. destruct HRC as (_ & _ & Hroot). exists t0. split; [lra|]. apply vp_inj. rewrite <- Er', Hroot, EI. reflexivity.
Qed.

Definition past (r x : P2) (id : N) : Prop := exists k qs, corners m id qs /\ 0 <= k <= 1 /\ inside qs (lerp r x k).
(** Since the last turn, at [r], the search has first gone around [r] ([F]) and then straight on through the polygons [S]. *)
Definition stage (n : Node RA) (a b r : P2) (t0 t1 : R) (F : list Crossing) (S : list N) : Prop :=
  NoDup (map cr_to F) /\ NoDup S /\ Forall (open_crossing m blocked) F /\ (forall id, In id S -> (id < 2 ^ 32)%N) /\
  ((orient a b r = 0 /\ S = [] /\ exists right P, turning m blocked r right P F (nto n) /\ if right : bool then r = a else r = b) \/
   (0 < orient a b r /\ In (nto n) S /\ forall id t, In id S -> t0 <= t <= t1 -> past r (lerp a b t) id)).

Lemma to_u32 x : open_crossing m blocked x -> (cr_to x < 2 ^ 32)%N.
Proof using HU.
  intros [((l & p & va & vb & HP' & _ & Ha & _ & Ta & _) & _) _]. destruct HP' as [Hl _]. exact (HU l va _ (nthN_In _ _ _ Hl) (nthN_In _ _ _ Ha) Ta).
Qed.
Lemma root_turnable n a b r t0 t1 : reachable n -> node_at n a b r t0 t1 -> orient a b r = 0 -> exists id w, vertex_of m id w r /\ turnable blocked w.
Proof using HM HI HG Ec Eb Ep HU HP32 HMAX.
  intros HR HN E. destruct (reachable_routed m blocked start goal ps pe HM HI HG c Ec Eb Ep HU HP32 HMAX n HR) as (a1 & b1 & r1 & v0 & v1 & pre & cs & HN1 & (R1 & _ & R3 & _)).
  assert (E1 : r1 = r). { apply vp_inj. rewrite <- (na_root _ _ _ _ _ _ _ _ HN1). exact (na_root _ _ _ _ _ _ _ _ HN). } rewrite E1 in R1, R3.
  destruct R3 as [E0 | HV0]; [exfalso; rewrite E0 in R1|exact HV0]. cbn [endp] in R1.
  destruct (node_edge m start HM HI _ _ _ _ _ _ HN) as (qsf & qst & Hqs & _ & _ & _ & He & _). destruct (edge_In _ _ _ He) as [I1 I2].
  apply (ge_corner _ _ _ _ _ HG _ _ Hqs). rewrite R1. destruct (on_line_ends m start goal ps pe HM HI HG _ _ _ _ _ _ HN E) as [[Q|Q] _]; rewrite Q; assumption.
Qed.
Lemma past_here n a b r t0 t1 t : node_at n a b r t0 t1 -> t0 <= t <= t1 -> past r (lerp a b t) (nto n).
Proof using HM HI.
  intros HN Ht. destruct (node_edge m start HM HI _ _ _ _ _ _ HN) as (qsf & qst & _ & Hqs & _ & Hcx & _ & He & _). pose proof (na_t _ _ _ _ _ _ _ _ HN).
  exists 1, qst. split; [exact Hqs|]. split; [lra|]. rewrite lerp_1. destruct (edge_In _ _ _ He). apply inside_lerp; [| |lra]; now apply convex_corner.
Qed.

Lemma stage_fresh n a b r t0 t1 : reachable n -> node_at n a b r t0 t1 -> exists F S, stage n a b r t0 t1 F S /\ (length F + length S = 1)%nat.
Proof using HM HI HG Ec Eb Ep HU HP32 HMAX.
  intros HR HN. pose proof (reachable_open m blocked start ps pe c Ec Eb Ep HU HP32 HMAX n HR) as HO.
  destruct (Rle_lt_or_eq_dec _ _ (na_side _ _ _ _ _ _ _ _ HN)) as [H|H].
  - exists [], [nto n]. split; [|reflexivity]. split; [constructor|]. split; [repeat constructor; intros []|]. split; [constructor|].
    split; [intros id [<-|[]]; exact (to_u32 _ HO)|]. right. split; [exact H|]. split; [now left|]. intros id t [<-|[]] Ht. exact (past_here _ _ _ _ _ _ _ HN Ht).
  - exists [node_crossing n], []. split; [|reflexivity]. split; [repeat constructor; intros []|]. split; [constructor|]. split; [apply Forall_cons; [assumption|apply Forall_nil]|].
    split; [intros id []|]. left. split; [auto|]. split; [reflexivity|]. pose proof (node_ends _ _ _ _ _ _ _ _ HN) as HE.
    destruct (on_line_ends m start goal ps pe HM HI HG _ _ _ _ _ _ HN (eq_sym H)) as [[Q|Q] _].
    + exists true, (nfrom n). split; [|exact Q]. apply (turning_one m blocked r true (node_crossing n) HO). exists b. rewrite Q. exact HE.
    + exists false, (nfrom n). split; [|exact Q]. apply (turning_one m blocked r false (node_crossing n) HO). exists a. rewrite Q. exact HE.
Qed.

Lemma stage_step n n' s root a b r t0 t1 a' b' u0 u1 F S : reachable n -> reachable n' -> node_at n a b r t0 t1 -> node_at n' a' b' r u0 u1 -> gen_step_via c n s root n' ->
  stage n a b r t0 t1 F S -> exists F' S', stage n' a' b' r u0 u1 F' S' /\ (length F' + length S' = Datatypes.S (length F + length S))%nat.
Proof using HM HI HG Ec Eb Ep HU HP32 HMAX HBo.
  intros HR HR' HN HN' Hgen (NF & NS & OF & LS & HC).
  destruct (step_edge n n' s root a b r t0 t1 a' b' r u0 u1 HN HN' Hgen) as (qs & M & pre & later & Hqs & Hcx & Hba & HT & HD & HZ & EL & Hed & Ef & _ & Hcase).
  pose proof (reachable_open m blocked start ps pe c Ec Eb Ep HU HP32 HMAX n' HR') as HO'.
  pose proof (na_t _ _ _ _ _ _ _ _ HN) as Ht. pose proof (na_t _ _ _ _ _ _ _ _ HN') as Hu.
  destruct HC as [(Hz & -> & right & P & HTu & Hend)|(Hpos & Hin & Hpast)].
  - (* around the root *)
    destruct (root_turnable n a b r t0 t1 HR HN Hz) as (id & w & V1 & V2).
    destruct (Rle_lt_or_eq_dec _ _ (na_side _ _ _ _ _ _ _ _ HN')) as [H|H].
    + exists F, [nto n']. split; [|cbn [length]; lia]. split; [exact NF|]. split; [repeat constructor; intros []|]. split; [exact OF|].
      split; [intros i [<-|[]]; exact (to_u32 _ HO')|]. right. split; [exact H|]. split; [now left|]. intros i t [<-|[]] Htt. exact (past_here _ _ _ _ _ _ _ HN' Htt).
    + destruct (on_line_ends m start goal ps pe HM HI HG _ _ _ _ _ _ HN' (eq_sym H)) as [Q _].
      assert (HTu' : turning m blocked r right P (F ++ [node_crossing n']) (nto n') /\ if right then r = a' else r = b').
      { assert (Hend' : if right then r = a' else r = b').
        { destruct right.
          - destruct Q as [Q|Q]; [exact Q|exfalso]. destruct pre as [|x0 pre]; cbn [app] in EL; injection EL as E1 E2.
            + apply (HD [] a [] b' later); [|congruence]. cbn [app]. rewrite E2. reflexivity.
            + apply (HD [] a (pre ++ [a']) b' later); [|congruence]. cbn [app]. rewrite E2, <- app_assoc. reflexivity.
          - destruct Q as [Q|Q]; [exfalso|exact Q]. change (a :: M ++ [b]) with ((a :: M) ++ [b]) in EL.
            destruct (exists_last (l := b' :: later) ltac:(discriminate)) as (lt & z & Elt). rewrite Elt in EL.
            assert (E2 : (a :: M) ++ [b] = (pre ++ a' :: lt) ++ [z]) by (rewrite EL, <- app_assoc; reflexivity). apply app_inj_tail in E2. destruct E2 as [E2 E3].
            apply (HD pre a' lt z []); [|congruence]. change (a :: M ++ [b]) with ((a :: M) ++ [b]). rewrite E2, E3, <- app_assoc. reflexivity. }
        split; [|exact Hend']. apply (turning_snoc m blocked r right P F (node_crossing n')); [|exact HO'|].
        - change (cr_from (node_crossing n')) with (nfrom n'). rewrite Ef. exact HTu.
        - pose proof (node_ends _ _ _ _ _ _ _ _ HN') as HE. destruct right; [exists b'|exists a']; rewrite Hend'; exact HE. }
      exists (F ++ [node_crossing n']), []. split; [|rewrite app_length; cbn [length]; lia]. destruct HTu' as [HTu' Hend'].
      split; [eapply turning_simple; [|exact HTu']; intros P0 xs0; exact (HBo id w r right P0 xs0 V1 V2)|]. split; [constructor|].
      split; [apply Forall_app; split; [exact OF|apply Forall_cons; [exact HO'|apply Forall_nil]]|]. split; [intros i []|]. left. split; [auto|]. split; [reflexivity|].
      exists right, P. auto.
  - (* straight on *)
    assert (Hcone : in_cone (orient r (lerp a b t0)) (orient r (lerp a b t1)) (lerp a' b' u0) /\ in_cone (orient r (lerp a b t0)) (orient r (lerp a b t1)) (lerp a' b' u1)).
    { destruct Hcase as [(t & _ & E)|(_ & [E|(_ & H)])]; [|lra|exact H]. exfalso. rewrite E, orient_lerp in Hpos. lra. }
    clear Hcase. destruct Hcone as [[A1 A2] [B1 B2]]. destruct (edge_In _ _ _ Hed) as [Ia Ib].
    assert (Side : forall q, inside qs q -> orient a b q <= 0) by (intros q Hq; specialize (Hq b a Hba); rewrite orient_213 in Hq; lra).
    assert (Hpos' : 0 < orient a' b' r).
    { destruct (Rle_lt_or_eq_dec _ _ (na_side _ _ _ _ _ _ _ _ HN')) as [H|H]; [exact H|exfalso].
      destruct (on_line_ends m start goal ps pe HM HI HG _ _ _ _ _ _ HN' (eq_sym H)) as [Q _].
      assert (orient a b r <= 0); [|lra]. apply Side. apply convex_corner; [exact Hcx|]. destruct Q as [Q|Q]; rewrite Q; assumption. }
    (* from the root to a point of the new interval, through the old one *)
    assert (Thr : forall u, u0 <= u <= u1 -> exists k t, 0 <= k <= 1 /\ t0 <= t <= t1 /\ lerp r (lerp a' b' u) k = lerp a b t /\ (k = 1 -> orient a b (lerp a' b' u) = 0)).
    { intros u Huu. assert (Hk : exists k, 0 <= k <= 1 /\ lerp a' b' u = lerp (lerp a' b' u0) (lerp a' b' u1) k).
      { destruct (sub_between a' b' u0 u1 u Huu ltac:(lra)) as (k & Hk & E). exists k. auto. }
      destruct Hk as (k & Hk & E). destruct (cone_through a b M HD r t0 t1 Ht Hpos (lerp a' b' u)) as (t & s' & Htt & Hs & Eq & Hone).
      - apply (far_edge_side a b M HT pre a' b' later u EL). lra.
      - rewrite E. split; rewrite orient_lerp3; [apply affine_between; auto|].
        assert (0 <= (1 - k) * - orient r (lerp a b t1) (lerp a' b' u0) + k * - orient r (lerp a b t1) (lerp a' b' u1)) by (apply affine_between; lra). lra.
      - rewrite lerp_lerp in Eq. exists t. eexists. split; [exact Htt|]. split; [|split; [exact Eq|exact Hone]]. split; nra. }
    assert (Hpast' : forall id u, In id S -> u0 <= u <= u1 -> exists k qs', corners m id qs' /\ 0 <= k <= 1 /\ inside qs' (lerp r (lerp a' b' u) k) /\ (k = 1 -> orient a b (lerp a' b' u) = 0)).
    { intros id u Hid Huu. destruct (Thr u Huu) as (k & t & Hk & Htt & Eq & Hone). destruct (Hpast id t Hid Htt) as (k2 & qs' & Hqs' & Hk2 & Hins).
      exists (k * k2), qs'. split; [exact Hqs'|]. split; [split; nra|]. split.
      - rewrite <- Eq in Hins. replace (lerp r (lerp a' b' u) (k * k2)) with (lerp r (lerp r (lerp a' b' u) k) k2); [exact Hins|].
        unfold lerp, padd, psub, pscale. cbn [px py]. apply P2_eq; cbn [px py]; ring.
      - intro E. apply Hone. nra. }
    exists F, (S ++ [nto n']). split; [|rewrite app_length; cbn [length]; lia]. split; [exact NF|]. split; [|split; [exact OF|split; [|right]]].
    + (* the new polygon is not one of the old ones *)
      assert (Hnew : ~ In (nto n') S).
      { intro Hin'. set (u := (u0 + u1) / 2). assert (Huu : u0 < u < u1) by (unfold u; lra).
        destruct (Hpast' (nto n') u Hin' ltac:(lra)) as (k & qs' & Hqs' & Hk & Hins & Hone).
        destruct (node_edge m start HM HI _ _ _ _ _ _ HN') as (qf' & qt' & Hqf' & Hqt' & _ & Hcx' & _ & He' & Hab' & Pa' & Pb').
        assert (qs' = qt') by (eapply corners_fun; eauto). subst qs'. specialize (Hins b' a' He'). rewrite orient_213, orient_lerp3, orient_lerp in Hins.
        assert (k = 1) as Ek by nra. specialize (Hone Ek).
        (* the middle of the interval is not on the old edge *)
        assert (Sa : orient a b a' <= 0) by (apply Side, convex_corner; auto). assert (Sb : orient a b b' <= 0) by (apply Side, convex_corner; auto).
        rewrite orient_lerp3 in Hone. assert (orient a b a' = 0 /\ orient a b b' = 0) as [Za Zb] by (split; nra).
        destruct (node_edge m start HM HI _ _ _ _ _ _ HN) as (qf & qt & Hqf & Hqt & _ & _ & _ & _ & Hab & Pa & Pb).
        assert (OnE : forall z, In z qs -> orient a b z = 0 -> z = a \/ z = b).
        { intros z Hz Ez. destruct (P2_dec z a) as [|Na]; [auto|]. destruct (P2_dec z b) as [|Nb]; [auto|exfalso].
          pose proof (ge_places _ _ _ _ _ HG a b z Pa Pb ltac:(right; eauto) Hab ltac:(auto) ltac:(auto)) as Q. rewrite Ez, Rabs_R0 in Q. pose proof (dist_pos a b Hab). lra. }
        destruct (OnE a' Ia Za) as [Xa|Xa], (OnE b' Ib Zb) as [Xb|Xb]; try congruence.
        - (* the far chain would be the edge itself *)
          destruct pre as [|x0 pre]; cbn [app] in EL; injection EL as E1 E2.
          + destruct M as [|x1 M]; cbn [app] in E2; injection E2 as E2 E3.
            * destruct HZ as (z & [Hz|[Hz|[]]] & Hz2); rewrite <- Hz in Hz2; [rewrite orient_start in Hz2|rewrite orient_end in Hz2]; lra.
            * apply (HD [a] x1 M b []); [reflexivity|]. congruence.
          + apply (HD [] a pre a' (b' :: later)); [|congruence]. cbn [app]. rewrite E2. reflexivity.
        - destruct pre as [|x0 pre]; cbn [app] in EL; injection EL as E1 E2; [congruence|].
          apply (HD [] a (pre ++ [a']) b' later); [|congruence]. cbn [app]. rewrite E2, <- app_assoc. reflexivity. }
      apply NoDup_app_intro_local; auto.
    + intros i Hi. apply in_app_or in Hi. destruct Hi as [Hi|[<-|[]]]; [auto|exact (to_u32 _ HO')].
    + split; [exact Hpos'|]. split; [apply in_or_app; right; now left|]. intros i u Hi Huu. apply in_app_or in Hi. destruct Hi as [Hi|[<-|[]]].
      * destruct (Hpast' i u Hi Huu) as (k & qs' & H1 & H2 & H3 & _). exists k, qs'. auto.
      * exact (past_here _ _ _ _ _ _ _ HN' Huu).
Qed.

Lemma hval_nonneg r g i0 i1 : 0 <= hval r g i0 i1.
Proof using.
  clear. unfold hval. destruct (P2_dec _ _); [apply dist_nonneg|]. destruct (P2_dec _ _); [apply dist_nonneg|]. destruct (Req_EM_T _ _); [apply dist_nonneg|]. cbv zeta.
  pose proof (dist_nonneg r i0). pose proof (dist_nonneg r i1). pose proof (dist_nonneg i0 g). pose proof (dist_nonneg i1 g).
  destruct (Rlt_dec _ _); [lra|]. destruct (Rlt_dec _ _); [lra|apply dist_nonneg].
Qed.
Lemma node_values n : reachable n -> exists g h, ng n = Some g /\ nh n = Some h /\ 0 <= g /\ 0 <= h.
Proof using HM HI HG Ec Eb Ep Eg HU HP32 HMAX.
  intro HR. destruct (reachable_routed m blocked start goal ps pe HM HI HG c Ec Eb Ep HU HP32 HMAX n HR) as (a & b & r & t0 & t1 & pre & cs & HN & (_ & R2 & _)).
  destruct (node_size m start goal ps pe HM HI HG n a b r t0 t1 HN) as (Hne & _).
  pose proof (reachable_h c (vp start) ps n HR) as Hh. rewrite (na_interval _ _ _ _ _ _ _ _ HN), (na_root _ _ _ _ _ _ _ _ HN), Eg, (heuristic_vp _ _ _ _ Hne) in Hh.
  exists (len start pre r). eexists. split; [exact R2|]. split; [exact Hh|]. split; [|apply hval_nonneg]. pose proof (len_ge pre start r). pose proof (dist_nonneg start r). lra.
Qed.

Lemma node_stage : exists K : nat, forall n h, reach c (vp start) ps (n :: h) -> exists a b r t0 t1 F S (j : nat) g,
  node_at n a b r t0 t1 /\ stage n a b r t0 t1 F S /\ (length F + length S <= 2 * K)%nat /\ ng n = Some g /\ INR j / 100 <= g /\
  (length h <= j * (2 * K + 1) + (length F + length S))%nat.
Proof using HM HI HG Ec Eb Ep Eg HU HP32 HMAX HBo.
  assert (HK : exists K : nat, forall l : list N, NoDup l -> (forall x, In x l -> (x < 2 ^ 32)%N) -> (length l <= K)%nat) by (eexists; intros l; apply nodup_small).
  destruct HK as (K & HK). exists K.
  assert (Size : forall n a b r t0 t1 F S, stage n a b r t0 t1 F S -> (length F + length S <= 2 * K)%nat).
  { intros n a b r t0 t1 F S (H1 & H2 & H3 & H4 & _). pose proof (HK S H2 H4) as Q1. pose proof (HK (map cr_to F) H1) as Q2. rewrite map_length in Q2.
    assert (length F <= K)%nat; [|lia]. apply Q2. intros x Hx. apply in_map_iff in Hx. destruct Hx as (y & <- & Hy). rewrite Forall_forall in H3. apply to_u32. auto. }
  assert (At : forall n, reachable n -> exists a b r t0 t1, node_at n a b r t0 t1).
  { apply (reachable_at m start goal ps pe HM HI HG c Ec HU HP32). rewrite Ep. exact HMAX. }
  intros n h Hh. remember (n :: h) as nh eqn:E. revert n h E. induction Hh as [n0 H|n0 n1 h0 Hh IH H]; intros n h E; injection E as <- <-.
  - assert (HR : reachable n0) by (exists []; now constructor). destruct (At n0 HR) as (a & b & r & t0 & t1 & HN). destruct (node_values n0 HR) as (g & h & Hg & _ & G0 & _).
    destruct (stage_fresh n0 a b r t0 t1 HR HN) as (F & S & HS & HL). exists a, b, r, t0, t1, F, S, 0%nat, g. pose proof (Size _ _ _ _ _ _ _ _ HS).
    split; [exact HN|]. split; [exact HS|]. split; [assumption|]. split; [exact Hg|]. split; [cbn [INR]; lra|]. cbn [length]. lia.
  - destruct (IH n0 h0 eq_refl) as (a & b & r & t0 & t1 & F & S & j & g & HN & HS & HL & Hg & Hj & Hlen).
    assert (HR0 : reachable n0) by (exists h0; exact Hh). assert (HR1 : reachable n1) by (exists (n0 :: h0); now constructor).
    destruct (At n1 HR1) as (a' & b' & r' & u0 & u1 & HN'). destruct H as (s & root & Hvia).
    destruct (step_edge n0 n1 s root a b r t0 t1 a' b' r' u0 u1 HN HN' Hvia) as (_ & _ & _ & _ & _ & _ & _ & _ & _ & _ & _ & _ & _ & Hg' & _). specialize (Hg' g Hg).
    destruct (P2_dec r r') as [E|E].
    + rewrite <- E in HN', Hg'. destruct (stage_step n0 n1 s root a b r t0 t1 a' b' u0 u1 F S HR0 HR1 HN HN' Hvia HS) as (F' & S' & HS' & HL').
      exists a', b', r, u0, u1, F', S', j, g. pose proof (Size _ _ _ _ _ _ _ _ HS'). rewrite dist_refl, Rplus_0_r in Hg'.
      repeat (split; [assumption|]). cbn [length]. lia.
    + destruct (stage_fresh n1 a' b' r' u0 u1 HR1 HN') as (F' & S' & HS' & HL'). exists a', b', r', u0, u1, F', S', (Datatypes.S j), (g + dist r r').
      pose proof (Size _ _ _ _ _ _ _ _ HS'). repeat (split; [assumption|]). split.
      * pose proof (ge_apart _ _ _ _ _ HG r r' (na_place _ _ _ _ _ _ _ _ HN) (na_place _ _ _ _ _ _ _ _ HN') E). rewrite S_INR. lra.
      * cbn [length]. nia.
Qed.

(** only nodes of a limited depth have a limited estimate *)
Lemma depth_bound L : exists D : nat, forall n h v, reach c (vp start) ps (n :: h) -> node_f n = Some v -> v <= L -> (length h <= D)%nat.
Proof using HM HI HG Ec Eb Ep Eg HU HP32 HMAX HBo.
  destruct node_stage as (K & HK). destruct (INR_above (100 * L)) as (J & HJ). exists (J * (2 * K + 1) + 2 * K)%nat. intros n h v Hn Hv Hle.
  destruct (HK n h Hn) as (a & b & r & t0 & t1 & F & S & j & g & _ & _ & H1 & H2 & H3 & H4).
  destruct (node_values n (ex_intro _ h Hn)) as (g' & h' & G1 & G2 & _ & G3). assert (g' = g) by congruence. subst g'.
  unfold node_f in Hv. rewrite G1, G2 in Hv. assert (Ev : g + h' = v) by (cbn in Hv; congruence).
  assert (j <= J)%nat. { apply INR_le. lra. } nia.
Qed.
End End.
