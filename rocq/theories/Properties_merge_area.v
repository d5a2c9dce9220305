(** C70: merging polygons keeps the covered area, as a set of points. *)
From Coq Require Import List NArith ZArith Bool Lia Reals Lra Psatz Permutation.
From Verif Require Properties_triangulation.
From Verif Require Import Base Arith U32 Mesh Helpers Cleanup Spec RealArith Geometry Spec_inside Spec_merge Spec_merge_area Spec_shortest Spec_area Merger Merger_facts Rings Cleanup_facts
  Properties_merge Sight Sight_search Zarea Merge_area Merge_cover File_facts Tests_merge Search Search_props Properties_contain Properties_area.
Import ListNotations.
Open Scope R_scope.

(** ** The positions of a layer as a function *)
Definition num (f : F RA) : R := match f with Some r => r | None => 0 end.
Definition unvec (v : vec2 RA) : P2 := P (num (vx v)) (num (vy v)).
Lemma unvec_vp p : unvec (vp p) = p. Proof. destruct p as [x y]. reflexivity. Qed.
Definition loc_of (vs : list (Vertex RA)) (i : N) : P2 := match nthN vs i with Some v => unvec (coords v) | None => P 0 0 end.
Definition pos_of (l : Layer RA) (i : N) : P2 := padd (loc_of (vertices l) i) (unvec (offset l)).
Lemma vadd_real (a b : vec2 RA) q : vadd a b = vp q -> a = vp (unvec a) /\ b = vp (unvec b) /\ q = padd (unvec a) (unvec b).
Proof.
  destruct a as [[ax|] [ay|]], b as [[bx|] [by_|]], q as [qx qy]; unfold vadd, vp; cbn; intro H; try discriminate. injection H as <- <-. auto.
Qed.
Lemma at_world_pos l i q : at_world l i q -> q = pos_of l i.
Proof.
  intros (v & Hv & Hw). unfold pos_of, loc_of. rewrite Hv. unfold world in Hw. destruct (vadd_real _ _ _ Hw) as (_ & _ & ->). reflexivity.
Qed.
Lemma at_world_loc l i q : at_world l i q -> exists v, nthN (vertices l) i = Some v /\ coords v = vp (loc_of (vertices l) i).
Proof.
  intros (v & Hv & Hw). exists v. split; [exact Hv|]. unfold loc_of. rewrite Hv. unfold world in Hw. destruct (vadd_real _ _ _ Hw) as (G & _ & _). exact G.
Qed.
Lemma ring_at_pos l p qs : ring_at l p qs -> qs = map (pos_of l) (pverts p).
Proof. unfold ring_at. generalize (pverts p). intros is H. induction H as [|i q is qs Hi _ IH]; [reflexivity|]. cbn [map]. now rewrite (at_world_pos l i q Hi), IH. Qed.
Lemma pos_turn l a b c : orient (pos_of l a) (pos_of l b) (pos_of l c) = orient (loc_of (vertices l) a) (loc_of (vertices l) b) (loc_of (vertices l) c).
Proof.
  unfold pos_of. generalize (loc_of (vertices l) a), (loc_of (vertices l) b), (loc_of (vertices l) c), (unvec (offset l)). clear. intros [x1 y1] [x2 y2] [x3 y3] [x4 y4].
  unfold padd, orient, cross, psub. cbn [px py]. ring.
Qed.

Section Layer.
Variable cvx : list (vec2 RA) -> bool.
Hypothesis HX : never_right cvx.
Variable l : Layer RA.
Hypothesis HT : tiling l.
Let pos := pos_of l.

Lemma ring_ex p : In p (polygons l) -> ring_at l p (map pos (pverts p)) /\ convex (map pos (pverts p)).
Proof using HT. intro Hp. destruct (ti_convex l HT p Hp) as (qs & H1 & _ & H2). pose proof (ring_at_pos l p qs H1) as E. rewrite E in H1, H2. split; assumption. Qed.
Lemma ring_ne p : In p (polygons l) -> map pos (pverts p) <> [].
Proof using HT. intro Hp. destruct (ti_convex l HT p Hp) as (qs & H1 & H2 & _). pose proof (ring_at_pos l p qs H1) as E. rewrite E in H2. exact H2. Qed.
Lemma used_at a : usedv (polygons l) a -> at_world l a (pos a).
Proof using HT.
  intros (p & Hp & Ha). destruct (ring_ex p Hp) as [H _]. unfold ring_at in H. revert H Ha. generalize (pverts p). induction l0 as [|z zs IH]; cbn [map]; intros H Ha; [destruct Ha|].
  inversion_clear H. destruct Ha as [<-|Ha]; auto.
Qed.
Lemma sections : 
  (forall p, In p (polygons l) -> convex (map pos (pverts p))) /\
  (forall p, In p (polygons l) -> NoDup (pverts p)) /\
  (forall i j p q x, i <> j -> nthN (polygons l) i = Some p -> nthN (polygons l) j = Some q -> strictly_inside (map pos (pverts p)) x -> ~ inside (map pos (pverts q)) x) /\
  (forall a b c, a <> b -> a <> c -> b <> c -> usedv (polygons l) a -> usedv (polygons l) b -> usedv (polygons l) c -> orient (pos a) (pos b) (pos c) <> 0) /\
  (forall a v id p, nthN (vertices l) a = Some v -> In id (vpolys v) -> nthN (polygons l) id = Some p -> In a (pverts p)) /\
  (forall is cs, (forall a, In a is -> usedv (polygons l) a) -> at_positions (vertices l) is cs -> cvx cs = true ->
    forall x a b c y, is ++ firstn 2 is = x ++ a :: b :: c :: y -> 0 <= orient (pos a) (pos b) (pos c)).
Proof using HT HX.
  split; [intros p Hp; exact (proj2 (ring_ex p Hp))|]. split; [exact (ti_once l HT)|]. split; [|split; [|split; [exact (ti_listed l HT)|]]].
  - intros i j p q x Hne Hp Hq. exact (ti_apart l HT i j p q _ _ x Hne Hp Hq (proj1 (ring_ex p (nthN_In _ _ _ Hp))) (proj1 (ring_ex q (nthN_In _ _ _ Hq)))).
  - intros a b c N1 N2 N3 Ua Ub Uc. exact (ti_general l HT a b c _ _ _ N1 N2 N3 Ua Ub Uc (used_at a Ua) (used_at b Ub) (used_at c Uc)).
  - intros is cs HU Hcs Hcv x a b c y E. unfold pos. rewrite pos_turn.
    assert (Ecs : cs = map vp (map (loc_of (vertices l)) is)).
    { clear E Hcv. induction Hcs as [|i c0 is cs (v & Hv & Hc) _ IH]; [reflexivity|]. cbn [map]. f_equal; [|apply IH; intros z Hz; apply HU; now right].
      destruct (at_world_loc l i _ (used_at i (HU i (or_introl eq_refl)))) as (v' & Hv' & Hc'). rewrite <- Hc, <- Hc'. congruence. }
    rewrite Ecs in Hcv. apply (HX _ Hcv (map (loc_of (vertices l)) x) _ _ _ (map (loc_of (vertices l)) y)).
    rewrite firstn_map, <- map_app, E, map_app. reflexivity.
Qed.
Lemma group_of c r : merged cvx (vertices l) (polygons l) c r -> NoDup c -> group (polygons l) pos c r.
Proof using HT HX.
  destruct sections as (S1 & S2 & S3 & S4 & S5 & S6). exact (merged_group cvx (vertices l) (polygons l) pos S1 S2 S3 S4 S5 S6 c r).
Qed.
End Layer.

(** ** One call on one layer *)
Lemma nearby x y (es : list (P2 * P2)) : (forall a b, In (a, b) es -> 0 < orient a b x) -> exists t, 0 < t <= 1 /\ forall s a b, 0 <= s <= t -> In (a, b) es -> 0 < orient a b (lerp x y s).
Proof.
  induction es as [|[a b] es IH]; intro H; [exists 1; split; [lra|intros ? ? ? ? []]|].
  destruct IH as (t & Ht & G); [intros; apply H; now right|]. pose proof (H a b (or_introl eq_refl)) as Hx. set (d := orient a b x) in *.
  set (k := 1 + Rabs (orient a b y) + d). pose proof (Rabs_pos (orient a b y)) as Ky. assert (Hk : 0 < k) by (unfold k; lra).
  assert (Hdk : 0 < d / k) by (apply Rdiv_lt_0_compat; assumption).
  exists (Rmin t (d / k)). split; [split; [apply Rmin_glb_lt; lra|apply Rle_trans with t; [apply Rmin_l|lra]]|].
  intros s a' b' Hs [[= <- <-]|Hin]; [|apply G; [split; [lra|apply Rle_trans with (Rmin t (d / k)); [lra|apply Rmin_l]]|exact Hin]].
  assert (Hsk : s * k <= d). { assert (s <= d / k) by (apply Rle_trans with (Rmin t (d / k)); [lra|apply Rmin_r]). replace d with (d / k * k) by (field; lra). apply Rmult_le_compat_r; lra. }
  rewrite orient_lerp3. fold d. pose proof (Rle_abs (- orient a b y)) as K. rewrite Rabs_Ropp in K. unfold k in Hsk.
  destruct (Rle_lt_or_eq_dec 0 s (proj1 Hs)) as [Hp|<-]; [nra|nra].
Qed.
Lemma ring_at_alike (l l' : Layer RA) p : offset l' = offset l -> Forall2 (fun v v' => coords v' = coords v) (vertices l) (vertices l') -> forall qs, ring_at l' p qs <-> ring_at l p qs.
Proof.
  intros Eo EV qs.
  assert (W : forall i q, at_world l' i q <-> at_world l i q).
  { intros i q. split; intros (v & Hv & Hw).
    - destruct (Forall2_nthN_r _ _ _ EV _ _ Hv) as (v0 & H0 & Hc). exists v0. split; [exact H0|]. unfold world in *. now rewrite Hc, Eo in Hw.
    - destruct (Forall2_nthN _ _ _ EV _ _ Hv) as (v0 & H0 & Hc). exists v0. split; [exact H0|]. unfold world in *. now rewrite Hc, Eo. }
  unfold ring_at. split; apply Forall2_weaken; intros i q; apply W.
Qed.

Section Calls.
Variable area_of : list (vec2 RA) -> F RA.
Variable sort_area : list (N * F RA) -> list (N * F RA).
Variable cvx : list (vec2 RA) -> bool.

Theorem C70_merge_layer (l l' : Layer RA) b : never_right cvx -> tiling l -> (lengthN (polygons l) <= MAX)%N ->
  layer_merge area_of sort_area cvx l = Ok (l', b) -> tiling l' /\ forall x, covered l' x <-> covered l x.
Proof.
  intros HX HT Hmax H. destruct (C35_merge area_of sort_area cvx l l' b Hmax H) as (_ & Hlen & Eo & _ & _ & g & Hg & Hsur & HV & HP).
  assert (EV : Forall2 (fun v v' : Vertex RA => coords v' = coords v) (vertices l) (vertices l')) by (eapply Forall2_weaken; [|exact HV]; cbv beta; tauto).
  pose proof (fun p => ring_at_alike l l' p Eo EV) as RA'.
  assert (Epos : forall i, pos_of l' i = pos_of l i).
  { intro i. unfold pos_of, loc_of. rewrite Eo. f_equal. destruct (nthN (vertices l) i) as [v|] eqn:Ev.
    - destruct (Forall2_nthN _ _ _ EV _ _ Ev) as (v' & -> & ->). reflexivity.
    - destruct (nthN (vertices l') i) as [v'|] eqn:Ev'; [|reflexivity]. destruct (Forall2_nthN_r _ _ _ EV _ _ Ev') as (v & H0 & _). congruence. }
  assert (HGr : forall k p', nthN (polygons l') k = Some p' -> exists c, (forall i, In i c <-> (i < lengthN (polygons l))%N /\ g i = k) /\ group (polygons l) (pos_of l) c (pverts p')).
  { intros k p' Hp'. destruct (HP k p' Hp') as (c & M & ND & I & _). exists c. split; [exact I|]. exact (group_of cvx HX l HT c _ M ND). }
  assert (HU : forall k p' a, nthN (polygons l') k = Some p' -> In a (pverts p') -> usedv (polygons l) a).
  { intros k p' a Hp' Ha. destruct (HGr k p' Hp') as (c & _ & G). exact (group_used _ _ _ _ a G Ha). }
  assert (HR : forall k p', nthN (polygons l') k = Some p' -> ring_at l' p' (map (pos_of l) (pverts p'))).
  { intros k p' Hp'. apply RA'. unfold ring_at. pose proof (HU k p') as HU'. revert HU'. generalize (pverts p') as is. intros is HU'.
    assert (forall a, In a is -> usedv (polygons l) a) as HU2 by (intros a Ha; exact (HU' a Hp' Ha)). clear HU'. induction is as [|a is IH]; cbn [map]; [constructor|].
    constructor; [apply (used_at l HT); apply HU2; now left|apply IH; intros z Hz; apply HU2; now right]. }
  assert (Hin : forall (ps : list Polygon) p, In p ps -> exists i, nthN ps i = Some p).
  { intros ps p Hp. apply In_nth_error in Hp. destruct Hp as [n Hn]. exists (N.of_nat n). rewrite nthN_nth_error, Nnat.Nat2N.id. exact Hn. }
  split.
  - constructor.
    + intros p' Hp'. destruct (Hin _ _ Hp') as [k Hk]. exists (map (pos_of l) (pverts p')). split; [exact (HR k p' Hk)|].
      destruct (HGr k p' Hk) as (c & I & G). split; [|exact (gr_convex _ _ _ _ G)].
      intro E. assert (E' : pverts p' = []) by (destruct (pverts p'); [reflexivity|discriminate]).
      destruct (Hsur k (nthN_Some_lt _ _ _ Hk)) as (i & Hi & Hgi). destruct (nthN_lt_Some _ _ Hi) as [p Hp].
      pose proof (ring_ne l HT p (nthN_In _ _ _ Hp)) as Hne. destruct (pverts p) as [|a r] eqn:Ep; [now apply Hne|].
      assert (Ha : In a (pverts p')) by (apply (gr_verts _ _ _ _ G); exists i, p; split; [apply I; auto|split; [exact Hp|rewrite Ep; now left]]).
      rewrite E' in Ha. destruct Ha.
    + intros p' Hp'. destruct (Hin _ _ Hp') as [k Hk]. destruct (HGr k p' Hk) as (c & _ & G). exact (gr_once _ _ _ _ G).
    + intros i j p q qs qs' x Hne Hp Hq R1 R2 X1 X2.
      rewrite (ring_at_pos _ _ _ R1) in X1. rewrite (ring_at_pos _ _ _ R2) in X2. rewrite (map_ext _ _ Epos) in X1, X2. clear R1 R2 qs qs'.
      destruct (HGr i p Hp) as (c1 & I1 & G1). destruct (HGr j q Hq) as (c2 & I2 & G2).
      apply (gr_inside _ _ _ _ G2) in X2. destruct X2 as (n & pn & In2 & Hn & X2).
      destruct (ring_ex l HT pn (nthN_In _ _ _ Hn)) as [Rn Cn]. pose proof (ring_ne l HT pn (nthN_In _ _ _ Hn)) as Nn. set (ring := map (pos_of l) (pverts pn)) in *.
      destruct (strict_point ring Nn Cn (poly_edges ring) (fun e He => He)) as (y & _ & Y).
      destruct (nearby x y (poly_edges (map (pos_of l) (pverts p))) X1) as (t & Ht & Z).
      assert (Z1 : inside (map (pos_of l) (pverts p)) (lerp x y t)) by (intros a0 b0 He; apply Rlt_le; apply (Z t a0 b0); [lra|exact He]).
      assert (Z2 : strictly_inside ring (lerp x y t)). { intros a0 b0 He. rewrite orient_lerp3. pose proof (X2 a0 b0 He) as K1. pose proof (Y a0 b0 He) as K2. nra. }
      apply (gr_inside _ _ _ _ G1) in Z1. destruct Z1 as (n1 & p1 & In1 & Hn1 & Z1).
      assert (Hnn : n <> n1) by (intros ->; apply I1 in In1; apply I2 in In2; destruct In1 as [_ In1], In2 as [_ In2]; congruence).
      exact (ti_apart l HT n n1 pn p1 _ _ _ Hnn Hn Hn1 Rn (proj1 (ring_ex l HT p1 (nthN_In _ _ _ Hn1))) Z2 Z1).
    + assert (HU' : forall a, (exists p, In p (polygons l') /\ In a (pverts p)) -> exists p, In p (polygons l) /\ In a (pverts p)).
      { intros a (p & Hp & Ha). destruct (Hin _ _ Hp) as [k Hk]. exact (HU k p a Hk Ha). }
      assert (HW : forall a z, at_world l' a z -> at_world l a z).
      { intros a z (v & Hv & Hw). destruct (Forall2_nthN_r _ _ _ EV _ _ Hv) as (v0 & H0 & Hc). exists v0. split; [exact H0|]. unfold world in *. now rewrite Hc, Eo in Hw. }
      intros i j k u v w N1 N2 N3 U1 U2 U3 W1 W2 W3. exact (ti_general l HT i j k u v w N1 N2 N3 (HU' i U1) (HU' j U2) (HU' k U3) (HW i u W1) (HW j v W2) (HW k w W3)).
    + intros i v' k p' Hv' Hk Hp'. destruct (Forall2_nthN_r _ _ _ HV _ _ Hv') as (v & Hv & _ & _ & Hids & Eids). rewrite Eids in Hk. rewrite dedup_In in Hk.
      apply in_map_iff in Hk. destruct Hk as (id & Eid & Hid).
      pose proof (nthN_Some_lt _ _ _ Hp') as Hlt. destruct (N.eqb_spec id MAX) as [_|Hm]; [exfalso; rewrite <- Eid in Hlt; lia|].
      destruct (Hids id Hid) as [K|K]; [contradiction|]. destruct (nthN_lt_Some _ _ K) as [p Hp].
      destruct (HGr k p' Hp') as (c & I & G). apply (gr_verts _ _ _ _ G). exists id, p. split; [apply I; auto|]. split; [exact Hp|]. exact (ti_listed l HT i v id p Hv Hid Hp).
  - intro x. split.
    + intros (p' & qs & Hp' & R & X). destruct (Hin _ _ Hp') as [k Hk]. destruct (HGr k p' Hk) as (c & I & G).
      rewrite (ring_at_pos _ _ _ R), (map_ext _ _ Epos) in X. apply (gr_inside _ _ _ _ G) in X. destruct X as (i & p & _ & Hp & X).
      exists p, (map (pos_of l) (pverts p)). split; [eapply nthN_In; eassumption|]. split; [exact (proj1 (ring_ex l HT p (nthN_In _ _ _ Hp)))|exact X].
    + intros (p & qs & Hp & R & X). destruct (Hin _ _ Hp) as [i Hi]. pose proof (nthN_Some_lt _ _ _ Hi) as Hlt.
      destruct (nthN_lt_Some _ _ (Hg i Hlt)) as [p' Hp']. destruct (HGr _ p' Hp') as (c & I & G).
      exists p', (map (pos_of l) (pverts p')). split; [eapply nthN_In; eassumption|]. split; [exact (HR _ p' Hp')|].
      apply (gr_inside _ _ _ _ G). exists i, p. split; [apply I; auto|]. split; [exact Hi|]. now rewrite <- (ring_at_pos _ _ _ R).
Qed.

(** One call on a mesh. *)
Theorem C70_merge_mesh (m m' : Mesh RA) b : never_right cvx -> (forall l, In l (layers m) -> tiling l /\ (lengthN (polygons l) <= MAX)%N) ->
  mesh_merge area_of sort_area cvx m = Ok (m', b) ->
  Forall2 (fun l l' => tiling l' /\ (lengthN (polygons l') <= lengthN (polygons l))%N /\ forall x, covered l' x <-> covered l x) (layers m) (layers m').
Proof.
  intros HX HL H. unfold mesh_merge in H. inv_bind H. destruct a as [ls bb]. cbn [fst snd] in H. injection H as <- <-. cbn [layers].
  revert ls bb E HL. induction (layers m) as [|l r IH]; intros ls bb E HL; cbn [until_true] in E; [injection E as <- <-; constructor|].
  inv_bind E. destruct a as [l' b1]. cbn [fst snd] in E. destruct (HL l (or_introl eq_refl)) as [Tl Ml]. destruct (C70_merge_layer l l' b1 HX Tl Ml E0) as [Tl' Cl].
  destruct (C35_merge area_of sort_area cvx l l' b1 Ml E0) as (_ & Hlen & _).
  destruct b1.
  - injection E as <- <-. constructor; [split; [exact Tl'|split; [exact Hlen|exact Cl]]|].
    assert (HLr : forall l0, In l0 r -> tiling l0) by (intros l0 H0; exact (proj1 (HL l0 (or_intror H0)))). clear -HLr.
    induction r as [|l0 r IH]; [constructor|]. constructor; [split; [apply HLr; now left|split; [lia|reflexivity]]|]. apply IH. intros l1 H1. apply HLr. now right.
  - inv_bind E. destruct a as [ls1 b2]. cbn [fst snd] in E. injection E as <- <-. constructor; [split; [exact Tl'|split; [exact Hlen|exact Cl]]|].
    apply (IH ls1 b2 E1). intros l0 H0. apply HL. now right.
Qed.
(** The loop `while mesh.merge_polygons() {}`. *)
Theorem C70_merge_loop n (m m' : Mesh RA) : never_right cvx -> (forall l, In l (layers m) -> tiling l /\ (lengthN (polygons l) <= MAX)%N) ->
  merge_all area_of sort_area cvx n m = Ok m' ->
  Forall2 (fun l l' => tiling l' /\ (lengthN (polygons l') <= lengthN (polygons l))%N /\ forall x, covered l' x <-> covered l x) (layers m) (layers m').
Proof.
  intro HX. revert m. induction n as [|n IH]; intros m HL H; cbn [merge_all] in H; [discriminate|]. inv_bind H. destruct a as [m1 b]. cbn [fst snd] in H.
  pose proof (C70_merge_mesh m m1 b HX HL E) as F1. destruct b; [|injection H as <-; exact F1].
  assert (HL1 : forall l, In l (layers m1) -> tiling l /\ (lengthN (polygons l) <= MAX)%N).
  { clear -F1 HL. induction F1 as [|l l' ls ls' (T & K & _) _ IH]; [intros ? []|]. intros l0 [<-|H0].
    - split; [exact T|]. pose proof (proj2 (HL l (or_introl eq_refl))). lia.
    - apply IH; [intros; apply HL; now right|exact H0]. }
  pose proof (IH m1 HL1 H) as F2. clear -F1 F2. revert F2. generalize (layers m') as ls2. induction F1 as [|l l' ls ls' (T & K & C) _ IH]; intros ls2 F2; inversion_clear F2; [constructor|].
  constructor; [|apply IH; assumption]. destruct H as (T2 & K2 & C2). split; [exact T2|]. split; [lia|]. intro x. rewrite C2. apply C.
Qed.
End Calls.

(** ** The area of the mesh *)
(** All the polygons of a mesh without blocked layers. *)
Lemma area_covered (m : Mesh RA) ps x : mesh_small m -> area m [] ps x <-> exists l, In l (layers m) /\ covered l x.
Proof.
  intros [HL HP]. split.
  - intros (id & qs & _ & (l & p & [H1 H2] & H3) & H4). exists l. split; [eapply nthN_In; eassumption|]. exists p, qs. split; [eapply nthN_In; eassumption|]. split; [exact H3|exact H4].
  - intros (l & Hl & p & qs & Hp & H3 & H4). apply In_nth_error in Hl. destruct Hl as [a Ha]. pose proof (HP l (nth_error_In _ _ Ha)) as HPl. apply In_nth_error in Hp. destruct Hp as [c Hc].
    assert (L1 : (N.of_nat a < 256)%N) by (assert (a < length (layers m))%nat by (apply nth_error_Some; congruence); unfold lengthN in HL; lia).
    assert (L2 : (N.of_nat c < 2 ^ 24)%N) by (assert (c < length (polygons l))%nat by (apply nth_error_Some; congruence); unfold lengthN in HPl; lia).
    exists (id_make (N.of_nat a) (N.of_nat c)), qs. split; [split; [|right; intros []]|split; [|exact H4]].
    + rewrite id_make_eq by exact L2. change (2 ^ 32)%N with (256 * 2 ^ 24)%N. nia.
    + exists l, p. split; [|exact H3]. unfold polygon_at. rewrite id_layer_make, id_polygon_make by assumption. rewrite !nthN_nth_error, !Nnat.Nat2N.id. auto.
Qed.
Lemma small_max n : (n <= 2 ^ 24 - 1 -> n <= MAX)%N.
Proof. change MAX with (2 ^ 32 - 1)%N. lia. Qed.
(** Merging in a loop keeps the area of the mesh. *)
Corollary C70_same_area area_of sort_area cvx n (m m' : Mesh RA) ps ps' : never_right cvx -> (forall l, In l (layers m) -> tiling l) -> mesh_small m ->
  merge_all area_of sort_area cvx n m = Ok m' -> forall x, area m' [] ps' x <-> area m [] ps x.
Proof.
  intros HX HL HS H. assert (F1 := C70_merge_loop area_of sort_area cvx n m m' HX). specialize (F1 (fun l Hl => conj (HL l Hl) (small_max _ (proj2 HS l Hl))) H).
  assert (HS' : mesh_small m').
  { destruct HS as [S1 S2]. split; [unfold lengthN in *; rewrite <- (Properties_triangulation.Forall2_len F1); exact S1|]. intros l' Hl'. destruct (Forall2_In_r _ _ _ _ F1 Hl') as (l & Hl & _ & K & _).
    specialize (S2 l Hl). lia. }
  intro x. rewrite !area_covered by assumption. split.
  - intros (l' & Hl' & Hx). destruct (Forall2_In_r _ _ _ _ F1 Hl') as (l & Hl & _ & _ & K). exists l. split; [exact Hl|]. apply K, Hx.
  - intros (l & Hl & Hx). destruct (Forall2_In_l _ _ _ _ F1 Hl) as (l' & Hl' & _ & _ & K). exists l'. split; [exact Hl'|]. apply K, Hx.
Qed.
(** ... and the lengths of the paths. *)
Corollary C70_same_length area_of sort_area cvx n (m m' : Mesh RA) (lib lib' : Lib RA) from to from' to' path path' start goal ps pe ps' pe' :
  never_right cvx -> (forall l, In l (layers m) -> tiling l) -> mesh_small m -> merge_all area_of sort_area cvx n m = Ok m' ->
  proper lib m [] start goal ps pe -> proper lib' m' [] start goal ps' pe' ->
  cpos from = vp start -> cpos to = vp goal -> located lib m from ps -> located lib m to pe ->
  cpos from' = vp start -> cpos to' = vp goal -> located lib' m' from' ps' -> located lib' m' to' pe' ->
  path_on_layers lib m from to [] = Ok (Some path) -> path_on_layers lib' m' from' to' [] = Ok (Some path') -> plength path = plength path'.
Proof.
  intros HX HL HS HM P1 P2 E1 E2 L1 L2 E3 E4 L3 L4 H1 H2.
  exact (C66_same_area_same_length lib lib' m m' from to from' to' [] [] path path' start goal ps pe ps' pe' P1 P2 E1 E2 L1 L2 E3 E4 L3 L4
    (fun x => iff_sym (C70_same_area area_of sort_area cvx n m m' ps ps' HX HL HS HM x)) H1 H2).
Qed.

(** The test of C36 (no three consecutive points turn right and some turn left) is such a test. *)
Lemma triples_mid (qs : list (vec2 RA)) : forall x a b c y, qs = x ++ a :: b :: c :: y -> In (a, b, c) (triples qs).
Proof.
  induction qs as [|q qs IH]; intros x a b c y E; [destruct x; discriminate|]. destruct x as [|x0 x]; cbn [app] in E.
  - injection E as -> ->. now left.
  - injection E as -> E. pose proof (IH x a b c y E) as H. destruct qs as [|q1 [|q2 qs]]; [destruct H|destruct H|]. right. exact H.
Qed.
Lemma std_convex_never_right : never_right std_convex.
Proof.
  intros qs H x a b c y E. unfold std_convex in H. apply andb_true_iff in H. destruct H as [H _].
  rewrite forallb_forall in H. assert (K : In (vp a, vp b, vp c) (ring_triples (map vp qs))).
  { destruct qs as [|q1 [|q2 qs]]; [destruct x; discriminate| |].
    - cbn [app firstn] in E. destruct x as [|x0 [|x1 [|x2 x]]]; discriminate.
    - unfold ring_triples. cbn [map]. apply (triples_mid _ (map vp x) (vp a) (vp b) (vp c) (map vp y)).
      change (vp q1 :: vp q2 :: map vp qs) with (map vp (q1 :: q2 :: qs)). change [vp q1; vp q2] with (map vp [q1; q2]). rewrite <- map_app.
      change (firstn 2 (q1 :: q2 :: qs)) with [q1; q2] in E. rewrite E, map_app. reflexivity. }
  specialize (H _ K). cbv beta in H. unfold turn in H. cbn [fst snd] in H. rewrite !vsub_vp, perp_dot_vp, fz_R in H. cbn [fle RA] in H.
  apply rleb_true in H. revert H. generalize x y. clear. intros _ _. unfold orient, cross, psub. destruct a as [x1 y1], b as [x2 y2], c as [x3 y3]. cbn [px py]. lra.
Qed.
Print Assumptions C70_merge_layer.
Print Assumptions C70_merge_mesh.
Print Assumptions C70_merge_loop.
Print Assumptions C70_same_area.
Print Assumptions C70_same_length.
