(** C62: the invariant of the nodes of the search, in exact arithmetic: the whole interval is seen from the root through the
    polygons of the chain. *)
From Coq Require Import List NArith ZArith Bool Reals Lra Psatz Lia.
From Verif Require Import Base Arith U32 Mesh Helpers Locate Search AsyncPath StdLib Spec Locate_facts Search_facts Search_props Rings
  RealArith Geometry Heuristic F32_facts Properties_geometry Properties_expand Spec_inside Sight.
Import ListNotations.
Open Scope R_scope.

(** ** Cyclic lists *)
Lemma combine_next {T} (z : T) u w : forall r q, In (u, w) (combine (q :: r) (r ++ [z])) <->
  (exists x y, q :: r = x ++ u :: w :: y) \/ (w = z /\ exists x, q :: r = x ++ [u]).
Proof.
  induction r as [|c r IH]; intro q.
  - cbn. split.
    + intros [H|[]]. injection H as -> ->. right. split; [reflexivity|]. now exists [].
    + intros [(x & y & E)|(-> & x & E)].
      * destruct x as [|? [|? x]]; cbn in E; inversion E.
      * destruct x as [|? [|? x]]; cbn in E; inversion E. now left.
  - change (combine (q :: c :: r) ((c :: r) ++ [z])) with ((q, c) :: combine (c :: r) (r ++ [z])). split.
    + intros [H|H].
      * injection H as -> ->. left. now exists [], r.
      * apply IH in H. destruct H as [(x & y & E)|(-> & x & E)].
        -- left. exists (q :: x), y. rewrite E. reflexivity.
        -- right. split; [reflexivity|]. exists (q :: x). rewrite E. reflexivity.
    + intros [(x & y & E)|(-> & x & E)].
      * destruct x as [|d x]; cbn in E; inversion E; subst; [now left|]. right. apply IH. left. eauto.
      * destruct x as [|d x]; cbn in E; inversion E; subst. right. apply IH. right. split; [reflexivity|]. eauto.
Qed.
Lemma poly_edges_In qs u w : In (u, w) (poly_edges qs) <->
  (exists x y, qs = x ++ u :: w :: y) \/ (exists x y, qs = x ++ [u] /\ qs = w :: y).
Proof.
  unfold poly_edges. destruct qs as [|q r].
  - cbn. split; [tauto|]. intros [(x & y & E)|(x & y & E & _)]; destruct x; discriminate.
  - cbn [tl firstn]. rewrite combine_next. split.
    + intros [H|(-> & x & E)]; [left; exact H|right; exists x, r; auto].
    + intros [H|(x & y & E & E2)]; [left; exact H|right]. injection E2 as -> ->. split; [reflexivity|]. eauto.
Qed.

Lemma turns_left_rotate1 c l : turns_left (c :: l) -> turns_left (l ++ [c]).
Proof.
  intros H x a y b z d w E. destruct (rev w) as [|e w'] eqn:Ew.
  - apply (f_equal (@rev P2)) in Ew. rewrite rev_involutive in Ew. cbn in Ew. subst w.
    replace (x ++ a :: y ++ b :: z ++ [d]) with ((x ++ a :: y ++ b :: z) ++ [d]) in E by (rewrite <- !app_assoc; cbn; rewrite <- !app_assoc; reflexivity).
    apply app_inj_tail in E. destruct E as [-> <-]. rewrite orient_312. apply (H [] c x a y b z). reflexivity.
  - apply (f_equal (@rev P2)) in Ew. rewrite rev_involutive in Ew. cbn in Ew. subst w.
    replace (x ++ a :: y ++ b :: z ++ d :: rev w' ++ [e]) with ((x ++ a :: y ++ b :: z ++ d :: rev w') ++ [e]) in E
      by (repeat (rewrite <- app_assoc; cbn [app]); reflexivity).
    apply app_inj_tail in E. destruct E as [-> <-]. apply (H (c :: x) a y b z d (rev w')). reflexivity.
Qed.
Lemma turns_left_rotate X : forall Z, turns_left (X ++ Z) -> turns_left (Z ++ X).
Proof.
  induction X as [|c X IH]; intros Z H; [now rewrite app_nil_r|].
  cbn [app] in H. apply turns_left_rotate1 in H. rewrite <- app_assoc in H. apply IH in H. rewrite <- app_assoc in H. exact H.
Qed.
Lemma distinct_NoDup l : distinct l <-> NoDup l.
Proof.
  split.
  - induction l as [|c l IH]; intro H; constructor.
    + intro Hc. destruct (in_split _ _ Hc) as (y & z & ->). apply (H [] c y c z); reflexivity.
    + apply IH. intros x a y b z E. apply (H (c :: x) a y b z). rewrite E. reflexivity.
  - intros H x a y b z -> <-. apply NoDup_remove_2 in H. apply H. rewrite !in_app_iff. cbn. tauto.
Qed.
Lemma distinct_rotate X Z : distinct (X ++ Z) -> distinct (Z ++ X).
Proof.
  rewrite !distinct_NoDup. intro H. apply (Permutation.Permutation_NoDup (Permutation.Permutation_app_comm X Z)). exact H.
Qed.
Lemma edges_rotate1 c l u w : In (u, w) (poly_edges (l ++ [c])) -> In (u, w) (poly_edges (c :: l)).
Proof.
  rewrite !poly_edges_In. intros [(x & y & E)|(x & y & E & E2)].
  - destruct (rev y) as [|e y'] eqn:Ey; apply (f_equal (@rev P2)) in Ey; rewrite rev_involutive in Ey; cbn in Ey; subst y.
    + right. replace (x ++ [u; w]) with ((x ++ [u]) ++ [w]) in E by (rewrite <- app_assoc; reflexivity). apply app_inj_tail in E.
      destruct E as [-> ->]. exists (w :: x), (x ++ [u]). split; reflexivity.
    + left. replace (x ++ u :: w :: rev y' ++ [e]) with ((x ++ u :: w :: rev y') ++ [e]) in E by (rewrite <- app_assoc; reflexivity).
      apply app_inj_tail in E. destruct E as [-> ->]. exists (e :: x), (rev y'). reflexivity.
  - apply app_inj_tail in E. destruct E as [<- ->]. destruct l as [|d l]; cbn in E2; injection E2 as E2 E3.
    + subst w. right. exists [], []. auto.
    + subst d. left. exists [], l. reflexivity.
Qed.
Lemma edges_rotate X : forall Z u w, In (u, w) (poly_edges (Z ++ X)) -> In (u, w) (poly_edges (X ++ Z)).
Proof.
  induction X as [|c X IH]; intros Z u w H; [now rewrite app_nil_r in H|].
  cbn [app]. apply edges_rotate1. rewrite <- app_assoc. apply IH. rewrite <- app_assoc. exact H.
Qed.
Lemma split_unique (b : P2) : forall X x Y y, NoDup (X ++ b :: Y) -> X ++ b :: Y = x ++ b :: y -> X = x /\ Y = y.
Proof.
  induction X as [|c X IH]; intros x Y y H E; destruct x as [|d x]; cbn in E; inversion E; subst.
  - auto.
  - inversion H; subst. exfalso. apply H2. apply in_or_app. right. now left.
  - inversion H; subst. exfalso. apply H2. apply in_or_app. right. now left.
  - inversion H; subst. destruct (IH x Y y H4 H2) as [-> ->]. auto.
Qed.
Lemma next_corner X b Y a : NoDup (X ++ b :: Y) -> a <> b -> In (b, a) (poly_edges (X ++ b :: Y)) -> exists M, Y ++ X ++ [b] = a :: M ++ [b].
Proof.
  intros HN Hab H. apply poly_edges_In in H. destruct H as [(x & y & E)|(x & y & E & E2)].
  - destruct (split_unique b X x Y (a :: y) HN E) as [-> ->]. exists (y ++ x). cbn. now rewrite <- app_assoc.
  - destruct (split_unique b X x Y [] HN E) as [-> ->]. destruct x as [|c x]; cbn in E2; injection E2 as E2 E3; [congruence|].
    subst c. exists x. reflexivity.
Qed.

(** ** Convex polygons *)
Lemma convex_corner qs v : convex qs -> In v qs -> inside qs v.
Proof.
  intros [H _] Hv u w Huw. apply poly_edges_In in Huw. destruct Huw as [(x & y & E)|(x & y & E & E2)].
  - rewrite E in Hv. apply in_app_or in Hv. destruct Hv as [Hv|[<-|[<-|Hv]]].
    + destruct (in_split _ _ Hv) as (x1 & x2 & ->). rewrite orient_312. apply (H x1 v x2 u [] w y). rewrite E, <- app_assoc. reflexivity.
    + rewrite orient_start. lra.
    + rewrite orient_end. lra.
    + destruct (in_split _ _ Hv) as (y1 & y2 & ->). apply (H x u [] w y1 v y2). exact E.
  - destruct (in_split _ _ Hv) as (x1 & y1 & E3).
    assert (E4 : w = u \/ exists m, qs = w :: m ++ [u]).
    { rewrite E in E2. destruct x as [|c x]; cbn in E2; injection E2 as E2 E5; [left; congruence|right]. subst c. exists x. exact E. }
    destruct E4 as [->|(m & E4)]; [replace (orient u u v) with 0 by (pts; ring); lra|].
    rewrite E4 in E3. destruct (split_first w u v m x1 y1 E3) as [[_ ->]|[x' ->]]; [rewrite orient_end; lra|].
    destruct (split_last w u v m _ y1 E3) as [[_ ->]|[y' ->]]; [rewrite orient_start; lra|].
    rewrite orient_231. apply (H [] w x' v y' u []). rewrite E4. exact E3.
Qed.
Lemma spaced_distinct qs : spaced qs -> distinct qs.
Proof.
  intros H x a y b z E Eab. specialize (H x a y b z E). subst b. replace (pdot (psub a a) (psub a a)) with 0 in H by (pts; ring). lra.
Qed.
Lemma spaced_far qs u w : spaced qs -> In (u, w) (poly_edges qs) -> u <> w -> 1 / 1000 < dist u w.
Proof.
  intros HS H Hne. assert (HD : 1 / 1000 <= pdot (psub u w) (psub u w)).
  { apply poly_edges_In in H. destruct H as [(x & y & E)|(x & y & E & E2)].
    - apply (HS x u [] w y). exact E.
    - rewrite E in E2. destruct x as [|c x]; cbn in E2; injection E2 as E2 E5; [congruence|]. subst c.
      replace (pdot (psub u w) (psub u w)) with (pdot (psub w u) (psub w u)) by (pts; ring). apply (HS [] w x u []). exact E. }
  unfold dist. pose proof (plen_sqr (psub u w)) as Q. pose proof (plen_nonneg (psub u w)) as Q2. set (d := plen (psub u w)) in *. clearbody d.
  destruct (Rlt_dec (1 / 1000) d); [assumption|exfalso]. assert (d * d <= 1 / 1000 * (1 / 1000)) by nra. lra.
Qed.

(** ** The polygons of the mesh *)
Lemma at_world_fun l i p q : at_world l i p -> at_world l i q -> p = q.
Proof. intros (v & H1 & H2) (w & H3 & H4). rewrite H1 in H3. injection H3 as <-. apply vp_inj. congruence. Qed.
Lemma corners_fun m id qs qs' : corners m id qs -> corners m id qs' -> qs = qs'.
Proof.
  intros (l & p & [H1 H2] & HF) (l' & p' & [H3 H4] & HF').
  assert (l' = l) by congruence. subst l'. assert (p' = p) by congruence. subst p'. clear -HF HF'.
  revert qs' HF'. induction HF; intros qs' HF'; inversion HF'; subst; [reflexivity|]. f_equal; [eapply at_world_fun; eauto|auto].
Qed.
Lemma plane_corners m id l p : plane_mesh m -> polygon_at m id l p -> exists qs, corners m id qs /\ Forall2 (at_world l) (pverts p) qs /\ convex qs /\ spaced qs.
Proof. intros [H _] HP. destruct (H id l p HP) as (qs & H1 & H2 & H3). exists qs. split; [exists l, p; auto|auto]. Qed.

Lemma goes_start m a b ids : goes m a b ids -> ids <> [].
Proof. intro H; inversion H; subst; [discriminate|now destruct ids0]. Qed.
Lemma walks_snoc m a pts ids q ids' : walks m a pts ids -> goes m (last pts a) q ids' -> walks m a (pts ++ [q]) (ids ++ ids').
Proof.
  induction 1 as [a|a p pts ids1 ids2 H1 H2 IH]; intro HG.
  - cbn in HG. cbn [app]. rewrite <- (app_nil_r ids'). apply walks_cons; [exact HG|constructor].
  - cbn [app]. rewrite <- app_assoc. apply walks_cons; [exact H1|]. apply IH.
    assert (E : last (p :: pts) a = last pts p). { clear. revert p. induction pts as [|c pts IH]; intro p; [reflexivity|]. change (last (c :: pts) a = last (c :: pts) p). clear IH. revert c. induction pts as [|d pts IH]; intro c; [reflexivity|]. exact (IH d). }
    rewrite <- E. exact HG.
Qed.

(** ** The far chain of a node *)
Lemma cut_edges_good (l : Layer RA) a b M r t0 t1 J : good_step a b M r t0 t1 J ->
  forall later vs u pre sp ty ss, a :: M ++ [b] = pre ++ sp :: later -> at_world l u sp -> Forall2 (at_world l) vs later -> J pre ty sp later ->
    cut_edges l (vp r) (vp (lerp a b t0), vp (lerp a b t1)) (windows2 (u :: vs)) ty = Ok ss ->
    forall s, In s ss -> exists pre' sp' ep' later', a :: M ++ [b] = pre' ++ sp' :: ep' :: later' /\
      at_world l (fst (sedge s)) sp' /\ at_world l (snd (sedge s)) ep' /\ good_piece a b r t0 t1 sp' ep' s.
Proof.
  intro HJ. induction later as [|ep later IH]; intros vs u pre sp ty ss EL Hu HF HJ0 H s Hs.
  - inversion HF; subst. cbn in H. inversion H; subst. destruct Hs.
  - destruct vs as [|w vs]; [inversion HF|]. assert (Hw : at_world l w ep) by (inversion HF; assumption).
    assert (HF' : Forall2 (at_world l) vs later) by (inversion HF; assumption).
    change (windows2 (u :: w :: vs)) with ((u, w) :: windows2 (w :: vs)) in H. cbn [cut_edges] in H.
    destruct Hu as (vu & U1 & U2). destruct Hw as (vw & W1 & W2).
    pose proof (nthN_Some_lt _ _ _ U1). pose proof (nthN_Some_lt _ _ _ W1).
    destruct (N.ltb_spec (lengthN (vertices l)) (N.max u w)) as [Q|_]; [lia|].
    unfold get_unchecked in H. rewrite U1, W1 in H. cbn [bind] in H.
    destruct (cut_edge _ _ _ _ _ _) as [out ty'] eqn:EC. inv_bind H. inversion H; subst ss; clear H.
    unfold world in U2, W2. rewrite U2, W2 in EC.
    pose proof (HJ pre sp ep later ty (u, w) EL HJ0) as G. cbv zeta in G. rewrite EC in G. cbn [fst snd] in G. destruct G as [G1 G2].
    apply in_app_or in Hs. destruct Hs as [Hs|Hs].
    + pose proof (cut_edge_edges _ _ _ _ _ _ _ _ EC s Hs) as ES. exists pre, sp, ep, later. split; [exact EL|].
      rewrite ES. cbn [fst snd]. split; [exists vu; auto|]. split; [exists vw; auto|]. now apply G1.
    + apply (IH vs w (pre ++ [sp]) ep ty' a0); auto; [rewrite EL, <- app_assoc; reflexivity|exists vw; auto].
Qed.

Lemma edges_between_chain (c : Ctx RA) n ss : edges_between c n = Ok ss ->
  exists l p x v y pl e,
    polygon_at (cmesh c) (nto n) l p /\ pverts p = x ++ v :: y /\
    nthN (layers (cmesh c)) (nprev n) = Some pl /\ nthN (vertices pl) (snd (nedge n)) = Some e /\
    ((at_position l (world pl e) v /\ forall u, In u x -> ~ at_position l (world pl e) u) \/
     forall u, In u (pverts p) -> ~ at_position l (world pl e) u) /\
    cut_edges l (nroot n) (ninterval n) (windows2 (y ++ x ++ [v])) RightNonObs = Ok ss.
Proof.
  intro H. unfold edges_between in H. inv_bind H. inv_bind H. inv_bind H. inv_bind H.
  rename a into l, a0 into p, a1 into ri, a2 into es.
  apply (proj1 (index_Ok _ _ _)) in E. apply (proj1 (index_Ok _ _ _)) in E0.
  unfold right_index in E1. inv_bind E1. inv_bind E1. rename a into pl, a0 into e.
  apply (proj1 (index_Ok _ _ _)) in E3. apply (proj1 (index_Ok _ _ _)) in E4.
  inv_bind E1. rename a into o. pose proof (close_index_spec _ _ _ _ _ E5) as HC.
  assert (exists x v y, pverts p = x ++ v :: y /\ ri = (lengthN x + 1)%N /\
     ((at_position l (world pl e) v /\ forall u, In u x -> ~ at_position l (world pl e) u) \/
     forall u, In u (pverts p) -> ~ at_position l (world pl e) u)) as (x & v & y & EP & ER & HO).
  { destruct o as [i|].
    - destruct HC as (x & v & y & H1 & H2 & H3 & H4). inversion E1; subst ri. exists x, v, y. split; [exact H1|]. split; [lia|]. left. split; [exact H3|exact H4].
    - inv_bind E1. inv_bind E1. inversion E1; subst ri. rename a into ds, a0 into k.
      apply nearest_index_lt in E7.
      assert (length ds = length (pverts p)) as EL.
      { clear - E6. revert ds E6. induction (pverts p) as [|w r IH]; intros ds H; cbn [mapM] in H; [inversion H; reflexivity|].
        inv_bind H. inv_bind H. inversion H; subst ds. cbn. f_equal. now apply IH. }
      destruct (nthN_lt_Some (pverts p) k) as [v Hv]; [unfold lengthN in *; lia|].
      rewrite nthN_nth_error in Hv. destruct (nth_error_split _ _ Hv) as (x & y & H1 & H2).
      exists x, v, y. split; [exact H1|]. split; [unfold lengthN; lia|]. right. exact HC. }
  subst ri. rewrite (circular_after p x v y EP) in E2. inversion E2; subst es.
  exists l, p, x, v, y, pl, e. split; [split; [exact E|exact E0]|]. auto 10.
Qed.

Lemma lt_R x y : flt (Some x : F RA) (Some y) = true <-> x < y.
Proof. cbn. apply rltb_true. Qed.
Lemma at_position_R l pos i q : at_world l i q -> (at_position l (vp pos) i <-> pdot (psub q pos) (psub q pos) < 1 / 1000).
Proof.
  intros (v & H1 & H2). split.
  - intros (w & H3 & H4). rewrite H1 in H3. injection H3 as <-. rewrite H2, vdist2_vp in H4. apply lt_R in H4. exact H4.
  - intro H. exists v. split; [exact H1|]. rewrite H2, vdist2_vp. apply lt_R. exact H.
Qed.

Lemma Forall2_mid {X Y} (R : X -> Y -> Prop) v y : forall x qs, Forall2 R (x ++ v :: y) qs ->
  exists X' q Y', qs = X' ++ q :: Y' /\ Forall2 R x X' /\ R v q /\ Forall2 R y Y'.
Proof.
  induction x as [|u x IH]; intros qs H; cbn [app] in H; inversion H; subst.
  - exists [], y0, l'. repeat split; auto.
  - destruct (IH _ H4) as (X' & q & Y' & -> & H5 & H6 & H7). exists (y0 :: X'), q, Y'. repeat split; auto.
Qed.
Lemma spaced_unique qs u w : spaced qs -> In u qs -> In w qs -> pdot (psub u w) (psub u w) < 1 / 1000 -> u = w.
Proof.
  intros HS Hu Hw H. destruct (in_split _ _ Hu) as (x & y & ->). apply in_app_or in Hw. destruct Hw as [Hw|[Hw|Hw]]; [|assumption|].
  - destruct (in_split _ _ Hw) as (x1 & x2 & ->). specialize (HS x1 w x2 u y). rewrite <- app_assoc in HS. specialize (HS eq_refl).
    replace (pdot (psub w u) (psub w u)) with (pdot (psub u w) (psub u w)) in HS by (pts; ring). lra.
  - destruct (in_split _ _ Hw) as (y1 & y2 & ->). specialize (HS x u y1 w y2 eq_refl). lra.
Qed.
Lemma rotation_edges X b Y L pre u w later : Y ++ X ++ [b] = L -> L = pre ++ u :: w :: later -> In (u, w) (poly_edges (X ++ b :: Y)).
Proof.
  intros <- E. replace (X ++ b :: Y) with ((X ++ [b]) ++ Y) by (rewrite <- app_assoc; reflexivity). apply edges_rotate.
  rewrite E. apply poly_edges_In. left. eauto.
Qed.

Lemma node_far (c : Ctx RA) n l p a b r t0 t1 ss :
  plane_mesh (cmesh c) -> polygon_at (cmesh c) (nfrom n) l p -> at_world l (fst (nedge n)) a -> at_world l (snd (nedge n)) b ->
  nprev n = id_layer (nfrom n) -> u32_crossing (cmesh c) (node_crossing n) ->
  nroot n = vp r -> ninterval n = (vp (lerp a b t0), vp (lerp a b t1)) -> 0 <= t0 < t1 /\ t1 <= 1 -> 0 <= orient a b r ->
  clear_view (cmesh c) n -> edges_between c n = Ok ss ->
  exists l' p' qs M, polygon_at (cmesh c) (nto n) l' p' /\ corners (cmesh c) (nto n) qs /\ convex qs /\ In a qs /\ In b qs /\
    turns_left (a :: M ++ [b]) /\ distinct (a :: M ++ [b]) /\ (exists z, In z (a :: M ++ [b]) /\ orient a b z < 0) /\
    (forall pre u w later, a :: M ++ [b] = pre ++ u :: w :: later -> In (u, w) (poly_edges qs)) /\
    forall s, In s ss -> exists pre sp ep later, a :: M ++ [b] = pre ++ sp :: ep :: later /\
      at_world l' (fst (sedge s)) sp /\ at_world l' (snd (sedge s)) ep /\ good_piece a b r t0 t1 sp ep s.
Proof.
  intros HM HP Ha Hb Hprev HV Er EI Ht Hr HC H. destruct (edges_between_chain c n ss H) as (l' & p' & x & v & y & pl & e & HP' & EV & Epl & Ee & HO & HCut).
  destruct (plane_corners _ _ _ _ HM HP') as (qs & Hqs & HF & Hcx & Hsp).
  pose proof (proj2 HM _ l p a b qs HV HP Ha Hb Hqs) as Hba. cbn [node_crossing cr_to] in Hba.
  assert (HinB : In b qs /\ In a qs).
  { apply poly_edges_In in Hba. destruct Hba as [(x1 & y1 & E)|(x1 & y1 & E & E2)].
    - rewrite E. split; apply in_or_app; right; [left|right; left]; reflexivity.
    - split; [rewrite E; apply in_or_app; right; left; reflexivity|rewrite E2; left; reflexivity]. }
  assert (Epos : world pl e = vp b).
  { destruct Hb as (vb & B1 & B2). assert (pl = l) as -> by (destruct HP as [HP _]; rewrite Hprev in Epl; congruence).
    assert (e = vb) by congruence. subst e. exact B2. }
  rewrite Epos in HO.
  rewrite EV in HF. destruct (Forall2_mid _ _ _ _ _ HF) as (X & q & Y & EQ & FX & Fv & FY).
  assert (q = b).
  { destruct HO as [[HO _]|HO].
    - apply (proj1 (at_position_R _ _ _ _ Fv)) in HO. apply (spaced_unique qs); auto; [rewrite EQ; apply in_or_app; right; left; reflexivity|apply HinB].
    - exfalso. assert (exists i, In i (pverts p') /\ at_world l' i b) as (i & I1 & I2).
      { rewrite EV. destruct HinB as [HinB _]. clear -HF HinB. induction HF as [|i z vs zs Hz HF IH]; [destruct HinB|].
        destruct HinB as [<-|HinB]; [exists i; split; [now left|assumption]|]. destruct (IH HinB) as (j & J1 & J2). exists j. split; [now right|assumption]. }
      apply (HO i I1). apply (proj2 (at_position_R _ _ _ _ I2)). replace (pdot (psub b b) (psub b b)) with 0 by (pts; ring). lra. }
  subst q.
  assert (HD : distinct qs) by now apply spaced_distinct.
  assert (Hne : exists z, In z qs /\ 0 < orient b a z) by (apply (proj2 Hcx); exact Hba).
  assert (Hab : a <> b). { intros ->. destruct Hne as (z & _ & Hz). replace (orient b b z) with 0 in Hz by (pts; ring). lra. }
  rewrite EQ in HD, Hba. destruct (next_corner X b Y a (proj1 (distinct_NoDup _) HD) Hab Hba) as [M EM].
  assert (EQ' : X ++ b :: Y = (X ++ [b]) ++ Y) by (rewrite <- app_assoc; reflexivity).
  assert (HT : turns_left (a :: M ++ [b])). { rewrite <- EM. apply turns_left_rotate. rewrite <- EQ', <- EQ. exact (proj1 Hcx). }
  assert (HDs : distinct (a :: M ++ [b])). { rewrite <- EM. apply distinct_rotate. rewrite <- EQ'. exact HD. }
  assert (HinL : forall z, In z qs <-> In z (a :: M ++ [b])). { intro z. rewrite <- EM, EQ, !in_app_iff. cbn. tauto. }
  assert (HZ : exists z, In z (a :: M ++ [b]) /\ orient a b z < 0).
  { destruct Hne as (z & Hz1 & Hz2). exists z. split; [now apply HinL|]. rewrite orient_213. lra. }
  assert (HE : forall pre u w later, a :: M ++ [b] = pre ++ u :: w :: later -> In (u, w) (poly_edges qs)).
  { intros pre u w later E. rewrite EQ. apply (rotation_edges X b Y _ pre u w later EM E). }
  destruct (HC r _ _ l p a b qs Er EI HP Ha Hb Hqs) as [HC1 HC2].
  destruct (good_chain a b M r t0 t1 HT HDs HZ Ht) as (J & HJ & HJ0); [| exact Hr| |].
  { intros pre sp ep later E. assert (sp <> b).
    { intros ->. apply (proj1 (distinct_NoDup _)) in HDs. destruct (split_last a b b M _ _ E) as [[Q _]|[y' Q]]; [discriminate|].
      rewrite Q in E. rewrite E in HDs. apply NoDup_remove_2 in HDs. apply HDs. rewrite !in_app_iff. cbn. tauto. }
    destruct (HC1 sp ep (HE _ _ _ _ E) H0). split; [assumption|]. split; [assumption|]. apply (spaced_far qs); auto; [now apply HE in E|].
    intros ->. apply (proj1 (distinct_NoDup _)) in HDs. rewrite E in HDs. apply NoDup_remove_2 in HDs. apply HDs. apply in_or_app. right. left. reflexivity. }
  { intro E. destruct (HC2 E) as [(t & T1 & T2)|Q]; [left; exists t; auto|right]. intros u Hu. apply Q.
    - apply HinL. right. apply in_or_app. now left.
    - intros ->. apply (proj1 (distinct_NoDup _)) in HDs. inversion HDs; subst. apply H2. apply in_or_app. now left.
    - intros ->. apply (proj1 (distinct_NoDup _)) in HDs. inversion HDs; subst. apply NoDup_remove_2 in H3. rewrite app_nil_r in H3. contradiction. }
  exists l', p', qs, M. split; [exact HP'|]. split; [exact Hqs|]. split; [exact Hcx|]. split; [apply HinB|]. split; [apply HinB|].
  split; [exact HT|]. split; [exact HDs|]. split; [exact HZ|]. split; [exact HE|].
  assert (HFL : Forall2 (at_world l') (y ++ x ++ [v]) (a :: M ++ [b])).
  { rewrite <- EM. apply Forall2_app; [exact FY|]. apply Forall2_app; [exact FX|]. constructor; [exact Fv|constructor]. }
  destruct (y ++ x ++ [v]) as [|u vs]; [inversion HFL|]. inversion HFL; subst.
  intros s Hs. rewrite Er, EI in HCut. exact (cut_edges_good l' a b M r t0 t1 J HJ (M ++ [b]) vs u [] a RightNonObs ss eq_refl H3 H5 HJ0 HCut s Hs).
Qed.

(** ** The invariant *)
Record seen (m : Mesh RA) (blocked : list N) (start : P2) (ps : N) (n : Node RA) : Prop := {
  seen_all : exists l p a b t0 t1 r turns ids ids' xs,
    polygon_at m (nfrom n) l p /\ at_world l (fst (nedge n)) a /\ at_world l (snd (nedge n)) b /\
    (0 <= t0 < t1 /\ t1 <= 1) /\ ninterval n = (vp (lerp a b t0), vp (lerp a b t1)) /\
    nroot n = vp r /\ 0 <= orient a b r /\
    npath n = map vp turns /\ walks m start turns ids /\ last turns start = r /\
    (forall s, 0 <= s <= 1 -> goes m r (lerp (lerp a b t0) (lerp a b t1) s) ids') /\
    corridor m ps xs (nfrom n) /\ ids ++ ids' = ps :: map cr_to xs /\
    Forall (fun x => ~ In (id_layer (cr_to x)) blocked) xs /\ ~ In (id_layer (nto n)) blocked
}.

Lemma boundary_edge_plane l vs qs u w a b : boundary_edge vs u w -> Forall2 (at_world l) vs qs -> at_world l u a -> at_world l w b ->
  distinct qs -> In (a, b) (poly_edges qs).
Proof.
  intros (i & H1 & H2) HF Ha Hb HD. destruct (nth_error_split _ _ H1) as (x & y & EV & Ex). rewrite EV in HF.
  destruct (Forall2_mid _ _ _ _ _ HF) as (X & q & Y & EQ & FX & Fv & FY).
  assert (q = a) by (eapply at_world_fun; eauto). subst q. apply poly_edges_In.
  assert (i < length vs)%nat by (apply nth_error_Some; congruence).
  destruct (Nat.eq_dec (S i) (length vs)) as [E|E].
  - right. rewrite E, Nat.mod_same in H2 by lia. assert (y = []) as ->.
    { apply length_zero_iff_nil. rewrite EV, app_length in E. cbn in E. lia. }
    inversion FY; subst Y. exists X.
    rewrite EV in H2. destruct x as [|x0 x]; cbn in H2; injection H2 as ->.
    + inversion FX; subst X. assert (b = a) by (eapply at_world_fun; eauto). subst b. exists []. rewrite EQ. auto.
    + inversion FX; subst. assert (y = b) by (eapply at_world_fun; eauto). subst y. exists (l' ++ [a]). auto.
  - left. rewrite Nat.mod_small in H2 by lia. rewrite EV, nth_error_app2 in H2 by lia. replace (S i - length x)%nat with 1%nat in H2 by lia.
    cbn in H2. destruct y as [|w' y]; [discriminate|]. cbn in H2. injection H2 as ->. inversion FY; subst.
    assert (y0 = b) by (eapply at_world_fun; eauto). subst y0. eauto.
Qed.

Lemma new_node_stay (c : Ctx RA) root os s e n : veq root (nroot n) = true -> npath (new_node c root os s e n) = npath n.
Proof. intro H. unfold new_node. cbn [npath]. rewrite H. reflexivity. Qed.
Lemma new_node_move (c : Ctx RA) root os s e n : veq root (nroot n) = false -> npath (new_node c root os s e n) = npath n ++ [root].
Proof. intro H. unfold new_node. cbn [npath]. rewrite H. reflexivity. Qed.

Lemma seen_start (c : Ctx RA) start ps n : plane_mesh (cmesh c) -> (exists qs, corners (cmesh c) ps qs /\ inside qs start) ->
  gen_start c (vp start) ps n -> seen (cmesh c) (cblocked c) start ps n.
Proof.
  intros HM (qs' & Hqs' & HI) (l & p & u & w & sv & ev & HP & HB & Hu & Hw & H). cbv zeta in H. destruct H as (Hblk & _ & En & _ & _).
  destruct (plane_corners _ _ _ _ HM HP) as (qs & Hqs & HF & Hcx & Hsp).
  assert (qs' = qs) by (eapply corners_fun; eauto). subst qs'.
  assert (exists a, at_world l u a /\ In a qs) as (a & Ha & Hain).
  { destruct HB as (i & H1 & _). destruct (nth_error_split _ _ H1) as (x & y & EV & _). rewrite EV in HF.
    destruct (Forall2_mid _ _ _ _ _ HF) as (X & q & Y & -> & _ & Fv & _). exists q. split; [exact Fv|]. apply in_or_app. right. now left. }
  assert (exists b, at_world l w b /\ In b qs) as (b & Hb & Hbin).
  { destruct HB as (i & _ & H1). destruct (nth_error_split _ _ H1) as (x & y & EV & _). rewrite EV in HF.
    destruct (Forall2_mid _ _ _ _ _ HF) as (X & q & Y & -> & _ & Fv & _). exists q. split; [exact Fv|]. apply in_or_app. right. now left. }
  pose proof (boundary_edge_plane l _ qs u w a b HB HF Ha Hb (spaced_distinct _ Hsp)) as Hab.
  split. exists l, p, a, b, 0, 1, start, [], [], [ps], [].
  assert (E0 : npath n = []) by (rewrite En; apply new_node_stay; cbn [nroot empty_node]; apply (proj2 (veq_vp start start)); reflexivity).
  assert (EA : world l sv = vp a). { destruct Ha as (v & V1 & V2). congruence. }
  assert (EB : world l ev = vp b). { destruct Hb as (v & V1 & V2). congruence. }
  unfold world in EA, EB. rewrite EA, EB in En.
  rewrite E0, En. cbn [nfrom nedge ninterval nroot new_node fst snd empty_node nto map].
  split; [exact HP|]. split; [exact Ha|]. split; [exact Hb|]. split; [lra|]. rewrite lerp_0, lerp_1. split; [reflexivity|]. split; [reflexivity|].
  split; [apply HI; exact Hab|]. split; [reflexivity|]. split; [constructor|]. split; [reflexivity|]. split; [|split; [constructor|split; [reflexivity|split; [constructor|apply memN_false; exact Hblk]]]].
  intros s Hs. apply (goes_one _ _ _ _ qs); auto. apply inside_lerp; auto; apply convex_corner; auto.
Qed.

Lemma seen_step (c : Ctx RA) start ps n n' : plane_mesh (cmesh c) -> nprev n = id_layer (nfrom n) -> u32_crossing (cmesh c) (node_crossing n) ->
  clear_view (cmesh c) n -> seen (cmesh c) (cblocked c) start ps n -> gen_step c n n' -> seen (cmesh c) (cblocked c) start ps n'.
Proof.
  intros HM Hprev HV HC [(l & p & a & b & t0 & t1 & r & turns & ids & ids' & xs & HP & Ha & Hb & Ht & EI & Er & Hr & EN & HW & EL & HG & HX & EX & HB1 & HB2)]
    (s & root & l2 & ss & sv & ev & Hl2 & Hss & Hs & Hsv & Hev & H). cbv zeta in H. destruct H as (_ & Hblk & _ & _ & HRC & Hfar & En & _ & _).
  destruct (node_far c n l p a b r t0 t1 ss HM HP Ha Hb Hprev HV Er EI Ht Hr HC Hss)
    as (l' & p' & qs & M & HP' & Hqs & Hcx & Haq & Hbq & HT & HD & HZ & HE & HS).
  assert (l2 = l') by (destruct HP' as [HP' _]; congruence). subst l2.
  destruct (HS s Hs) as (pre & sp & ep & later & ELL & Hsp & Hep & (q1 & q2 & (EQI & s0 & s1 & Hs01 & Hs1 & EQ1 & EQ2) & _ & _ & HObs)).
  set (i0 := lerp a b t0) in *. set (i1 := lerp a b t1) in *.
  assert (Hq12 : q1 <> q2).
  { intro E. rewrite EQI, E in Hfar. cbn [fst snd] in Hfar. rewrite vdist2_vp in Hfar. assert (pdot (psub q2 q2) (psub q2 q2) < 1 / 10000000000) as Q.
    { replace (pdot (psub q2 q2) (psub q2 q2)) with 0 by (pts; ring). lra. }
    apply (proj2 (lt_R _ _)) in Q. rewrite c1em10_R in Hfar. congruence. }
  assert (Hlt : s0 < s1). { destruct (Req_EM_T s0 s1) as [->|]; [congruence|lra]. }
  pose proof (HE _ _ _ _ ELL) as Hedge.
  assert (Ia : inside qs a) by (apply convex_corner; auto). assert (Ib : inside qs b) by (apply convex_corner; auto).
  assert (Hsin : In sp qs /\ In ep qs).
  { apply poly_edges_In in Hedge. destruct Hedge as [(x1 & y1 & E)|(x1 & y1 & E & E2)].
    - rewrite E. split; apply in_or_app; right; [left|right; left]; reflexivity.
    - split; [rewrite E; apply in_or_app; right; left; reflexivity|rewrite E2; left; reflexivity]. }
  assert (Isp : inside qs sp) by (apply convex_corner; auto; apply Hsin). assert (Iep : inside qs ep) by (apply convex_corner; auto; apply Hsin).
  assert (I0 : inside qs i0) by (apply inside_lerp; auto; lra). assert (I1 : inside qs i1) by (apply inside_lerp; auto; lra).
  assert (Iq1 : inside qs q1) by (rewrite EQ1; apply inside_lerp; auto; lra). assert (Iq2 : inside qs q2) by (rewrite EQ2; apply inside_lerp; auto; lra).
  assert (HX' : corridor (cmesh c) ps (xs ++ [node_crossing n]) (nto n)).
  { apply (corridor_snoc (cmesh c) ps xs (node_crossing n)); [exact HX|exact (proj1 HV)]. }
  (* it is enough to give the new root *)
  assert (Build : forall r' turns' jds jds', root = vp r' -> npath n' = map vp turns' -> walks (cmesh c) start turns' jds -> last turns' start = r' ->
     0 <= orient sp ep r' -> (forall k, 0 <= k <= 1 -> goes (cmesh c) r' (lerp q1 q2 k) jds') -> jds ++ jds' = (ids ++ ids') ++ [nto n] -> seen (cmesh c) (cblocked c) start ps n').
  { intros r' turns' jds jds' Er' EN' HW' EL' Hside HG' EJ. split. exists l', p', sp, ep, s0, s1, r', turns', jds, jds', (xs ++ [node_crossing n]).
    assert (EI' : ninterval n' = (vp q1, vp q2)) by (rewrite En; cbn [ninterval new_node fst snd]; rewrite EQI; reflexivity).
    rewrite EI', <- EQ1, <- EQ2. rewrite EN'. rewrite En. cbn [nfrom nedge nroot new_node fst snd].
    split; [exact HP'|]. split; [exact Hsp|]. split; [exact Hep|]. split; [lra|]. split; [reflexivity|]. split; [exact Er'|]. split; [exact Hside|].
    split; [reflexivity|]. split; [exact HW'|]. split; [exact EL'|]. split; [exact HG'|]. split; [exact HX'|].
    split; [rewrite EJ, EX, map_app; reflexivity|]. split; [apply Forall_app; split; [exact HB1|apply Forall_cons; [exact HB2|apply Forall_nil]]|apply memN_false; exact Hblk]. }
  (* a turn at an end of the interval *)
  assert (Turn : forall i k, root = vp i -> 0 <= k <= 1 -> i = lerp i0 i1 k -> inside qs i -> seen (cmesh c) (cblocked c) start ps n').
  { intros i k Ei Hk Eik Ii. assert (Hside : 0 <= orient sp ep i) by (apply Ii; exact Hedge).
    destruct (P2_dec i r) as [E|E].
    - rewrite E in Ei, Eik, Ii, Hside. clear i E. apply (Build r turns ids (ids' ++ [nto n])); auto.
      + rewrite En, new_node_stay; [exact EN|]. rewrite Ei, Er. now apply veq_vp.
      + intros k' Hk'. apply (goes_more _ _ _ 0 _ _ qs); [lra| | |rewrite lerp_0; exact Ii|apply inside_lerp; auto].
        * rewrite lerp_0. rewrite Eik at 2. apply HG. exact Hk.
        * exact Hqs.
      + now rewrite app_assoc.
    - apply (Build i (turns ++ [i]) (ids ++ ids') [nto n]); auto.
      + rewrite En, new_node_move; [rewrite EN, map_app, Ei; reflexivity|]. rewrite Ei, Er. now apply veq_vp_false.
      + apply walks_snoc; [exact HW|]. rewrite EL, Eik. apply HG. exact Hk.
      + apply last_last.
      + intros k' Hk'. apply (goes_one _ _ _ _ qs); auto. apply inside_lerp; auto. }
  unfold root_choice in HRC. rewrite EI in HRC. cbn [fst snd] in HRC. destruct (sty s) eqn:Ety.
  - destruct HRC as (_ & _ & ->). apply (Turn i1 1); auto; [lra|now rewrite lerp_1].
  - subst root. destruct (HObs eq_refl Hq12) as [(k & Hk & Erk)|(Hpos & C1 & C2)].
    + fold i0 i1 in Erk. apply (Turn r k); auto. rewrite Erk. apply inside_lerp; auto.
    + (* seen through the interval *)
      fold i0 i1 in C1, C2.
      assert (Hthrough : forall k, 0 <= k <= 1 -> exists t sg, 0 <= t <= 1 /\ 0 <= sg <= 1 /\ lerp r (lerp q1 q2 k) t = lerp i0 i1 sg /\ (t = 1 -> orient a b (lerp q1 q2 k) = 0)).
      { intros k Hk. apply (cone_through a b M HD r t0 t1 Ht Hpos).
        - rewrite EQ1, EQ2, lerp_lerp. apply (far_edge_side a b M HT pre sp ep later); auto. split; nra.
        - destruct C1 as [C1 C1'], C2 as [C2 C2']. split; fold i0 i1; rewrite orient_lerp3; [apply affine_between; auto|].
          assert (0 <= (1 - k) * - orient r i1 q1 + k * - orient r i1 q2) by (apply affine_between; lra). lra. }
      apply (Build r turns ids (ids' ++ [nto n])); auto.
      * rewrite En, new_node_stay; [exact EN|]. rewrite Er. now apply veq_vp.
      * (* the side of the root *)
        assert (Hline : forall q t sg, orient sp ep q = 0 -> 0 <= t <= 1 -> 0 <= sg <= 1 -> lerp r q t = lerp i0 i1 sg -> t <> 1 -> 0 <= orient sp ep r).
        { intros q t sg Q1 Q2 Q3 Q4 Q5. assert (0 <= orient sp ep (lerp r q t)) as Q6 by (rewrite Q4; apply inside_lerp with (qs := qs); auto).
          rewrite orient_lerp3, Q1 in Q6. destruct (Rle_dec 0 (orient sp ep r)); [assumption|exfalso]. nra. }
        assert (O1 : orient sp ep q1 = 0) by (rewrite EQ1, orient_lerp3, orient_start, orient_end; ring).
        assert (O2 : orient sp ep q2 = 0) by (rewrite EQ2, orient_lerp3, orient_start, orient_end; ring).
        destruct (Hthrough 0 ltac:(lra)) as (ta & sa & Ta & Sa & Ea & _). rewrite lerp_0 in Ea.
        destruct (Hthrough 1 ltac:(lra)) as (tb & sb & Tb & Sb & Eb & _). rewrite lerp_1 in Eb.
        destruct (Req_EM_T ta 1) as [Xa|Xa]; [|exact (Hline q1 ta sa O1 Ta Sa Ea Xa)].
        destruct (Req_EM_T tb 1) as [Xb|Xb]; [|exact (Hline q2 tb sb O2 Tb Sb Eb Xb)].
        exfalso. subst ta tb. rewrite lerp_1 in Ea, Eb. unfold i0, i1 in Ea, Eb. rewrite lerp_lerp in Ea, Eb. rewrite EQ1 in Ea. rewrite EQ2 in Eb.
        assert (Sa' : 0 <= t0 + sa * (t1 - t0) <= 1) by (split; nra). assert (Sb' : 0 <= t0 + sb * (t1 - t0) <= 1) by (split; nra).
        assert (Hs0b : 0 <= s0 <= 1) by lra. assert (Hs1b : 0 <= s1 <= 1) by lra.
        pose proof (far_near a b M HT HD HZ pre sp ep later s0 _ ELL Hs0b Sa' Ea) as G1.
        pose proof (far_near a b M HT HD HZ pre sp ep later s1 _ ELL Hs1b Sb' Eb) as G2.
        destruct G1 as [(_ & Epre & _)|(Q & _)]; [|lra]. destruct G2 as [(Q & _)|(_ & Elat & _)]; [lra|].
        destruct HZ as (z & Hz & Hz2). rewrite ELL, Epre, Elat in Hz. rewrite Epre, Elat in ELL. cbn [app] in ELL.
        assert (EM : M = []).
        { apply length_zero_iff_nil. apply (f_equal (@length P2)) in ELL. cbn [length] in ELL. rewrite app_length in ELL. cbn [length] in ELL. lia. }
        rewrite EM in ELL. injection ELL as E1 E2. rewrite <- E1, <- E2 in Hz. cbn [app] in Hz.
        destruct Hz as [Hz|[Hz|[]]]; rewrite <- Hz in Hz2; [rewrite orient_start in Hz2|rewrite orient_end in Hz2]; lra.
      * intros k Hk. destruct (Hthrough k Hk) as (t & sg & T & Sg & E & _). apply (goes_more _ _ _ t _ _ qs); auto.
        -- rewrite E. apply HG. exact Sg.
        -- rewrite E. apply inside_lerp; auto.
        -- apply inside_lerp; auto.
      * now rewrite app_assoc.
  - destruct HRC as (_ & _ & ->). apply (Turn i0 0); auto; [lra|now rewrite lerp_0].
Qed.

Lemma corridor_u32 m ps xs x y : u32_ids m -> (ps < 2^32)%N -> corridor m ps (xs ++ [x]) y -> u32_crossing m x.
Proof.
  intros HU Hp H. inversion H as [|z zs w HC HV]; [destruct xs; discriminate|].
  match goal with E : _ ++ [_] = _ ++ [_] |- _ => apply app_inj_tail in E; destruct E; subst end. split; [exact HV|].
  clear HV H. inversion HC as [|z' xs' x' HC' HV']; [subst; exact Hp|].
  destruct HV' as (l & p & va & vb & [Hl _] & _ & Hv & _ & HI & _). apply nthN_In in Hl, Hv. exact (HU l va _ Hl Hv HI).
Qed.
