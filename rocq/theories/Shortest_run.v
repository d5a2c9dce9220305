(** C63: the queue always holds a node on a best route, so that the first final node that is taken out of it is the end of one. *)
From Coq Require Import List NArith ZArith Bool Reals Lra Psatz Lia Classical Permutation.
From Verif Require Import Base Arith U32 Mesh Helpers Stitch_facts Search StdLib Spec Search_facts Search_props Search_hist Search_cost Search_safe RealArith Geometry Heuristic F32_facts
  Properties_expand Properties_geometry Properties_heuristic Rings Spec_inside Sight Sight_search Sight_static Spec_shortest Shortest_routes Shortest_bend Shortest_pieces
  Shortest_nodes Shortest_cover Shortest_search.
Import ListNotations.
Open Scope R_scope.

(** ** What the operations keep *)
Lemma added_keeps {A : Arith} (st st' : State A) n' : added st n' st' -> incl (sbuffer st) (sbuffer st') /\ squeue st' = squeue st.
Proof. intro H. inversion H; subst; cbn [sbuffer squeue]; split; auto; intros x Hx; apply in_or_app; now left. Qed.
Lemma expand_keeps {A : Arith} (c : Ctx A) n st st' : expand c n st = Ok st' -> squeue st' = squeue st.
Proof.
  intro H. eapply (expand_inv c n st st' (fun s => squeue s = squeue st)); [|reflexivity|exact H].
  intros s n' s' E _ Ha. destruct (added_keeps _ _ _ Ha) as [_ Q]. congruence.
Qed.
Lemma successors_keeps {A : Arith} (c : Ctx A) fuel : forall vis n st st', successors fuel c vis n st = Ok st' -> incl (squeue st) (squeue st').
Proof.
  induction fuel as [|fuel IH]; intros vis n st st' H; simpl in H; [discriminate|]. inv_bind H. apply expand_keeps in E.
  assert (F : incl (squeue st) (squeue (flush_nodes a))) by (intros x Hx; cbn; apply in_or_app; left; congruence).
  destruct (sbuffer a) as [|n' [|x y]] eqn:EB; try (inversion H; subst; exact F).
  destruct (N.eqb (nto n') (cpto c)); [inversion H; subst; exact F|].
  assert (F2 : incl (squeue st) (squeue (flush_nodes (mkState (squeue a) [] (shist a))))) by (intros x Hx; cbn; apply in_or_app; left; congruence).
  destruct (reverse_of n' n); [inversion H; subst; exact F2|]. destruct (memN (nto n') vis); [inversion H; subst; exact F2|].
  apply IH in H. cbn [squeue] in H. rewrite E in H. exact H.
Qed.
Lemma add_node_adds {A : Arith} (c : Ctx A) st root os s e n n' : n' = new_node c root os s e n -> fnan (ng n') = false -> fnan (nh n') = false ->
  (forall o, hist_get (shist st) root = Some o -> flt o (ng n') = false) -> In n' (sbuffer (add_node c st root os s e n)).
Proof.
  intros -> H1 H2 H3. unfold add_node. cbv zeta. rewrite H1, H2. cbn [orb]. destruct (hist_get (shist st) root) as [o|] eqn:E.
  - rewrite (H3 o eq_refl). cbn [sbuffer]. apply in_or_app. right. now left.
  - cbn [sbuffer]. apply in_or_app. right. now left.
Qed.
Lemma expand_one_via {A : Arith} (c : Ctx A) n s root n' l st st' : gen_step_via c n s root n' -> nthN (layers (cmesh c)) (id_layer (nto n)) = Some l ->
  (forall o, hist_get (shist st) root = Some o -> flt o (ng n') = false) -> expand_one c n l st s = Ok st' -> In n' (sbuffer st').
Proof.
  intros (l' & ss & sv & ev & Hl' & _ & _ & Hsv & Hev & H) Hl Hdom He. cbv zeta in H. destruct H as (HM & Hb & Hd & Hf & HR & Hsz & En & N1 & N2).
  assert (l' = l) by congruence. subst l'. unfold expand_one in He.
  rewrite (proj2 (get_unchecked_Ok _ _ _) Hsv) in He. cbn [bind] in He. rewrite (proj2 (get_unchecked_Ok _ _ _) Hev) in He. cbn [bind] in He.
  set (os := other_side sv ev (nto n)) in *. rewrite (proj2 (N.eqb_neq _ _) HM), Hb in He.
  inv_bind He. assert (a = false) as ->.
  { destruct (N.eqb_spec (cpto c) os) as [Q|Q]; [congruence|]. destruct Hd as [Hd|(q & Q1 & Q2)]; [congruence|]. rewrite Q1 in E. cbn [bind] in E. congruence. }
  rewrite (proj2 (N.eqb_neq _ _) Hf) in He. inv_bind He. assert (a = Some root) as ->.
  { unfold root_choice in HR. destruct (sty s).
    - destruct HR as (G1 & G2 & G3). rewrite G1, G2 in E0. cbn [bind] in E0. congruence.
    - congruence.
    - destruct HR as (G1 & G2 & G3). rewrite G1, G2 in E0. cbn [bind] in E0. congruence. }
  rewrite Hsz in He. assert (E1 : st' = add_node c st root os (fst (sinterval s), fst (sedge s)) (snd (sinterval s), snd (sedge s)) n) by congruence.
  rewrite E1. apply add_node_adds; auto.
Qed.

Section Run.
Context (m : Mesh RA) (blocked : list N) (start goal : P2) (ps pe : N).
Context (HM : plane_mesh m) (HI : ids_wf m) (HG : generic m start ps pe goal) (HF : faultless m blocked ps).
Context (c : Ctx RA) (Ec : cmesh c = m) (Eb : cblocked c = blocked) (Ep : cpto c = pe) (Eg : cgoal c = vp goal).
Context (HU : u32_ids m) (HP32 : (ps < 2 ^ 32)%N) (HMAX : pe <> MAX).
Notation links := (links m blocked).
Notation best := (best m blocked ps pe start goal).
Notation node_at := (node_at m start).
Notation good := (good m blocked start goal ps pe c).
Notation hist := (hist_inv c (vp start) ps).

Lemma good_kept X1 X2 n st o : good X1 X2 n -> hist st -> hist_get (shist st) (nroot n) = Some o -> flt o (ng n) = false.
Proof using HM HI HG HF Ec Eb Ep HU HP32 HMAX.
  intros [HR (a & b & r & t0 & t1 & pre & post & x & B & HN & HRt & Hx & Dx & HB & E1 & E2)] Hh Ho.
  apply (hi_att _ _ _ _ Hh) in Ho. rewrite (na_root _ _ _ _ _ _ _ _ HN) in Ho.
  exact (not_dominated m blocked start goal ps pe HM HI HG HF c Ec Eb Ep HU HP32 HMAX n a b r t0 t1 pre _ _ o HN HRt HB Ho).
Qed.
Lemma good_nodup X1 X2 n : good X1 X2 n -> NoDup (ps :: map cr_to (X1 ++ node_crossing n :: X2)).
Proof using.
  intros [_ (a & b & r & t0 & t1 & pre & post & x & B & _ & _ & _ & _ & HB & E1 & E2)]. apply best_simple in HB. unfold polys in HB.
  rewrite <- E1, <- E2. replace (map cr_to (map fst (pre ++ post) ++ node_crossing n :: map fst B)) with (map (fun x : stop => cr_to (fst x)) (pre ++ post ++ (node_crossing n, x) :: B)); [exact HB|].
  rewrite app_assoc, map_app. etransitivity; [|symmetry; apply map_app]. rewrite !map_map. f_equal. cbn [map fst]. f_equal. now rewrite map_map.
Qed.

Lemma expand_good X1 X2 n st st' : good X1 X2 n -> nto n <> pe -> hist st -> expand c n st = Ok st' ->
  exists s root n' X2', X2 = node_crossing n' :: X2' /\ gen_step_via c n s root n' /\ good (X1 ++ [node_crossing n]) X2' n' /\ In n' (sbuffer st').
Proof using HM HI HG HF Ec Eb Ep Eg HU HP32 HMAX.
  intros Hgood Hto Hh He. unfold expand in He. inv_bind He. inv_bind He. apply index_Ok in E0.
  destruct (good_next m blocked start goal ps pe HM HI HG HF c Ec Eb Ep Eg HU HP32 HMAX X1 X2 n a Hgood Hto E) as (s & root & n' & X2' & EX & Hvia & Hgood').
  exists s, root, n', X2'. split; [exact EX|]. split; [exact Hvia|]. split; [exact Hgood'|].
  assert (Hs : In s a) by (destruct Hvia as (? & ss & ? & ? & _ & Q1 & Q2 & _); assert (ss = a) by congruence; now subst ss).
  assert (HRn : reachable c (vp start) ps n) by apply Hgood.
  assert (Step : forall x u u', In x a -> hist u -> expand_one c n a0 u x = Ok u' -> hist u' /\ incl (sbuffer u) (sbuffer u')).
  { intros x u u' Hx Hu Hst. destruct (expand_one_spec c n a0 a u x u' E0 E Hx Hst) as [->|(n1 & G1 & G2)]; [split; [exact Hu|intros ? ?; assumption]|].
    split; [|apply (added_keeps _ _ _ G2)]. eapply (hist_inv_added RA_order_laws); [exact Hu| |exact G2]. eapply reachable_step; eauto. }
  assert (Fold : forall xs u u', incl xs a -> hist u -> foldM (expand_one c n a0) u xs = Ok u' -> hist u' /\ incl (sbuffer u) (sbuffer u')).
  { induction xs as [|x xs IH]; intros u u' Hinc Hu Hf; cbn [foldM] in Hf; [inversion Hf; subst; split; [exact Hu|intros ? ?; assumption]|]. inv_bind Hf.
    destruct (Step x u a1 (Hinc x (or_introl eq_refl)) Hu E1) as [U1 U2]. destruct (IH a1 u' (fun y Hy => Hinc y (or_intror Hy)) U1 Hf) as [U3 U4].
    split; [exact U3|]. intros y Hy. auto. }
  destruct (in_split _ _ Hs) as (xs & ys & Ea). rewrite Ea in He. rewrite foldM_app in He. inv_bind He. cbn [foldM] in He. inv_bind He.
  destruct (Fold xs st a1) as [U1 _]; auto; [intros y Hy; rewrite Ea; apply in_or_app; now left|].
  destruct (Step s a1 a2 Hs U1 E2) as [U2 _].
  destruct (Fold ys a2 st') as [_ U3]; auto; [intros y Hy; rewrite Ea; apply in_or_app; right; now right|]. apply U3.
  apply (expand_one_via c n s root n' a0 a1 a2 Hvia E0); [|exact E2]. intros o Ho. apply (good_kept _ _ _ a1 o Hgood' U1).
  destruct Hvia as (? & ? & ? & ? & _ & _ & _ & _ & _ & Q). cbv zeta in Q. destruct Q as (_ & _ & _ & _ & _ & _ & -> & _). exact Ho.
Qed.

Lemma successors_good fuel : forall X1 X2 vis n st st', good X1 X2 n -> nto n <> pe -> hist st ->
  incl vis (ps :: map cr_to (X1 ++ [node_crossing n])) -> successors fuel c vis n st = Ok st' ->
  exists Y1 Y2 n', good Y1 Y2 n' /\ In n' (squeue st').
Proof using HM HI HG HF Ec Eb Ep Eg HU HP32 HMAX.
  induction fuel as [|fuel IH]; intros X1 X2 vis n st st' Hgood Hto Hh Hvis H; cbn [successors] in H; [discriminate|]. inv_bind H.
  destruct (expand_good X1 X2 n st a Hgood Hto Hh E) as (s & root & n' & X2' & EX & Hvia & Hgood' & Hin).
  assert (Ha : hist a).
  { eapply expand_inv with (I := hist); [|exact Hh|exact E]. intros st0 n1 st1 H1 H2 H3. eapply (hist_inv_added RA_order_laws); [exact H1| |exact H3].
    eapply reachable_step; [apply Hgood|exact H2]. }
  assert (Flush : exists Y1 Y2 n', good Y1 Y2 n' /\ In n' (squeue (flush_nodes a))).
  { exists (X1 ++ [node_crossing n]), X2', n'. split; [exact Hgood'|]. cbn. apply in_or_app. now right. }
  destruct (sbuffer a) as [|n1 [|x y]] eqn:EB; try (inversion H; subst; exact Flush).
  assert (n1 = n') by (destruct Hin as [|[]]; assumption). subst n1.
  destruct (N.eqb_spec (nto n') (cpto c)) as [Q|Q]; [inversion H; subst; exact Flush|].
  assert (Rev : reverse_of n' n = false).
  { destruct (reverse_of n' n) eqn:ER; [exfalso|reflexivity]. unfold reverse_of in ER. apply andb_prop in ER. destruct ER as [ER _]. apply andb_prop in ER. destruct ER as [ER _].
    apply andb_prop in ER. destruct ER as [ER _]. apply andb_prop in ER. destruct ER as [_ ER]. apply N.eqb_eq in ER.
    destruct Hvia as (? & ? & ? & ? & _ & _ & _ & _ & _ & G). cbv zeta in G. destruct G as (_ & _ & _ & G & _ & _ & En & _). rewrite En in ER. cbn [nto new_node] in ER. congruence. }
  assert (Mem : memN (nto n') vis = false).
  { destruct (memN (nto n') vis) eqn:EM; [exfalso|reflexivity]. apply memN_In in EM. apply Hvis in EM. pose proof (good_nodup _ _ _ Hgood') as HD.
    rewrite map_app in HD. change (ps :: map cr_to (X1 ++ [node_crossing n]) ++ map cr_to (node_crossing n' :: X2')) with ((ps :: map cr_to (X1 ++ [node_crossing n])) ++ map cr_to (node_crossing n' :: X2')) in HD.
    apply (nodup_apart _ _ (nto n') HD EM). left. reflexivity. }
  rewrite Rev, Mem in H.
  apply (IH (X1 ++ [node_crossing n]) X2' (nto n' :: vis) n' (mkState (squeue a) [] (shist a)) st' Hgood'); auto.
  - congruence.
  - apply (hist_inv_less); [exact Ha|intros ? ?; assumption|intros ? []].
  - intros k [<-|Hk].
    + right. rewrite map_app. apply in_or_app. right. left. reflexivity.
    + apply Hvis in Hk. destruct Hk as [Hk|Hk]; [now left|right]. rewrite map_app. apply in_or_app. now left.
Qed.

(** ** The first node *)
Lemma setup_good A st : best A -> ps <> pe -> setup c (vp start) ps = Ok st -> exists Y1 Y2 n, good Y1 Y2 n /\ In n (squeue st).
Proof using HM HI HG HF Ec Eb Ep Eg HU HP32 HMAX.
  intros HB Hne Hset. destruct A as [|[c1 y] B]; [destruct HB as [[HB _] _]; apply links_nil_inv in HB; contradiction|].
  destruct (best_links m blocked start goal ps pe [] c1 y B HB) as (L1 & HO & Hy & L2). apply links_nil_inv in L1.
  assert (Hy' := Hy). destruct Hy' as (sp & ep & k & HE & Hk & Ey).
  destruct (proj1 HO) as ((l & p & sv & ev & HP & HBd & Hsv & Hev & _) & _).
  pose proof (crossing_other_side m blocked ps HF c1 l p sv ev (proj1 HO) HP Hsv Hev) as Hos. rewrite <- L1 in HP, Hos.
  assert (Hwsp : world l sv = vp sp /\ world l ev = vp ep).
  { destruct HE as (l1 & p1 & HP1 & (v1 & A1 & A2) & (v2 & B1 & B2)). rewrite <- L1 in HP1. assert (l1 = l) by (destruct HP1, HP; congruence). subst l1.
    assert (v1 = sv) by congruence. assert (v2 = ev) by congruence. now subst v1 v2. }
  destruct Hwsp as [Wsp Wep].
  assert (Hspep : sp <> ep). { destruct (ends_edge m HM HI c1 sp ep (proj1 HO) HE) as (qs & _ & _ & _ & Hcx & _ & He & _). exact (edge_distinct _ _ _ Hcx He). }
  assert (Hb' : memN (id_layer (cr_to c1)) (cblocked c) = false).
  { destruct (memN _ _) eqn:E; [|reflexivity]. exfalso. apply memN_In in E. rewrite Eb in E. apply (proj2 HO). exact E. }
  assert (HM' : cr_to c1 <> MAX) by (destruct (proj1 HO) as ((? & ? & ? & ? & _ & _ & _ & _ & _ & _ & H & _) & _); exact H).
  assert (Hdead : cr_to c1 = cpto c \/ (cr_to c1 <> MAX /\ exists q, mesh_polygon (cmesh c) (cr_to c1) = Ok q /\ is_one_way q = false)).
  { destruct (N.eq_dec (cr_to c1) (cpto c)) as [E|E]; [left; exact E|right; split; [exact HM'|]].
    destruct (crossing_to m HI c1 (proj1 HO)) as (l2 & p2 & HP2). exists p2. split.
    - unfold mesh_polygon. rewrite Ec, (proj2 (index_Ok _ _ _) (proj1 HP2)). cbn [bind]. apply index_Ok. apply HP2.
    - destruct (is_one_way p2) eqn:Eo; [exfalso|reflexivity]. destruct B as [|[c2 z] B]; [apply links_nil_inv in L2; congruence|].
      destruct (links_cons_inv _ _ _ _ _ _ _ L2) as (Ef2 & HO2 & _ & _). pose proof (fl_dead _ _ _ HF l2 p2 c1 c2 HP2 Eo HO HO2 (eq_sym Ef2)) as Q.
      exact (not_back m blocked start goal ps pe [] _ _ _ _ _ HB Q). }
  set (n := new_node c (vp start) (cr_to c1) (vadd (coords sv) (offset l), cr_a c1) (vadd (coords ev) (offset l), cr_b c1) (empty_node (vp start) ps)).
  assert (Hn : fnan (ng n) = false /\ fnan (nh n) = false).
  { unfold n. cbn [ng nh new_node empty_node nroot]. rewrite (proj2 (veq_vp start start) eq_refl). cbn [negb]. rewrite fz_R. split; [reflexivity|].
    cbn [fst]. fold (world l sv) (world l ev). rewrite Wsp, Wep, Eg, heuristic_vp by exact Hspep. reflexivity. }
  assert (Hst : gen_start c (vp start) ps n).
  { exists l, p, (cr_a c1), (cr_b c1), sv, ev. rewrite Ec. split; [exact HP|]. split; [exact HBd|]. split; [exact Hsv|]. split; [exact Hev|]. cbv zeta. rewrite Hos.
    split; [exact Hb'|]. split; [rewrite Ec in Hdead; exact Hdead|]. split; [reflexivity|]. exact Hn. }
  assert (HR : reachable c (vp start) ps n) by (exists []; now constructor).
  destruct (reachable_at m start goal ps pe HM HI HG c Ec HU HP32 ltac:(rewrite Ep; exact HMAX) n HR) as (a' & b' & r' & u0 & u1 & HN').
  assert (Enc : node_crossing n = c1).
  { unfold node_crossing, n. cbn [nfrom nedge nto new_node fst snd empty_node]. rewrite L1. destruct c1; reflexivity. }
  assert (Hgood : good [] (map fst B) n).
  { split; [exact HR|]. exists a', b', r', u0, u1, [], [], y, B. split; [exact HN'|].
    split; [apply (routed_start m blocked start ps c n a' b' r' u0 u1 Hst HN')|]. split.
    - pose proof (na_interval _ _ _ _ _ _ _ _ HN') as EI'. unfold n in EI'. cbn [ninterval new_node fst snd] in EI'. fold (world l sv) (world l ev) in EI'. rewrite Wsp, Wep in EI'.
      injection EI' as Y1 Y2 Y3 Y4. assert (Z1 : sp = lerp a' b' u0) by now apply P2_eq. assert (Z2 : ep = lerp a' b' u1) by now apply P2_eq.
      rewrite <- Z1, <- Z2. exists k. auto.
    - split; [reflexivity|]. rewrite Enc. split; [exact HB|]. split; reflexivity. }
  exists [], (map fst B), n. split; [exact Hgood|].
  (* it is in the queue *)
  unfold setup in Hset. rewrite Ec in Hset. rewrite (proj2 (index_Ok _ _ _) (proj1 HP)) in Hset. cbn [bind] in Hset.
  rewrite (proj2 (index_Ok _ _ _) (proj2 HP)) in Hset. cbn [bind] in Hset. inv_bind Hset. inv_bind Hset. assert (Est : st = flush_nodes a0) by congruence. rewrite Est.
  cbn [flush_nodes squeue]. apply in_or_app. right. clear Est Hset.
  assert (He : In (cr_a c1, cr_b c1) a) by (apply (proj2 (edges_index_spec _ _ E)); exact HBd).
  assert (HP1 : polygon_at (cmesh c) ps l p) by (rewrite Ec; exact HP).
  assert (Step : forall x u u', In x a -> hist u -> setup_edge c (vp start) ps l u x = Ok u' -> hist u' /\ incl (sbuffer u) (sbuffer u')).
  { intros [x1 x2] u u' Hx Hu Hs. unfold setup_edge in Hs. cbn [fst snd] in Hs.
    assert (Triv : forall w, u = w -> hist w /\ incl (sbuffer u) (sbuffer w)) by (intros w <-; split; [exact Hu|intros ? ?; assumption]).
    destruct (nthN (vertices l) x1) as [v1|] eqn:EV1; [|apply Triv; congruence]. destruct (nthN (vertices l) x2) as [v2|] eqn:EV2; [|apply Triv; congruence].
    cbv zeta in Hs. set (os := other_side v1 v2 ps) in *. destruct (memN (id_layer os) (cblocked c)) eqn:EB; [apply Triv; congruence|]. inv_bind Hs. destruct a1; [|apply Triv; congruence].
    assert (Eu : u' = add_node c u (vp start) os (vadd (coords v1) (offset l), x1) (vadd (coords v2) (offset l), x2) (empty_node (vp start) ps)) by congruence. clear Hs.
    destruct (add_node_spec c u (vp start) os (vadd (coords v1) (offset l), x1) (vadd (coords v2) (offset l), x2) (empty_node (vp start) ps)) as [[H _]|(H1 & H2 & H3)]; [apply Triv; congruence|].
    rewrite <- Eu in H3. split; [|apply (added_keeps _ _ _ H3)]. eapply (hist_inv_added RA_order_laws); [exact Hu| |exact H3]. exists []. constructor.
    exists l, p, x1, x2, v1, v2. split; [exact HP1|]. split; [apply (proj1 (proj2 (edges_index_spec _ _ E) x1 x2)); exact Hx|]. split; [exact EV1|]. split; [exact EV2|]. cbv zeta. fold os.
    split; [exact EB|]. split; [|split; [reflexivity|split; assumption]].
    destruct (N.eqb_spec os (cpto c)); [left; auto|]. right. destruct (N.eqb_spec os MAX); [discriminate|]. inv_bind E1.
    split; [assumption|]. exists a1. split; [assumption|]. apply negb_true_iff. congruence. }
  assert (Fold : forall xs u u', incl xs a -> hist u -> foldM (setup_edge c (vp start) ps l) u xs = Ok u' -> hist u' /\ incl (sbuffer u) (sbuffer u')).
  { induction xs as [|x xs IH]; intros u u' Hinc Hu Hf; cbn [foldM] in Hf.
    - assert (u = u') by congruence. subst u'. split; [exact Hu|intros ? ?; assumption].
    - inv_bind Hf. destruct (Step x u a1 (Hinc x (or_introl eq_refl)) Hu E1) as [U1 U2]. destruct (IH a1 u' (fun y Hy => Hinc y (or_intror Hy)) U1 Hf) as [U3 U4].
      split; [exact U3|]. intros y' Hy''. auto. }
  assert (H0 : hist (mkState [] [] [(vp start, fz 0)])).
  { constructor; cbn [shist squeue sbuffer].
    - intros k0 o. cbn [hist_get]. destruct (veq (vp start) k0) eqn:EV; [|discriminate]. intro Q. left. split; [exact EV|congruence].
    - intros n0 [[]|[]].
    - intros n0 [[]|[]]. }
  destruct (in_split _ _ He) as (xs & ys & Ea). rewrite Ea in E0. rewrite foldM_app in E0. inv_bind E0. cbn [foldM] in E0. inv_bind E0.
  destruct (Fold xs _ a1 ltac:(intros z Hz; rewrite Ea; apply in_or_app; now left) H0 E1) as [U1 _].
  destruct (Fold ys a2 a0) as [_ U3]; auto; [intros z Hz; rewrite Ea; apply in_or_app; right; now right|apply (Step _ a1 a2 He U1 E2)|]. apply U3.
  unfold setup_edge in E2. cbn [fst snd] in E2. rewrite Hsv, Hev, Hos, Hb' in E2. inv_bind E2.
  assert (a3 = true) as ->.
  { destruct (N.eqb_spec (cr_to c1) (cpto c)); [congruence|]. destruct Hdead as [Hd|(_ & q & Q1 & Q2)]; [contradiction|].
    rewrite (proj2 (N.eqb_neq _ _) HM') in E3. rewrite Q1 in E3. cbn [bind] in E3. rewrite Q2 in E3. cbn [negb] in E3. congruence. }
  match type of E2 with Ok ?x = _ => assert (Eq : a2 = x) by congruence end. rewrite Eq. apply add_node_adds; [reflexivity|apply Hn|apply Hn|].
  intros o Ho. exact (good_kept _ _ _ a1 o Hgood U1 Ho).
Qed.

(** ** Lengths *)
Lemma node_size n a b r t0 t1 : node_at n a b r t0 t1 -> lerp a b t0 <> lerp a b t1 /\ 1 / 100 <= dist (lerp a b t0) (lerp a b t1) /\
  clear_of (lerp a b t0) (lerp a b t1) r /\ clear_of (lerp a b t0) (lerp a b t1) goal.
Proof using HM HI HG.
  intro HN. destruct (node_edge m start HM HI _ _ _ _ _ _ HN) as (qs0 & qs & Hqs0 & Hqs & Hcx0 & Hcx & He0 & He1 & Hab & Pa & Pb).
  pose proof (na_t _ _ _ _ _ _ _ _ HN) as Ht. pose proof (na_place _ _ _ _ _ _ _ _ HN) as Pr.
  assert (Hne : lerp a b t0 <> lerp a b t1) by (intro E; apply lerp_inj in E; auto; lra).
  pose proof (ge_cuts _ _ _ _ _ HG (nfrom n) qs0 a b _ _ Hqs0 He0 (na_cut0 _ _ _ _ _ _ _ _ HN) (na_cut1 _ _ _ _ _ _ _ _ HN) Hne) as Hsz.
  split; [exact Hne|]. split; [exact Hsz|]. rewrite dist_lerp2 in Hsz. rewrite Rabs_right in Hsz by lra.
  assert (Cl : forall q, dist a b / 100 <= Rabs (orient a b q) -> clear_of (lerp a b t0) (lerp a b t1) q).
  { intros q Hq. right. rewrite orient_line, Rabs_mult, (Rabs_right (t1 - t0)) by lra. unfold eps.
    assert ((t1 - t0) * (dist a b / 100) <= (t1 - t0) * Rabs (orient a b q)) by (apply Rmult_le_compat_l; lra). lra. }
  split; [|apply Cl; apply (ge_goal _ _ _ _ _ HG); auto].
  destruct (P2_dec r a) as [->|N1]; [left; rewrite orient_line, orient_start; ring|]. destruct (P2_dec r b) as [->|N2]; [left; rewrite orient_line, orient_end; ring|].
  apply Cl. apply (ge_places _ _ _ _ _ HG); auto.
Qed.

(** a node on a best route promises no more than its length *)
Lemma good_low X1 X2 n A : good X1 X2 n -> best A -> exists v, node_f n = Some v /\ v <= len start A goal.
Proof using HM HI HG Ec Eb Ep Eg HU HP32 HMAX.
  intros [HR (a & b & r & t0 & t1 & pre & post & x & B & HN & (R1 & R2 & _ & _) & Hx & Dx & HB & E1 & E2)] HA.
  destruct (node_size _ _ _ _ _ _ HN) as (Hne & _ & C1 & C2). destruct (C16_admissible r goal _ _ Hne C1 C2) as (h & Hh & Hlow).
  destruct Hx as (k & Hk & Ex). specialize (Hlow k Hk). rewrite <- Ex in Hlow.
  assert (Enh : nh n = Some h).
  { rewrite <- Hh. rewrite <- (na_interval _ _ _ _ _ _ _ _ HN), <- (na_root _ _ _ _ _ _ _ _ HN), <- Eg. exact (reachable_h c (vp start) ps n HR). }
  exists (len start pre r + h). split; [unfold node_f; rewrite R2, Enh; reflexivity|].
  destruct HB as [[HB1 HB2] _]. destruct HA as [[HA1 HA2] _]. specialize (HB2 A HA1).
  rewrite (len_app2 pre), R1 in HB2. rewrite (len_app post) in HB2. cbn [snd] in HB2. rewrite Dx in HB2. pose proof (len_ge B x goal). lra.
Qed.

(** ** Routes are ways *)
Lemma links_way P0 x0 P A Q : forall x y L qs, links P A Q -> way m blocked P0 x0 P x L -> corners m Q qs -> inside qs y -> way m blocked P0 x0 Q y (L + len x A y).
Proof using HM HI.
  intros x y L qs H. revert x L. induction H as [P|cc z A Q HO Hz H IH]; intros x L HW Hqs Hy; cbn [len].
  - exact (way_move m blocked P0 x0 P x L qs y HW Hqs Hy).
  - cbn [snd]. rewrite <- Rplus_assoc. apply IH; auto. apply way_cross; auto. destruct (on_edge_inside m HM HI cc z (proj1 HO) Hz) as [Hin _].
    destruct (crossing_ends m HM HI cc (proj1 HO)) as (a & b & qs1 & qs2 & _ & Hqs1 & _).
    exact (way_move m blocked P0 x0 (cr_from cc) x L qs1 z HW Hqs1 (Hin qs1 Hqs1)).
Qed.

(** a final node is the end of a way *)
Lemma final_way n : reachable c (vp start) ps n -> nto n = pe -> exists d, node_f n = Some d /\ way m blocked ps start pe goal d.
Proof using HM HI HG Ec Eb Ep Eg HU HP32 HMAX.
  intros HR Hto. destruct (reachable_routed m blocked start goal ps pe HM HI HG c Ec Eb Ep HU HP32 HMAX n HR) as (a & b & r & t0 & t1 & pre & cs & HN & (R1 & R2 & _ & R4)).
  destruct (node_size _ _ _ _ _ _ HN) as (Hne & _ & C1 & C2).
  destruct (node_edge m start HM HI _ _ _ _ _ _ HN) as (qs0 & qs & Hqs0 & Hqs & Hcx0 & Hcx & He0 & He1 & Hab & Pa & Pb). rewrite Hto in Hqs.
  pose proof (na_t _ _ _ _ _ _ _ _ HN) as Ht.
  destruct (C16_attained r goal _ _ Hne C1 C2) as (k & Hk & Eh).
  { right. rewrite orient_line. pose proof (goal_inside m start goal ps pe HG qs Hqs b a He1) as Hin. rewrite orient_213 in Hin. intro E. apply Rmult_integral in E. lra. }
  set (x := lerp (lerp a b t0) (lerp a b t1) k) in *.
  assert (Hx : between (lerp a b t0) (lerp a b t1) x) by (exists k; auto). destruct (R4 x Hx) as (post & P1 & P2 & P3).
  exists (len start pre r + (dist r x + dist x goal)). split.
  - unfold node_f. rewrite R2, (reachable_h c (vp start) ps n HR), Eg, (na_interval _ _ _ _ _ _ _ _ HN), (na_root _ _ _ _ _ _ _ _ HN), Eh. reflexivity.
  - assert (HL : links ps ((pre ++ post) ++ [(node_crossing n, x)]) pe).
    { rewrite <- Hto. change (nto n) with (cr_to (node_crossing n)). apply links_snoc; [exact P2|apply (reachable_open m blocked start ps pe c Ec Eb Ep HU HP32 HMAX n HR)|].
      eapply interval_crossed; eauto. }
    destruct (ge_start _ _ _ _ _ HG) as (q0 & Hq0 & _). pose proof (start_inside m start goal ps pe HG q0 Hq0) as Hin.
    pose proof (links_way ps start ps _ pe start goal 0 qs HL (way_here m blocked ps q0 start Hq0 Hin) Hqs
      (fun s e He => Rlt_le _ _ (goal_inside m start goal ps pe HG qs Hqs s e He))) as HW.
    rewrite len_app in HW. cbn [snd len] in HW. rewrite (len_app2 pre), R1, P3 in HW. replace (len start pre r + (dist r x + dist x goal)) with (0 + (len start pre r + dist r x + dist x goal)) by ring. exact HW.
Qed.

(** ** The search *)
Lemma total_le x y : rtotal (Some x) (Some y) <> Gt -> x <= y.
Proof using. unfold rtotal. destruct (Rlt_dec x y); [lra|]. destruct (Rlt_dec y x); [congruence|lra]. Qed.

Definition promising (st : State RA) : Prop := hist st /\ sbuffer st = [] /\ exists Y1 Y2 n, good Y1 Y2 n /\ In n (squeue st).

Lemma next_promising lib A st st' res : pop_ok (lpop lib) -> best A -> promising st -> next lib c st = Ok (st', res) ->
  match res with
  | NotFound => False
  | Continue => promising st'
  | Found p => exists d, plength p = Some d /\ way m blocked ps start pe goal d /\ d <= len start A goal
  end.
Proof using HM HI HG HF Ec Eb Ep Eg HU HP32 HMAX.
  intros Hpop HA (Hh & Hbuf & (Y1 & Y2 & n & Hgood & Hin)) H.
  pose proof (next_hist RA_order_laws lib c (vp start) ps st st' res (pop_ok_perm _ Hpop) Hh H) as Hh'.
  destruct (next_all lib c st st' res (fun n => reachable c (vp start) ps n) (pop_ok_perm _ Hpop)) as (_ & Hbuf' & _); auto.
  { intros u v Hu Hv. eapply reachable_step; eauto. }
  { split; [intros u Hu; apply (hi_reach _ _ _ _ Hh); now left|rewrite Hbuf; intros u []]. }
  assert (HP := Hpop (squeue st)). unfold next in H. destruct (lpop lib (squeue st)) as [[n0 q]|] eqn:EP; [|rewrite HP in Hin; destruct Hin].
  destruct HP as [HPerm _]. cbn [shist] in H.
  assert (HR0 : reachable c (vp start) ps n0). { apply (hi_reach _ _ _ _ Hh). left. eapply Permutation_in; [symmetry; exact HPerm|now left]. }
  assert (Cases : n = n0 \/ In n q). { apply (Permutation_in _ HPerm) in Hin. destruct Hin as [E|Hq]; [left; congruence|right; exact Hq]. }
  assert (Hh1 : hist (mkState q (sbuffer st) (shist st))).
  { apply hist_inv_less; [exact Hh| |intros ? ?; assumption]. intros x Hx. eapply Permutation_in; [symmetry; exact HPerm|now right]. }
  destruct (match hist_get (shist st) (nroot n0) with Some o => flt o (ng n0) | None => false end) eqn:ED.
  - assert (st' = mkState q (sbuffer st) (shist st)) by congruence. assert (res = Continue) by congruence. subst st' res. split; [exact Hh'|]. split; [exact Hbuf'|].
    exists Y1, Y2, n. split; [exact Hgood|]. cbn [squeue]. destruct Cases as [<-|Hq]; [exfalso|exact Hq].
    destruct (hist_get (shist st) (nroot n)) as [o|] eqn:EH; [|discriminate]. rewrite (good_kept _ _ _ st o Hgood Hh EH) in ED. discriminate.
  - destruct (N.eqb_spec (nto n0) (cpto c)) as [Et|Et].
    + assert (res = Found (final_path c n0)) by congruence. subst res. cbn [plength final_path]. destruct (final_way n0 HR0 ltac:(congruence)) as (d & Hd & HW).
      exists d. split; [exact Hd|]. split; [exact HW|]. destruct (good_low _ _ _ A Hgood HA) as (v & Hv & Hle). enough (d <= v) by lra.
      destruct Cases as [<-|Hq]; [assert (d = v) by congruence; lra|]. apply total_le. rewrite <- Hd, <- Hv. exact (pop_best (lpop lib) _ _ _ _ RA_total_ok Hpop EP Hq).
    + inv_bind H. assert (st' = a) by congruence. assert (res = Continue) by congruence. subst st' res. split; [exact Hh'|]. split; [exact Hbuf'|].
      destruct Cases as [<-|Hq].
      * eapply successors_good; [exact Hgood|congruence|exact Hh1| |exact E]. intros k [].
      * exists Y1, Y2, n. split; [exact Hgood|]. apply (successors_keeps _ _ _ _ _ _ E). exact Hq.
Qed.

Lemma run_shortest lib A k : forall st p, pop_ok (lpop lib) -> best A -> promising st -> run k lib c st = Ok (Some p) ->
  exists d, plength p = Some d /\ way m blocked ps start pe goal d /\ d <= len start A goal.
Proof using HM HI HG HF Ec Eb Ep Eg HU HP32 HMAX.
  induction k as [|k IH]; intros st p Hpop HA HP H; cbn [run] in H; [discriminate|]. inv_bind H. destruct a as [st' r]. cbn [fst snd] in H.
  pose proof (next_promising lib A st st' r Hpop HA HP E) as HN. destruct r as [p'| |].
  - assert (p' = p) by congruence. subst p'. exact HN.
  - destruct HN.
  - eapply IH; eauto.
Qed.
End Run.
