(** The search of the feature detailed-layers only depends on what Spec_alike.v lists and on the scales: simulation between meshes
    that are alike (as Alike.v for the plain search). *)
From Coq Require Import List NArith ZArith Bool Lia.
From Verif Require Import Base Arith U32 Mesh Helpers Locate Search AsyncPath StdLib Detailed Spec Spec_alike Search_facts Search_cost Detailed_facts Detailed_sim Cleanup_facts Properties_async Properties_dsafe Alike Alike_locate.
Import ListNotations.
Open Scope N_scope.

(** [f] keeps the scaled distances of the detailed search too. *)
Record dmotion {A} (f : vec2 A -> vec2 A) (scales : list (vec2 A)) : Prop := {
  dm_leg : forall a b sc, In sc scales -> vdist (f a) (vmulv (f b) sc) = vdist a (vmulv b sc);
  dm_legs : forall a b sc, In sc scales -> vdist (vmulv (f a) sc) (vmulv (f b) sc) = vdist (vmulv a sc) (vmulv b sc);
  dm_heuristic : forall r g a b sa sb, In sa scales -> In sb scales ->
    heuristic (f r) (f g) (vmulv (f a) sa, vmulv (f b) sb) = heuristic r g (vmulv a sa, vmulv b sb)
}.

(** BinaryHeap::pop only compares elements: as pop_blind *)
Definition dpop_blind {A} (pop : list (DNode A) -> option (DNode A * list (DNode A))) : Prop :=
  forall R : DNode A -> DNode A -> Prop, (forall n n', R n n' -> ng (dnode n') = ng (dnode n) /\ nh (dnode n') = nh (dnode n)) ->
  forall q q', Forall2 R q q' ->
    match pop q, pop q' with
    | None, None => True
    | Some (n, r), Some (n', r') => R n n' /\ Forall2 R r r'
    | _, _ => False
    end.

Section Sim.
Context {A : Arith}.
Variables (f : vec2 A -> vec2 A) (m m' : Mesh A) (scales : list (vec2 A)).
Hypotheses (HF : motion f) (HD : dmotion f scales) (HM : mesh_alike f m m') (HV : verts_small m) (HV' : verts_small m').
Implicit Types (n : DNode A) (st : DState A).

Definition point_moved (x : vec2 A * vec2 A * N) : vec2 A * vec2 A * N := (f (fst (fst x)), f (snd (fst x)), snd x).
Definition label_moved (x : vec2 A * N) : vec2 A * N := (f (fst x), snd x).
Definition dpath_moved (p : DPath A) : DPath A := mkDPath (dlength p) (map f (dpath p)) (map label_moved (dlayers p)).
Definition dnode_alike (n n' : DNode A) : Prop := node_alike f m m' (dnode n) (dnode n') /\ dpoints n' = map point_moved (dpoints n).
Definition dstate_alike (st st' : DState A) : Prop :=
  Forall2 dnode_alike (dqueue st) (dqueue st') /\ Forall2 dnode_alike (dbuffer st) (dbuffer st') /\ dhist st' = hist_moved f (dhist st).

Variables (goal : vec2 A) (pe : N) (blocked : list N) (from0 : vec2 A * N).
Let x : Ctx A := mkCtx m goal pe blocked.
Let x' : Ctx A := mkCtx m' (f goal) pe blocked.
Let c : DCtx A := mkDCtx x scales from0.
Let c' : DCtx A := mkDCtx x' scales (label_moved from0).

Definition dparent_alike n n' : Prop := parent_alike f (dnode n) (dnode n') /\ dpoints n' = map point_moved (dpoints n).
Lemma small_layer l l' i i' : (exists k, nthN (layers m) k = Some l /\ nthN (layers m') k = Some l') -> vertex_alike f l l' i i' -> id_layer i = 0 /\ id_layer i' = 0.
Proof using HV HV'.
  intros (k & L1 & L2) (v & v' & A1 & A2 & _). pose proof (HV _ (nthN_In _ _ _ L1)) as Q1. pose proof (HV' _ (nthN_In _ _ _ L2)) as Q2.
  apply nthN_Some_lt in A1, A2. change (2^24) with 16777216 in *. split; rewrite id_layer_eq; change (2^24) with 16777216; rewrite N.div_small by lia; reflexivity.
Qed.

Lemma dnew_alike root os s e n n' i i' j j' l l' k : dparent_alike n n' ->
  nthN (layers m) k = Some l -> nthN (layers m') k = Some l' -> k = id_layer (nto (dnode n)) -> vertex_alike f l l' i i' -> vertex_alike f l l' j j' ->
  rsim dnode_alike (dnew_node c root os (s, i) (e, j) n) (dnew_node c' (f root) os (f s, i') (f e, j') n').
Proof using HF HD HV HV'.
  intros [(P1 & P2 & P3 & P4) P5] L1 L2 Ek Vi Vj.
  destruct (small_layer l l' i i' (ex_intro _ k (conj L1 L2)) Vi) as [I1 I2]. destruct (small_layer l l' j j' (ex_intro _ k (conj L1 L2)) Vj) as [J1 J2].
  unfold dnew_node. cbn [fst snd dctx dscales c c']. rewrite P1, P2, P3, P4, P5, (mo_eq _ HF), I1, I2, J1, J2.
  apply (rsim_bind eq).
  { destruct (negb (veq root (nroot (dnode n)))); [|reflexivity]. apply rsim_same. intros sc E. apply index_Ok, nthN_In in E. cbn [rsim]. now rewrite (dm_leg _ _ HD). }
  intros g g' _ <-. apply rsim_same. intros ss E1. apply rsim_same. intros se E2. apply index_Ok, nthN_In in E1, E2. cbn [rsim]. split.
  - unfold node_alike. cbn [dnode npath nroot ninterval nfrom nto nprev ng nh nedge cgoal x x']. split.
    + destruct (negb (veq root (nroot (dnode n)))); [now rewrite map_app|reflexivity].
    + split; [reflexivity|]. split; [reflexivity|]. split; [reflexivity|]. split; [reflexivity|]. split; [reflexivity|]. split; [reflexivity|].
      split; [apply (dm_heuristic _ _ HD); assumption|]. rewrite <- Ek. exists l, l'. split; [exact L1|]. split; [exact L2|]. split; assumption.
  - cbn [dpoints]. destruct (negb (veq root (nroot (dnode n)))), (N.eqb (id_layer os) (id_layer (nto (dnode n)))); rewrite ?map_app; reflexivity.
Qed.
Lemma dadd_alike root os s e n n' i i' j j' l l' k st st' : dstate_alike st st' -> dparent_alike n n' ->
  nthN (layers m) k = Some l -> nthN (layers m') k = Some l' -> k = id_layer (nto (dnode n)) -> vertex_alike f l l' i i' -> vertex_alike f l l' j j' ->
  rsim dstate_alike (dadd_node c st root os (s, i) (e, j) n) (dadd_node c' st' (f root) os (f s, i') (f e, j') n').
Proof using HF HD HV HV'.
  intros HS HP L1 L2 Ek Vi Vj. unfold dadd_node. apply (rsim_bind dnode_alike); [exact (dnew_alike root os s e n n' i i' j j' l l' k HP L1 L2 Ek Vi Vj)|].
  intros nn nn' _ HN. pose proof HS as (S1 & S2 & S3). pose proof HN as [(_ & _ & _ & _ & _ & _ & G1 & G2 & _) _]. rewrite G1, G2. cbn [rsim].
  destruct (fnan _ || fnan _); [exact HS|]. rewrite S3, (hist_get_moved f HF).
  assert (HB : Forall2 dnode_alike (dbuffer st ++ [nn]) (dbuffer st' ++ [nn'])) by (apply Forall2_app; [exact S2|]; constructor; [exact HN|constructor]).
  destruct (hist_get (dhist st) root) as [o|].
  - destruct (flt o _); [exact HS|]. split; [exact S1|]. split; [exact HB|]. cbn [dhist]. apply (hist_set_moved f HF).
  - split; [exact S1|]. split; [exact HB|]. reflexivity.
Qed.
Lemma dflush_alike st st' : dstate_alike st st' -> dstate_alike (dflush st) (dflush st').
Proof using. intros (S1 & S2 & S3). split; [|split; [constructor|exact S3]]. cbn. now apply Forall2_app. Qed.

Lemma dsetup_edge_alike from ps l l' st st' e e' : nthN (layers m) (id_layer ps) = Some l -> nthN (layers m') (id_layer ps) = Some l' ->
  edge_alike f l l' e e' -> dstate_alike st st' ->
  rsim dstate_alike (dsetup_edge c from ps l st e) (dsetup_edge c' (f from) ps l' st' e').
Proof using HF HD HM HV HV'.
  intros L1 L2 [V1 V2] HS. unfold dsetup_edge. pose proof V1 as (sv & sv' & A1 & A2 & A3 & A4 & A5). pose proof V2 as (ev & ev' & B1 & B2 & B3 & B4 & B5).
  rewrite A1, A2, B1, B2. cbv zeta. rewrite (other_side_alike sv ev sv' ev' ps A4 B4). cbn [dctx cblocked cpto cmesh c c' x x'].
  destruct (memN _ blocked); [exact HS|]. set (os := other_side sv ev ps).
  apply (rsim_bind eq).
  - destruct (N.eqb os pe); [reflexivity|]. destruct (N.eqb os MAX); [reflexivity|].
    apply (rsim_bind (fun p p' => is_one_way p' = is_one_way p)); [exact (mesh_polygon_alike f m m' HM _)|]. intros y z _ E. cbn. now rewrite E.
  - intros go go' _ <-. destruct go; [|exact HS]. fold (world l sv) (world l ev) (world l' sv') (world l' ev'). rewrite A3, B3.
    apply (dadd_alike from os (world l sv) (world l ev) (mkDNode (empty_node from ps) []) (mkDNode (empty_node (f from) ps) []) _ _ _ _ l l' (id_layer ps)); auto.
    split; [|reflexivity]. split; [reflexivity|]. split; [reflexivity|]. split; reflexivity.
Qed.
Lemma dsetup_alike from ps : rsim dstate_alike (dsetup c from ps) (dsetup c' (f from) ps).
Proof using HF HD HM HV HV'.
  unfold dsetup. cbn [dctx cmesh c c' x x']. unfold index at 1 3. pose proof (layers_alike f m m' HM (id_layer ps)) as H.
  destruct (nthN (layers m) (id_layer ps)) as [l|] eqn:L1, (nthN (layers m') (id_layer ps)) as [l'|] eqn:L2; try contradiction; [|exact I]. cbn [unwrap bind].
  destruct H as [_ H]. unfold index. destruct (nthN (polygons l) (id_polygon ps)) as [p|] eqn:E.
  - destruct (Forall2_nthN _ _ _ H _ _ E) as (p' & E' & _ & HVs). rewrite E'. cbn [unwrap bind].
    apply (rsim_bind (Forall2 (edge_alike f l l'))); [now apply edges_index_alike|]. intros es es' _ He.
    apply (rsim_bind dstate_alike).
    + apply (rsim_foldM2 (edge_alike f l l')); [exact He| |].
      * intros e e' s s' Q1 Q2. now apply dsetup_edge_alike.
      * split; [constructor|]. split; [constructor|]. reflexivity.
    + intros s s' _ Q. cbn [rsim]. now apply dflush_alike.
  - destruct (nthN (polygons l') (id_polygon ps)) as [p'|] eqn:E'; [|exact I]. destruct (Forall2_nthN_r _ _ _ H _ _ E') as (p & E2 & _). congruence.
Qed.

Lemma dexpand_one_alike n n' l l' st st' s s' : dnode_alike n n' -> nthN (layers m) (id_layer (nto (dnode n))) = Some l -> nthN (layers m') (id_layer (nto (dnode n))) = Some l' ->
  succ_alike f l l' s s' -> dstate_alike st st' -> rsim dstate_alike (dexpand_one c n l st s) (dexpand_one c' n' l' st' s').
Proof using HF HD HM HV HV'.
  intros HN L1 L2 (S1 & S2 & S3) HS. pose proof HN as [(N1 & N2 & N3 & N4 & N5 & N6 & N7 & N8 & pl & pl' & P1 & P2 & P3 & P4) NP]. unfold dexpand_one.
  pose proof S3 as [(sv & sv' & A1 & A2 & A3 & A4 & A5) (ev & ev' & B1 & B2 & B3 & B4 & B5)]. unfold get_unchecked. rewrite A1, A2, B1, B2. cbn [bind]. cbv zeta.
  rewrite N5, (other_side_alike sv ev sv' ev' (nto (dnode n)) A4 B4). set (os := other_side sv ev (nto (dnode n))). cbn [dctx c c']. change (cblocked x') with blocked. change (cblocked x) with blocked. change (cpto x') with pe. change (cpto x) with pe. change (cmesh x') with m'. change (cmesh x) with m.
  change (corner_ok x') with (corner_ok (mkCtx m' (f goal) pe blocked)). change (corner_ok x) with (corner_ok (mkCtx m goal pe blocked)).
  destruct (N.eqb os MAX); [exact HS|]. destruct (memN _ blocked); [exact HS|].
  apply (rsim_bind eq).
  { destruct (N.eqb pe os); [reflexivity|]. apply (rsim_bind (fun p p' => is_one_way p' = is_one_way p)); [exact (mesh_polygon_alike f m m' HM _)|]. intros y z _ E. cbn. now rewrite E. }
  intros dead dead' _ <-. destruct dead; [exact HS|]. rewrite N4. destruct (N.eqb (nfrom (dnode n)) os); [exact HS|].
  fold (world l sv) (world l ev) (world l' sv') (world l' ev'). rewrite A3, B3, S1, S2, N3.
  change (fst (pair_moved f (sinterval s))) with (f (fst (sinterval s))). change (snd (pair_moved f (sinterval s))) with (f (snd (sinterval s))).
  change (fst (pair_moved f (ninterval (dnode n)))) with (f (fst (ninterval (dnode n)))). change (snd (pair_moved f (ninterval (dnode n)))) with (f (snd (ninterval (dnode n)))).
  rewrite !(mo_dist2 _ HF).
  apply (rsim_bind (fun o o' => o' = option_map f o)).
  { destruct (sty s).
    - destruct (fgt _ _); [reflexivity|].
      rewrite (corner_alike f m m' HF goal pe blocked (dnode n) (dnode n') _ _ (snd (ninterval (dnode n))) N6 (ex_intro _ pl (ex_intro _ pl' (conj P1 (conj P2 P4))))).
      apply rsim_same. intros b _. destruct b; reflexivity.
    - cbn [rsim option_map]. now rewrite N2.
    - destruct (fgt _ _); [reflexivity|].
      rewrite (corner_alike f m m' HF goal pe blocked (dnode n) (dnode n') _ _ (fst (ninterval (dnode n))) N6 (ex_intro _ pl (ex_intro _ pl' (conj P1 (conj P2 P3))))).
      apply rsim_same. intros b _. destruct b; reflexivity. }
  intros o o' _ ->. destruct o as [root|]; cbn [option_map]; [|exact HS]. destruct (flt _ _); [exact HS|].
  apply (dadd_alike root os _ _ n n' _ _ _ _ l l' (id_layer (nto (dnode n)))); auto; [|exact (proj1 S3)|exact (proj2 S3)].
  split; [|exact NP]. split; [exact N1|]. split; [exact N2|]. split; [exact N5|exact N7].
Qed.
Lemma dexpand_alike n n' st st' : dnode_alike n n' -> dstate_alike st st' -> rsim dstate_alike (dexpand c n st) (dexpand c' n' st').
Proof using HF HD HM HV HV'.
  intros HN HS. unfold dexpand. pose proof HN as [HN0 _]. pose proof (edges_between_alike f m m' HF HM goal pe blocked _ _ HN0) as H. pose proof HN0 as (_ & _ & _ & _ & N5 & _).
  cbn [dctx c c']. fold x in H. fold x' in H. change (cmesh x) with m. change (cmesh x') with m'. rewrite N5.
  destruct (nthN (layers m) (id_layer (nto (dnode n)))) as [l|] eqn:L1; [|destruct H as [-> ->]; exact I]. destruct (nthN (layers m') (id_layer (nto (dnode n)))) as [l'|] eqn:L2; [|destruct H as [-> ->]; exact I].
  apply (rsim_bind (Forall2 (succ_alike f l l'))); [exact H|]. intros ss ss' _ Hs. unfold index. rewrite L1, L2. cbn [unwrap bind].
  apply (rsim_foldM2 (succ_alike f l l')); [exact Hs| |exact HS]. intros s s' q q' Q1 Q2. now apply dexpand_one_alike.
Qed.
Lemma dsuccessors_alike : forall k vis n n' st st', dnode_alike n n' -> dstate_alike st st' -> rsim dstate_alike (dsuccessors k c vis n st) (dsuccessors k c' vis n' st').
Proof using HF HD HM HV HV'.
  induction k as [|k IH]; intros vis n n' st st' HN HS; [exact I|]. cbn [dsuccessors]. apply (rsim_bind dstate_alike); [now apply dexpand_alike|].
  intros s s' _ HS1. pose proof HS1 as (S1 & S2 & S3). destruct S2 as [|a a' b b' Ha S2]; [now apply dflush_alike|]. destruct S2 as [|d d' b b' Hd S2]; [|now apply dflush_alike].
  pose proof Ha as [(_ & _ & _ & _ & A5 & _) _]. cbv zeta. rewrite A5. cbn [dctx cpto c c' x x']. destruct (N.eqb (nto (dnode a)) pe); [now apply dflush_alike|].
  assert (HS2 : dstate_alike (mkDState (dqueue s) [] (dhist s)) (mkDState (dqueue s') [] (dhist s'))) by (split; [exact S1|split; [constructor|exact S3]]).
  rewrite (reverse_alike f m m' HF _ _ _ _ (proj1 Ha) (proj1 HN)). destruct (reverse_of (dnode a) (dnode n)); [now apply dflush_alike|]. destruct (memN _ vis); [now apply dflush_alike|]. now apply IH.
Qed.

Lemma dsuccessors_mono (d : DCtx A) : forall fuel vis n st k, nf (dsuccessors fuel d vis n st) -> dsuccessors (k + fuel) d vis n st = dsuccessors fuel d vis n st.
Proof using.
  induction fuel as [|fuel IH]; intros vis n st k H; [exfalso; apply H; reflexivity|].
  replace (k + S fuel)%nat with (S (k + fuel)) by lia. cbn [dsuccessors] in *.
  destruct (dexpand d n st) as [st'| | |]; cbn [bind] in *; try reflexivity. destruct (dbuffer st') as [|n' [|]]; try reflexivity. cbv zeta in *.
  destruct (N.eqb (nto (dnode n')) (cpto (dctx d))); [reflexivity|]. destruct (reverse_of (dnode n') (dnode n)); [reflexivity|].
  destruct (memN (nto (dnode n')) vis); [reflexivity|]. now apply IH.
Qed.
Lemma dsuccessors_ends (d : DCtx A) n st : dbuffer st = [] -> nf (dsuccessors (succ_fuel (cmesh (dctx d))) d [] n st).
Proof using. intro HB. apply dsuccessors_nf; [exact HB|constructor|intros z []|]. rewrite succ_fuel_ids. simpl. lia. Qed.
Lemma dsucc_fuel_alike n n' st st' : dnode_alike n n' -> dstate_alike st st' -> dbuffer st = [] ->
  rsim dstate_alike (dsuccessors (succ_fuel m) c [] n st) (dsuccessors (succ_fuel m') c' [] n' st').
Proof using HF HD HM HV HV'.
  intros HN HS HB. assert (HB' : dbuffer st' = []). { destruct HS as (_ & S2 & _). rewrite HB in S2. now inversion S2. }
  pose proof (dsuccessors_ends c n st HB) as T1. pose proof (dsuccessors_ends c' n' st' HB') as T2. cbn [dctx c c'] in T1, T2. change (cmesh x) with m in T1. change (cmesh x') with m' in T2.
  rewrite <- (dsuccessors_mono c (succ_fuel m) [] n st (succ_fuel m') T1). rewrite <- (dsuccessors_mono c' (succ_fuel m') [] n' st' (succ_fuel m) T2).
  rewrite (Nat.add_comm (succ_fuel m)). now apply dsuccessors_alike.
Qed.

Lemma find_moved l : find (fun q : vec2 A * vec2 A * N => veq (fst (fst q)) (snd (fst q))) (map point_moved l) = option_map point_moved (find (fun q => veq (fst (fst q)) (snd (fst q))) l).
Proof using HF. induction l as [|q r IH]; [reflexivity|]. cbn [map find]. change (fst (fst (point_moved q))) with (f (fst (fst q))). change (snd (fst (point_moved q))) with (f (snd (fst q))). rewrite (mo_eq _ HF). now destruct (veq _ _). Qed.
Lemma fill_alike last l : forall from, fill (f last) (f from) (map point_moved l) = map label_moved (fill last from l).
Proof using HF.
  induction l as [|[[a b] k] r IH]; intro from; [reflexivity|]. cbn [map fill point_moved fst snd]. rewrite (mo_eq _ HF).
  destruct (veq a b); [cbn [map label_moved fst snd]; now rewrite IH|]. rewrite find_moved. cbv zeta.
  destruct (find _ r) as [q|]; cbn [option_map].
  - change (fst (fst (point_moved q))) with (f (fst (fst q))). rewrite (mo_cut _ HF). destruct (line_intersect_segment (from, fst (fst q)) (a, b)) as [y|]; cbn [option_map map label_moved fst snd]; now rewrite IH.
  - rewrite (mo_cut _ HF). destruct (line_intersect_segment (from, last) (a, b)) as [y|]; cbn [option_map map label_moved fst snd]; now rewrite IH.
Qed.
Lemma thin_alike l : thin (map label_moved l) = map label_moved (thin l).
Proof using HF.
  induction l as [|p r IH]; [reflexivity|]. cbn [map thin]. destruct r as [|q r]; [reflexivity|]. cbn [map] in *.
  change (fst (label_moved p)) with (f (fst p)). change (fst (label_moved q)) with (f (fst q)). rewrite (mo_dist2 _ HF), IH. now destruct (flt _ _).
Qed.
Lemma dend_alike (n n' : Node A) : nroot n' = f (nroot n) -> ninterval n' = pair_moved f (ninterval n) -> dend x' n' = map f (dend x n).
Proof using HF.
  intros N2 N3. unfold dend. rewrite N2, N3, map_app. change (cgoal x') with (f goal). change (cgoal x) with goal. destruct (ninterval n) as [a b]. unfold pair_moved. cbn [fst snd].
  rewrite (mo_turning _ HF). destruct (turning_point (nroot n) goal (a, b)); reflexivity.
Qed.
Lemma dwith_alike n n' : dnode_alike n n' -> dwith_layers c' n' = map label_moved (dwith_layers c n).
Proof using HF.
  intros [(_ & N2 & N3 & _ & N5 & _) NP]. unfold dwith_layers. cbv zeta. cbn [dctx dfrom c c']. rewrite (dend_alike _ _ N2 N3), NP, N5. change (fst (label_moved from0)) with (f (fst from0)).
  assert (EH : hd (cgoal x') (map f (dend x (dnode n))) = f (hd (cgoal x) (dend x (dnode n)))) by (change (cgoal x') with (f (cgoal x)); now destruct (dend x (dnode n))).
  rewrite EH, fill_alike, map_map. assert (ET : map (fun p => (f p, id_layer (nto (dnode n)))) (dend x (dnode n)) = map label_moved (map (fun p => (p, id_layer (nto (dnode n)))) (dend x (dnode n)))).
  { rewrite map_map. reflexivity. }
  rewrite ET, <- map_app. apply thin_alike.
Qed.
Lemma dsum_alike l : dsum c' (map label_moved l) = dsum c l.
Proof using HD.
  unfold dsum. assert (G : forall l acc y, rsim (fun r r' => fst r' = fst r) (foldM (dleg c) (acc, y) l) (foldM (dleg c') (acc, label_moved y) (map label_moved l))).
  { clear l. induction l as [|q r IH]; intros acc y; [reflexivity|]. cbn [map foldM].
    assert (EQ : dleg c' (acc, label_moved y) (label_moved q) = let* t := dleg c (acc, y) q in Ok (fst t, label_moved (snd t))).
    { unfold dleg. cbn [fst snd dscales c c' label_moved]. destruct (index scales (snd y)) as [sc| | |] eqn:Es; cbn [bind]; try reflexivity.
      apply index_Ok, nthN_In in Es. cbn [fst snd]. now rewrite (dm_legs _ _ HD). }
    rewrite EQ. destruct (dleg c (acc, y) q) as [[a' y']| | |]; cbn [bind fst snd]; try exact I. apply IH. }
  specialize (G l (fz 0) from0). cbn [dfrom c c']. destruct (foldM (dleg c) (fz 0, from0) l) as [[a b]| | |], (foldM (dleg c') (fz 0, label_moved from0) (map label_moved l)) as [[a' b']| | |];
    try contradiction; try reflexivity. cbn in *. now rewrite G.
Qed.
Definition dstep_moved (s : DStep A) : DStep A := match s with DFound p => DFound (dpath_moved p) | DNotFound => DNotFound | DContinue => DContinue end.
Definition dstep_alike (r r' : DState A * DStep A) : Prop := dstate_alike (fst r) (fst r') /\ snd r' = dstep_moved (snd r).
Lemma dfinal_alike n n' : dnode_alike n n' -> dfinal c' n' = let* p := dfinal c n in Ok (dpath_moved p).
Proof using HF HD.
  intro HN. unfold dfinal. rewrite (dwith_alike _ _ HN), dsum_alike. destruct (dsum c (dwith_layers c n)) as [len| | |]; cbn [bind]; try reflexivity.
  destruct HN as [(N1 & N2 & N3 & _) _]. cbn [dctx c c']. rewrite N1, (dend_alike _ _ N2 N3). unfold dpath_moved. cbn [dlength dpath dlayers]. now rewrite map_app.
Qed.
Lemma dnext_alike lib st st' : dpop_blind (dpop lib) -> dstate_alike st st' -> dbuffer st = [] -> rsim dstep_alike (dnext lib c st) (dnext lib c' st').
Proof using HF HD HM HV HV'.
  intros HP HS HB. pose proof HS as (S1 & S2 & S3). unfold dnext.
  pose proof (HP dnode_alike (fun n n' Q => conj (proj1 (proj2 (proj2 (proj2 (proj2 (proj2 (proj2 (proj1 Q)))))))) (proj1 (proj2 (proj2 (proj2 (proj2 (proj2 (proj2 (proj2 (proj1 Q))))))))) ) _ _ S1) as H.
  destruct (dpop lib (dqueue st)) as [[n q]|], (dpop lib (dqueue st')) as [[n' q']|]; try contradiction; [|split; [exact HS|reflexivity]].
  destruct H as [Hn Hq]. pose proof Hn as [(N1 & N2 & N3 & N4 & N5 & N6 & N7 & N8 & _) _]. cbn [dhist dbuffer]. cbv zeta. rewrite S3, N2, (hist_get_moved f HF), N7, N5. cbn [dctx c c'].
  assert (HS1 : dstate_alike (mkDState q (dbuffer st) (dhist st)) (mkDState q' (dbuffer st') (hist_moved f (dhist st)))) by (split; [exact Hq|split; [exact S2|reflexivity]]).
  destruct (match hist_get (dhist st) (nroot (dnode n)) with Some o => flt o (ng (dnode n)) | None => false end); [split; [exact HS1|reflexivity]|].
  change (cpto x') with pe. change (cpto x) with pe.
  destruct (N.eqb (nto (dnode n)) pe).
  - fold x x' c c'. rewrite (dfinal_alike n n' Hn). destruct (dfinal c n) as [p| | |]; cbn [bind rsim]; try exact I. split; [exact HS1|reflexivity].
  - change (cmesh x') with m'. change (cmesh x) with m. fold x x' c c'. apply (rsim_bind dstate_alike); [now apply dsucc_fuel_alike|]. intros s s' _ Q. split; [exact Q|reflexivity].
Qed.
Lemma dnext_buffer lib (d : DCtx A) st s r : dbuffer st = [] -> dnext lib d st = Ok (s, r) -> dbuffer s = [].
Proof using.
  intros HB E. unfold dnext in E. destruct (dpop lib (dqueue st)) as [[n q]|]; [|now inversion E; subst]. cbv zeta in E. cbn [dhist dbuffer] in E.
  destruct (match hist_get _ _ with Some _ => _ | None => _ end); [inversion E; subst; exact HB|]. destruct (N.eqb _ _).
  - inv_bind E. inversion E; subst. exact HB.
  - inv_bind E. inversion E; subst. revert E0. generalize (succ_fuel (cmesh (dctx d))), (@nil N), n, (mkDState q (dbuffer st) (dhist st)).
    induction n0 as [|k IH]; intros vis z y E0; [discriminate|]. cbn [dsuccessors] in E0. inv_bind E0. destruct (dbuffer a) as [|b [|]]; try (inversion E0; subst; reflexivity). cbv zeta in E0.
    destruct (N.eqb _ _); [inversion E0; subst; reflexivity|]. destruct (reverse_of _ _); [inversion E0; subst; reflexivity|]. destruct (memN _ _); [inversion E0; subst; reflexivity|]. exact (IH _ _ _ E0).
Qed.
Lemma drun_alike lib : dpop_blind (dpop lib) -> forall k st st' ps, dstate_alike st st' -> dbuffer st = [] ->
  drun k lib c' st' (map dpath_moved ps) = let* r := drun k lib c st ps in Ok (map dpath_moved r).
Proof using HF HD HM HV HV'.
  intro HP. induction k as [|k IH]; intros st st' ps HS HB; [reflexivity|]. cbn [drun]. pose proof (dnext_alike lib st st' HP HS HB) as H. pose proof (dnext_buffer lib c st) as HB1.
  destruct (dnext lib c st) as [[s r]| | |], (dnext lib c' st') as [[s' r']| | |]; try contradiction; try reflexivity. destruct H as [Q1 Q2]. specialize (HB1 s r HB eq_refl). cbn [bind fst snd] in *. subst r'.
  destruct r as [p| |]; cbn [dstep_moved].
  - rewrite <- (IH s s' (ps ++ [p]) Q1 HB1), map_app. reflexivity.
  - rewrite <- (IH s s' _ Q1 HB1). f_equal. destruct ps as [|p r]; [reflexivity|]. cbn [map]. now rewrite map_app.
  - now apply IH.
Qed.
Lemma dfirst_alike lib : dpop_blind (dpop lib) -> forall k st st', dstate_alike st st' -> dbuffer st = [] ->
  dfirst k lib c' st' = let* r := dfirst k lib c st in Ok (option_map (option_map dpath_moved) r).
Proof using HF HD HM HV HV'.
  intro HP. induction k as [|k IH]; intros st st' HS HB; [reflexivity|]. cbn [dfirst]. pose proof (dnext_alike lib st st' HP HS HB) as H. pose proof (dnext_buffer lib c st) as HB1.
  destruct (dnext lib c st) as [[s r]| | |], (dnext lib c' st') as [[s' r']| | |]; try contradiction; try reflexivity. destruct H as [Q1 Q2]. specialize (HB1 s r HB eq_refl). cbn [bind fst snd] in *. subst r'.
  destruct r as [p| |]; cbn [dstep_moved]; try reflexivity. now apply IH.
Qed.
Lemma shortest_alike ps : forall b, shortest (dpath_moved b) (map dpath_moved ps) = dpath_moved (shortest b ps).
Proof using. induction ps as [|p r IH]; intro b; [reflexivity|]. cbn [map shortest]. change (dlength (dpath_moved p)) with (dlength p). change (dlength (dpath_moved b)) with (dlength b). destruct (flt _ _); apply IH. Qed.
Lemma dselect_alike ps : dselect (map dpath_moved ps) = let* o := dselect ps in Ok (option_map dpath_moved o).
Proof using.
  destruct ps as [|p [|q r]]; [reflexivity|reflexivity|]. unfold dselect. cbn [map]. 
  assert (E : forall l, existsb (fun p : DPath A => fnan (dlength p)) (map dpath_moved l) = existsb (fun p => fnan (dlength p)) l) by (induction l as [|y l IH]; [reflexivity|cbn [map existsb]; now rewrite IH]).
  change (dpath_moved p :: dpath_moved q :: map dpath_moved r) with (map dpath_moved (p :: q :: r)). rewrite E. destruct (existsb _ _); [reflexivity|]. cbn [bind option_map].
  change (dpath_moved q :: map dpath_moved r) with (map dpath_moved (q :: r)). now rewrite shortest_alike.
Qed.
Lemma dsetup_buffer (d : DCtx A) from ps st : dsetup d from ps = Ok st -> dbuffer st = [].
Proof using. unfold dsetup. intro H. inv_bind H. inv_bind H. inv_bind H. inv_bind H. inversion H; subst. reflexivity. Qed.
End Sim.

(** Complete detailed searches. *)
Section Searches.
Context {A : Arith}.
Variables (lib : DLib A) (f : vec2 A -> vec2 A) (m m' : Mesh A) (scales : list (vec2 A)).
Hypotheses (HF : motion f) (HD : dmotion f scales) (HM : mesh_alike f m m') (HV : verts_small m) (HV' : verts_small m') (HP : dpop_blind (dpop lib)).
Hypotheses (HQ : Forall2 (layer_queries (dlib_lib lib) f) (layers m) (layers m')) (Hd : search_delta m' = search_delta m) (Ht : search_steps m' = search_steps m).

Lemma dpath_alike from to blocked : dpath_on_layers lib m' scales (coords_moved f from) (coords_moved f to) blocked =
  let* o := dpath_on_layers lib m scales from to blocked in Ok (option_map (dpath_moved f) o).
Proof using HF HD HM HV HV' HP HQ Hd Ht.
  unfold dpath_on_layers. rewrite !(locate_alike (dlib_lib lib) f m m' HQ Hd Ht). destruct (locate_end (dlib_lib lib) m from) as [[ps|]| | |]; try reflexivity. cbn [bind].
  destruct (locate_end (dlib_lib lib) m to) as [[pe|]| | |]; try reflexivity. cbn [bind]. rewrite (reject_alike (dlib_lib lib) f m m' HQ HM). destruct (islands_reject m ps pe) as [[|]| | |]; try reflexivity. cbn [bind].
  cbn [coords_moved cpos]. destruct (N.eqb ps pe).
  - cbn [bind option_map dpath_moved dlength dpath dlayers map label_moved fst snd]. now rewrite (mo_dist _ HF).
  - rewrite (count_alike f m m' HM). cbv zeta. pose proof (dsetup_alike f m m' scales HF HD HM HV HV' (cpos to) pe blocked (cpos from, id_layer ps) (cpos from) ps) as H.
    pose proof (dsetup_buffer (mkDCtx (mkCtx m (cpos to) pe blocked) scales (cpos from, id_layer ps)) (cpos from) ps) as HB. change (label_moved f (cpos from, id_layer ps)) with (f (cpos from), id_layer ps) in H.
    destruct (dsetup _ (cpos from) ps) as [s| | |], (dsetup _ (f (cpos from)) ps) as [s'| | |]; try contradiction; try reflexivity. cbn [bind rsim] in *. specialize (HB s eq_refl).
    pose proof (drun_alike f m m' scales HF HD HM HV HV' (cpos to) pe blocked (cpos from, id_layer ps) lib HP (count_polygons m * 10) s s' [] H HB) as R.
    change (label_moved f (cpos from, id_layer ps)) with (f (cpos from), id_layer ps) in R. cbn [map] in R. rewrite R.
    destruct (drun _ lib _ s []) as [ps'| | |]; cbn [bind]; try reflexivity. apply dselect_alike.
Qed.
Lemma dget_alike k from to : dget_path k lib m' scales (f from) (f to) = let* o := dget_path k lib m scales from to in Ok (option_map (option_map (dpath_moved f)) o).
Proof using HF HD HM HV HV' HP HQ Hd Ht.
  unfold dget_path. change (coords_on_mesh (f from)) with (coords_moved f (coords_on_mesh from)). change (coords_on_mesh (f to)) with (coords_moved f (coords_on_mesh to)).
  change (dbvh lib) with (lbvh (dlib_lib lib)). rewrite !(location_alike (dlib_lib lib) f m m' HQ Hd).
  destruct (get_point_location (lbvh (dlib_lib lib)) m (coords_on_mesh from)) as [ps| | |]; try reflexivity. cbn [bind]. destruct (N.eqb ps MAX); [reflexivity|].
  destruct (get_point_location (lbvh (dlib_lib lib)) m (coords_on_mesh to)) as [pe| | |]; try reflexivity. cbn [bind]. destruct (N.eqb pe MAX); [reflexivity|].
  rewrite (async_reject_alike f m m' HM). destruct (async_islands_reject m ps pe) as [[|]| | |]; try reflexivity. cbn [bind]. destruct (N.eqb ps pe).
  - cbn [bind option_map dpath_moved dlength dpath dlayers map label_moved fst snd]. now rewrite (mo_dist _ HF).
  - cbv zeta. pose proof (dsetup_alike f m m' scales HF HD HM HV HV' to pe [] (from, id_layer ps) from ps) as H.
    pose proof (dsetup_buffer (mkDCtx (mkCtx m to pe []) scales (from, id_layer ps)) from ps) as HB. change (label_moved f (from, id_layer ps)) with (f from, id_layer ps) in H.
    destruct (dsetup _ from ps) as [s| | |], (dsetup _ (f from) ps) as [s'| | |]; try contradiction; try reflexivity. cbn [bind rsim] in *. specialize (HB s eq_refl).
    pose proof (dfirst_alike f m m' scales HF HD HM HV HV' to pe [] (from, id_layer ps) lib HP k s s' H HB) as R.
    change (label_moved f (from, id_layer ps)) with (f from, id_layer ps) in R. exact R.
Qed.
End Searches.
