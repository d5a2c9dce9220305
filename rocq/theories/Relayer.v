(** The search depends neither on the numbers of the polygons nor on the layers that hold them: simulation. *)
From Coq Require Import List NArith ZArith Bool Lia.
From Verif Require Import Base Arith U32 Mesh Helpers Locate Search AsyncPath StdLib Spec Spec_alike Spec_relayer Search_facts Search_cost Detailed_sim Cleanup_facts Alike Alike_locate.
Import ListNotations.
Open Scope N_scope.

Section Sim.
Context {A : Arith}.
Variables (new : N -> N) (m m' : Mesh A).
Hypothesis (HM : renumbered new m m') (HK : ids_known m).
Implicit Types (n : Node A) (st : State A).

Definition known (id : N) : Prop := id = MAX \/ is_polygon m id.
Lemma new_eqb a b : known a -> known b -> N.eqb (new a) (new b) = N.eqb a b.
Proof using HM.
  intros [-> |Ka] [-> |Kb].
  - now rewrite !N.eqb_refl.
  - rewrite (rn_none _ _ _ HM). destruct (rn_small _ _ _ HM b Kb) as [_ Nb]. destruct (N.eqb_spec MAX (new b)) as [E|E]; [congruence|].
    destruct (N.eqb_spec MAX b) as [E'|E']; [|reflexivity]. subst b. exfalso. now apply Nb, (rn_none _ _ _ HM).
  - rewrite (rn_none _ _ _ HM). destruct (rn_small _ _ _ HM a Ka) as [_ Na]. destruct (N.eqb_spec (new a) MAX) as [E|E]; [congruence|].
    destruct (N.eqb_spec a MAX) as [E'|E']; [|reflexivity]. subst a. exfalso. now apply Na, (rn_none _ _ _ HM).
  - destruct (N.eqb_spec a b) as [-> |E]; [apply N.eqb_refl|]. apply N.eqb_neq. intro E'. exact (E (rn_inj _ _ _ HM a b Ka Kb E')).
Qed.
Lemma new_max a : known a -> N.eqb (new a) MAX = N.eqb a MAX.
Proof using HM. intro K. rewrite <- (rn_none _ _ _ HM) at 1. apply new_eqb; [exact K|now left]. Qed.
Lemma mem_new a l : known a -> (forall x, In x l -> known x) -> memN (new a) (map new l) = memN a l.
Proof using HM.
  intros Ka Kl. unfold memN. induction l as [|x l IH]; [reflexivity|]. cbn [map existsb]. rewrite (new_eqb a x Ka (Kl x (or_introl eq_refl))). f_equal. apply IH. intros y Hy. apply Kl. now right.
Qed.

Lemma vertex_known (l : Layer A) i (v : Vertex A) : In l (layers m) -> nthN (vertices l) i = Some v -> forall id, In id (vpolys v) -> known id.
Proof using HK. intros Hl Hv id Hid. exact (HK l v id Hl (nthN_In _ _ _ Hv) Hid). Qed.

Lemma find_new (g g' : N -> bool) l : (forall x, In x l -> g' (new x) = g x) -> find g' (map new l) = option_map new (find g l).
Proof.
  intro H. induction l as [|x l IH]; [reflexivity|]. cbn [map find]. rewrite (H x (or_introl eq_refl)). destruct (g x); [reflexivity|]. apply IH. intros y Hy. apply H. now right.
Qed.
Lemma filter_new (g g' : N -> bool) l : (forall x, In x l -> g' (new x) = g x) -> filter g' (map new l) = map new (filter g l).
Proof.
  intro H. induction l as [|x l IH]; [reflexivity|]. cbn [map filter]. rewrite (H x (or_introl eq_refl)), IH by (intros y Hy; apply H; now right). destruct (g x); reflexivity.
Qed.
Lemma other_side_new (sv ev sv' ev' : Vertex A) p : (forall id, In id (vpolys sv) -> known id) -> (forall id, In id (vpolys ev) -> known id) -> known p ->
  vpolys sv' = map new (vpolys sv) -> vpolys ev' = map new (vpolys ev) -> other_side sv' ev' (new p) = new (other_side sv ev p).
Proof using HM.
  intros Ks Ke Kp E1 E2. unfold other_side. rewrite E1, E2.
  rewrite (filter_new (fun i => negb (N.eqb i MAX) && memN i (vpolys ev))).
  2:{ intros x Hx. rewrite (new_max x (Ks x Hx)), (mem_new x _ (Ks x Hx) Ke). reflexivity. }
  rewrite (find_new (fun i => negb (N.eqb i p))).
  2:{ intros x Hx. apply filter_In in Hx. rewrite (new_eqb x p (Ks x (proj1 Hx)) Kp). reflexivity. }
  destruct (find _ _); cbn [option_map]; [reflexivity|]. symmetry. apply (rn_none _ _ _ HM).
Qed.
Lemma other_side_known (sv ev : Vertex A) p : (forall id, In id (vpolys sv) -> known id) -> known (other_side sv ev p).
Proof.
  intro K. unfold other_side. destruct (find _ _) as [i|] eqn:E; [|now left]. apply find_some in E. destruct E as [E _]. apply filter_In in E. apply K, E.
Qed.

Definition edge_same (l l' : Layer A) (e e' : N * N) : Prop := vertex_same new l l' (fst e) (fst e') /\ vertex_same new l l' (snd e) (snd e').
Definition node_same (n n' : Node A) : Prop :=
  npath n' = npath n /\ nroot n' = nroot n /\ ninterval n' = ninterval n /\
  nfrom n' = new (nfrom n) /\ nto n' = new (nto n) /\ ng n' = ng n /\ nh n' = nh n /\ is_polygon m (nfrom n) /\ is_polygon m (nto n) /\
  exists l l', nthN (layers m) (nprev n) = Some l /\ nthN (layers m') (nprev n') = Some l' /\ edge_same l l' (nedge n) (nedge n').
Definition state_same (st st' : State A) : Prop :=
  Forall2 node_same (squeue st) (squeue st') /\ Forall2 node_same (sbuffer st) (sbuffer st') /\ shist st' = shist st.

Variables (goal : vec2 A) (pe : N) (blocked blocked' : list N).
Hypotheses (HB : same_blocked new m blocked blocked') (HPE : is_polygon m pe).
Let c : Ctx A := mkCtx m goal pe blocked.
Let c' : Ctx A := mkCtx m' goal (new pe) blocked'.

Lemma memN_iff a l : memN a l = true <-> In a l.
Proof. unfold memN. rewrite existsb_exists. split; [intros (x & H1 & H2); apply N.eqb_eq in H2; now subst|intro H; exists a; split; [exact H|apply N.eqb_refl]]. Qed.
Lemma blocked_new id : known id -> memN (id_layer (new id)) blocked' = memN (id_layer id) blocked.
Proof using HB.
  intro K. pose proof (proj2 HB id K) as H. destruct (memN (id_layer id) blocked) eqn:E1, (memN (id_layer (new id)) blocked') eqn:E2; try reflexivity; exfalso.
  - apply memN_iff in E1. apply H, memN_iff in E1. congruence.
  - apply memN_iff in E2. apply H, memN_iff in E2. congruence.
Qed.

Definition parent_same (n n' : Node A) : Prop :=
  npath n' = npath n /\ nroot n' = nroot n /\ nto n' = new (nto n) /\ ng n' = ng n /\ is_polygon m (nto n).
Lemma add_node_same st st' root os s e n n' i i' j j' l l' : state_same st st' -> parent_same n n' -> is_polygon m os ->
  nthN (layers m) (id_layer (nto n)) = Some l -> nthN (layers m') (id_layer (nto n')) = Some l' -> vertex_same new l l' i i' -> vertex_same new l l' j j' ->
  state_same (add_node c st root os (s, i) (e, j) n) (add_node c' st' root (new os) (s, i') (e, j') n').
Proof.
  intros (S1 & S2 & S3) (P1 & P2 & P3 & P4 & P5) KO L1 L2 Vi Vj. unfold add_node, new_node. cbn [fst snd c c' cgoal ng nh]. rewrite P1, P2, P4.
  destruct (fnan _ || fnan _); [split; [|split]; assumption|]. rewrite S3.
  set (nn := mkNode _ _ _ _ _ _ _ _ _). set (nn' := mkNode _ _ _ _ _ _ _ _ _).
  assert (HN : node_same nn nn').
  { unfold node_same, nn, nn'. cbn [npath nroot ninterval nfrom nto nprev ng nh nedge]. repeat (split; [first [reflexivity|assumption]|]).
    exists l, l'. split; [exact L1|]. split; [exact L2|]. split; assumption. }
  assert (HF2 : Forall2 node_same (sbuffer st ++ [nn]) (sbuffer st' ++ [nn'])) by (apply Forall2_app; [exact S2|]; constructor; [exact HN|constructor]).
  destruct (hist_get (shist st) root) as [o|].
  - destruct (flt o _); [split; [|split]; assumption|]. split; [exact S1|]. split; [exact HF2|]. reflexivity.
  - split; [exact S1|]. split; [exact HF2|]. reflexivity.
Qed.
Lemma flush_same st st' : state_same st st' -> state_same (flush_nodes st) (flush_nodes st').
Proof. intros (S1 & S2 & S3). split; [|split; [constructor|exact S3]]. cbn. now apply Forall2_app. Qed.

Lemma at_polygon id l p : polygon_at m id l p -> index (layers m) (id_layer id) = Ok l /\ index (polygons l) (id_polygon id) = Ok p.
Proof. intros [H1 H2]. split; apply index_Ok; assumption. Qed.
Lemma polygon_same id : is_polygon m id -> exists l p l' p', polygon_at m id l p /\ polygon_at m' (new id) l' p' /\ is_one_way p' = is_one_way p /\ Forall2 (vertex_same new l l') (pverts p) (pverts p').
Proof using HM. intros (H1 & l & p & H2). destruct (rn_polygon _ _ _ HM id l p H1 H2) as (l' & p' & H3 & H4 & H5). exists l, p, l', p'. auto. Qed.
Lemma mesh_polygon_same id : is_polygon m id -> rsim (fun p p' => is_one_way p' = is_one_way p) (mesh_polygon m id) (mesh_polygon m' (new id)).
Proof using HM.
  intro K. destruct (polygon_same id K) as (l & p & l' & p' & [H1 H2] & [H3 H4] & H5 & _). unfold mesh_polygon, index. rewrite H1, H3. cbn [unwrap bind]. rewrite H2, H4. exact H5.
Qed.

Lemma windows_same (l l' : Layer A) vs vs' : Forall2 (vertex_same new l l') vs vs' -> Forall2 (edge_same l l') (windows2 vs) (windows2 vs').
Proof.
  intro H. induction H as [|a a' r r' Ha H IH]; [constructor|]. destruct H as [|b b' r r' Hb H]; [constructor|]. cbn [windows2] in *. constructor; [now split|exact IH].
Qed.
Lemma last_same (l l' : Layer A) r r' : Forall2 (vertex_same new l l') r r' -> forall a a', vertex_same new l l' a a' -> vertex_same new l l' (last r a) (last r' a').
Proof.
  intro H. induction H as [|b b' r r' Hb H IH]; intros a a' Ha; [exact Ha|]. destruct H as [|d d' r r' Hd H]; [exact Hb|]. exact (IH a a' Ha).
Qed.
Lemma edges_index_same (l l' : Layer A) p p' : Forall2 (vertex_same new l l') (pverts p) (pverts p') -> rsim (Forall2 (edge_same l l')) (edges_index p) (edges_index p').
Proof.
  intro H. unfold edges_index. destruct H as [|a a' r r' Ha H]; [exact I|]. cbn [rsim]. apply Forall2_app; [apply windows_same; now constructor|].
  constructor; [|constructor]. split; [now apply last_same|exact Ha].
Qed.

Lemma setup_edge_same from ps l l' st st' e e' : is_polygon m ps -> nthN (layers m) (id_layer ps) = Some l -> nthN (layers m') (id_layer (new ps)) = Some l' ->
  edge_same l l' e e' -> state_same st st' ->
  rsim state_same (setup_edge c from ps l st e) (setup_edge c' from (new ps) l' st' e').
Proof using HM HK HB HPE.
  intros KP L1 L2 [V1 V2] HS. unfold setup_edge. pose proof V1 as (sv & sv' & A1 & A2 & A3 & A4 & A5). pose proof V2 as (ev & ev' & B1 & B2 & B3 & B4 & B5).
  pose proof (vertex_known l _ sv (nthN_In _ _ _ L1) A1) as KS. pose proof (vertex_known l _ ev (nthN_In _ _ _ L1) B1) as KE.
  rewrite A1, A2, B1, B2. cbv zeta. rewrite (other_side_new sv ev sv' ev' ps KS KE (or_intror KP) A4 B4). cbn [cblocked cpto cmesh c c'].
  pose proof (other_side_known sv ev ps KS) as KO. set (os := other_side sv ev ps) in *. rewrite (blocked_new os KO).
  destruct (memN _ blocked); [exact HS|]. rewrite (new_eqb os pe KO (or_intror HPE)), (new_max os KO).
  apply (rsim_bind eq).
  - destruct (N.eqb os pe); [reflexivity|]. destruct (N.eqb_spec os MAX) as [E|E]; [reflexivity|]. destruct KO as [KO|KO]; [contradiction|].
    apply (rsim_bind (fun p p' => is_one_way p' = is_one_way p)); [now apply mesh_polygon_same|]. intros x y _ Ey. cbn. now rewrite Ey.
  - intros go go' EG <-. cbn [rsim]. destruct go; [|exact HS].
    assert (KQ : is_polygon m os).
    { destruct (N.eqb_spec os pe) as [E|E]; [rewrite E; exact HPE|]. destruct (N.eqb_spec os MAX) as [E'|E']; [discriminate|]. destruct KO as [KO|KO]; [contradiction|exact KO]. }
    fold (world l sv) (world l ev) (world l' sv') (world l' ev'). rewrite A3, B3.
    apply (add_node_same st st' from os _ _ _ _ _ _ _ _ l l'); auto. split; [reflexivity|]. split; [reflexivity|]. split; [reflexivity|]. split; [reflexivity|]. exact KP.
Qed.
Lemma setup_same from ps : is_polygon m ps -> rsim state_same (setup c from ps) (setup c' from (new ps)).
Proof using HM HK HB HPE.
  intro KP. destruct (polygon_same ps KP) as (l & p & l' & p' & [H1 H2] & [H3 H4] & H5 & H6). unfold setup. cbn [cmesh c c'].
  rewrite (proj2 (index_Ok _ _ _) H1), (proj2 (index_Ok _ _ _) H3). cbn [bind]. rewrite (proj2 (index_Ok _ _ _) H2), (proj2 (index_Ok _ _ _) H4). cbn [bind].
  apply (rsim_bind (Forall2 (edge_same l l'))); [now apply edges_index_same|]. intros es es' _ He.
  apply (rsim_bind state_same).
  - apply (rsim_foldM2 (edge_same l l')); [exact He| |].
    + intros e e' s s' Q1 Q2. now apply setup_edge_same.
    + split; [constructor|]. split; [constructor|]. reflexivity.
  - intros s s' _ Q. now apply flush_same.
Qed.

Lemma close_index_same (l l' : Layer A) pt vs vs' i : Forall2 (vertex_same new l l') vs vs' -> close_index l' pt vs' i = close_index l pt vs i.
Proof.
  intro H. revert i. induction H as [|a a' r r' Ha H IH]; intro i; [reflexivity|]. cbn [close_index]. destruct Ha as (v & v' & A1 & A2 & A3 & _). unfold index. rewrite A1, A2. cbn [unwrap bind].
  fold (world l v) (world l' v'). rewrite A3. destruct (flt _ _); [reflexivity|]. apply IH.
Qed.
Lemma dists_same (l l' : Layer A) pt vs vs' : Forall2 (vertex_same new l l') vs vs' ->
  mapM (fun v => let* vv := index (vertices l') v in Ok (vdist2 (vadd (coords vv) (offset l')) pt)) vs' =
  mapM (fun v => let* vv := index (vertices l) v in Ok (vdist2 (vadd (coords vv) (offset l)) pt)) vs.
Proof.
  intro H. induction H as [|a a' r r' Ha H IH]; [reflexivity|]. cbn [mapM]. destruct Ha as (v & v' & A1 & A2 & A3 & _). unfold index at 1 3. rewrite A1, A2. cbn [unwrap bind].
  fold (world l v) (world l' v'). rewrite A3, IH. reflexivity.
Qed.
Lemma right_index_same (l l' : Layer A) p p' n n' : node_same n n' -> Forall2 (vertex_same new l l') (pverts p) (pverts p') -> right_index c' l' p' n' = right_index c l p n.
Proof.
  intros (N1 & N2 & N3 & N4 & N5 & N7 & N8 & _ & _ & pl & pl' & L1 & L2 & _ & (v & v' & A1 & A2 & A3 & _)) HV. unfold right_index. cbn [cmesh c c']. unfold index at 1 2 4 5. rewrite L1, L2.
  cbn [unwrap bind]. rewrite A1, A2. cbn [unwrap bind]. fold (world pl v) (world pl' v'). rewrite A3, (close_index_same l l' _ _ _ 0 HV). destruct (close_index l _ _ 0) as [[i|]| | |]; cbn [bind]; try reflexivity.
  now rewrite (dists_same l l' _ _ _ HV).
Qed.

Definition succ_same (l l' : Layer A) (s s' : Successor A) : Prop := sinterval s' = sinterval s /\ sty s' = sty s /\ edge_same l l' (sedge s) (sedge s').
Lemma cut_right_same (l l' : Layer A) root r e e' ty sp ep : edge_same l l' e e' ->
  let a := cut_right root r e ty sp ep in let b := cut_right root r e' ty sp ep in
  Forall2 (succ_same l l') (fst (fst a)) (fst (fst b)) /\ snd (fst b) = snd (fst a) /\ snd b = snd a.
Proof.
  intro He. cbv zeta. unfold cut_right. destruct (side sp (root, r)).
  - split; [constructor|split; reflexivity].
  - destruct (line_intersect_segment (root, r) (sp, ep)) as [x|]; [|split; [constructor|split; reflexivity]].
    destruct (fgt (vdist2 x sp) c1em6 && fgt (vdist2 x ep) c1em6); cbn [fst snd].
    + split; [|split; reflexivity]. constructor; [|constructor]. split; [reflexivity|]. split; [reflexivity|exact He].
    + split; [constructor|split; reflexivity].
  - split; [constructor|split; reflexivity].
Qed.
Lemma cut_edge_same (l l' : Layer A) root i e e' ty sp ep : edge_same l l' e e' ->
  let a := cut_edge root i e ty sp ep in let b := cut_edge root i e' ty sp ep in
  Forall2 (succ_same l l') (fst a) (fst b) /\ snd b = snd a.
Proof.
  intro He. cbv zeta. unfold cut_edge. destruct (cut_right_same l l' root (fst i) e e' ty sp ep He) as (R1 & R2 & R3). rewrite R2, R3.
  destruct (fst (cut_left root (snd i) _ ep)) as [x|]; cbn [fst snd].
  - split; [|reflexivity]. apply Forall2_app; [exact R1|]. constructor; [split; [reflexivity|split; [reflexivity|exact He]]|]. constructor; [split; [reflexivity|split; [reflexivity|exact He]]|constructor].
  - split; [|reflexivity]. apply Forall2_app; [exact R1|]. constructor; [split; [reflexivity|split; [reflexivity|exact He]]|constructor].
Qed.
Lemma cut_edges_same (l l' : Layer A) root i es es' ty : Forall2 (edge_same l l') es es' ->
  rsim (Forall2 (succ_same l l')) (cut_edges l root i es ty) (cut_edges l' root i es' ty).
Proof.
  intro H. revert ty. induction H as [|[a b] [a' b'] r r' He H IH]; intro ty; cbn [cut_edges]; [constructor|].
  pose proof He as [(va & va' & A1 & A2 & A3 & A4 & A5) (vb & vb' & B1 & B2 & B3 & B4 & B5)]. cbn [fst snd] in *.
  assert (E1 : (lengthN (vertices l) <? N.max a b) = false) by (apply N.ltb_ge; apply nthN_Some_lt in A1, B1; lia).
  assert (E2 : (lengthN (vertices l') <? N.max a' b') = false) by (apply N.ltb_ge; apply nthN_Some_lt in A2, B2; lia).
  rewrite E1, E2. unfold get_unchecked. rewrite A1, A2, B1, B2. cbn [bind]. fold (world l va) (world l vb) (world l' va') (world l' vb'). rewrite A3, B3.
  destruct (cut_edge_same l l' root i (a, b) (a', b') ty (world l va) (world l vb) He) as [C1 C2].
  destruct (cut_edge root i (a, b) ty (world l va) (world l vb)) as [out ty1], (cut_edge root i (a', b') ty (world l va) (world l vb)) as [out' ty1'].
  cbn [fst snd] in C1, C2. subst ty1'. apply (rsim_bind (Forall2 (succ_same l l'))); [apply IH|]. intros x y _ Q. cbn [rsim]. now apply Forall2_app.
Qed.
Lemma circular_same (l l' : Layer A) p p' lo hi : Forall2 (vertex_same new l l') (pverts p) (pverts p') ->
  rsim (Forall2 (edge_same l l')) (circular_edges_index p lo hi) (circular_edges_index p' lo hi).
Proof.
  intro H. unfold circular_edges_index. apply (rsim_bind (Forall2 (edge_same l l'))); [now apply edges_index_same|].
  intros es es' _ He. cbn [rsim]. apply Forall2_firstn, Forall2_skipn. now apply Forall2_app.
Qed.
Lemma edges_between_same n n' l p l' p' : node_same n n' -> polygon_at m (nto n) l p -> polygon_at m' (nto n') l' p' -> Forall2 (vertex_same new l l') (pverts p) (pverts p') ->
  rsim (Forall2 (succ_same l l')) (edges_between c n) (edges_between c' n').
Proof.
  intros HN [H1 H2] [H3 H4] HV. pose proof HN as (N1 & N2 & N3 & _). unfold edges_between. cbn [cmesh c c'].
  rewrite (proj2 (index_Ok _ _ _) H1), (proj2 (index_Ok _ _ _) H3). cbn [bind]. rewrite (proj2 (index_Ok _ _ _) H2), (proj2 (index_Ok _ _ _) H4). cbn [bind].
  rewrite (right_index_same l l' p p' n n' HN HV). apply rsim_same. intros ri _. assert (EL : lengthN (pverts p') = lengthN (pverts p)) by (unfold lengthN; now rewrite (alike_len HV)).
  rewrite EL. apply (rsim_bind (Forall2 (edge_same l l'))); [now apply circular_same|]. intros es es' _ He. rewrite N2, N3. now apply cut_edges_same.
Qed.

Lemma existsb_new (g g' : N -> bool) l : (forall x, In x l -> g' (new x) = g x) -> existsb g' (map new l) = existsb g l.
Proof.
  intro H. induction l as [|x l IH]; [reflexivity|]. cbn [map existsb]. rewrite (H x (or_introl eq_refl)). f_equal. apply IH. intros y Hy. apply H. now right.
Qed.
Lemma corner_same n n' vi vi' pt l l' : nthN (layers m) (nprev n) = Some l -> nthN (layers m') (nprev n') = Some l' -> vertex_same new l l' vi vi' ->
  corner_ok c' n' vi' pt = corner_ok c n vi pt.
Proof using HM HK HB.
  intros L1 L2 (v & v' & A1 & A2 & A3 & A4 & A5). pose proof (vertex_known l _ v (nthN_In _ _ _ L1) A1) as KV.
  unfold corner_ok. cbn [cmesh cblocked c c']. unfold index. rewrite L1, L2. cbn [unwrap bind]. rewrite A1, A2. cbn [unwrap bind].
  fold (world l v) (world l' v'). rewrite A3, A4, A5.
  rewrite (existsb_new (fun p => N.eqb p MAX || memN (id_layer p) blocked)).
  2:{ intros x Hx. now rewrite (new_max x (KV x Hx)), (blocked_new x (KV x Hx)). }
  destruct HB as [HB1 _]. destruct blocked as [|b0 bl], blocked' as [|b0' bl']; try reflexivity; exfalso; [now discriminate (proj1 HB1 eq_refl)|now discriminate (proj2 HB1 eq_refl)].
Qed.
Lemma expand_one_same n n' l l' st st' s s' : node_same n n' -> nthN (layers m) (id_layer (nto n)) = Some l -> nthN (layers m') (id_layer (nto n')) = Some l' ->
  succ_same l l' s s' -> state_same st st' -> rsim state_same (expand_one c n l st s) (expand_one c' n' l' st' s').
Proof using HM HK HB HPE.
  intros HN L1 L2 (S1 & S2 & S3) HS. pose proof HN as (N1 & N2 & N3 & N4 & N5 & N7 & N8 & KF & KT & pl & pl' & P1 & P2 & P3 & P4). unfold expand_one.
  pose proof S3 as [(sv & sv' & A1 & A2 & A3 & A4 & A5) (ev & ev' & B1 & B2 & B3 & B4 & B5)]. unfold get_unchecked. rewrite A1, A2, B1, B2. cbn [bind]. cbv zeta.
  pose proof (vertex_known l _ sv (nthN_In _ _ _ L1) A1) as KS. pose proof (vertex_known l _ ev (nthN_In _ _ _ L1) B1) as KE.
  rewrite N5, (other_side_new sv ev sv' ev' (nto n) KS KE (or_intror KT) A4 B4). pose proof (other_side_known sv ev (nto n) KS) as KO. set (os := other_side sv ev (nto n)) in *. cbn [cblocked cpto cmesh c c'].
  rewrite (new_max os KO), (blocked_new os KO), (new_eqb pe os (or_intror HPE) KO), N4, (new_eqb (nfrom n) os (or_intror KF) KO).
  destruct (N.eqb_spec os MAX) as [E|E]; [exact HS|]. destruct KO as [KO|KO]; [contradiction|]. destruct (memN _ blocked); [exact HS|].
  apply (rsim_bind eq).
  { destruct (N.eqb pe os); [reflexivity|]. apply (rsim_bind (fun p p' => is_one_way p' = is_one_way p)); [now apply mesh_polygon_same|]. intros x y _ Ey. cbn. now rewrite Ey. }
  intros dead dead' _ <-. destruct dead; [exact HS|]. destruct (N.eqb (nfrom n) os); [exact HS|].
  fold (world l sv) (world l ev) (world l' sv') (world l' ev'). rewrite A3, B3, S1, S2, N3.
  apply (rsim_bind (fun o o' => o' = o)).
  { destruct (sty s).
    - destruct (fgt _ _); [reflexivity|]. rewrite (corner_same n n' _ _ (snd (ninterval n)) pl pl' P1 P2 P4).
      apply rsim_same. intros b _. destruct b; reflexivity.
    - cbn [rsim]. now rewrite N2.
    - destruct (fgt _ _); [reflexivity|]. rewrite (corner_same n n' _ _ (fst (ninterval n)) pl pl' P1 P2 P3).
      apply rsim_same. intros b _. destruct b; reflexivity. }
  intros o o' _ ->. destruct o as [root|]; [|exact HS]. destruct (flt _ _); [exact HS|]. cbn [rsim].
  apply (add_node_same st st' root os _ _ _ _ _ _ _ _ l l'); auto; [|exact (proj1 S3)|exact (proj2 S3)]. split; [exact N1|]. split; [exact N2|]. split; [exact N5|]. split; [exact N7|exact KT].
Qed.
Lemma expand_same n n' st st' : node_same n n' -> state_same st st' -> rsim state_same (expand c n st) (expand c' n' st').
Proof using HM HK HB HPE.
  intros HN HS. unfold expand. pose proof HN as (_ & _ & _ & _ & N5 & _ & _ & _ & KN & _). cbn [cmesh c c'].
  destruct (polygon_same (nto n) KN) as (l & p & l' & p' & G1 & G2 & _ & HV). rewrite <- N5 in G2.
  apply (rsim_bind (Forall2 (succ_same l l'))); [exact (edges_between_same n n' l p l' p' HN G1 G2 HV)|]. intros ss ss' _ Hs. unfold index. rewrite (proj1 G1), (proj1 G2). cbn [unwrap bind].
  apply (rsim_foldM2 (succ_same l l')); [exact Hs| |exact HS]. intros s s' q q' Q1 Q2. apply expand_one_same; auto; [exact (proj1 G1)|exact (proj1 G2)].
Qed.
Lemma reverse_same n n' o o' : node_same n n' -> node_same o o' -> reverse_of n' o' = reverse_of n o.
Proof using HM.
  intros (_ & N2 & N3 & N4 & N5 & _ & _ & K1 & K2 & _) (_ & O2 & O3 & O4 & O5 & _ & _ & K3 & K4 & _). unfold reverse_of. rewrite N2, N3, N4, N5, O2, O3, O4, O5. now rewrite (new_eqb _ _ (or_intror K2) (or_intror K3)), (new_eqb _ _ (or_intror K1) (or_intror K4)).
Qed.
Lemma successors_same : forall k vis n n' st st', (forall x, In x vis -> known x) -> node_same n n' -> state_same st st' ->
  rsim state_same (successors k c vis n st) (successors k c' (map new vis) n' st').
Proof using HM HK HB HPE.
  induction k as [|k IH]; intros vis n n' st st' HV HN HS; [exact I|]. cbn [successors]. apply (rsim_bind state_same); [now apply expand_same|].
  intros s s' _ HS1. pose proof HS1 as (S1 & S2 & S3). destruct S2 as [|a a' b b' Ha S2]; [now apply flush_same|]. destruct S2 as [|d d' b b' Hd S2]; [|now apply flush_same].
  pose proof Ha as (_ & _ & _ & _ & A5 & _ & _ & _ & KA & _). rewrite A5. cbn [cpto c c']. rewrite (new_eqb _ _ (or_intror KA) (or_intror HPE)). destruct (N.eqb (nto a) pe); [now apply flush_same|].
  assert (HS2 : state_same (mkState (squeue s) [] (shist s)) (mkState (squeue s') [] (shist s'))) by (split; [exact S1|split; [constructor|exact S3]]).
  rewrite (reverse_same _ _ _ _ Ha HN). destruct (reverse_of a n); [now apply flush_same|]. rewrite (mem_new _ _ (or_intror KA) HV). destruct (memN _ vis); [now apply flush_same|].
  change (new (nto a) :: map new vis) with (map new (nto a :: vis)). apply IH; auto. intros x [<- |Hx]; [right; exact KA|now apply HV].
Qed.
Lemma succ_fuel_same n n' st st' : node_same n n' -> state_same st st' -> sbuffer st = [] ->
  rsim state_same (successors (succ_fuel m) c [] n st) (successors (succ_fuel m') c' [] n' st').
Proof using HM HK HB HPE.
  intros HN HS HB0. assert (HB' : sbuffer st' = []). { destruct HS as (_ & S2 & _). rewrite HB0 in S2. now inversion S2. }
  pose proof (successors_terminates c n st HB0) as T1. pose proof (successors_terminates c' n' st' HB') as T2. cbn [cmesh c c'] in T1, T2.
  rewrite <- (successors_mono c (succ_fuel m) [] n st (succ_fuel m') T1). rewrite <- (successors_mono c' (succ_fuel m') [] n' st' (succ_fuel m) T2).
  rewrite (Nat.add_comm (succ_fuel m)). change (@nil N) with (map new []) at 2. apply successors_same; auto. intros x [].
Qed.

Definition step_same (r r' : State A * Step A) : Prop := state_same (fst r) (fst r') /\ snd r' = snd r.
Lemma final_same n n' : node_same n n' -> final_path c' n' = final_path c n.
Proof.
  intros (N1 & N2 & N3 & N4 & N5 & N7 & N8 & _). unfold final_path, node_f. cbn [cgoal c c']. now rewrite N1, N2, N3, N7, N8.
Qed.
Lemma next_same lib st st' : pop_blind (lpop lib) -> state_same st st' -> sbuffer st = [] -> rsim step_same (next lib c st) (next lib c' st').
Proof using HM HK HB HPE.
  intros HP HS HB0. pose proof HS as (S1 & S2 & S3). unfold next.
  assert (HC : forall n n', node_same n n' -> ng n' = ng n /\ nh n' = nh n) by (intros n n' (_ & _ & _ & _ & _ & Q1 & Q2 & _); split; assumption).
  pose proof (HP node_same HC _ _ S1) as H. destruct (lpop lib (squeue st)) as [[n q]|], (lpop lib (squeue st')) as [[n' q']|]; try contradiction; [|split; [exact HS|reflexivity]].
  destruct H as [Hn Hq]. pose proof Hn as (N1 & N2 & N3 & N4 & N5 & N7 & N8 & KF & KT & _). cbn [shist sbuffer]. rewrite S3, N2, N7, N5. cbn [cpto c c' cmesh].
  assert (HS1 : state_same (mkState q (sbuffer st) (shist st)) (mkState q' (sbuffer st') (shist st))) by (split; [exact Hq|split; [exact S2|reflexivity]]).
  destruct (match hist_get (shist st) (nroot n) with Some o => flt o (ng n) | None => false end); [split; [exact HS1|reflexivity]|].
  rewrite (new_eqb _ _ (or_intror KT) (or_intror HPE)). destruct (N.eqb (nto n) pe); [split; [exact HS1|]; cbn [snd]; now rewrite (final_same n n' Hn)|].
  apply (rsim_bind state_same); [now apply succ_fuel_same|]. intros s s' _ Q. split; [exact Q|reflexivity].
Qed.
Lemma run_same lib : pop_blind (lpop lib) -> forall k st st', state_same st st' -> sbuffer st = [] ->
  rsim eq (run k lib c st) (run k lib c' st').
Proof using HM HK HB HPE.
  intro HP. induction k as [|k IH]; intros st st' HS HB0; [reflexivity|]. cbn [run]. apply (rsim_bind step_same); [now apply next_same|].
  intros [s r] [s' r'] E [Q1 Q2]. cbn [fst snd] in *. subst r'. pose proof (next_buffer lib c st s r HB0 E) as HB1. destruct r as [p| |]; [reflexivity|now apply IH|now apply IH].
Qed.
Lemma three_same lib : pop_blind (lpop lib) -> forall k st st', state_same st st' -> sbuffer st = [] ->
  rsim (fun r r' => state_same (fst r) (fst r') /\ sbuffer (fst r) = [] /\ snd r' = snd r) (three k lib c st) (three k lib c' st').
Proof using HM HK HB HPE.
  intro HP. induction k as [|k IH]; intros st st' HS HB0; [split; [exact HS|split; [exact HB0|reflexivity]]|]. cbn [three]. apply (rsim_bind step_same); [now apply next_same|].
  intros [s r] [s' r'] E [Q1 Q2]. cbn [fst snd] in *. subst r'. pose proof (next_buffer lib c st s r HB0 E) as HB1.
  destruct r as [p| |]; [split; [exact Q1|split; [exact HB1|reflexivity]]|split; [exact Q1|split; [exact HB1|reflexivity]]|now apply IH].
Qed.
End Sim.
