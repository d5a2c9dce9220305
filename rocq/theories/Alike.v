(** The search only depends on what Spec_alike.v lists: simulation between meshes that are alike. *)
From Coq Require Import List NArith ZArith Bool Lia.
From Verif Require Import Base Arith U32 Mesh Helpers Locate Search AsyncPath StdLib Spec Spec_alike Search_facts Search_cost Detailed_sim Cleanup_facts.
Import ListNotations.
Open Scope N_scope.

Lemma std_pop_blind {A} : pop_blind (@std_pop A).
Proof.
  intros R HR q q' H. induction H as [|n n' q q' Hn H IH]; cbn [std_pop]; [exact I|].
  destruct (std_pop q) as [[a r]|], (std_pop q') as [[a' r']|]; try contradiction.
  - destruct IH as [Ha Hr]. assert (E : node_cmp n' a' = node_cmp n a).
    { destruct (HR _ _ Hn) as [E1 E2], (HR _ _ Ha) as [E3 E4]. unfold node_cmp, node_f. now rewrite E1, E2, E3, E4. }
    rewrite E. destruct (node_cmp n a); split; auto; now constructor.
  - auto.
Qed.

Lemma Forall2_nth_both {X Y} (R : X -> Y -> Prop) l l' : Forall2 R l l' -> forall i, match nthN l i, nthN l' i with
  | Some x, Some y => R x y | None, None => True | _, _ => False end.
Proof.
  intros H i. destruct (nthN l i) as [x|] eqn:E.
  - destruct (Forall2_nthN _ _ _ H _ _ E) as (y & -> & E1). exact E1.
  - destruct (nthN l' i) as [y|] eqn:E'; [|exact I]. destruct (Forall2_nthN_r _ _ _ H _ _ E') as (x & E2 & _). congruence.
Qed.

Lemma alike_len {X Y} {R : X -> Y -> Prop} {l l'} : Forall2 R l l' -> length l = length l'.
Proof. induction 1; simpl; congruence. Qed.

Section Sim.
Context {A : Arith}.
Variables (f : vec2 A -> vec2 A) (m m' : Mesh A).
Hypothesis (HF : motion f) (HM : mesh_alike f m m').
Implicit Types (n : Node A) (st : State A).

Definition pair_moved (x : vec2 A * vec2 A) : vec2 A * vec2 A := (f (fst x), f (snd x)).
Definition edge_alike (l l' : Layer A) (e e' : N * N) : Prop := vertex_alike f l l' (fst e) (fst e') /\ vertex_alike f l l' (snd e) (snd e').
Definition node_alike (n n' : Node A) : Prop :=
  npath n' = map f (npath n) /\ nroot n' = f (nroot n) /\ ninterval n' = pair_moved (ninterval n) /\
  nfrom n' = nfrom n /\ nto n' = nto n /\ nprev n' = nprev n /\ ng n' = ng n /\ nh n' = nh n /\
  exists l l', nthN (layers m) (nprev n) = Some l /\ nthN (layers m') (nprev n) = Some l' /\ edge_alike l l' (nedge n) (nedge n').
Definition hist_moved (h : list (vec2 A * F A)) : list (vec2 A * F A) := map (fun kv => (f (fst kv), snd kv)) h.
Definition state_alike (st st' : State A) : Prop :=
  Forall2 node_alike (squeue st) (squeue st') /\ Forall2 node_alike (sbuffer st) (sbuffer st') /\ shist st' = hist_moved (shist st).

Lemma layers_alike i : match nthN (layers m) i, nthN (layers m') i with
  | Some l, Some l' => layer_alike f l l' | None, None => True | _, _ => False end.
Proof using HM.
  exact (Forall2_nth_both _ _ _ HM i).
Qed.
Lemma hist_get_moved h r : hist_get (hist_moved h) (f r) = hist_get h r.
Proof using HF. induction h as [|[k v] h IH]; [reflexivity|]. cbn [hist_moved map hist_get fst snd]. rewrite (mo_eq _ HF). now rewrite <- IH. Qed.
Lemma hist_set_moved h r x : hist_set (hist_moved h) (f r) x = hist_moved (hist_set h r x).
Proof using HF.
  induction h as [|[k v] h IH]; [reflexivity|]. cbn [hist_moved map hist_set fst snd]. rewrite (mo_eq _ HF). destruct (veq k r); [reflexivity|].
  cbn [map fst snd]. f_equal. exact IH.
Qed.

Variables (goal : vec2 A) (pe : N) (blocked : list N).
Let c : Ctx A := mkCtx m goal pe blocked.
Let c' : Ctx A := mkCtx m' (f goal) pe blocked.

(** the parent of a new node: everything but its edge *)
Definition parent_alike (n n' : Node A) : Prop :=
  npath n' = map f (npath n) /\ nroot n' = f (nroot n) /\ nto n' = nto n /\ ng n' = ng n.
Lemma add_node_alike st st' root os s e n n' i i' j j' l l' : state_alike st st' -> parent_alike n n' ->
  nthN (layers m) (id_layer (nto n)) = Some l -> nthN (layers m') (id_layer (nto n)) = Some l' -> vertex_alike f l l' i i' -> vertex_alike f l l' j j' ->
  state_alike (add_node c st root os (s, i) (e, j) n) (add_node c' st' (f root) os (f s, i') (f e, j') n').
Proof using HF.
  intros (S1 & S2 & S3) (P1 & P2 & P3 & P4) L1 L2 Vi Vj. unfold add_node, new_node. cbn [fst snd c c' cgoal ng nh]. rewrite P1, P2, P3, P4, (mo_eq _ HF), (mo_dist _ HF), (mo_heuristic _ HF).
  destruct (fnan _ || fnan _); [split; [|split]; assumption|]. rewrite S3, hist_get_moved.
  set (nn := mkNode _ _ _ _ _ _ _ _ _). set (nn' := mkNode _ _ _ _ _ _ _ _ _).
  assert (HN : node_alike nn nn').
  { unfold node_alike, nn, nn'. cbn [npath nroot ninterval nfrom nto nprev ng nh nedge]. split; [|].
    - destruct (negb (veq root (nroot n))); [now rewrite map_app|reflexivity].
    - repeat (split; [reflexivity|]). exists l, l'. split; [exact L1|]. split; [exact L2|]. split; assumption. }
  assert (HB : Forall2 node_alike (sbuffer st ++ [nn]) (sbuffer st' ++ [nn'])) by (apply Forall2_app; [exact S2|]; constructor; [exact HN|constructor]).
  destruct (hist_get (shist st) root) as [o|].
  - destruct (flt o _); [split; [|split]; assumption|]. split; [exact S1|]. split; [exact HB|]. cbn [shist]. apply hist_set_moved.
  - split; [exact S1|]. split; [exact HB|]. reflexivity.
Qed.
Lemma flush_alike st st' : state_alike st st' -> state_alike (flush_nodes st) (flush_nodes st').
Proof. intros (S1 & S2 & S3). split; [|split; [constructor|exact S3]]. cbn. now apply Forall2_app. Qed.

Lemma mesh_polygon_alike id : rsim (fun p p' => is_one_way p' = is_one_way p) (mesh_polygon m id) (mesh_polygon m' id).
Proof using HM.
  unfold mesh_polygon, index. pose proof (layers_alike (id_layer id)) as H. destruct (nthN (layers m) (id_layer id)) as [l|], (nthN (layers m') (id_layer id)) as [l'|]; try contradiction; [|exact I].
  cbn [unwrap bind]. destruct H as [_ H]. destruct (nthN (polygons l) (id_polygon id)) as [p|] eqn:E.
  - destruct (Forall2_nthN _ _ _ H _ _ E) as (p' & -> & E1 & _). exact E1.
  - destruct (nthN (polygons l') (id_polygon id)) as [p'|] eqn:E'; [|exact I]. destruct (Forall2_nthN_r _ _ _ H _ _ E') as (p & E2 & _). congruence.
Qed.
Lemma other_side_alike (sv ev sv' ev' : Vertex A) p : vpolys sv' = vpolys sv -> vpolys ev' = vpolys ev -> other_side sv' ev' p = other_side sv ev p.
Proof. intros E1 E2. unfold other_side. now rewrite E1, E2. Qed.

Lemma windows_alike l l' vs vs' : Forall2 (vertex_alike f l l') vs vs' -> Forall2 (edge_alike l l') (windows2 vs) (windows2 vs').
Proof.
  intro H. induction H as [|a a' r r' Ha H IH]; [constructor|]. destruct H as [|b b' r r' Hb H]; [constructor|]. cbn [windows2] in *. constructor; [now split|exact IH].
Qed.
Lemma last_alike l l' r r' : Forall2 (vertex_alike f l l') r r' -> forall a a', vertex_alike f l l' a a' -> vertex_alike f l l' (last r a) (last r' a').
Proof.
  intro H. induction H as [|b b' r r' Hb H IH]; intros a a' Ha; [exact Ha|]. destruct H as [|d d' r r' Hd H]; [exact Hb|]. exact (IH a a' Ha).
Qed.
Lemma edges_index_alike l l' p p' : Forall2 (vertex_alike f l l') (pverts p) (pverts p') -> rsim (Forall2 (edge_alike l l')) (edges_index p) (edges_index p').
Proof.
  intro H. unfold edges_index. destruct H as [|a a' r r' Ha H]; [exact I|]. cbn [rsim]. apply Forall2_app; [apply windows_alike; now constructor|].
  constructor; [|constructor]. split; [now apply last_alike|exact Ha].
Qed.
Lemma rsim_foldM2 {T T' S S'} (Q : T -> T' -> Prop) (R : S -> S' -> Prop) (g : S -> T -> res S) (g' : S' -> T' -> res S') l l' :
  Forall2 Q l l' -> (forall x x' s s', Q x x' -> R s s' -> rsim R (g s x) (g' s' x')) ->
  forall s s', R s s' -> rsim R (foldM g s l) (foldM g' s' l').
Proof.
  intros H HG. induction H as [|x x' r r' Hx H IH]; intros s s' HR; cbn [foldM]; [exact HR|].
  apply (rsim_bind R); [now apply HG|]. intros s1 s1' _ H1. now apply IH.
Qed.

Lemma setup_edge_alike from ps l l' st st' e e' : nthN (layers m) (id_layer ps) = Some l -> nthN (layers m') (id_layer ps) = Some l' ->
  edge_alike l l' e e' -> state_alike st st' ->
  rsim state_alike (setup_edge c from ps l st e) (setup_edge c' (f from) ps l' st' e').
Proof using HF HM.
  intros L1 L2 [V1 V2] HS. unfold setup_edge. pose proof V1 as (sv & sv' & A1 & A2 & A3 & A4 & A5). pose proof V2 as (ev & ev' & B1 & B2 & B3 & B4 & B5).
  rewrite A1, A2, B1, B2. cbv zeta. rewrite (other_side_alike sv ev sv' ev' ps A4 B4). cbn [cblocked cpto cmesh c c'].
  destruct (memN _ blocked); [exact HS|]. set (os := other_side sv ev ps).
  apply (rsim_bind eq).
  - destruct (N.eqb os pe); [reflexivity|]. destruct (N.eqb os MAX); [reflexivity|].
    apply (rsim_bind (fun p p' => is_one_way p' = is_one_way p)); [apply mesh_polygon_alike|]. intros x y _ E. cbn. now rewrite E.
  - intros go go' _ <-. cbn [rsim]. destruct go; [|exact HS]. fold (world l sv) (world l ev) (world l' sv') (world l' ev'). rewrite A3, B3.
    apply (add_node_alike st st' from os _ _ _ _ _ _ _ _ l l'); auto. split; [reflexivity|]. split; [reflexivity|]. split; reflexivity.
Qed.
Lemma setup_alike from ps : rsim state_alike (setup c from ps) (setup c' (f from) ps).
Proof using HF HM.
  unfold setup. cbn [cmesh c c']. unfold index at 1 3. pose proof (layers_alike (id_layer ps)) as H.
  destruct (nthN (layers m) (id_layer ps)) as [l|] eqn:L1, (nthN (layers m') (id_layer ps)) as [l'|] eqn:L2; try contradiction; [|exact I]. cbn [unwrap bind].
  destruct H as [_ H]. unfold index. destruct (nthN (polygons l) (id_polygon ps)) as [p|] eqn:E.
  - destruct (Forall2_nthN _ _ _ H _ _ E) as (p' & E' & _ & HV). rewrite E'. cbn [unwrap bind].
    apply (rsim_bind (Forall2 (edge_alike l l'))); [now apply edges_index_alike|]. intros es es' _ He.
    apply (rsim_bind state_alike).
    + apply (rsim_foldM2 (edge_alike l l')); [exact He| |].
      * intros e e' s s' Q1 Q2. now apply setup_edge_alike.
      * split; [constructor|]. split; [constructor|]. reflexivity.
    + intros s s' _ Q. now apply flush_alike.
  - destruct (nthN (polygons l') (id_polygon ps)) as [p'|] eqn:E'; [|exact I]. destruct (Forall2_nthN_r _ _ _ H _ _ E') as (p & E2 & _). congruence.
Qed.

Lemma close_index_alike l l' pt vs vs' i : Forall2 (vertex_alike f l l') vs vs' -> close_index l' (f pt) vs' i = close_index l pt vs i.
Proof using HF.
  intro H. revert i. induction H as [|a a' r r' Ha H IH]; intro i; [reflexivity|]. cbn [close_index]. destruct Ha as (v & v' & A1 & A2 & A3 & _). unfold index. rewrite A1, A2. cbn [unwrap bind].
  fold (world l v) (world l' v'). rewrite A3, (mo_dist2 _ HF). destruct (flt _ _); [reflexivity|]. apply IH.
Qed.
Lemma dists_alike l l' pt vs vs' : Forall2 (vertex_alike f l l') vs vs' ->
  mapM (fun v => let* vv := index (vertices l') v in Ok (vdist2 (vadd (coords vv) (offset l')) (f pt))) vs' =
  mapM (fun v => let* vv := index (vertices l) v in Ok (vdist2 (vadd (coords vv) (offset l)) pt)) vs.
Proof using HF.
  intro H. induction H as [|a a' r r' Ha H IH]; [reflexivity|]. cbn [mapM]. destruct Ha as (v & v' & A1 & A2 & A3 & _). unfold index at 1 3. rewrite A1, A2. cbn [unwrap bind].
  fold (world l v) (world l' v'). rewrite A3, (mo_dist2 _ HF), IH. reflexivity.
Qed.
Lemma right_index_alike l l' p p' n n' : node_alike n n' -> Forall2 (vertex_alike f l l') (pverts p) (pverts p') -> right_index c' l' p' n' = right_index c l p n.
Proof using HF.
  intros (N1 & N2 & N3 & N4 & N5 & N6 & N7 & N8 & pl & pl' & L1 & L2 & _ & (v & v' & A1 & A2 & A3 & _)) HV. unfold right_index. cbn [cmesh c c']. rewrite N6. unfold index at 1 2 4 5. rewrite L1, L2.
  cbn [unwrap bind]. rewrite A1, A2. cbn [unwrap bind]. fold (world pl v) (world pl' v'). rewrite A3, (close_index_alike l l' _ _ _ 0 HV). destruct (close_index l _ _ 0) as [[i|]| | |]; cbn [bind]; try reflexivity.
  now rewrite (dists_alike l l' _ _ _ HV).
Qed.

Definition succ_alike (l l' : Layer A) (s s' : Successor A) : Prop := sinterval s' = pair_moved (sinterval s) /\ sty s' = sty s /\ edge_alike l l' (sedge s) (sedge s').
Lemma cut_right_alike l l' root r e e' ty sp ep : edge_alike l l' e e' ->
  let a := cut_right root r e ty sp ep in let b := cut_right (f root) (f r) e' ty (f sp) (f ep) in
  Forall2 (succ_alike l l') (fst (fst a)) (fst (fst b)) /\ snd (fst b) = f (snd (fst a)) /\ snd b = snd a.
Proof using HF.
  intro He. cbv zeta. unfold cut_right. rewrite !(mo_side _ HF), (mo_cut _ HF).
  destruct (side sp (root, r)).
  - split; [constructor|split; reflexivity].
  - destruct (line_intersect_segment (root, r) (sp, ep)) as [x|]; cbn [option_map]; [|split; [constructor|split; reflexivity]].
    rewrite !(mo_dist2 _ HF). destruct (fgt (vdist2 x sp) c1em6 && fgt (vdist2 x ep) c1em6); cbn [fst snd].
    + split; [|split; reflexivity]. constructor; [|constructor]. split; [reflexivity|]. split; [reflexivity|exact He].
    + split; [constructor|split; reflexivity].
  - split; [constructor|split; reflexivity].
Qed.
Lemma cut_left_alike root l sp ep : cut_left (f root) (f l) (f sp) (f ep) = (option_map f (fst (cut_left root l sp ep)), snd (cut_left root l sp ep)).
Proof using HF.
  unfold cut_left. rewrite (mo_side _ HF), (mo_cut _ HF). destruct (side ep (root, l)); try reflexivity. destruct (line_intersect_segment (root, l) (sp, ep)) as [x|]; cbn [option_map]; [|reflexivity].
  rewrite (mo_dist2 _ HF). destruct (fgt _ _); reflexivity.
Qed.
Lemma cut_edge_alike l l' root i e e' ty sp ep : edge_alike l l' e e' ->
  let a := cut_edge root i e ty sp ep in let b := cut_edge (f root) (pair_moved i) e' ty (f sp) (f ep) in
  Forall2 (succ_alike l l') (fst a) (fst b) /\ snd b = snd a.
Proof using HF.
  intro He. cbv zeta. unfold cut_edge. destruct (cut_right_alike l l' root (fst i) e e' ty sp ep He) as (R1 & R2 & R3).
  change (fst (pair_moved i)) with (f (fst i)). change (snd (pair_moved i)) with (f (snd i)).
  rewrite R2, R3. set (sp1 := snd (fst (cut_right root (fst i) e ty sp ep))) in *. set (ty1 := snd (cut_right root (fst i) e ty sp ep)) in *.
  rewrite cut_left_alike. cbn [fst snd].
  assert (ET : forall fd, next_type (f root) (pair_moved i) (f ep) fd ty1 = next_type root i ep fd ty1).
  { intro fd. unfold next_type. change (fst (pair_moved i)) with (f (fst i)). change (snd (pair_moved i)) with (f (snd i)). now rewrite !(mo_side _ HF). }
  rewrite ET. destruct (fst (cut_left root (snd i) sp1 ep)) as [x|]; cbn [option_map fst snd].
  - split; [|reflexivity]. apply Forall2_app; [exact R1|]. constructor; [split; [reflexivity|split; [reflexivity|exact He]]|]. constructor; [split; [reflexivity|split; [reflexivity|exact He]]|constructor].
  - split; [|reflexivity]. apply Forall2_app; [exact R1|]. constructor; [split; [reflexivity|split; [reflexivity|exact He]]|constructor].
Qed.
Lemma cut_edges_alike l l' root i es es' ty : Forall2 (edge_alike l l') es es' ->
  rsim (Forall2 (succ_alike l l')) (cut_edges l root i es ty) (cut_edges l' (f root) (pair_moved i) es' ty).
Proof using HF.
  intro H. revert ty. induction H as [|[a b] [a' b'] r r' He H IH]; intro ty; cbn [cut_edges]; [constructor|].
  pose proof He as [(va & va' & A1 & A2 & A3 & A4 & A5) (vb & vb' & B1 & B2 & B3 & B4 & B5)]. cbn [fst snd] in *.
  assert (E1 : (lengthN (vertices l) <? N.max a b) = false) by (apply N.ltb_ge; apply nthN_Some_lt in A1, B1; lia).
  assert (E2 : (lengthN (vertices l') <? N.max a' b') = false) by (apply N.ltb_ge; apply nthN_Some_lt in A2, B2; lia).
  rewrite E1, E2. unfold get_unchecked. rewrite A1, A2, B1, B2. cbn [bind]. fold (world l va) (world l vb) (world l' va') (world l' vb'). rewrite A3, B3.
  destruct (cut_edge_alike l l' root i (a, b) (a', b') ty (world l va) (world l vb) He) as [C1 C2].
  destruct (cut_edge root i (a, b) ty (world l va) (world l vb)) as [out ty1], (cut_edge (f root) (pair_moved i) (a', b') ty (f (world l va)) (f (world l vb))) as [out' ty1'].
  cbn [fst snd] in C1, C2. subst ty1'. apply (rsim_bind (Forall2 (succ_alike l l'))); [apply IH|]. intros x y _ Q. cbn [rsim]. now apply Forall2_app.
Qed.
Lemma Forall2_firstn {X Y} (R : X -> Y -> Prop) k : forall l l', Forall2 R l l' -> Forall2 R (firstn k l) (firstn k l').
Proof. induction k as [|k IH]; intros l l' H; [constructor|]. destruct H; cbn [firstn]; constructor; auto. Qed.
Lemma Forall2_skipn {X Y} (R : X -> Y -> Prop) k : forall l l', Forall2 R l l' -> Forall2 R (skipn k l) (skipn k l').
Proof. induction k as [|k IH]; intros l l' H; [exact H|]. destruct H; cbn [skipn]; auto. Qed.
Lemma circular_alike l l' p p' lo hi : Forall2 (vertex_alike f l l') (pverts p) (pverts p') ->
  rsim (Forall2 (edge_alike l l')) (circular_edges_index p lo hi) (circular_edges_index p' lo hi).
Proof.
  intro H. unfold circular_edges_index. apply (rsim_bind (Forall2 (edge_alike l l'))); [now apply edges_index_alike|].
  intros es es' _ He. cbn [rsim]. apply Forall2_firstn, Forall2_skipn. now apply Forall2_app.
Qed.
Lemma edges_between_alike n n' : node_alike n n' ->
  match nthN (layers m) (id_layer (nto n)), nthN (layers m') (id_layer (nto n)) with
  | Some l, Some l' => rsim (Forall2 (succ_alike l l')) (edges_between c n) (edges_between c' n')
  | _, _ => edges_between c n = Panic /\ edges_between c' n' = Panic
  end.
Proof using HF HM.
  intro HN. pose proof HN as (N1 & N2 & N3 & N4 & N5 & N6 & N7 & N8 & _). unfold edges_between. cbn [cmesh c c']. rewrite N5. pose proof (layers_alike (id_layer (nto n))) as H.
  destruct (nthN (layers m) (id_layer (nto n))) as [l|] eqn:L1, (nthN (layers m') (id_layer (nto n))) as [l'|] eqn:L2; try contradiction; [|unfold index; rewrite L1, L2; split; reflexivity].
  rewrite (proj2 (index_Ok _ _ _) L1), (proj2 (index_Ok _ _ _) L2). cbn [bind].
  destruct H as [_ H]. unfold index. destruct (nthN (polygons l) (id_polygon (nto n))) as [p|] eqn:E.
  - destruct (Forall2_nthN _ _ _ H _ _ E) as (p' & E' & _ & HV). rewrite E'. cbn [unwrap bind].
    rewrite (right_index_alike l l' p p' n n' HN HV). apply rsim_same. intros ri _. assert (EL : lengthN (pverts p') = lengthN (pverts p)) by (unfold lengthN; now rewrite (alike_len HV)).
    rewrite EL. apply (rsim_bind (Forall2 (edge_alike l l'))); [now apply circular_alike|]. intros es es' _ He. rewrite N2, N3. now apply cut_edges_alike.
  - destruct (nthN (polygons l') (id_polygon (nto n))) as [p'|] eqn:E'; [|exact I]. destruct (Forall2_nthN_r _ _ _ H _ _ E') as (p & E2 & _). congruence.
Qed.

Lemma corner_alike n n' vi vi' pt : nprev n' = nprev n -> (exists l l', nthN (layers m) (nprev n) = Some l /\ nthN (layers m') (nprev n) = Some l' /\ vertex_alike f l l' vi vi') ->
  corner_ok c' n' vi' (f pt) = corner_ok c n vi pt.
Proof using HF.
  intros E (l & l' & L1 & L2 & v & v' & A1 & A2 & A3 & A4 & A5). unfold corner_ok. cbn [cmesh cblocked c c']. rewrite E. unfold index. rewrite L1, L2. cbn [unwrap bind]. rewrite A1, A2. cbn [unwrap bind].
  fold (world l v) (world l' v'). rewrite A3, A4, A5, (mo_dist2 _ HF). reflexivity.
Qed.
Lemma expand_one_alike n n' l l' st st' s s' : node_alike n n' -> nthN (layers m) (id_layer (nto n)) = Some l -> nthN (layers m') (id_layer (nto n)) = Some l' ->
  succ_alike l l' s s' -> state_alike st st' -> rsim state_alike (expand_one c n l st s) (expand_one c' n' l' st' s').
Proof using HF HM.
  intros HN L1 L2 (S1 & S2 & S3) HS. pose proof HN as (N1 & N2 & N3 & N4 & N5 & N6 & N7 & N8 & pl & pl' & P1 & P2 & P3 & P4). unfold expand_one.
  pose proof S3 as [(sv & sv' & A1 & A2 & A3 & A4 & A5) (ev & ev' & B1 & B2 & B3 & B4 & B5)]. unfold get_unchecked. rewrite A1, A2, B1, B2. cbn [bind]. cbv zeta.
  rewrite N5, (other_side_alike sv ev sv' ev' (nto n) A4 B4). set (os := other_side sv ev (nto n)). cbn [cblocked cpto cmesh c c'].
  destruct (N.eqb os MAX); [exact HS|]. destruct (memN _ blocked); [exact HS|].
  apply (rsim_bind eq).
  { destruct (N.eqb pe os); [reflexivity|]. apply (rsim_bind (fun p p' => is_one_way p' = is_one_way p)); [apply mesh_polygon_alike|]. intros x y _ E. cbn. now rewrite E. }
  intros dead dead' _ <-. destruct dead; [exact HS|]. rewrite N4. destruct (N.eqb (nfrom n) os); [exact HS|].
  fold (world l sv) (world l ev) (world l' sv') (world l' ev'). rewrite A3, B3, S1, S2, N3.
  change (fst (pair_moved (sinterval s))) with (f (fst (sinterval s))). change (snd (pair_moved (sinterval s))) with (f (snd (sinterval s))).
  change (fst (pair_moved (ninterval n))) with (f (fst (ninterval n))). change (snd (pair_moved (ninterval n))) with (f (snd (ninterval n))).
  rewrite !(mo_dist2 _ HF).
  apply (rsim_bind (fun o o' => o' = option_map f o)).
  { destruct (sty s).
    - destruct (fgt _ _); [reflexivity|]. rewrite (corner_alike n n' _ _ (snd (ninterval n)) N6 (ex_intro _ pl (ex_intro _ pl' (conj P1 (conj P2 P4))))).
      apply rsim_same. intros b _. destruct b; reflexivity.
    - cbn [rsim option_map]. now rewrite N2.
    - destruct (fgt _ _); [reflexivity|]. rewrite (corner_alike n n' _ _ (fst (ninterval n)) N6 (ex_intro _ pl (ex_intro _ pl' (conj P1 (conj P2 P3))))).
      apply rsim_same. intros b _. destruct b; reflexivity. }
  intros o o' _ ->. destruct o as [root|]; cbn [option_map]; [|exact HS]. destruct (flt _ _); [exact HS|]. cbn [rsim].
  apply (add_node_alike st st' root os _ _ _ _ _ _ _ _ l l'); auto; [|exact (proj1 S3)|exact (proj2 S3)]. split; [exact N1|]. split; [exact N2|]. split; [exact N5|exact N7].
Qed.
Lemma expand_alike n n' st st' : node_alike n n' -> state_alike st st' -> rsim state_alike (expand c n st) (expand c' n' st').
Proof using HF HM.
  intros HN HS. unfold expand. pose proof (edges_between_alike n n' HN) as H. pose proof HN as (_ & _ & _ & _ & N5 & _). cbn [cmesh c c']. rewrite N5.
  destruct (nthN (layers m) (id_layer (nto n))) as [l|] eqn:L1; [|destruct H as [-> ->]; exact I]. destruct (nthN (layers m') (id_layer (nto n))) as [l'|] eqn:L2; [|destruct H as [-> ->]; exact I].
  apply (rsim_bind (Forall2 (succ_alike l l'))); [exact H|]. intros ss ss' _ Hs. unfold index. rewrite L1, L2. cbn [unwrap bind].
  apply (rsim_foldM2 (succ_alike l l')); [exact Hs| |exact HS]. intros s s' q q' Q1 Q2. now apply expand_one_alike.
Qed.
Lemma reverse_alike n n' o o' : node_alike n n' -> node_alike o o' -> reverse_of n' o' = reverse_of n o.
Proof using HF.
  intros (_ & N2 & N3 & N4 & N5 & _) (_ & O2 & O3 & O4 & O5 & _). unfold reverse_of. rewrite N2, N3, N4, N5, O2, O3, O4, O5. unfold pair_moved. cbn [fst snd]. now rewrite !(mo_eq _ HF).
Qed.
Lemma successors_alike : forall k vis n n' st st', node_alike n n' -> state_alike st st' -> rsim state_alike (successors k c vis n st) (successors k c' vis n' st').
Proof using HF HM.
  induction k as [|k IH]; intros vis n n' st st' HN HS; [exact I|]. cbn [successors]. apply (rsim_bind state_alike); [now apply expand_alike|].
  intros s s' _ HS1. pose proof HS1 as (S1 & S2 & S3). destruct S2 as [|a a' b b' Ha S2]; [now apply flush_alike|]. destruct S2 as [|d d' b b' Hd S2]; [|now apply flush_alike].
  pose proof Ha as (_ & _ & _ & _ & A5 & _). rewrite A5. cbn [cpto c c']. destruct (N.eqb (nto a) pe); [now apply flush_alike|].
  assert (HS2 : state_alike (mkState (squeue s) [] (shist s)) (mkState (squeue s') [] (shist s'))) by (split; [exact S1|split; [constructor|exact S3]]).
  rewrite (reverse_alike _ _ _ _ Ha HN). destruct (reverse_of a n); [now apply flush_alike|]. destruct (memN _ vis); [now apply flush_alike|]. now apply IH.
Qed.
Lemma succ_fuel_alike n n' st st' : node_alike n n' -> state_alike st st' -> sbuffer st = [] ->
  rsim state_alike (successors (succ_fuel m) c [] n st) (successors (succ_fuel m') c' [] n' st').
Proof using HF HM.
  intros HN HS HB. assert (HB' : sbuffer st' = []). { destruct HS as (_ & S2 & _). rewrite HB in S2. now inversion S2. }
  pose proof (successors_terminates c n st HB) as T1. pose proof (successors_terminates c' n' st' HB') as T2. cbn [cmesh c c'] in T1, T2.
  rewrite <- (successors_mono c (succ_fuel m) [] n st (succ_fuel m') T1). rewrite <- (successors_mono c' (succ_fuel m') [] n' st' (succ_fuel m) T2).
  rewrite (Nat.add_comm (succ_fuel m)). now apply successors_alike.
Qed.

Definition step_moved (s : Step A) : Step A := match s with Found p => Found (path_moved f p) | NotFound => NotFound | Continue => Continue end.
Definition step_alike (r r' : State A * Step A) : Prop := state_alike (fst r) (fst r') /\ snd r' = step_moved (snd r).
Lemma final_alike n n' : node_alike n n' -> final_path c' n' = path_moved f (final_path c n).
Proof using HF.
  intros (N1 & N2 & N3 & N4 & N5 & N6 & N7 & N8 & _). unfold final_path, path_moved, node_f. cbn [plength ppath cgoal c c']. rewrite N1, N2, N3, N7, N8. f_equal.
  destruct (ninterval n) as [a b]. unfold pair_moved. cbn [fst snd]. rewrite (mo_turning _ HF). destruct (turning_point (nroot n) goal (a, b)) as [t|]; cbn [option_map]; rewrite ?map_app; reflexivity.
Qed.
Lemma next_alike lib st st' : pop_blind (lpop lib) -> state_alike st st' -> sbuffer st = [] -> rsim step_alike (next lib c st) (next lib c' st').
Proof using HF HM.
  intros HP HS HB. pose proof HS as (S1 & S2 & S3). unfold next.
  pose proof (HP node_alike) as H. specialize (H (fun n n' (Q : node_alike n n') => conj (proj1 (proj2 (proj2 (proj2 (proj2 (proj2 (proj2 Q))))))) (proj1 (proj2 (proj2 (proj2 (proj2 (proj2 (proj2 (proj2 Q)))))))))).
  specialize (H _ _ S1). destruct (lpop lib (squeue st)) as [[n q]|], (lpop lib (squeue st')) as [[n' q']|]; try contradiction; [|split; [exact HS|reflexivity]].
  destruct H as [Hn Hq]. pose proof Hn as (N1 & N2 & N3 & N4 & N5 & N6 & N7 & N8 & _). cbn [shist sbuffer]. rewrite S3, N2, hist_get_moved, N7, N5. cbn [cpto c c' cmesh].
  assert (HS1 : state_alike (mkState q (sbuffer st) (shist st)) (mkState q' (sbuffer st') (hist_moved (shist st)))) by (split; [exact Hq|split; [exact S2|reflexivity]]).
  destruct (match hist_get (shist st) (nroot n) with Some o => flt o (ng n) | None => false end); [split; [exact HS1|reflexivity]|].
  destruct (N.eqb (nto n) pe); [split; [exact HS1|]; cbn [snd step_moved]; now rewrite (final_alike n n' Hn)|].
  apply (rsim_bind state_alike); [now apply succ_fuel_alike|]. intros s s' _ Q. split; [exact Q|reflexivity].
Qed.
Lemma run_alike lib : pop_blind (lpop lib) -> forall k st st', state_alike st st' -> sbuffer st = [] ->
  rsim (fun o o' => o' = option_map (path_moved f) o) (run k lib c st) (run k lib c' st').
Proof using HF HM.
  intro HP. induction k as [|k IH]; intros st st' HS HB; [reflexivity|]. cbn [run]. apply (rsim_bind step_alike); [now apply next_alike|].
  intros [s r] [s' r'] E [Q1 Q2]. cbn [fst snd] in *. subst r'. pose proof (next_buffer lib c st s r HB E) as HB1. destruct r as [p| |]; cbn [step_moved]; [reflexivity|now apply IH|now apply IH].
Qed.
Lemma three_alike lib : pop_blind (lpop lib) -> forall k st st', state_alike st st' -> sbuffer st = [] ->
  rsim (fun r r' => state_alike (fst r) (fst r') /\ sbuffer (fst r) = [] /\ snd r' = option_map (option_map (path_moved f)) (snd r)) (three k lib c st) (three k lib c' st').
Proof using HF HM.
  intro HP. induction k as [|k IH]; intros st st' HS HB; [split; [exact HS|split; [exact HB|reflexivity]]|]. cbn [three]. apply (rsim_bind step_alike); [now apply next_alike|].
  intros [s r] [s' r'] E [Q1 Q2]. cbn [fst snd] in *. subst r'. pose proof (next_buffer lib c st s r HB E) as HB1.
  destruct r as [p| |]; cbn [step_moved]; [split; [exact Q1|split; [exact HB1|reflexivity]]|split; [exact Q1|split; [exact HB1|reflexivity]]|now apply IH].
Qed.
End Sim.
