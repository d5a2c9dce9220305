(** C80: what blocking layers does.  Only which of the layers of the mesh are blocked matters (any arithmetic); blocking more layers
    neither makes a path shorter nor makes one appear (exact arithmetic). *)
From Coq Require Import List NArith ZArith Bool Lia Reals Lra Permutation.
From Verif Require Import Base Arith U32 Mesh Helpers Locate Search AsyncPath StdLib Spec Search_facts Search_props Search_hist Search_cost Search_safe
  RealArith Geometry Heuristic Properties_async Properties_geometry Properties_heuristic Spec_inside Sight_static Sight Sight_search Spec_shortest Shortest_bend Shortest_always Properties_shortest Properties_complete.
Import ListNotations.
Open Scope N_scope.

Section Any.
Context {A : Arith}.
Variables (m : Mesh A) (goal : vec2 A) (pe : N) (b b' : list N).
Let c : Ctx A := mkCtx m goal pe b.
Let c' : Ctx A := mkCtx m goal pe b'.
(** vertices of the mesh, the polygons they list *)
Hypothesis Hm : forall l v q, In l (layers m) -> In v (vertices l) -> In q (vpolys v) -> q <> MAX -> memN (id_layer q) b = memN (id_layer q) b'.
Hypothesis Hmax : memN (id_layer MAX) b = memN (id_layer MAX) b' \/ pe <> MAX.
Definition turn_flag (b : list N) (v : Vertex A) : bool :=
  is_corner v || (negb (match b with [] => true | _ => false end) && existsb (fun p => N.eqb p MAX || memN (id_layer p) b) (vpolys v)).
Hypothesis Hc : forall l v, In l (layers m) -> In v (vertices l) -> turn_flag b v = turn_flag b' v.

Lemma other_side_in (sv ev : Vertex A) p : other_side sv ev p = MAX \/ (In (other_side sv ev p) (vpolys sv) /\ other_side sv ev p <> MAX).
Proof using.
  unfold other_side. destruct (find _ _) as [i|] eqn:E; [|now left]. right. apply find_some in E. destruct E as [E _]. apply filter_In in E. destruct E as [E1 E2].
  apply andb_prop in E2. destruct E2 as [E2 _]. apply negb_true_iff, N.eqb_neq in E2. auto.
Qed.
Lemma setup_edge_blocked from ps l st e : In l (layers m) -> setup_edge c from ps l st e = setup_edge c' from ps l st e.
Proof using Hm Hmax.
  intro Hl. unfold setup_edge. destruct (nthN (vertices l) (fst e)) as [sv|] eqn:Es; [|reflexivity]. destruct (nthN (vertices l) (snd e)) as [ev|] eqn:Ee; [|reflexivity].
  cbv zeta. cbn [cblocked cmesh cpto cgoal c c']. destruct (other_side_in sv ev ps) as [E|[E1 E2]].
  - rewrite E. destruct Hmax as [H|H]; [now rewrite H|]. rewrite (proj2 (N.eqb_neq MAX pe)) by congruence. rewrite N.eqb_refl. cbn [bind]. now destruct (memN _ b), (memN _ b').
  - rewrite (Hm l sv _ Hl (nthN_In _ _ _ Es) E1 E2). reflexivity.
Qed.
Lemma foldM_ext {S T} (f g : S -> T -> res S) xs : (forall s x, f s x = g s x) -> forall s, foldM f s xs = foldM g s xs.
Proof using. intro H. induction xs as [|x xs IH]; intro s; [reflexivity|]. cbn [foldM]. rewrite H. destruct (g s x); [apply IH|reflexivity..]. Qed.
Lemma setup_blocked from ps : setup c from ps = setup c' from ps.
Proof using Hm Hmax.
  unfold setup. cbn [cmesh c c']. destruct (index (layers m) (id_layer ps)) as [l| | |] eqn:E; [|reflexivity..]. cbn [bind]. apply index_Ok in E.
  destruct (index _ _) as [p| | |]; [|reflexivity..]. cbn [bind]. destruct (edges_index p) as [es| | |]; [|reflexivity..]. cbn [bind].
  rewrite (foldM_ext (setup_edge c from ps l) (setup_edge c' from ps l)); [reflexivity|]. intros s x. apply setup_edge_blocked. exact (nthN_In _ _ _ E).
Qed.
Lemma corner_ok_blocked n i p : corner_ok c n i p = corner_ok c' n i p.
Proof using Hc.
  unfold corner_ok. cbn [cmesh cblocked c c']. destruct (index (layers m) (nprev n)) as [l| | |] eqn:E; [|reflexivity..]. cbn [bind]. apply index_Ok in E.
  destruct (index (vertices l) i) as [v| | |] eqn:Ev; [|reflexivity..]. cbn [bind]. apply index_Ok in Ev. f_equal. f_equal. exact (Hc l v (nthN_In _ _ _ E) (nthN_In _ _ _ Ev)).
Qed.
Lemma expand_one_blocked n l st s : In l (layers m) -> expand_one c n l st s = expand_one c' n l st s.
Proof using Hm Hc.
  intro Hl. unfold expand_one. destruct (get_unchecked (vertices l) (fst (sedge s))) as [sv| | |] eqn:Es; [|reflexivity..]. cbn [bind].
  destruct (get_unchecked (vertices l) (snd (sedge s))) as [ev| | |] eqn:Ee; [|reflexivity..]. cbn [bind]. cbv zeta. cbn [cblocked cmesh cpto cgoal c c'].
  assert (Iv : In sv (vertices l)). { unfold get_unchecked in Es. destruct (nthN (vertices l) (fst (sedge s))) as [x|] eqn:Ex; [|discriminate]. assert (x = sv) by congruence. subst x. exact (nthN_In _ _ _ Ex). }
  destruct (N.eqb_spec (other_side sv ev (nto n)) MAX) as [E|E]; [reflexivity|]. destruct (other_side_in sv ev (nto n)) as [E0|[E1 E2]]; [contradiction|].
  rewrite (Hm l sv _ Hl Iv E1 E2). rewrite !corner_ok_blocked. reflexivity.
Qed.
Lemma expand_blocked n st : expand c n st = expand c' n st.
Proof using Hm Hc.
  unfold expand. change (edges_between c n) with (edges_between c' n). destruct (edges_between c' n) as [ss| | |]; [|reflexivity..]. cbn [bind cmesh c c'].
  destruct (index (layers m) _) as [l| | |] eqn:E; [|reflexivity..]. cbn [bind]. apply index_Ok in E. apply foldM_ext. intros s x. apply expand_one_blocked. exact (nthN_In _ _ _ E).
Qed.
Lemma successors_blocked k : forall vis n st, successors k c vis n st = successors k c' vis n st.
Proof using Hm Hc.
  induction k as [|k IH]; intros vis n st; [reflexivity|]. cbn [successors]. rewrite expand_blocked. destruct (expand c' n st) as [s| | |]; [|reflexivity..]. cbn [bind].
  destruct (sbuffer s) as [|n' [|]]; [reflexivity| |reflexivity]. cbn [cpto c c']. destruct (N.eqb (nto n') pe); [reflexivity|]. destruct (reverse_of n' n); [reflexivity|]. destruct (memN (nto n') vis); [reflexivity|]. apply IH.
Qed.
Lemma next_blocked lib st : next lib c st = next lib c' st.
Proof using Hm Hc.
  unfold next. destruct (lpop lib (squeue st)) as [[n q]|]; [|reflexivity]. cbv zeta. destruct (match hist_get _ _ with Some o => _ | None => _ end); [reflexivity|]. cbn [cpto cmesh c c'].
  destruct (N.eqb (nto n) pe); [reflexivity|]. rewrite successors_blocked. reflexivity.
Qed.
Lemma run_blocked lib k : forall st, run k lib c st = run k lib c' st.
Proof using Hm Hc.
  induction k as [|k IH]; intro st; [reflexivity|]. cbn [run]. rewrite next_blocked. destruct (next lib c' st) as [r| | |]; [|reflexivity..]. cbn [bind]. destruct (snd r); [reflexivity|apply IH|apply IH].
Qed.
Lemma search_blocked lib k from ps : (let* st := setup c from ps in run k lib c st) = (let* st := setup c' from ps in run k lib c' st).
Proof using Hm Hmax Hc. rewrite setup_blocked. destruct (setup c' from ps); [apply run_blocked|reflexivity..]. Qed.
End Any.

Section Any2.
Context {A : Arith}.
Lemma path_blocked (lib : Lib A) m from to b b' :
  (forall pe from ps k, locate_end lib m to = Ok (Some pe) ->
     (let* st := setup (mkCtx m (cpos to) pe b) from ps in run k lib (mkCtx m (cpos to) pe b) st) = (let* st := setup (mkCtx m (cpos to) pe b') from ps in run k lib (mkCtx m (cpos to) pe b') st)) ->
  path_on_layers lib m from to b = path_on_layers lib m from to b'.
Proof.
  intro H. unfold path_on_layers. destruct (locate_end lib m from) as [[ps|]| | |]; [|reflexivity..]. cbn [bind]. destruct (locate_end lib m to) as [[pe|]| | |] eqn:E; [|reflexivity..]. cbn [bind].
  destruct (islands_reject m ps pe) as [[|]| | |]; [reflexivity| |reflexivity..]. cbn [bind]. destruct (N.eqb ps pe); [reflexivity|]. exact (H pe (cpos from) ps _ eq_refl).
Qed.
Lemma memN_ext b b' x : (In x b <-> In x b') -> memN x b = memN x b'.
Proof. intro H. destruct (memN x b) eqn:E, (memN x b') eqn:E'; try reflexivity; [apply memN_In in E; apply H, memN_In in E; congruence|apply memN_In in E'; apply H, memN_In in E'; congruence]. Qed.

(** The order and the repetitions of the blocked layers do not matter (it is a set). *)
Theorem C80_only_the_set (lib : Lib A) m from to b b' : (forall i, In i b <-> In i b') -> path_on_layers lib m from to b = path_on_layers lib m from to b'.
Proof.
  intro H. apply path_blocked. intros pe f ps k _. apply search_blocked.
  - intros. apply memN_ext, H.
  - left. apply memN_ext, H.
  - intros l v _ _. unfold turn_flag. f_equal. f_equal.
    + destruct b as [|x b0], b' as [|y b1]; try reflexivity; [destruct (proj2 (H y)); now left|destruct (proj1 (H x)); now left].
    + induction (vpolys v) as [|q r IH]; [reflexivity|]. cbn [existsb]. rewrite IH. f_equal. f_equal. apply memN_ext, H.
Qed.

(** Only which of the layers of the mesh are blocked matters, if all vertices next to the outside are flagged as corners. *)
Theorem C80_only_the_layers_of_the_mesh (lib : Lib A) m from to b b' :
  mesh_small m -> ids_wf m -> (forall l v, In l (layers m) -> In v (vertices l) -> In MAX (vpolys v) -> is_corner v = true) ->
  (forall i, i < lengthN (layers m) -> (In i b <-> In i b')) -> path_on_layers lib m from to b = path_on_layers lib m from to b'.
Proof.
  intros Hsm HI HC H.
  assert (HM : forall l v q, In l (layers m) -> In v (vertices l) -> In q (vpolys v) -> q <> MAX -> memN (id_layer q) b = memN (id_layer q) b').
  { intros l v q Hl Hv Hq HN. apply memN_ext, H. destruct (HI l v q Hl Hv Hq HN) as (l' & p' & P1 & P2). exact (nthN_Some_lt _ _ _ P1). }
  apply path_blocked. intros pe f ps k E. apply search_blocked; [exact HM| |].
  - right. exact (located_not_MAX lib m to pe Hsm (proj1 (locate_end_located lib m to pe) E)).
  - intros l v Hl Hv. unfold turn_flag. destruct (is_corner v) eqn:E0; [reflexivity|]. cbn [orb]. assert (NM : ~ In MAX (vpolys v)) by (intro X; rewrite (HC l v Hl Hv X) in E0; discriminate).
    assert (EX : existsb (fun p => N.eqb p MAX || memN (id_layer p) b) (vpolys v) = existsb (fun p => N.eqb p MAX || memN (id_layer p) b') (vpolys v)).
    { assert (HV : forall q, In q (vpolys v) -> memN (id_layer q) b = memN (id_layer q) b') by (intros q Hq; apply (HM l v q Hl Hv Hq); intros ->; contradiction).
      clear - HV. induction (vpolys v) as [|q r IH]; [reflexivity|]. cbn [existsb]. rewrite IH by (intros; apply HV; now right). rewrite (HV q) by now left. reflexivity. }
    assert (ZZ : forall b, (match b : list N with [] => true | _ => false end) = true -> existsb (fun p => N.eqb p MAX || memN (id_layer p) b) (vpolys v) = false).
    { intros [|] Q; [|discriminate]. clear - NM. induction (vpolys v) as [|q r IH]; [reflexivity|]. cbn [existsb]. rewrite IH by (intro; apply NM; now right). destruct (N.eqb_spec q MAX) as [->|_]; [exfalso; apply NM; now left|reflexivity]. }
    destruct (match b with [] => true | _ => false end) eqn:B1; destruct (match b' with [] => true | _ => false end) eqn:B2; cbn [negb andb]; try reflexivity; [rewrite <- EX; symmetry; exact (ZZ b B1)|rewrite EX; exact (ZZ b' B2)|exact EX].
Qed.
End Any2.

(** ** More blocked layers *)
Open Scope R_scope.
Lemma way_blocked m b b' P x Q y L : (forall i, In i b -> In i b') -> way m b' P x Q y L -> way m b P x Q y L.
Proof.
  intros H HW. induction HW as [P qs x H1 H2|P x Q y L qs z HW IH H1 H2|P x c y L HW IH [H1 H2] H3].
  - exact (way_here m b P qs x H1 H2).
  - exact (way_move m b P x Q y L qs z IH H1 H2).
  - refine (way_cross m b P x c y L IH _ H3). split; [exact H1|]. intro X. exact (H2 (H _ X)).
Qed.
(** Blocking more layers never makes the path shorter, *)
Theorem C80_blocking_never_shortens (lib lib' : Lib RA) m from to b b' path path' start goal ps pe :
  pop_ok (lpop lib) -> pop_ok (lpop lib') -> mesh_small m -> plane_mesh m -> ids_wf m -> u32_ids m -> (ps < 2^32)%N ->
  cpos from = vp start -> cpos to = vp goal -> located lib m from ps -> located lib m to pe -> located lib' m from ps -> located lib' m to pe ->
  generic m start ps pe goal -> faultless m b ps -> faultless m b' ps ->
  (forall i, In i b -> In i b') ->
  path_on_layers lib m from to b = Ok (Some path) -> path_on_layers lib' m from to b' = Ok (Some path') ->
  exists d d', plength path = Some d /\ plength path' = Some d' /\ d <= d'.
Proof.
  intros Hp Hp' Hsm HM HI HU HP32 Es Eg H1 H2 H1' H2' HG HF HF' HB H H'.
  destruct (C63_shortest lib m from to b path start goal ps pe Hp Hsm HM HI HU HP32 Es Eg H1 H2 HG HF H) as (pts & xs & d & _ & _ & _ & _ & F5 & _ & _ & F8).
  destruct (C63_shortest lib' m from to b' path' start goal ps pe Hp' Hsm HM HI HU HP32 Es Eg H1' H2' HG HF' H') as (pts' & xs' & d' & _ & _ & _ & _ & G5 & _ & G7 & _).
  exists d, d'. split; [exact F5|]. split; [exact G5|]. apply F8. exact (way_blocked m b b' _ _ _ _ _ HB G7).
Qed.
(** nor makes one appear: if there is one with more layers blocked, there is one with less, that path_on_layers can only miss because
    of its limit of steps. *)
Theorem C80_blocking_never_helps (lib lib' : Lib RA) m from to b b' path' start goal ps pe :
  pop_ok (lpop lib) -> pop_ok (lpop lib') -> mesh_small m -> mesh_wf m -> real_mesh m -> plane_mesh m -> u32_ids m -> (ps < 2^32)%N ->
  cpos from = vp start -> cpos to = vp goal -> located lib m from ps -> located lib m to pe -> located lib' m from ps -> located lib' m to pe ->
  generic m start ps pe goal -> faultless m b ps -> at_border m b -> faultless m b' ps ->
  (forall i, In i b -> In i b') ->
  path_on_layers lib' m from to b' = Ok (Some path') ->
  (exists path, path_on_layers lib m from to b = Ok (Some path)) \/
  (path_on_layers lib m from to b = Ok None /\
   exists st k path, setup (mkCtx m (vp goal) pe b) (vp start) ps = Ok st /\ answers lib (mkCtx m (vp goal) pe b) st k (Some path) /\ (count_polygons m * 10 < k)%nat).
Proof.
  intros Hp Hp' Hsm Hwf Hr HM HU HP32 Es Eg H1 H2 H1' H2' HG HF HA HF' HB H'.
  destruct (C63_shortest lib' m from to b' path' start goal ps pe Hp' Hsm HM (proj2 Hwf) HU HP32 Es Eg H1' H2' HG HF' H') as (pts' & xs' & d' & _ & _ & _ & _ & _ & _ & G7 & _).
  assert (Hisl : islands_reject m ps pe = Ok false).
  { unfold path_on_layers in H'. rewrite (proj2 (locate_end_located lib' m from ps) H1') in H'. cbn [bind] in H'. rewrite (proj2 (locate_end_located lib' m to pe) H2') in H'. cbn [bind] in H'.
    destruct (islands_reject m ps pe) as [[|]| | |]; try discriminate. reflexivity. }
  destruct (C64_only_the_step_limit lib m from to b start goal ps pe d' Hp Hsm Hwf Hr HM HU HP32 Es Eg H1 H2 Hisl HG HF HA (way_blocked m b b' _ _ _ _ _ HB G7)) as [F|(F & st & k & p & d & S1 & S2 & S3 & _)]; [now left|].
  right. split; [exact F|]. exists st, k, p. auto.
Qed.
