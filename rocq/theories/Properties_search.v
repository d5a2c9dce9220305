(** Theorems for C10-C14, C17, C22, C23: what a returned path is, costs, termination, order, pruning. *)
From Coq Require Import List NArith ZArith Bool Lia Permutation.
From Verif Require Import Base Arith F32 U32 Mesh Helpers Locate Search AsyncPath StdLib Spec
  Search_facts Search_props Search_cost Search_hist F32_facts Checkers Tests.
Import ListNotations.
Open Scope N_scope.

(** The hypotheses about the arithmetic ([nan_sane], [veq_ok], [order_laws], [total_ok]) are proved in F32_facts.v for
    binary32 with any sin/cos/acos ([F32with]) and for exact reals. *)

Section Any.
Context {A : Arith}.
Implicit Types (lib : Lib A) (m : Mesh A) (from to : Coords A) (blocked : list N) (p : Path A).

(** C10: a returned path is not empty and ends exactly at the requested destination. *)
Theorem C10_path_ends_at_destination lib m from to blocked p :
  pop_perm (lpop lib) ->
  path_on_layers lib m from to blocked = Ok (Some p) ->
  exists front, ppath p = front ++ [cpos to].
Proof.
  intros Hpop H. apply path_on_layers_cases in H. destruct H as (ps & pe & _ & _ & _ & H).
  destruct H as [[_ ->]|(_ & st & Hs & Hr)]; [exists []; reflexivity|].
  destruct (search_found lib _ _ _ _ _ _ Hpop Hs Hr) as (n & _ & _ & ->).
  unfold final_path. simpl. destruct (turning_point _ _ _); eexists; reflexivity.
Qed.

(** C10, for the future: polled to completion. *)
Theorem C10_get_path_ends_at_destination lib m (a b : vec2 A) k p log :
  nan_sane A -> pop_perm (lpop lib) ->
  poll_times k lib (get_path m a b) = Ok (Some (Some p), log) ->
  exists front, ppath p = front ++ [b].
Proof.
  intros Hn Hpop H. destruct (get_path_supported lib m a b k p log Hn Hpop H) as (ps & pe & _ & _ & _ & _ & [H1|H1]).
  - destruct H1 as [_ ->]. exists []. reflexivity.
  - destruct H1 as (_ & xs & x & turns & lt & _ & _ & -> & _). exists (turns ++ lt). now rewrite app_assoc.
Qed.

(** C10: if both ends are located in the same polygon, the answer is the straight segment. *)
Theorem C10_same_polygon lib m from to blocked id r :
  located lib m from id -> located lib m to id ->
  path_on_layers lib m from to blocked = Ok r ->
  r = Some (mkPath (vdist (cpos from) (cpos to)) [cpos to]).
Proof.
  intros H1 H2 H. apply locate_end_located in H1. apply locate_end_located in H2.
  unfold path_on_layers in H. rewrite H1 in H. cbn [bind] in H. rewrite H2 in H. cbn [bind] in H.
  inv_bind H. assert (a = false) as ->.
  { unfold islands_reject in E. destruct (N.eqb _ 1); [|congruence]. inv_bind E.
    destruct (islands a0) as [isl|]; [|congruence]. unfold islands_differ in E.
    destruct (nthN isl (id_polygon id)); [|congruence]. rewrite N.eqb_refl in E. simpl in E. congruence. }
  rewrite N.eqb_refl in H. congruence.
Qed.

(** C11: a returned path is supported by a chain of polygons from the polygon of the start to the polygon of the
    destination; each crosses a boundary edge both end vertices of which list the next polygon. *)
Theorem C11_path_is_supported lib m from to blocked p :
  nan_sane A -> pop_perm (lpop lib) -> mesh_small m ->
  path_on_layers lib m from to blocked = Ok (Some p) ->
  exists ps pe xs, located lib m from ps /\ located lib m to pe /\ corridor m ps xs pe.
Proof.
  intros Hn Hp Hm H.
  destruct (path_on_layers_supported lib m from to blocked p Hn Hp Hm H) as (ps & pe & H1 & H2 & H3).
  exists ps, pe. destruct H3 as [[-> _]|(_ & xs & x & turns & lt & H3 & _)].
  - exists []. repeat split; auto. constructor.
  - exists (xs ++ [x]). auto.
Qed.

Theorem C11_get_path_is_supported lib m (a b : vec2 A) k p log :
  nan_sane A -> pop_perm (lpop lib) ->
  poll_times k lib (get_path m a b) = Ok (Some (Some p), log) ->
  exists ps pe xs, get_point_location (lbvh lib) m (coords_on_mesh a) = Ok ps /\
    get_point_location (lbvh lib) m (coords_on_mesh b) = Ok pe /\ corridor m ps xs pe.
Proof.
  intros Hn Hp H. destruct (get_path_supported lib m a b k p log Hn Hp H) as (ps & pe & H1 & _ & H2 & _ & H3).
  exists ps, pe. destruct H3 as [[-> _]|(_ & xs & x & turns & lt & H3 & _)].
  - exists []. repeat split; auto. constructor.
  - exists (xs ++ [x]). auto.
Qed.

(** C12: the chain never enters a blocked layer ... *)
Theorem C12_blocked_layers_not_entered lib m from to blocked p :
  nan_sane A -> pop_perm (lpop lib) -> mesh_small m ->
  path_on_layers lib m from to blocked = Ok (Some p) ->
  exists ps pe xs, located lib m from ps /\ located lib m to pe /\ corridor m ps xs pe /\
    forall x, In x xs -> ~ In (id_layer (cr_to x)) blocked.
Proof.
  intros Hn Hp Hm H.
  destruct (path_on_layers_supported lib m from to blocked p Hn Hp Hm H) as (ps & pe & H1 & H2 & H3).
  exists ps, pe. destruct H3 as [[-> _]|(_ & xs & x & turns & lt & H3 & H4 & _)].
  - exists []. split; [assumption|]. split; [assumption|]. split; [constructor|intros ? []].
  - exists (xs ++ [x]). auto.
Qed.

(** ... so no path is found to a polygon of a blocked layer, unless it is the start polygon. *)
Theorem C12_no_path_into_blocked_layer lib m from to blocked ps pe p :
  nan_sane A -> pop_perm (lpop lib) -> mesh_small m ->
  located lib m from ps -> located lib m to pe -> ps <> pe -> In (id_layer pe) blocked ->
  path_on_layers lib m from to blocked <> Ok (Some p).
Proof.
  intros Hn Hp Hm H1 H2 Hne Hb H.
  destruct (path_on_layers_supported lib m from to blocked p Hn Hp Hm H) as (ps' & pe' & G1 & G2 & G3).
  assert (ps' = ps) by (eapply located_fun; eauto). assert (pe' = pe) by (eapply located_fun; eauto). subst.
  destruct G3 as [[? _]|(_ & xs & x & turns & lt & H3 & H4 & _)]; [contradiction|].
  destruct (corridor_snoc_inv _ _ _ _ _ H3) as [_ H5].
  apply (H4 x); [apply in_elt|]. rewrite H5. assumption.
Qed.

(** C13: the turns of the path are at corner vertices of the crossed edges, in order, at most one per crossing; the last
    turn before the destination is a point cut from the last crossed edge. *)
Theorem C13_turns_at_corners lib m from to blocked p :
  nan_sane A -> pop_perm (lpop lib) -> mesh_small m ->
  path_on_layers lib m from to blocked = Ok (Some p) ->
  ppath p = [cpos to] \/
  exists ps pe xs x turns last_turn,
    located lib m from ps /\ located lib m to pe /\ corridor m ps (xs ++ [x]) pe /\
    turns_along m blocked xs turns /\
    ppath p = turns ++ last_turn ++ [cpos to] /\
    (last_turn = [] \/ exists t, last_turn = [t] /\ crossing_point m x t).
Proof.
  intros Hn Hp Hm H.
  destruct (path_on_layers_supported lib m from to blocked p Hn Hp Hm H) as (ps & pe & H1 & H2 & H3).
  destruct H3 as [[-> ->]|(_ & xs & x & turns & lt & H3 & H4 & H5 & H6 & H7)]; [left; reflexivity|right].
  exists ps, pe, xs, x, turns, lt. auto 10.
Qed.

(** C14: the cost of every node generated by the search is the left-to-right sum of the distances along the start and
    its turning points, and the last of these is where its root is. *)
Theorem C14_node_cost_is_walk_length (c : Ctx A) (start : vec2 A) ps n :
  veq_ok A -> reachable c start ps n ->
  ng n = polyline_length start (npath n) /\
  (forall q, vdist (nroot n) q = vdist (last (npath n) start) q).
Proof. apply reachable_cost. Qed.

(** C14: the reported length is the length walked to the last corner plus the final estimate, where turns, last corner and
    interval are those of a node generated by the search, that enters the polygon of the destination. *)
Theorem C14_reported_length lib m from to blocked p ps pe :
  veq_ok A -> pop_perm (lpop lib) ->
  located lib m from ps -> located lib m to pe -> ps <> pe ->
  path_on_layers lib m from to blocked = Ok (Some p) ->
  exists n turns root i,
    (reachable (mkCtx m (cpos to) pe blocked) (cpos from) ps n /\ nto n = pe /\
     npath n = turns /\ nroot n = root /\ ninterval n = i) /\
    plength p = fadd (polyline_length (cpos from) turns) (heuristic root (cpos to) i) /\
    (forall q, vdist root q = vdist (last turns (cpos from)) q) /\
    ppath p = turns ++ match turning_point root (cpos to) i with Some t => [t] | None => [] end ++ [cpos to].
Proof.
  intros Hv Hpop H1 H2 Hne H. apply path_on_layers_cases in H.
  destruct H as (ps' & pe' & G1 & G2 & _ & H).
  apply locate_end_located in G1. apply locate_end_located in G2.
  assert (ps' = ps) by (eapply located_fun; eauto). assert (pe' = pe) by (eapply located_fun; eauto). subst.
  destruct H as [[? _]|(_ & st & Hs & Hr)]; [contradiction|].
  destruct (search_found lib _ _ _ _ _ _ Hpop Hs Hr) as (n & Hrn & Hto & ->).
  destruct (reachable_cost _ _ _ _ Hv Hrn) as [Hc Hl].
  exists n, (npath n), (nroot n), (ninterval n). split; [auto|]. split; [|split; [assumption|]].
  - unfold final_path. simpl. unfold node_f. rewrite Hc, (reachable_h _ _ _ _ Hrn). reflexivity.
  - unfold final_path. simpl. destruct (turning_point _ _ _); simpl; [now rewrite <- app_assoc|reflexivity].
Qed.

(** C17: no run of path_on_layers exhausts the bounds of the model: every expansion performs at most
    (number of neighbour entries + 2) rounds and the whole search ends, for every mesh, consistent or not. *)
Theorem C17_path_terminates lib m from to blocked : path_on_layers lib m from to blocked <> NoFuel.
Proof. apply path_on_layers_nf. Qed.

(** C17: one expansion; a larger bound gives the same answer. *)
Theorem C17_expansion_terminates (c : Ctx A) n st k :
  sbuffer st = [] ->
  successors (succ_fuel (cmesh c)) c [] n st <> NoFuel /\
  successors (k + succ_fuel (cmesh c)) c [] n st = successors (succ_fuel (cmesh c)) c [] n st.
Proof.
  intro H. pose proof (successors_terminates c n st H) as H1. split; [exact H1|].
  apply successors_mono. exact H1.
Qed.

(** C17: the polls of the future terminate too. *)
Theorem C17_poll_terminates lib m (a b : vec2 A) k : poll_times k lib (get_path m a b) <> NoFuel.
Proof.
  assert (HP : forall k (f : Future A), (forall c st, finst f = Some (c, st) -> sbuffer st = []) ->
    poll_times k lib f <> NoFuel).
  { clear k. induction k as [|k IH]; intros f Hf; simpl; [discriminate|].
    apply nf_bind.
    - unfold poll. destruct (finst f) as [[c st]|].
      + apply nf_bind; [apply three_nf; eapply Hf; reflexivity|]. intros [st' o] _. simpl. destruct o; apply nf_Ok.
      + apply nf_bind; [apply nf_get_point_location|]. intros ps _. destruct (N.eqb ps MAX); [apply nf_Ok|].
        apply nf_bind; [apply nf_get_point_location|]. intros pe _. destruct (N.eqb pe MAX); [apply nf_Ok|].
        apply nf_bind; [unfold async_islands_reject; destruct (N.eqb _ _); [apply nf_bind; [apply nf_index|intros; apply nf_Ok]|apply nf_Ok]|].
        intros rej _. destruct rej; [apply nf_Ok|]. destruct (N.eqb ps pe); [apply nf_Ok|].
        apply nf_bind; [apply nf_setup|]. intros. apply nf_Ok.
    - intros [[f' w] r] E. destruct r; [apply nf_Ok|]. apply nf_bind; [|intros; apply nf_Ok]. apply IH.
      intros c st Hc. unfold poll in E. destruct (finst f) as [[c0 st0]|] eqn:Ef.
      + inv_bind E. destruct a0 as [st1 o]. simpl in E. destruct o; inversion E; subst. simpl in Hc. inversion Hc; subst.
        assert (HB : forall k s s' o, sbuffer s = [] -> three k lib c s = Ok (s', o) -> sbuffer s' = []).
        { clear. induction k as [|k IH]; intros s s' o HB H; simpl in H; [inversion H; subst; assumption|].
          inv_bind H. destruct a as [s1 r]. pose proof (next_buffer lib c s s1 r HB E) as HB1. simpl in H.
          destruct r; try (inversion H; subst; assumption). eapply IH; eauto. }
        eapply HB; [|exact E0]. eapply Hf; reflexivity.
      + inv_bind E. destruct (N.eqb a0 MAX); [inversion E|].
        inv_bind E. destruct (N.eqb a1 MAX); [inversion E|].
        inv_bind E. destruct a2; [inversion E|]. destruct (N.eqb a0 a1); [inversion E|].
        inv_bind E. inversion E; subst. simpl in Hc. inversion Hc; subst.
        eapply setup_all with (P := fun _ => True); [auto|exact E3]. }
  apply HP. unfold get_path. simpl. discriminate.
Qed.

(** C22: when a path is returned, its length is at most the estimate of every node still queued, whichever of several
    greatest elements the heap pops. *)
Theorem C22_returned_path_is_best lib m from to blocked p ps pe :
  total_ok A -> pop_ok (lpop lib) ->
  located lib m from ps -> located lib m to pe -> ps <> pe ->
  path_on_layers lib m from to blocked = Ok (Some p) ->
  exists st st', search_state lib (mkCtx m (cpos to) pe blocked) (cpos from) ps st /\
    next lib (mkCtx m (cpos to) pe blocked) st = Ok (st', Found p) /\
    forall n, In n (squeue st') -> ftotal (plength p) (node_f n) <> Gt.
Proof.
  intros Ht Hpop H1 H2 Hne H. apply path_on_layers_cases in H.
  destruct H as (ps' & pe' & G1 & G2 & _ & H).
  apply locate_end_located in G1. apply locate_end_located in G2.
  assert (ps' = ps) by (eapply located_fun; eauto). assert (pe' = pe) by (eapply located_fun; eauto). subst.
  destruct H as [[? _]|(_ & st & Hs & Hr)]; [contradiction|].
  assert (HS : search_state lib (mkCtx m (cpos to) pe blocked) (cpos from) ps st) by (now constructor).
  clear Hs. revert st HS Hr. generalize (count_polygons m * 10)%nat.
  induction n as [|k IH]; intros st HS Hr; simpl in Hr; [discriminate|].
  inv_bind Hr. destruct a as [st' r]. simpl in Hr.
  assert (HS' : search_state lib (mkCtx m (cpos to) pe blocked) (cpos from) ps st') by (econstructor; eauto).
  destruct r; try (eapply IH; eauto; fail). inversion Hr; subst.
  exists st, st'. repeat split; auto. eapply next_found_best; eauto.
Qed.

(** C22: the order of the queue is a total preorder. *)
Theorem C22_node_order_total_preorder :
  total_ok A ->
  (forall a : Node A, node_cmp a a = Eq) /\
  (forall a b : Node A, node_cmp a b = CompOpp (node_cmp b a)) /\
  (forall a b c : Node A, node_cmp a b <> Gt -> node_cmp b c <> Gt -> node_cmp a c <> Gt).
Proof.
  intro H. split; [now apply node_cmp_refl|]. split; [now apply node_cmp_opp|now apply node_cmp_trans].
Qed.

(** C23: in every state of the search the recorded cost of a root is attained, and is a lower bound of the costs of all
    queued nodes with that root. *)
Theorem C23_history_is_attained_lower_bound lib (c : Ctx A) start ps st :
  order_laws A -> pop_perm (lpop lib) -> search_state lib c start ps st ->
  (forall root o, hist_get (shist st) root = Some o ->
     (veq start root = true /\ o = fz 0) \/
     exists n, reachable c start ps n /\ veq (nroot n) root = true /\ ng n = o) /\
  (forall n, In n (squeue st) -> exists o, hist_get (shist st) (nroot n) = Some o /\ flt (ng n) o = false).
Proof.
  intros OL Hpop H. apply search_state_hist in H; [|assumption|assumption]. split.
  - exact (hi_att _ _ _ _ H).
  - intros n Hn. apply (hi_low _ _ _ _ H). now left.
Qed.

(** C23: a popped node is dropped only if the start or another generated node has its root with a smaller cost. *)
Theorem C23_dropped_when_dominated lib (c : Ctx A) start ps st n q :
  order_laws A -> pop_perm (lpop lib) -> search_state lib c start ps st ->
  lpop lib (squeue st) = Some (n, q) ->
  next lib c st = Ok (mkState q (sbuffer st) (shist st), Continue) ->
  nto n = cpto c ->
  (veq start (nroot n) = true /\ flt (fz 0) (ng n) = true) \/
  exists n', reachable c start ps n' /\ veq (nroot n') (nroot n) = true /\ flt (ng n') (ng n) = true.
Proof.
  intros OL Hpop H Hq Hn Hto. unfold next in Hn. rewrite Hq in Hn. cbn [shist] in Hn.
  destruct (hist_get (shist st) (nroot n)) as [o|] eqn:E.
  - destruct (flt o (ng n)) eqn:EF.
    + apply search_state_hist in H; [|assumption|assumption].
      destruct (hi_att _ _ _ _ H _ _ E) as [[H1 ->]|(n' & H1 & H2 & <-)]; [left; auto|right; eauto].
    + rewrite Hto, N.eqb_refl in Hn. discriminate.
  - rewrite Hto, N.eqb_refl in Hn. discriminate.
Qed.

(** C23: a generated node (neither cost nor estimate NaN) is not queued only if it is strictly dominated. *)
Theorem C23_pruned_when_dominated lib (c : Ctx A) start ps st root os s e n :
  order_laws A -> pop_perm (lpop lib) -> search_state lib c start ps st ->
  let nn := new_node c root os s e n in
  add_node c st root os s e n = st ->
  fnan (ng nn) = true \/ fnan (nh nn) = true \/
  (veq start root = true /\ flt (fz 0) (ng nn) = true) \/
  exists n', reachable c start ps n' /\ veq (nroot n') root = true /\ flt (ng n') (ng nn) = true.
Proof.
  intros OL Hpop H nn Hadd. apply search_state_hist in H; [|assumption|assumption].
  destruct (add_node_spec c st root os s e n) as [[_ [H1|[H1|(o & H1 & H2)]]]|(H1 & H2 & H3)]; auto.
  - right. right. destruct (hi_att _ _ _ _ H _ _ H1) as [[G1 ->]|(n' & G1 & G2 & <-)]; [left; auto|right; eauto].
  - exfalso. rewrite Hadd in H3. inversion H3 as [? HH|? ? ? HH]; apply (f_equal (fun s => length (sbuffer s))) in HH;
      simpl in HH; rewrite app_length in HH; simpl in HH; lia.
Qed.

End Any.

(** ** The hypotheses are met: binary32, a concrete mesh with a path that turns, any sin/cos/acos. *)
Example ex_lib_ok : pop_ok (lpop lib32) /\ pop_perm (lpop lib32).
Proof. split; [apply std_pop_ok, F32_total_ok|apply std_pop_perm]. Qed.
Example ex_laws : nan_sane F32 /\ veq_ok F32 /\ total_ok F32 /\ order_laws F32.
Proof. repeat split; try apply F32_nan_sane; try apply F32_veq_ok; try apply F32_total_ok; apply F32_order_laws. Qed.
Example ex_mesh_small : mesh_small mesh_u_grid.
Proof. apply mesh_smallb_ok. vmc. Qed.

Definition ex_from := at_ (pt10 1 19).
Definition ex_to := at_ (pt10 29 19).
(** from one leg of the U to the other: two turns, in different polygons *)
Example ex_path : exists p, path_on_layers lib32 mesh_u_grid ex_from ex_to [] = Ok (Some p) /\
   length (ppath p) = 3%nat.
Proof.
  eexists. split.
  - match goal with |- ?l = _ => let r := eval vm_compute in (match l with Ok (Some p) => p | _ => mkPath (q 0 1) [] end) in
      instantiate (1 := r) end. vmc.
  - vmc.
Qed.
Example ex_located : located lib32 mesh_u_grid ex_from 3 /\ located lib32 mesh_u_grid ex_to 4.
Proof. rewrite <- !locate_end_located. split; vmc. Qed.
Example ex_supported : exists ps pe xs, located lib32 mesh_u_grid ex_from ps /\ located lib32 mesh_u_grid ex_to pe /\
   corridor mesh_u_grid ps xs pe.
Proof.
  destruct ex_path as (p & H & _). eapply C11_path_is_supported; [apply ex_laws|apply ex_lib_ok|apply ex_mesh_small|exact H].
Qed.
(** blocking the only layer forbids it *)
Example ex_blocked : path_on_layers lib32 mesh_u_grid ex_from ex_to [0] = Ok None.
Proof. vmc. Qed.
Example ex_search_state : exists st, search_state lib32 (mkCtx mesh_u_grid (cpos ex_to) 4 []) (cpos ex_from) 3 st /\
   squeue st <> [].
Proof.
  pose (r := setup (mkCtx mesh_u_grid (cpos ex_to) 4 []) (cpos ex_from) 3).
  destruct r as [st| | |] eqn:E.
  - exists st. split; [now constructor|].
    assert (match r with Ok st => match squeue st with [] => true | _ => false end | _ => true end = false) as H by vmc.
    rewrite E in H. intro Hq. rewrite Hq in H. discriminate.
  - exfalso. assert (match r with Panic => false | _ => true end = true) as H by vmc. rewrite E in H. discriminate.
  - exfalso. assert (match r with Oob => false | _ => true end = true) as H by vmc. rewrite E in H. discriminate.
  - exfalso. assert (match r with NoFuel => false | _ => true end = true) as H by vmc. rewrite E in H. discriminate.
Qed.

Print Assumptions C10_path_ends_at_destination.
Print Assumptions C10_get_path_ends_at_destination.
Print Assumptions C10_same_polygon.
Print Assumptions C11_path_is_supported.
Print Assumptions C11_get_path_is_supported.
Print Assumptions C12_blocked_layers_not_entered.
Print Assumptions C12_no_path_into_blocked_layer.
Print Assumptions C13_turns_at_corners.
Print Assumptions C14_node_cost_is_walk_length.
Print Assumptions C14_reported_length.
Print Assumptions C17_path_terminates.
Print Assumptions C17_expansion_terminates.
Print Assumptions C17_poll_terminates.
Print Assumptions C22_returned_path_is_best.
Print Assumptions C22_node_order_total_preorder.
Print Assumptions C23_history_is_attained_lower_bound.
Print Assumptions C23_dropped_when_dominated.
Print Assumptions C23_pruned_when_dominated.
