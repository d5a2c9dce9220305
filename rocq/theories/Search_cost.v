(** Costs (C14), termination (C17), order of expansion (C22), pruning (C23). *)
From Coq Require Import List NArith ZArith Bool Lia Permutation.
From Verif Require Import Base Arith U32 Mesh Helpers Locate Search AsyncPath StdLib Spec Search_facts Search_props.
Import ListNotations.
Open Scope N_scope.

(** ** C14: the accumulated cost *)
Section Cost.
Context {A : Arith}.

(** Equal points have equal distances to any point (signed zeros make no difference). *)
Definition veq_ok : Prop := forall a b p : vec2 A, veq a b = true -> vdist a p = vdist b p.

Lemma walk_length_snoc pts : forall (acc : F A) s p,
  walk_length acc s (pts ++ [p]) = fadd (walk_length acc s pts) (vdist (last pts s) p).
Proof.
  induction pts as [|x r IH]; intros acc s p; simpl; [reflexivity|].
  rewrite IH. f_equal. f_equal. destruct r as [|y r]; [reflexivity|].
  clear. revert x y. induction r as [|z r IH]; intros; [reflexivity|]. simpl. apply (IH x z).
Qed.

Lemma last_snoc {T} (l : list T) x d : last (l ++ [x]) d = x.
Proof. apply last_last. Qed.

(** The invariant: the cost is the length of the walk so far, and the root is where it stands. *)
Definition cost_ok (from : vec2 A) (n : Node A) : Prop :=
  ng n = polyline_length from (npath n) /\ forall p, vdist (nroot n) p = vdist (last (npath n) from) p.

Lemma new_node_cost c from root os s e n :
  veq_ok -> cost_ok from n -> cost_ok from (new_node c root os s e n).
Proof.
  intros Hv [H1 H2]. unfold new_node, cost_ok. simpl.
  destruct (veq root (nroot n)) eqn:E; simpl.
  - split; [assumption|]. intro p. rewrite (Hv _ _ p E). apply H2.
  - unfold polyline_length. rewrite walk_length_snoc, last_snoc. split; [|reflexivity].
    rewrite <- H2, H1. reflexivity.
Qed.

Lemma reachable_cost c from ps n : veq_ok -> reachable c from ps n -> cost_ok from n.
Proof.
  intros Hv [h Hh]. remember (n :: h) as hh eqn:E. revert n h E.
  induction Hh as [n0 H0|n0 n1 h0 Hr IH Hg]; intros n h E; inversion E; subst.
  - destruct H0 as (l & p & a & b & sv & ev & _ & _ & _ & _ & _ & _ & -> & _).
    apply new_node_cost; [assumption|]. split; reflexivity.
  - destruct Hg as (s & root & l & ss & sv & ev & _ & _ & _ & _ & _ & _ & _ & _ & _ & _ & _ & -> & _).
    apply new_node_cost; [assumption|]. eapply IH. reflexivity.
Qed.

(** Heuristic of reachable nodes *)
Lemma reachable_h (c : Ctx A) from ps n : reachable c from ps n -> nh n = heuristic (nroot n) (cgoal c) (ninterval n).
Proof.
  intros [h Hh]. inversion Hh; subst.
  - destruct H0 as (l & p & a & b & sv & ev & _ & _ & _ & _ & _ & _ & -> & _). reflexivity.
  - destruct H2 as (s & root & l & ss & sv & ev & _ & _ & _ & _ & _ & _ & _ & _ & _ & _ & _ & -> & _).
    reflexivity.
Qed.

Lemma reachable_not_nan (c : Ctx A) from ps n : reachable c from ps n -> fnan (ng n) = false /\ fnan (nh n) = false.
Proof.
  intros [h Hh]. inversion Hh; subst.
  - destruct H0 as (l & p & a & b & sv & ev & _ & _ & _ & _ & _ & _ & _ & H). exact H.
  - destruct H2 as (s & root & l & ss & sv & ev & _ & _ & _ & _ & _ & _ & _ & _ & _ & _ & _ & _ & H). exact H.
Qed.

End Cost.
Arguments veq_ok A : clear implicits.

(** ** C17: termination *)
Section Term.
Context {A : Arith}.

(** no fuel exhaustion *)
Definition nf {T} (r : res T) : Prop := r <> NoFuel.
Lemma nf_bind {T U} (r : res T) (k : T -> res U) : nf r -> (forall a, r = Ok a -> nf (k a)) -> nf (bind r k).
Proof. intros H1 H2. destruct r; simpl; try (unfold nf; congruence). apply H2; reflexivity. Qed.
Lemma nf_Ok {T} (a : T) : nf (Ok a). Proof. unfold nf. discriminate. Qed.
Lemma nf_index {T} (l : list T) i : nf (index l i).
Proof. unfold index, unwrap, nf. destruct (nthN l i); discriminate. Qed.
Lemma nf_get_unchecked {T} (l : list T) i : nf (get_unchecked l i).
Proof. unfold get_unchecked, nf. destruct (nthN l i); discriminate. Qed.
Lemma nf_foldM {T S} (f : S -> T -> res S) l : (forall s x, nf (f s x)) -> forall s, nf (foldM f s l).
Proof. intros H. induction l; intro s; simpl; [apply nf_Ok|]. apply nf_bind; auto. Qed.
Lemma nf_mapM {T S} (f : T -> res S) l : (forall x, nf (f x)) -> nf (mapM f l).
Proof.
  intros H. induction l; simpl; [apply nf_Ok|]. apply nf_bind; auto. intros. apply nf_bind; auto.
  intros; apply nf_Ok.
Qed.
Lemma nf_findM {T} (f : T -> res bool) l : (forall x, nf (f x)) -> nf (findM f l).
Proof. intros H. induction l; simpl; [apply nf_Ok|]. apply nf_bind; auto. intros [] _; auto. apply nf_Ok. Qed.

Ltac nf_tac :=
  repeat match goal with
      | |- nf (Ok _) => apply nf_Ok
      | |- nf (index _ _) => apply nf_index
      | |- nf (get_unchecked _ _) => apply nf_get_unchecked
      | |- nf (bind _ _) => apply nf_bind; [|intros]
      | |- nf (foldM _ _ _) => apply nf_foldM; intros
      | |- nf (mapM _ _) => apply nf_mapM; intros
      | |- nf (findM _ _) => apply nf_findM; intros
      | |- nf (if ?b then _ else _) => destruct b
      | |- nf (match ?x with _ => _ end) => destruct x
      | |- nf Panic => unfold nf; discriminate
      end.

Lemma nf_edges_index p : nf (edges_index p).
Proof. unfold edges_index. nf_tac. Qed.
Lemma nf_pip_loop vs (p : vec2 A) es : forall e, nf (pip_loop vs p es e).
Proof. induction es as [|[a b] r IH]; intro e; simpl; nf_tac. apply IH. Qed.
Lemma nf_pip (l : Layer A) p poly : nf (point_in_polygon l p poly).
Proof. unfold point_in_polygon. apply nf_bind; [apply nf_edges_index|]. intros. apply nf_pip_loop. Qed.

Section Bvh.
Context (bvh : list (vec2 A * vec2 A) -> vec2 A -> list N).
Lemma nf_loc_any (l : Layer A) p : nf (loc_any bvh l p).
Proof.
  unfold loc_any, loc_unit, loc_unit_baked. nf_tac; first [apply nf_pip|apply nf_edges_index|apply nf_pip_loop].
Qed.
Lemma nf_ring_loop (l : Layer A) p d s is : nf (ring_loop bvh l p d s is).
Proof. induction is as [|i r IH]; simpl; nf_tac; [apply nf_loc_any|apply IH]. Qed.
Lemma nf_inner (l : Layer A) p d s : nf (get_closest_point_inner bvh l p d s).
Proof.
  unfold get_closest_point_inner. destruct (2 ^ 32 <=? 10 * (s + 1)); [unfold nf; discriminate|apply nf_ring_loop].
Qed.
Lemma nf_gcp_layers (p : vec2 A) d s ls : nf (gcp_layers bvh p d s ls).
Proof. induction ls as [|[i l] r IH]; simpl; nf_tac; [apply nf_inner|apply IH]. Qed.
Lemma nf_first_step {T} (f : N -> res (option T)) l : (forall s, nf (f s)) -> nf (first_step f l).
Proof. intro H. induction l; simpl; [apply nf_Ok|]. apply nf_bind; auto. intros [] _; [apply nf_Ok|assumption]. Qed.
Lemma nf_get_closest_point (m : Mesh A) c : nf (get_closest_point bvh m c).
Proof.
  unfold get_closest_point. destruct (clayer c).
  - apply nf_bind; [apply nf_index|]. intros. apply nf_first_step. intro. apply nf_gcp_layers.
  - apply nf_first_step. intro. apply nf_gcp_layers.
Qed.
Lemma nf_probe_loop (l : Layer A) p ds : nf (probe_loop bvh l p ds).
Proof. induction ds; simpl; nf_tac; [apply nf_loc_any|assumption]. Qed.
Lemma nf_gpl_loop (m : Mesh A) p ls : nf (gpl_loop bvh m p ls).
Proof.
  induction ls as [|[i l] r IH]; cbn [gpl_loop]; [apply nf_Ok|].
  apply nf_bind; [apply nf_probe_loop|]. intros [k|] _; [|assumption].
  destruct (N.eqb _ _); [assumption|apply nf_Ok].
Qed.
Lemma nf_get_point_location (m : Mesh A) c : nf (get_point_location bvh m c).
Proof.
  unfold get_point_location. destruct (clayer c); [|apply nf_gpl_loop].
  destruct (nthN (layers m) n); [|apply nf_Ok].
  apply nf_bind; [apply nf_probe_loop|]. intros. apply nf_Ok.
Qed.
End Bvh.

Lemma nf_mesh_polygon (m : Mesh A) i : nf (mesh_polygon m i).
Proof. unfold mesh_polygon. nf_tac. Qed.
Lemma nf_setup (c : Ctx A) from ps : nf (setup c from ps).
Proof. unfold setup, setup_edge. nf_tac; try apply nf_edges_index; apply nf_mesh_polygon. Qed.
Lemma nf_close_index (l : Layer A) p vs : forall i, nf (close_index l p vs i).
Proof. induction vs; intro i; simpl; nf_tac. apply IHvs. Qed.
Lemma nf_right_index (c : Ctx A) l p n : nf (right_index c l p n).
Proof.
  unfold right_index. nf_tac; try apply nf_close_index.
  unfold nearest_index. nf_tac.
Qed.
Lemma nf_cut_edges (l : Layer A) root i es : forall ty, nf (cut_edges l root i es ty).
Proof.
  induction es as [|[a b] r IH]; intro ty; simpl; [apply nf_Ok|].
  destruct (_ <? _); [apply IH|].
  apply nf_bind; [apply nf_get_unchecked|]. intros. apply nf_bind; [apply nf_get_unchecked|]. intros.
  destruct (cut_edge _ _ _ _ _ _). apply nf_bind; [apply IH|]. intros. apply nf_Ok.
Qed.
Lemma nf_edges_between (c : Ctx A) n : nf (edges_between c n).
Proof.
  unfold edges_between. nf_tac; try apply nf_right_index; try apply nf_cut_edges.
  unfold circular_edges_index. nf_tac. apply nf_edges_index.
Qed.
Lemma nf_corner_ok (c : Ctx A) n vi p : nf (corner_ok c n vi p).
Proof. unfold corner_ok. nf_tac. Qed.
Lemma nf_expand_one (c : Ctx A) n l st s : nf (expand_one c n l st s).
Proof. unfold expand_one. nf_tac; try apply nf_mesh_polygon; try apply nf_corner_ok. Qed.
Lemma nf_expand (c : Ctx A) n st : nf (expand c n st).
Proof. unfold expand. nf_tac; [apply nf_edges_between|apply nf_expand_one]. Qed.

(** All the neighbour entries of the mesh *)
Definition all_ids (m : Mesh A) : list N := flat_map (fun l => flat_map vpolys (vertices l)) (layers m).

Lemma all_ids_In (m : Mesh A) l v i : In l (layers m) -> In v (vertices l) -> In i (vpolys v) -> In i (all_ids m).
Proof.
  intros. unfold all_ids. apply in_flat_map. exists l. split; [assumption|].
  apply in_flat_map. exists v. auto.
Qed.

Lemma succ_fuel_ids (m : Mesh A) : succ_fuel m = S (S (length (all_ids m))).
Proof.
  unfold succ_fuel, all_ids. do 2 f_equal. induction (layers m) as [|l r IH]; simpl; [reflexivity|].
  rewrite app_length, <- IH. f_equal. induction (vertices l) as [|v w IHv]; simpl; [reflexivity|].
  rewrite app_length, <- IHv. reflexivity.
Qed.

Lemma gen_step_ids (c : Ctx A) n n' : gen_step c n n' -> In (nto n') (all_ids (cmesh c)).
Proof.
  intros (s & root & l & ss & sv & ev & HL & _ & _ & HA & _ & HM & _ & _ & _ & _ & _ & -> & _).
  simpl. destruct (other_side_spec sv ev (nto n)) as [H|(_ & _ & H & _)]; [contradiction|].
  apply nthN_In in HL. apply nthN_In in HA. eapply all_ids_In; eauto.
Qed.

Lemma successors_nf (c : Ctx A) : forall fuel vis n st,
  sbuffer st = [] -> NoDup vis -> incl vis (all_ids (cmesh c)) ->
  (length (all_ids (cmesh c)) < fuel + length vis)%nat ->
  nf (successors fuel c vis n st).
Proof.
  induction fuel as [|fuel IH]; intros vis n st HB HN HI HF.
  - exfalso. pose proof (NoDup_incl_length HN HI). simpl in HF. lia.
  - simpl. apply nf_bind; [apply nf_expand|]. intros st' E.
    destruct (sbuffer st') as [|n' [|]] eqn:EB; try apply nf_Ok.
    destruct (N.eqb (nto n') (cpto c)); [apply nf_Ok|].
    destruct (reverse_of n' n); [apply nf_Ok|].
    destruct (memN (nto n') vis) eqn:EM; [apply nf_Ok|].
    assert (In (nto n') (all_ids (cmesh c))) as Hin.
    {
      (* the buffer only holds nodes generated now *)
      assert (forall x, In x (sbuffer st') -> In (nto x) (all_ids (cmesh c))) as H3.
      { eapply expand_inv with (I := fun s => forall x, In x (sbuffer s) -> In (nto x) (all_ids (cmesh c)));
          [|rewrite HB; contradiction|exact E].
        intros st0 n0 st1 H1 Hg Ha x Hx. inversion Ha; subst; simpl in Hx; apply in_app_or in Hx;
        destruct Hx as [Hx|[<-|[]]]; auto; eapply gen_step_ids; eauto. }
      apply H3. rewrite EB. now left. }
    apply IH.
    + reflexivity.
    + constructor; [now apply memN_false|assumption].
    + intros x [<-|Hx]; auto.
    + simpl. lia.
Qed.

(** More fuel changes nothing: the fuel is not part of the answer. *)
Lemma successors_mono (c : Ctx A) : forall fuel vis n st k,
  nf (successors fuel c vis n st) -> successors (k + fuel) c vis n st = successors fuel c vis n st.
Proof.
  induction fuel as [|fuel IH]; intros vis n st k H; [exfalso; apply H; reflexivity|].
  replace (k + S fuel)%nat with (S (k + fuel)) by lia. simpl in *.
  destruct (expand c n st) as [st'| | |]; simpl in *; try reflexivity.
  destruct (sbuffer st') as [|n' [|]]; try reflexivity.
  destruct (N.eqb (nto n') (cpto c)); [reflexivity|].
  destruct (reverse_of n' n); [reflexivity|].
  destruct (memN (nto n') vis); [reflexivity|]. now apply IH.
Qed.

Lemma successors_terminates (c : Ctx A) n st :
  sbuffer st = [] -> nf (successors (succ_fuel (cmesh c)) c [] n st).
Proof.
  intro HB. apply successors_nf; auto.
  - constructor.
  - intros x [].
  - rewrite succ_fuel_ids. simpl. lia.
Qed.

Lemma next_nf lib (c : Ctx A) st : sbuffer st = [] -> nf (next lib c st).
Proof.
  intro HB. unfold next. destruct (lpop lib (squeue st)) as [[n q]|]; [|apply nf_Ok].
  cbn [shist]. destruct (match hist_get _ _ with Some _ => _ | None => _ end); [apply nf_Ok|].
  destruct (N.eqb (nto n) (cpto c)); [apply nf_Ok|].
  apply nf_bind; [|intros; apply nf_Ok]. apply successors_terminates. exact HB.
Qed.

Lemma next_buffer lib (c : Ctx A) st st' r : sbuffer st = [] -> next lib c st = Ok (st', r) -> sbuffer st' = [].
Proof.
  intros HB H. unfold next in H. destruct (lpop lib (squeue st)) as [[n q]|]; [|inversion H; subst; assumption].
  cbn [shist] in H. destruct (match hist_get _ _ with Some _ => _ | None => _ end); [inversion H; subst; assumption|].
  destruct (N.eqb (nto n) (cpto c)); [inversion H; subst; assumption|].
  inv_bind H. inversion H; subst.
  eapply successors_all with (P := fun _ => True); [auto|exact I| |exact E].
  split; auto.
Qed.

Lemma run_nf lib (c : Ctx A) : forall k st, sbuffer st = [] -> nf (run k lib c st).
Proof.
  induction k as [|k IH]; intros st HB; simpl; [apply nf_Ok|].
  apply nf_bind; [now apply next_nf|]. intros [st' r] E. simpl.
  destruct r; try apply nf_Ok; apply IH; eapply next_buffer; eauto.
Qed.

Lemma path_on_layers_nf lib (m : Mesh A) from to blocked : nf (path_on_layers lib m from to blocked).
Proof.
  unfold path_on_layers, locate_end.
  apply nf_bind; [destruct (negb _); [apply nf_Ok|apply nf_bind; [apply nf_get_closest_point|intros; apply nf_Ok]]|].
  intros [ps|] _; [|apply nf_Ok].
  apply nf_bind; [destruct (negb _); [apply nf_Ok|apply nf_bind; [apply nf_get_closest_point|intros; apply nf_Ok]]|].
  intros [pe|] _; [|apply nf_Ok].
  apply nf_bind; [unfold islands_reject; nf_tac|]. intros rej _.
  destruct rej; [apply nf_Ok|]. destruct (N.eqb ps pe); [apply nf_Ok|].
  apply nf_bind; [apply nf_setup|]. intros st E. apply run_nf.
  eapply setup_all with (P := fun _ => True); [auto|exact E].
Qed.

Lemma three_nf lib (c : Ctx A) : forall k st, sbuffer st = [] -> nf (three k lib c st).
Proof.
  induction k as [|k IH]; intros st HB; simpl; [apply nf_Ok|].
  apply nf_bind; [now apply next_nf|]. intros [st' r] E. simpl.
  destruct r; try apply nf_Ok. apply IH; eapply next_buffer; eauto.
Qed.
End Term.

(** ** C22: order of expansion *)
Section Order.
Context {A : Arith}.

Lemma pop_best pop (q q' : list (Node A)) n m :
  total_ok A -> pop_ok pop -> pop q = Some (n, q') -> In m q' -> ftotal (node_f n) (node_f m) <> Gt.
Proof.
  intros (_ & Hopp & _) Hpop E Hm. specialize (Hpop q). rewrite E in Hpop. destruct Hpop as [_ H].
  specialize (H m Hm). unfold node_cmp in H. destruct (ftotal (node_f n) (node_f m)); congruence.
Qed.

Lemma next_found_best lib (c : Ctx A) st st' p :
  total_ok A -> pop_ok (lpop lib) -> next lib c st = Ok (st', Found p) ->
  forall m, In m (squeue st') -> ftotal (plength p) (node_f m) <> Gt.
Proof.
  intros Ht Hpop H m Hm. unfold next in H.
  destruct (lpop lib (squeue st)) as [[n q]|] eqn:E; [|inversion H].
  cbn [shist] in H. destruct (match hist_get _ _ with Some _ => _ | None => _ end); [inversion H|].
  destruct (N.eqb (nto n) (cpto c)).
  - inversion H; subst. simpl in *. eapply pop_best; eauto.
  - inv_bind H. inversion H.
Qed.

Lemma run_found_state lib (c : Ctx A) : forall k st p, run k lib c st = Ok (Some p) ->
  exists st1 st2, next lib c st1 = Ok (st2, Found p).
Proof.
  induction k as [|k IH]; intros st p H; simpl in H; [discriminate|].
  inv_bind H. destruct a as [st' r]. simpl in H. destruct r; try (eapply IH; exact H).
  inversion H; subst. eauto.
Qed.

(** the order of the queue is a total preorder *)
Lemma node_cmp_opp : total_ok A -> forall a b : Node A, node_cmp a b = CompOpp (node_cmp b a).
Proof.
  intros (_ & Ho & _) a b. unfold node_cmp. rewrite (Ho (node_f a)).
  destruct (ftotal (node_f b) (node_f a)); simpl; auto.
Qed.
Lemma node_cmp_refl : total_ok A -> forall a : Node A, node_cmp a a = Eq.
Proof. intros (Hr & _) a. unfold node_cmp. rewrite !Hr. reflexivity. Qed.
Lemma node_cmp_trans : total_ok A -> forall a b c : Node A,
  node_cmp a b <> Gt -> node_cmp b c <> Gt -> node_cmp a c <> Gt.
Proof.
  intros (Hr & Ho & Ht) a b c. unfold node_cmp.
  assert (HE : forall x y z : F A, ftotal x y = Eq -> ftotal y z = Eq -> ftotal x z = Eq).
  { intros x y z H1 H2. assert (ftotal x z <> Gt) as G1 by (apply Ht with y; congruence).
    assert (ftotal z x <> Gt) as G2.
    { apply Ht with y; [rewrite Ho, H2|rewrite Ho, H1]; discriminate. }
    rewrite Ho in G2. destruct (ftotal x z); simpl in *; congruence. }
  intros H1 H2.
  assert (ftotal (node_f c) (node_f a) <> Gt) as G.
  { apply Ht with (node_f b); rewrite Ho; intro Hc.
    - destruct (ftotal (node_f b) (node_f c)); simpl in Hc; try discriminate. congruence.
    - destruct (ftotal (node_f a) (node_f b)); simpl in Hc; try discriminate. congruence. }
  rewrite Ho in G. destruct (ftotal (node_f a) (node_f c)) eqn:E; simpl in G; try congruence.
  assert (ftotal (node_f a) (node_f b) = Eq /\ ftotal (node_f b) (node_f c) = Eq) as [E1 E2].
  { destruct (ftotal (node_f a) (node_f b)) eqn:E1; [|congruence|].
    - split; [reflexivity|]. destruct (ftotal (node_f b) (node_f c)) eqn:E2; [reflexivity|congruence|].
      exfalso. assert (ftotal (node_f c) (node_f a) <> Gt).
      { rewrite Ho, E. discriminate. }
      assert (ftotal (node_f c) (node_f b) <> Gt) by (apply Ht with (node_f a); congruence).
      assert (ftotal (node_f b) (node_f c) <> Gt).
      { apply Ht with (node_f a); [rewrite Ho, E1; discriminate|congruence]. }
      congruence.
    - exfalso. assert (ftotal (node_f b) (node_f c) <> Lt) as E2.
      { intro Hc. rewrite Hc in H2. congruence. }
      assert (ftotal (node_f a) (node_f b) <> Gt).
      { apply Ht with (node_f c); [congruence|]. rewrite Ho. destruct (ftotal (node_f b) (node_f c)); simpl; congruence. }
      congruence. }
  rewrite E1 in H1. rewrite E2 in H2. eapply Ht; eauto.
Qed.
End Order.
