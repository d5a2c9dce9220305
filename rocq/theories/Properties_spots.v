(** C91: unused spots in the list of polygons (Polygon::EMPTY) are never in the way once the polygon finder is built. *)
From Coq Require Import List NArith ZArith Bool Lia Permutation.
From Verif Require Import Base Arith F32 U32 Mesh Helpers Locate Bake Search AsyncPath StdLib Spec Locate_facts Closest_facts
  Search_facts Search_props Search_cost Search_safe Properties_locate Properties_contain Finder_gen Checkers F32_finite.
Import ListNotations.
Open Scope N_scope.

(** *** the specification *)
Section Spec_spots.
Context {A : Arith}.
(** Consistency of a mesh that may have empty polygons: vertex numbers in range; the polygons the vertices name exist and are not empty. *)
Definition spots_wf (m : Mesh A) : Prop :=
  (forall l p v, In l (layers m) -> In p (polygons l) -> In v (pverts p) -> v < lengthN (vertices l)) /\
  (forall l v id, In l (layers m) -> In v (vertices l) -> In id (vpolys v) -> id <> MAX ->
    exists l' p, polygon_at m id l' p /\ pverts p <> []).
(** A polygon finder that offers every box that holds the point, only existing ones, and, when it was made of two boxes or more, only
    boxes that hold the point (nothing is assumed of a tree of one leaf, which has no box to look at). *)
Definition finder_exact (bvh : list (vec2 A * vec2 A) -> vec2 A -> list N) : Prop :=
  bvh_ok bvh /\ forall boxes pt i, 2 <= lengthN boxes -> In i (bvh boxes pt) -> exists b, nthN boxes i = Some b /\ box_contains b pt = true.
(** Layers with an empty polygon have another one and have had their polygon finder built; layers without may be baked or not. *)
Definition spots_baked (m : Mesh A) : Prop :=
  forall l, In l (layers m) ->
    (forall p, In p (polygons l) -> pverts p <> []) /\ baked_ok l \/
    2 <= lengthN (polygons l) /\ exists l', l = bake_polygon_finder l'.
(** an end point: its polygon, if given, exists and is not empty; otherwise its layer, if given, exists *)
Definition spot_ok (m : Mesh A) (id : N) : Prop := exists l p, polygon_at m id l p /\ pverts p <> [].
Definition spot_end (m : Mesh A) (q : Coords A) : Prop :=
  if N.eqb (cpoly q) MAX then (forall li, clayer q = Some li -> li < lengthN (layers m)) else spot_ok m (cpoly q).
(** no number is both above the greatest one and below zero *)
Definition no_box : Prop := forall x : F A, fle fmaxval x && fle x (fz 0) = false.
End Spec_spots.

Section Spots.
Context {A : Arith}.
Implicit Types (m : Mesh A) (c : Ctx A) (n : Node A) (l : Layer A).

(** *** the queries *)
Section Queries.
Context (bvh : list (vec2 A * vec2 A) -> vec2 A -> list N).
Definition locates l : Prop := forall pt, safe (loc_any bvh l pt).

Lemma spots_locates (Hb : finder_exact bvh) (HX : no_box (A:=A)) l :
  (forall p, In p (polygons l) -> pverts p <> []) /\ baked_ok l \/ 2 <= lengthN (polygons l) /\ (exists l', l = bake_polygon_finder l') ->
  locates l.
Proof.
  intros [[Hn HB]|[H2 (l' & ->)]] pt; unfold loc_any.
  - destruct (baked l) as [boxes|] eqn:E.
    + unfold loc_unit_baked. apply safe_bind; [|intros; apply safe_Ok]. apply safe_findM. intros i Hi.
      apply (proj1 Hb boxes pt) in Hi. assert (Hl : lengthN boxes = lengthN (polygons l)) by (unfold lengthN; now rewrite (HB _ E)).
      rewrite Hl in Hi. apply safe_bind; [now apply safe_index|]. intros p Hp. apply safe_pip.
      apply index_Ok, nthN_In in Hp. now apply Hn in Hp.
    + unfold loc_unit. apply safe_bind; [|intros; apply safe_Ok]. apply safe_findM. intros [i p] Hi.
      apply enumerate_spec, nthN_In in Hi. apply safe_pip. now apply Hn in Hi.
  - cbn [baked bake_polygon_finder polygons] in *. unfold loc_unit_baked. apply safe_bind; [|intros; apply safe_Ok]. apply safe_findM.
    intros i Hi. set (boxes := map (polygon_aabb (vertices l')) (polygons l')) in *.
    assert (HL : lengthN boxes = lengthN (polygons l')) by (unfold boxes, lengthN; now rewrite map_length).
    destruct (proj2 Hb boxes pt i (eq_ind_r (fun z : N => 2 <= z) H2 HL) Hi) as (b & Hb' & Hc). clear Hi. rename Hb' into Hi.
    unfold boxes in Hi. rewrite nthN_nth_error, nth_error_map, <- nthN_nth_error in Hi.
    cbn [bake_polygon_finder polygons]. destruct (nthN (polygons l') i) as [p|] eqn:Ep; [|discriminate Hi]. cbn [option_map] in Hi.
    injection Hi as <-. apply safe_bind; [eapply safe_index'; exact Ep|]. intros p' Hp'. apply index_Ok in Hp'.
    assert (p' = p) by congruence. subst p'. apply safe_pip. intro E. unfold polygon_aabb in Hc. rewrite E in Hc.
    cbn [fold_left] in Hc. unfold box_contains, vzero in Hc. cbn [fst snd vx vy] in Hc. rewrite (HX (vx pt)) in Hc. discriminate Hc.
Qed.

Lemma spots_probe l pt ds : locates l -> safe (probe_loop bvh l pt ds).
Proof.
  intros Hw. induction ds; simpl; [apply safe_Ok|]. apply safe_bind; [apply Hw|]. intros k _.
  destruct (N.eqb k MAX); [assumption|apply safe_Ok].
Qed.
Lemma spots_ring l pt d s is : locates l -> safe (ring_loop bvh l pt d s is).
Proof.
  intros Hw. induction is; simpl; [apply safe_Ok|]. apply safe_bind; [apply Hw|]. intros k _.
  destruct (N.eqb k MAX); [assumption|apply safe_Ok].
Qed.
Lemma spots_gcp (pt : vec2 A) d s ls : (forall i l, In (i, l) ls -> locates l) -> 10 * (s + 1) < 2^32 ->
  safe (gcp_layers bvh pt d s ls).
Proof.
  intros H Hs. induction ls as [|[i l] r IH]; cbn [gcp_layers]; [apply safe_Ok|].
  pose proof (H i l (or_introl eq_refl)) as H0. apply safe_bind.
  - unfold get_closest_point_inner. destruct (2 ^ 32 <=? 10 * (s + 1)) eqn:E; [apply N.leb_le in E; lia|now apply spots_ring].
  - intros [[np k]|] _; [apply safe_Ok|apply IH]. intros; apply (H i0); now right.
Qed.
Lemma spots_gcpt (pt : vec2 A) d dir s ls : (forall i l, In (i, l) ls -> locates l) ->
  safe (gcpt_layers bvh pt d dir s ls).
Proof.
  intros H. induction ls as [|[i l] r IH]; cbn [gcpt_layers]; [apply safe_Ok|].
  pose proof (H i l (or_introl eq_refl)) as H0. apply safe_bind.
  - unfold get_closest_point_towards_inner. apply safe_bind; [apply H0|intros; apply safe_Ok].
  - intros [[np k]|] _; [apply safe_Ok|apply IH]. intros; apply (H i0); now right.
Qed.
(** every layer is consistent *)
Definition layers_locate m : Prop := forall l, In l (layers m) -> locates l.

Lemma spots_get_closest_point m (q : Coords A) :
  layers_locate m -> 10 * search_steps m < 2^32 -> (forall li, clayer q = Some li -> li < lengthN (layers m)) ->
  safe (get_closest_point bvh m q).
Proof.
  intros H Hs Hc. unfold get_closest_point. destruct (clayer q) as [li|].
  - apply safe_bind; [apply safe_index; auto|]. intros l Hl. apply index_Ok, nthN_In in Hl.
    apply safe_first_step. intros s Hin. apply rangeN_spec in Hin. apply spots_gcp; [|lia].
    intros i l0 [E|[]]. inversion E; subst. now apply H.
  - apply safe_first_step. intros s Hin. apply rangeN_spec in Hin. apply spots_gcp; [|lia].
    intros i l Hi. apply enumerate_spec, nthN_In in Hi. now apply H.
Qed.
Lemma spots_get_closest_point_towards m (q : Coords A) t :
  layers_locate m -> (forall li, clayer q = Some li -> li < lengthN (layers m)) ->
  safe (get_closest_point_towards bvh m q t).
Proof.
  intros H Hc. unfold get_closest_point_towards. destruct (clayer q) as [li|].
  - apply safe_bind; [apply safe_index; auto|]. intros l Hl. apply index_Ok, nthN_In in Hl.
    apply safe_first_step. intros s Hin. apply spots_gcpt.
    intros i l0 [E|[]]. inversion E; subst. now apply H.
  - apply safe_first_step. intros s Hin. apply spots_gcpt.
    intros i l Hi. apply enumerate_spec, nthN_In in Hi. now apply H.
Qed.
Lemma spots_get_point_location m (q : Coords A) : layers_locate m -> safe (get_point_location bvh m q).
Proof.
  intro H. unfold get_point_location. destruct (clayer q) as [li|].
  - destruct (nthN (layers m) li) as [l|] eqn:E; [|apply safe_Ok]. apply nthN_In in E. pose proof (H l E) as H0.
    apply safe_bind; [now apply spots_probe|]. intros; apply safe_Ok.
  - assert (forall ls, (forall i l, In (i, l) ls -> locates l) -> safe (gpl_loop bvh m (cpos q) ls)) as HG.
    { induction ls as [|[i l] r IH]; intro HL; cbn [gpl_loop]; [apply safe_Ok|].
      pose proof (HL i l (or_introl eq_refl)). apply safe_bind; [now apply spots_probe|].
      assert (HR : forall j l0, In (j, l0) r -> locates l0) by (intros; eapply HL; right; eauto).
      intros [k|] _; [|now apply IH]. destruct (N.eqb _ MAX); [now apply IH|apply safe_Ok]. }
    apply HG. intros i l Hi. apply enumerate_spec, nthN_In in Hi. now apply H.
Qed.
Lemma spots_get_point_locations m (q : Coords A) : layers_locate m -> safe (get_point_locations bvh m q).
Proof.
  intro H. unfold get_point_locations. destruct (clayer q) as [li|].
  - destruct (nthN (layers m) li) as [l|] eqn:E; [|apply safe_Ok]. apply nthN_In in E. pose proof (H l E) as H0.
    apply safe_bind; [now apply spots_probe|]. intros; apply safe_Ok.
  - assert (forall ls, (forall i l, In (i, l) ls -> locates l) -> safe (gpls_loop bvh m (cpos q) ls)) as HG.
    { induction ls as [|[i l] r IH]; intro HL; cbn [gpls_loop]; [apply safe_Ok|].
      pose proof (HL i l (or_introl eq_refl)). apply safe_bind; [now apply spots_probe|]. intros o _.
      apply safe_bind; [apply IH; intros; eapply HL; right; eauto|]. intros; apply safe_Ok. }
    apply HG. intros i l Hi. apply enumerate_spec, nthN_In in Hi. now apply H.
Qed.

End Queries.

(** *** the search *)
Section Search.
Definition snode_ok c n : Prop :=
  spot_ok (cmesh c) (nto n) /\
  exists pl, nthN (layers (cmesh c)) (nprev n) = Some pl /\
    fst (nedge n) < lengthN (vertices pl) /\ snd (nedge n) < lengthN (vertices pl).

Context (c : Ctx A) (Hwf : spots_wf (cmesh c)) (Hd : dists_ok (cmesh c)) (Hto : spot_ok (cmesh c) (cpto c)).

Lemma sp_spot_ok_safe m id : spot_ok m id -> safe (mesh_polygon m id).
Proof.
  intros (l & p & [H1 H2] & _). unfold mesh_polygon. apply index_Ok in H1. rewrite H1. cbn [bind].
  eapply safe_index'. exact H2.
Qed.

Lemma sp_gen_start_ok from ps n : gen_start c from ps n -> snode_ok c n.
Proof.
  intros (l & p & a & b & sv & ev & [H1 H2] & H3 & H4 & H5 & H6 & H7 & -> & _). split.
  - cbn [nto new_node]. destruct H7 as [->|(Ho & _)]; [assumption|].
    destruct (other_side_spec sv ev ps) as [E|(_ & _ & E & _)]; [contradiction|]. apply nthN_In in H1. apply nthN_In in H4.
    exact (proj2 Hwf l sv _ H1 H4 E Ho).
  - simpl. exists l. split; [assumption|]. split; eapply nthN_Some_lt; eauto.
Qed.
Lemma sp_gen_step_ok n n' : gen_step c n n' -> snode_ok c n'.
Proof.
  intros (s & root & l & ss & sv & ev & H1 & H2 & H3 & H4 & H5 & H6 & H7 & H8 & H9 & H10 & H11 & -> & _). split.
  - cbn [nto new_node]. destruct (other_side_spec sv ev (nto n)) as [E|(_ & _ & E & _)]; [contradiction|].
    apply nthN_In in H1. apply nthN_In in H4. exact (proj2 Hwf l sv _ H1 H4 E H6).
  - simpl. exists l. split; [assumption|]. split; eapply nthN_Some_lt; eauto.
Qed.

Lemma sp_safe_right_index l p n : snode_ok c n -> In l (layers (cmesh c)) -> In p (polygons l) -> pverts p <> [] -> safe (right_index c l p n).
Proof.
  intros [_ (pl & Hpl & He1 & He2)] Hl Hp Hne. pose proof (fun v => proj1 Hwf l p v Hl Hp) as Hin.
  unfold right_index. pose proof Hpl as Hpl'. apply index_Ok in Hpl'. rewrite Hpl'. cbn [bind].
  apply safe_bind; [now apply safe_index|]. intros v Hv. apply index_Ok, nthN_In in Hv.
  apply safe_bind; [now apply safe_close_index|]. intros [i|] _; [apply safe_Ok|].
  apply safe_bind.
  - apply safe_mapM. intros x Hx. apply safe_bind; [apply safe_index; auto|]. intros; apply safe_Ok.
  - intros ds Hds. apply safe_bind; [|intros; apply safe_Ok]. apply mapM_Ok in Hds. apply safe_nearest.
    + intros ->. inversion Hds. congruence.
    + intros x Hx. assert (exists vi, (let* vv := index (vertices l) vi in
          Ok (vdist2 (vadd (coords vv) (offset l)) (vadd (coords v) (offset pl)))) = Ok x) as [vi Hvi].
      { clear - Hds Hx. induction Hds; [destruct Hx|]. destruct Hx as [<-|Hx]; eauto. }
      inv_bind Hvi. inversion Hvi; subst. apply index_Ok, nthN_In in E. apply nthN_In in Hpl.
      apply (Hd l a pl v); assumption.
Qed.

Lemma sp_safe_edges_between n : snode_ok c n -> safe (edges_between c n).
Proof.
  intro Hn. pose proof Hn as [(l & p & [Hl Hp] & Hne) _]. unfold edges_between.
  pose proof Hl as Hl'. apply index_Ok in Hl'. rewrite Hl'. cbn [bind].
  pose proof Hp as Hp'. apply index_Ok in Hp'. rewrite Hp'. cbn [bind].
  apply nthN_In in Hl. apply nthN_In in Hp. pose proof (fun v => proj1 Hwf l p v Hl Hp) as Hin.
  apply safe_bind; [now apply sp_safe_right_index|]. intros ri _.
  apply safe_bind.
  - unfold circular_edges_index. apply safe_bind; [now apply safe_edges_index|]. intros; apply safe_Ok.
  - intros es Hes. apply safe_cut_edges. intros a b Hab. eapply circular_edges_In in Hab; [|exact Hes].
    apply boundary_In in Hab. destruct Hab. auto.
Qed.

Lemma sp_safe_corner_ok n vi pt : snode_ok c n -> vi = fst (nedge n) \/ vi = snd (nedge n) -> safe (corner_ok c n vi pt).
Proof.
  intros [_ (pl & Hpl & He1 & He2)] Hvi. unfold corner_ok. apply index_Ok in Hpl. rewrite Hpl. cbn [bind].
  apply safe_bind; [apply safe_index; destruct Hvi; subst; assumption|]. intros; apply safe_Ok.
Qed.

Lemma sp_safe_expand n st : snode_ok c n -> safe (expand c n st).
Proof.
  intro Hn. pose proof Hn as [(l & p & [Hl Hp] & Hne) _]. unfold expand.
  apply safe_bind; [now apply sp_safe_edges_between|]. intros ss Hss.
  pose proof Hl as Hl'. apply index_Ok in Hl'. rewrite Hl'. cbn [bind].
  destruct (edges_between_spec c n ss Hss) as (l0 & p0 & [H1 H2] & HE).
  assert (l0 = l) by congruence. subst l0. assert (p0 = p) by congruence. subst p0.
  apply nthN_In in Hl. apply nthN_In in Hp. pose proof (fun v => proj1 Hwf l p v Hl Hp) as Hin.
  apply safe_foldM. intros s x Hx. apply HE in Hx. apply boundary_In in Hx. destruct Hx as [Hx1 Hx2].
  unfold expand_one.
  apply safe_bind; [apply safe_unchecked; auto|]. intros sv Hsv. apply get_unchecked_Ok, nthN_In in Hsv.
  apply safe_bind; [apply safe_unchecked; auto|]. intros ev Hev.
  destruct (other_side_spec sv ev (nto n)) as [Ho|(Ho & _ & Ho2 & _)].
  - rewrite Ho, N.eqb_refl. apply safe_Ok.
  - destruct (N.eqb_spec (other_side sv ev (nto n)) MAX); [contradiction|].
    destruct (memN _ _); [apply safe_Ok|].
    apply safe_bind.
    + destruct (N.eqb (cpto c) (other_side sv ev (nto n))); [apply safe_Ok|].
      apply safe_bind; [apply sp_spot_ok_safe; eapply (proj2 Hwf); eauto|]. intros; apply safe_Ok.
    + intros dead _. destruct dead; [apply safe_Ok|].
      destruct (N.eqb (nfrom n) (other_side sv ev (nto n))); [apply safe_Ok|].
      apply safe_bind.
      * destruct (sty x); try apply safe_Ok; (destruct (fgt _ _); [apply safe_Ok|]);
          (apply safe_bind; [apply sp_safe_corner_ok; auto|intros; apply safe_Ok]).
      * intros [root|] _; [|apply safe_Ok]. destruct (flt _ _); apply safe_Ok.
Qed.

Lemma sp_safe_successors : forall fuel vis n st, snode_ok c n -> all_nodes (snode_ok c) st -> safe (successors fuel c vis n st).
Proof.
  induction fuel as [|fuel IH]; intros vis n st Hn Hst; [split; discriminate|].
  cbn [successors]. apply safe_bind; [now apply sp_safe_expand|]. intros st' E.
  assert (Ha : all_nodes (snode_ok c) st').
  { eapply expand_inv with (I := all_nodes (snode_ok c)); [|exact Hst|exact E].
    intros st0 n' st1 H1 H2 H3. eapply all_nodes_added; [exact H1| |exact H3]. eapply sp_gen_step_ok; eauto. }
  destruct (sbuffer st') as [|n' [|]] eqn:EB; try apply safe_Ok.
  destruct (N.eqb (nto n') (cpto c)); [apply safe_Ok|].
  destruct (reverse_of n' n); [apply safe_Ok|]. destruct (memN (nto n') vis); [apply safe_Ok|].
  apply IH; [apply Ha; rewrite EB; now left|]. destruct Ha as [Ha1 Ha2]. split; simpl; [assumption|tauto].
Qed.

Lemma sp_safe_setup from ps : spot_ok (cmesh c) ps -> safe (setup c from ps).
Proof.
  intros (l & p & [Hl Hp] & Hne). unfold setup.
  pose proof Hl as Hl'. apply index_Ok in Hl'. rewrite Hl'. cbn [bind].
  pose proof Hp as Hp'. apply index_Ok in Hp'. rewrite Hp'. cbn [bind].
  apply nthN_In in Hl. apply nthN_In in Hp. pose proof (fun v => proj1 Hwf l p v Hl Hp) as Hin.
  apply safe_bind; [now apply safe_edges_index|]. intros es _.
  apply safe_bind; [|intros; apply safe_Ok]. apply safe_foldM. intros st [a b] _. unfold setup_edge. cbn [fst snd].
  destruct (nthN (vertices l) a) as [sv|] eqn:EA; [|apply safe_Ok].
  destruct (nthN (vertices l) b) as [ev|] eqn:EB; [|apply safe_Ok].
  destruct (memN _ _); [apply safe_Ok|]. apply safe_bind; [|intros; apply safe_Ok].
  destruct (N.eqb (other_side sv ev ps) (cpto c)); [apply safe_Ok|].
  destruct (N.eqb_spec (other_side sv ev ps) MAX) as [Ho|Ho]; [apply safe_Ok|].
  destruct (other_side_spec sv ev ps) as [Ho'|(_ & _ & Ho2 & _)]; [contradiction|].
  apply safe_bind; [|intros; apply safe_Ok]. apply sp_spot_ok_safe. apply nthN_In in EA. eapply (proj2 Hwf); eauto.
Qed.

Lemma sp_safe_next lib st : pop_perm (lpop lib) -> all_nodes (snode_ok c) st -> sbuffer st = [] -> safe (next lib c st).
Proof.
  intros Hpop [H1 H2] HB. unfold next. specialize (Hpop (squeue st)).
  destruct (lpop lib (squeue st)) as [[n q]|]; [|apply safe_Ok]. cbn [shist].
  destruct (match hist_get _ _ with Some _ => _ | None => _ end); [apply safe_Ok|].
  destruct (N.eqb (nto n) (cpto c)); [apply safe_Ok|].
  apply safe_bind; [|intros; apply safe_Ok]. apply sp_safe_successors.
  - apply H1. eapply Permutation_in; [symmetry; exact Hpop|now left].
  - split; simpl; [|assumption]. intros x Hx. apply H1. eapply Permutation_in; [symmetry; exact Hpop|now right].
Qed.

Lemma sp_safe_run lib : pop_perm (lpop lib) -> forall k st, all_nodes (snode_ok c) st -> sbuffer st = [] -> safe (run k lib c st).
Proof.
  intro Hpop. induction k as [|k IH]; intros st Hst HB; cbn [run]; [apply safe_Ok|].
  apply safe_bind; [now apply sp_safe_next|]. intros [st' r] E. cbn [fst snd].
  destruct (next_all lib c st st' r (snode_ok c) Hpop (fun n n' _ H => sp_gen_step_ok n n' H) Hst HB E) as (G1 & G2 & _).
  destruct r; [apply safe_Ok|now apply IH|now apply IH].
Qed.

Lemma sp_safe_three lib : pop_perm (lpop lib) -> forall k st, all_nodes (snode_ok c) st -> sbuffer st = [] ->
  safe (three k lib c st) /\
  (forall st' o, three k lib c st = Ok (st', o) -> all_nodes (snode_ok c) st' /\ sbuffer st' = []).
Proof.
  intro Hpop. induction k as [|k IH]; intros st Hst HB; cbn [three].
  - split; [apply safe_Ok|]. intros st' o H. inversion H; subst. auto.
  - split.
    + apply safe_bind; [now apply sp_safe_next|]. intros [st' r] E. cbn [fst snd].
      destruct (next_all lib c st st' r (snode_ok c) Hpop (fun n n' _ H => sp_gen_step_ok n n' H) Hst HB E) as (G1 & G2 & _).
      destruct r; try apply safe_Ok. now apply IH.
    + intros st' o H. inv_bind H. destruct a as [st1 r]. cbn [fst snd] in H.
      destruct (next_all lib c st st1 r (snode_ok c) Hpop (fun n n' _ H => sp_gen_step_ok n n' H) Hst HB E) as (G1 & G2 & _).
      destruct r; try (inversion H; subst; auto; fail). eapply IH; eauto.
Qed.

Lemma sp_setup_nodes_ok from ps st : setup c from ps = Ok st -> all_nodes (snode_ok c) st /\ sbuffer st = [].
Proof. intro H. eapply setup_all; [|exact H]. apply sp_gen_start_ok. Qed.
Lemma contains_not_empty (l : Layer A) p pt : contains l p pt -> pverts p <> [].
Proof. intros [H _]. exact H. Qed.
End Search.
Context (HX : no_box (A:=A)).
Lemma sp_safe_locate lib m q : finder_exact (lbvh lib) -> layers_locate (lbvh lib) m -> mesh_small m -> 10 * search_steps m < 2^32 -> spot_end m q ->
  safe (locate_end lib m q) /\ (forall id, locate_end lib m q = Ok (Some id) -> spot_ok m id).
Proof.
  intros Hb Hl Hm Hs He. unfold locate_end, spot_end in *. destruct (N.eqb_spec (cpoly q) MAX) as [Hq|Hq]; cbn [negb].
  - split.
    + apply safe_bind; [now apply spots_get_closest_point|]. intros; apply safe_Ok.
    + intros id H. inv_bind H. destruct a as [c'|]; [|discriminate]. simpl in H. inversion H; subst.
      destruct (get_closest_point_Some _ m q c' Hm E) as (s & i & li & l & p & _ & _ & _ & _ & Hp & _ & _ & Hc & _). exists l, p. split; [assumption|]. eapply contains_not_empty; eassumption.
  - split; [apply safe_Ok|]. intros id H. inversion H; subst. assumption.
Qed.

Lemma sp_path_on_layers_safe lib m from to blocked :
  finder_exact (lbvh lib) -> pop_perm (lpop lib) -> spots_wf m -> mesh_small m -> spots_baked m ->
  dists_ok m -> 10 * search_steps m < 2^32 -> spot_end m from -> spot_end m to ->
  exists r, path_on_layers lib m from to blocked = Ok r.
Proof.
  intros Hb Hpop Hw Hm Hbk Hd Hs Hf Ht.
  assert (Hl : layers_locate (lbvh lib) m) by (intros l Hl; apply (spots_locates _ Hb HX), Hbk, Hl).
  assert (HS : safe (path_on_layers lib m from to blocked)).
  { unfold path_on_layers. destruct (sp_safe_locate lib m from Hb Hl Hm Hs Hf) as [S1 P1].
    apply safe_bind; [assumption|]. intros [ps|] E1; [|apply safe_Ok].
    destruct (sp_safe_locate lib m to Hb Hl Hm Hs Ht) as [S2 P2].
    apply safe_bind; [assumption|]. intros [pe|] E2; [|apply safe_Ok].
    pose proof (P1 _ E1) as Hps. pose proof (P2 _ E2) as Hpe.
    apply safe_bind.
    - unfold islands_reject. destruct (N.eqb _ 1); [|apply safe_Ok]. destruct Hps as (l & p & [H1 _] & _).
      apply safe_bind; [eapply safe_index'; eauto|]. intros; apply safe_Ok.
    - intros [] _; [apply safe_Ok|]. destruct (N.eqb ps pe); [apply safe_Ok|].
      apply safe_bind; [apply sp_safe_setup; assumption|]. intros st Hst.
      destruct (sp_setup_nodes_ok (mkCtx m (cpos to) pe blocked) Hw Hpe (cpos from) ps st Hst) as [G1 G2].
      apply sp_safe_run; assumption. }
  pose proof (path_on_layers_nf lib m from to blocked) as HN. unfold nf in HN. destruct HS as [S1 S2].
  destruct (path_on_layers lib m from to blocked); try contradiction. eauto.
Qed.

(** A future: what stays true between polls *)
Definition sp_future_ok (f : Future A) : Prop :=
  forall c st, finst f = Some (c, st) -> cmesh c = fmesh f /\ spot_ok (fmesh f) (cpto c) /\
    all_nodes (snode_ok c) st /\ sbuffer st = [].

Lemma sp_poll_safe lib (f : Future A) :
  finder_exact (lbvh lib) -> pop_perm (lpop lib) -> spots_wf (fmesh f) -> mesh_small (fmesh f) ->
  spots_baked (fmesh f) -> dists_ok (fmesh f) -> sp_future_ok f ->
  safe (poll lib f) /\ (forall f' w p, poll lib f = Ok (f', w, p) -> sp_future_ok f' /\ fmesh f' = fmesh f).
Proof.
  intros Hb Hpop Hw Hm Hbk Hd Hf.
  assert (Hl : layers_locate (lbvh lib) (fmesh f)) by (intros l Hl; apply (spots_locates _ Hb HX), Hbk, Hl).
  unfold poll. destruct (finst f) as [[c st]|] eqn:EF.
  - destruct (Hf _ _ EF) as (Hcm & Hcp & Hst & Hbf). rewrite <- Hcm in Hw, Hd, Hcp.
    destruct (sp_safe_three c Hw Hd lib Hpop 3 st Hst Hbf) as [S1 S2]. split.
    + apply safe_bind; [assumption|]. intros [st' o] _. apply safe_Ok.
    + intros f' w p H. inv_bind H. destruct a as [st' o]. cbn [fst snd] in H. destruct (S2 _ _ E) as [G1 G2].
      assert (H' : mkFuture (ffrom f) (fto f) (fmesh f) (Some (c, st')) = f') by (destruct o; congruence).
      subst f'. split; [|reflexivity]. intros c0 st0 H0. cbn [finst fmesh] in *. inversion H0; subst. rewrite <- Hcm. auto.
  - assert (Hps : forall q id, get_point_location (lbvh lib) (fmesh f) q = Ok id -> id <> MAX -> spot_ok (fmesh f) id).
    { intros q id H Hid. destruct (get_point_location_found _ _ _ _ Hm H Hid) as (l & p & Hp & (p' & v & Hk & _ & Hc) & _). assert (p' = p) by (destruct Hp as [_ Hp]; congruence). subst p'. exists l, p. split; [assumption|]. eapply contains_not_empty; eassumption. }
    split.
    + apply safe_bind; [now apply spots_get_point_location|]. intros ps E1.
      destruct (N.eqb_spec ps MAX); [apply safe_Ok|].
      apply safe_bind; [now apply spots_get_point_location|]. intros pe E2.
      destruct (N.eqb_spec pe MAX); [apply safe_Ok|].
      pose proof (Hps _ _ E1 n) as P1. pose proof (Hps _ _ E2 n0) as P2.
      apply safe_bind.
      * unfold async_islands_reject. destruct (N.eqb _ _); [|apply safe_Ok]. destruct P1 as (l & p & [H1 _] & _).
        apply safe_bind; [eapply safe_index'; eauto|]. intros; apply safe_Ok.
      * intros [] _; [apply safe_Ok|]. destruct (N.eqb ps pe); [apply safe_Ok|].
        apply safe_bind; [apply sp_safe_setup; assumption|]. intros; apply safe_Ok.
    + intros f' w p H. inv_bind H. destruct (N.eqb_spec a MAX); [inversion H; subst; auto|].
      inv_bind H. destruct (N.eqb_spec a0 MAX); [inversion H; subst; auto|].
      inv_bind H. destruct a1; [inversion H; subst; auto|]. destruct (N.eqb a a0); [inversion H; subst; auto|].
      inv_bind H. inversion H; subst. split; [|reflexivity]. intros c st H0. cbn [finst fmesh] in *.
      inversion H0; subst. cbn [cmesh cpto]. split; [reflexivity|]. split; [eapply Hps; eauto|].
      eapply sp_setup_nodes_ok; [exact Hw|eapply Hps; eauto|exact E2].
Qed.

Lemma sp_poll_times_safe lib : finder_exact (lbvh lib) -> pop_perm (lpop lib) -> forall k (f : Future A),
  spots_wf (fmesh f) -> mesh_small (fmesh f) -> spots_baked (fmesh f) -> dists_ok (fmesh f) ->
  sp_future_ok f -> safe (poll_times k lib f).
Proof.
  intros Hb Hpop. induction k as [|k IH]; intros f Hw Hm Hbk Hd Hf; cbn [poll_times]; [apply safe_Ok|].
  destruct (sp_poll_safe lib f Hb Hpop Hw Hm Hbk Hd Hf) as [S1 S2].
  apply safe_bind; [assumption|]. intros [[f' w] p] E. destruct (S2 _ _ _ E) as [G1 G2].
  destruct p; [apply safe_Ok|]. apply safe_bind; [|intros; apply safe_Ok]. apply IH; rewrite ?G2; assumption.
Qed.
End Spots.
(** C91, whole searches: on a mesh that may have empty polygons, path_on_layers answers. *)
Theorem C91_path_never_fails {A} (lib : Lib A) (m : Mesh A) (from to : Coords A) (blocked : list N) :
  no_box (A:=A) -> finder_exact (lbvh lib) -> pop_perm (lpop lib) ->
  spots_wf m -> mesh_small m -> spots_baked m -> dists_ok m -> 10 * search_steps m < 2^32 ->
  spot_end m from -> spot_end m to ->
  exists r, path_on_layers lib m from to blocked = Ok r.
Proof. intros HX. apply (sp_path_on_layers_safe HX). Qed.

(** the future, however often it is polled *)
Theorem C91_get_path_never_fails {A} (lib : Lib A) (m : Mesh A) (from to : vec2 A) (polls : nat) :
  no_box (A:=A) -> finder_exact (lbvh lib) -> pop_perm (lpop lib) ->
  spots_wf m -> mesh_small m -> spots_baked m -> dists_ok m ->
  let r := poll_times polls lib (get_path m from to) in r <> Panic /\ r <> Oob.
Proof. intros HX Hb Hp H1 H2 H3 H4. apply (sp_poll_times_safe HX lib Hb Hp); auto. intros c st H5. discriminate. Qed.

(** the point queries: they never fail *)
Theorem C91_queries_never_fail {A} bvh (m : Mesh A) (q : Coords A) :
  no_box (A:=A) -> finder_exact bvh -> spots_baked m -> 10 * search_steps m < 2^32 ->
  (forall li, clayer q = Some li -> li < lengthN (layers m)) ->
  let good {T} (r : res T) := r <> Panic /\ r <> Oob in
  good (point_in_mesh bvh m q) /\ good (get_point_layer bvh m q) /\
  good (get_closest_point bvh m q) /\ (forall towards, good (get_closest_point_towards bvh m q towards)).
Proof.
  intros HX Hb HB Hs Hc good.
  assert (Hl : layers_locate bvh m) by (intros l Hl; apply (spots_locates bvh Hb HX), HB, Hl).
  split; [|split; [|split]].
  - unfold point_in_mesh. apply safe_bind; [now apply spots_get_point_location|]. intros; apply safe_Ok.
  - unfold get_point_layer. apply safe_bind; [now apply spots_get_point_locations|]. intros; apply safe_Ok.
  - now apply spots_get_closest_point.
  - intro towards. now apply spots_get_closest_point_towards.
Qed.

Section Found.
Context {A : Arith} (bvh : list (vec2 A * vec2 A) -> vec2 A -> list N).
Implicit Types (l : Layer A) (m : Mesh A).
Definition told l (x : vec2 A) : Prop := loc_any bvh l x = Ok MAX -> forall k p, nthN (polygons l) k = Some p -> ~ contains l p x.
Lemma boxed_told l x : bvh_ok bvh -> boxed l x -> small_layer l -> told (bake_polygon_finder l) x.
Proof.
  intros Hb Hx Hs H k p Hk Hc. cbn [polygons bake_polygon_finder] in Hk. unfold loc_any, loc_unit_baked in H. cbn [baked bake_polygon_finder polygons] in H.
  inv_bind H. destruct a as [i|].
  - pose proof (f_equal (fun r => match r with Ok z => z | _ => 0 end) H) as H'. cbn beta iota in H'. subst i.
    apply findM_Some in E. destruct E as (l1 & l2 & E & Hp & _). inv_bind Hp. apply index_Ok, nthN_Some_lt in E0. unfold small_layer in Hs. unfold MAX in E0. lia.
  - pose proof (proj1 (findM_None _ _) E k) as Hf. set (boxes := map (polygon_aabb (vertices l)) (polygons l)) in *.
    assert (Hin : In k (bvh boxes x)).
    { apply (proj1 (Hb boxes x) k (polygon_aabb (vertices l) p)).
      - unfold boxes. rewrite nthN_nth_error in Hk. rewrite nthN_nth_error, nth_error_map, Hk. reflexivity.
      - apply Hx; [now apply nthN_In in Hk|exact Hc]. }
    specialize (Hf Hin). unfold index in Hf. rewrite Hk in Hf. cbn [unwrap bind] in Hf.
    apply point_in_polygon_false in Hf. apply Hf. exact Hc.
Qed.
Lemma told_probe l x ds : (forall d, In d ds -> told l (vadd x d)) -> probe_loop bvh l x ds = Ok None ->
  forall d k p, In d ds -> nthN (polygons l) k = Some p -> ~ contains l p (vadd x d).
Proof.
  induction ds as [|d r IH]; intros HT H d' k p Hd Hk; [destruct Hd|]. cbn [probe_loop] in H. inv_bind H.
  destruct (N.eqb_spec a MAX) as [Ea|Ea]; [|discriminate H]. rewrite Ea in E. destruct Hd as [<-|Hd].
  - exact (HT d (or_introl eq_refl) E k p Hk).
  - exact (IH (fun d Hd => HT d (or_intror Hd)) H d' k p Hd Hk).
Qed.
Lemma told_layer l d x : bvh_ok bvh -> small_layer l -> (forall v, probed d v -> boxed l (vadd (vsub x (offset l)) v)) ->
  layer_get_point_location bvh (bake_polygon_finder l) (vsub x (offset l)) d = Ok None -> forall k, ~ layer_near l d x k.
Proof.
  intros Hb Hs HB H k (p & v & Hk & Hv & Hc).
  apply (told_probe (bake_polygon_finder l) (vsub x (offset l)) (probes d)) with (d := v) (k := k) (p := p) in Hc; [exact Hc| |exact H|now apply probes_probed|exact Hk].
  intros v' Hv'. apply boxed_told; [exact Hb| |exact Hs]. apply HB. now apply probes_probed.
Qed.
Lemma told_loop m x : bvh_ok bvh -> mesh_small m -> forall ls,
  (forall i l, In (i, l) ls -> nthN (layers m) i = Some l) ->
  (forall i l, In (i, l) ls -> forall v, probed (search_delta m) v -> boxed l (vadd (vsub x (offset l)) v)) ->
  gpl_loop bvh (with_finder m) x (map (fun ix => (fst ix, bake_polygon_finder (snd ix))) ls) = Ok MAX ->
  forall i l k, In (i, l) ls -> ~ layer_near l (search_delta m) x k.
Proof.
  intros Hb Hs. induction ls as [|[i l] r IH]; intros Hls HB H i' l' k Hin; [destruct Hin|].
  cbn [map fst snd gpl_loop] in H. inv_bind H.
  pose proof (Hls i l (or_introl eq_refl)) as Hi. pose proof (nthN_In _ _ _ Hi) as Hl.
  change (layer_get_point_location bvh (bake_polygon_finder l) (vsub x (offset l)) (search_delta m) = Ok a) in E.
  pose proof (gpl_id_gen' bvh Hb m i l a (search_delta m) _ Hs Hi E) as Hid.
  destruct a as [k0|].
  - destruct Hid as [Hid _]. destruct (N.eqb_spec (id_make (i mod 256) k0) MAX) as [C|C]; [contradiction|].
    exfalso. apply C. pose proof (f_equal (fun r => match r with Ok z => z | _ => 0 end) H) as H'. exact H'.
  - destruct Hin as [Hin|Hin].
    + injection Hin as <- <-. exact (told_layer l (search_delta m) x Hb (proj2 Hs l Hl) (HB i l (or_introl eq_refl)) E k).
    + exact (IH (fun i l H => Hls i l (or_intror H)) (fun i l H => HB i l (or_intror H)) H i' l' k Hin).
Qed.
Lemma enum_baked (ls : list (Layer A)) z :
  enum_from z (map bake_polygon_finder ls) = map (fun ix => (fst ix, bake_polygon_finder (snd ix))) (enum_from z ls).
Proof. revert z. induction ls as [|y r IH]; intro z; [reflexivity|]. cbn [map enum_from fst snd]. f_equal. apply IH. Qed.
Lemma told_mesh m c : bvh_ok bvh -> mesh_small m -> finder_safe m c -> get_point_location bvh (with_finder m) c = Ok MAX ->
  forall li l k, queried m c li l -> ~ layer_near l (search_delta m) (cpos c) k.
Proof.
  intros Hb Hs HF H li l k Hq. pose proof Hq as [Hi Hc]. unfold get_point_location in H. destruct (clayer c) as [li'|] eqn:EL.
  - pose proof (Hc _ eq_refl) as E0. subst li'. rewrite with_finder_nth_gen, Hi in H. cbn [option_map] in H. inv_bind H.
    change (layer_get_point_location bvh (bake_polygon_finder l) (vsub (cpos c) (offset l)) (search_delta m) = Ok a) in E.
    pose proof (gpl_id_gen' bvh Hb m li l a (search_delta m) _ Hs Hi E) as Hid. destruct a as [k0|].
    + exfalso. destruct Hid as [Hid _]. apply Hid. rewrite N.mod_small; [|].
      * exact (f_equal (fun r => match r with Ok z => z | _ => 0 end) H).
      * apply nthN_Some_lt in Hi. destruct Hs as [Hs _]. lia.
    + apply (told_layer l (search_delta m) (cpos c) Hb (proj2 Hs l (nthN_In _ _ _ Hi))); [|exact E].
      intros v Hv. exact (HF li l v Hq Hv).
  - assert (HQ : forall i l0, In (i, l0) (enumerate (layers m)) -> queried m c i l0).
    { intros i l0 Hin. apply enumerate_spec in Hin. split; [exact Hin|]. intros z Hz. rewrite EL in Hz. discriminate Hz. }
    assert (EE : enumerate (layers (with_finder m)) = map (fun ix => (fst ix, bake_polygon_finder (snd ix))) (enumerate (layers m))).
    { apply enum_baked. }
    rewrite EE in H. apply (told_loop m (cpos c) Hb Hs (enumerate (layers m))) with (i := li); [| |exact H|now apply enumerate_spec].
    + intros i l0 Hin. exact (proj1 (HQ i l0 Hin)).
    + intros i l0 Hin v Hv. exact (HF i l0 v (HQ i l0 Hin) Hv).
Qed.
End Found.

(** the point queries: with the polygon finder built, a position is on the mesh exactly if a polygon contains one of the nine positions
    probed, however many spots are empty ([finder_safe], as in C05: what a polygon contains is in its bounding box) *)
Theorem C91_point_in_mesh_iff {A} bvh (m : Mesh A) (c : Coords A) :
  no_box (A:=A) -> finder_exact bvh -> mesh_small m -> spots_baked (with_finder m) -> finder_safe m c ->
  exists b, point_in_mesh bvh (with_finder m) c = Ok b /\
    (b = true <-> exists li l k, queried m c li l /\ layer_near l (search_delta m) (cpos c) k).
Proof.
  intros HX Hb Hs HB HF.
  assert (Hl : layers_locate bvh (with_finder m)) by (intros l Hl; apply (spots_locates bvh Hb HX), HB, Hl).
  destruct (get_point_location bvh (with_finder m) c) as [id| | |] eqn:E.
  2-4: exfalso; pose proof (spots_get_point_location bvh (with_finder m) c Hl) as [G1 G2].
  - unfold point_in_mesh. rewrite E. cbn [bind]. eexists. split; [reflexivity|]. split.
    + intro H. assert (Hid : id <> MAX) by (intros ->; discriminate H).
      destruct (get_point_location_found bvh (with_finder m) c id (with_finder_small_gen bvh (proj1 Hb) m Hs) E Hid) as (l & p & [Hp1 Hp2] & Hn & Hli).
      rewrite with_finder_nth_gen in Hp1. destruct (nthN (layers m) (id_layer id)) as [l0|] eqn:El; [|discriminate Hp1]. injection Hp1 as <-.
      exists (id_layer id), l0, (id_polygon id). split; [|exact Hn]. split; [exact El|]. intros z Hz. symmetry. now apply Hli.
    + intros (li & l & k & H1 & H2). apply negb_true_iff, N.eqb_neq. intros ->.
      exact (told_mesh bvh m c (proj1 Hb) Hs HF E li l k H1 H2).
  - congruence.
  - congruence.
  - pose proof (nf_get_point_location bvh (with_finder m) c) as HN. unfold nf in HN. rewrite E in HN. congruence.
Qed.

(** *** binary32 *)
Lemma F32_no_box sin cos acos : no_box (A:=F32with sin cos acos).
Proof.
  intro x. cbn [F F32with fle fmaxval fz]. destruct x as [[]|[]| |[] m e]; try reflexivity.
  all: apply andb_false_iff; try (left; reflexivity); right; reflexivity.
Qed.

(** C91, binary32: it is enough that the vertices are at finite positions *)
Corollary C91_path_never_fails_f32 sin cos acos (lib : Lib (F32with sin cos acos)) m from to blocked :
  finder_exact (lbvh lib) -> pop_perm (lpop lib) ->
  spots_wf m -> mesh_small m -> spots_baked m -> finite_mesh sin cos acos m -> 10 * search_steps m < 2^32 ->
  spot_end m from -> spot_end m to ->
  exists r, path_on_layers lib m from to blocked = Ok r.
Proof. intros. apply C91_path_never_fails; auto using F32_no_box. now apply finite_dists_ok. Qed.
Print Assumptions C91_path_never_fails.
Print Assumptions C91_get_path_never_fails.
Print Assumptions C91_queries_never_fail.
Print Assumptions C91_point_in_mesh_iff.
Print Assumptions C91_path_never_fails_f32.
