(** C18: on a consistent mesh nothing panics and no unchecked access is out of range. *)
From Coq Require Import List NArith ZArith Bool Lia Permutation.
From Verif Require Import Base Arith U32 Mesh Helpers Locate Search AsyncPath StdLib Spec Locate_facts Closest_facts
  Search_facts Search_props Search_cost.
Import ListNotations.
Open Scope N_scope.

Section Safe.
Context {A : Arith}.
Implicit Types (m : Mesh A) (c : Ctx A) (n : Node A) (l : Layer A).

(** neither a panic nor an out-of-range unchecked access *)
Definition safe {T} (r : res T) : Prop := r <> Panic /\ r <> Oob.
Lemma safe_Ok {T} (a : T) : safe (Ok a). Proof. split; discriminate. Qed.
Lemma safe_bind {T U} (r : res T) (k : T -> res U) : safe r -> (forall a, r = Ok a -> safe (k a)) -> safe (bind r k).
Proof. intros [H1 H2] H3. destruct r; simpl; try (split; congruence). now apply H3. Qed.
Lemma safe_index {T} (l : list T) i : i < lengthN l -> safe (index l i).
Proof. intro H. destruct (nthN_lt_Some l i H) as [x Hx]. apply index_Ok in Hx. rewrite Hx. apply safe_Ok. Qed.
Lemma safe_index' {T} (l : list T) i x : nthN l i = Some x -> safe (index l i).
Proof. intro Hx. apply index_Ok in Hx. rewrite Hx. apply safe_Ok. Qed.
Lemma safe_unchecked {T} (l : list T) i : i < lengthN l -> safe (get_unchecked l i).
Proof. intro H. destruct (nthN_lt_Some l i H) as [x Hx]. apply get_unchecked_Ok in Hx. rewrite Hx. apply safe_Ok. Qed.
Lemma safe_mapM {T U} (f : T -> res U) xs : (forall x, In x xs -> safe (f x)) -> safe (mapM f xs).
Proof.
  induction xs as [|x r IH]; simpl; intro H; [apply safe_Ok|]. apply safe_bind; [apply H; now left|]. intros.
  apply safe_bind; [apply IH; intros; apply H; now right|]. intros. apply safe_Ok.
Qed.
Lemma safe_findM {T} (f : T -> res bool) xs : (forall x, In x xs -> safe (f x)) -> safe (findM f xs).
Proof.
  induction xs as [|x r IH]; simpl; intro H; [apply safe_Ok|]. apply safe_bind; [apply H; now left|].
  intros [] _; [apply safe_Ok|]. apply IH. intros; apply H; now right.
Qed.
Lemma safe_foldM {T S} (f : S -> T -> res S) xs : (forall s x, In x xs -> safe (f s x)) -> forall s, safe (foldM f s xs).
Proof.
  induction xs as [|x r IH]; simpl; intros H s; [apply safe_Ok|]. apply safe_bind; [apply H; now left|].
  intros. apply IH. intros; apply H; now right.
Qed.

(** the polygon finder was built from the polygons of the layer *)
Definition baked_ok l : Prop := forall boxes, baked l = Some boxes -> length boxes = length (polygons l).

Section Queries.
Context (bvh : list (vec2 A * vec2 A) -> vec2 A -> list N).
Context (Hbvh : bvh_ok bvh).

Lemma safe_pip l pt p : pverts p <> [] -> safe (point_in_polygon l pt p).
Proof. intro H. destruct (point_in_polygon_spec l pt p H) as (b & -> & _). apply safe_Ok. Qed.
Lemma safe_loc l pt : layer_wf l -> baked_ok l -> safe (loc_any bvh l pt).
Proof.
  intros Hw Hb. unfold loc_any. destruct (baked l) as [boxes|] eqn:E.
  - unfold loc_unit_baked. apply safe_bind; [|intros; apply safe_Ok]. apply safe_findM. intros i Hi.
    apply (Hbvh boxes pt) in Hi. assert (Hl : lengthN boxes = lengthN (polygons l)) by (unfold lengthN; now rewrite (Hb _ E)).
    rewrite Hl in Hi. apply safe_bind; [now apply safe_index|]. intros p Hp. apply safe_pip.
    apply index_Ok, nthN_In in Hp. now apply Hw in Hp.
  - unfold loc_unit. apply safe_bind; [|intros; apply safe_Ok]. apply safe_findM. intros [i p] Hi.
    apply enumerate_spec, nthN_In in Hi. apply safe_pip. now apply Hw in Hi.
Qed.
Lemma safe_probe l pt ds : layer_wf l -> baked_ok l -> safe (probe_loop bvh l pt ds).
Proof.
  intros Hw Hb. induction ds; simpl; [apply safe_Ok|]. apply safe_bind; [now apply safe_loc|]. intros k _.
  destruct (N.eqb k MAX); [assumption|apply safe_Ok].
Qed.
Lemma safe_ring l pt d s is : layer_wf l -> baked_ok l -> safe (ring_loop bvh l pt d s is).
Proof.
  intros Hw Hb. induction is; simpl; [apply safe_Ok|]. apply safe_bind; [now apply safe_loc|]. intros k _.
  destruct (N.eqb k MAX); [assumption|apply safe_Ok].
Qed.
Lemma safe_gcp (pt : vec2 A) d s ls : (forall i l, In (i, l) ls -> layer_wf l /\ baked_ok l) -> 10 * (s + 1) < 2^32 ->
  safe (gcp_layers bvh pt d s ls).
Proof.
  intros H Hs. induction ls as [|[i l] r IH]; cbn [gcp_layers]; [apply safe_Ok|].
  destruct (H i l (or_introl eq_refl)). apply safe_bind.
  - unfold get_closest_point_inner. destruct (2 ^ 32 <=? 10 * (s + 1)) eqn:E; [apply N.leb_le in E; lia|now apply safe_ring].
  - intros [[np k]|] _; [apply safe_Ok|apply IH]. intros; apply (H i0); now right.
Qed.
Lemma safe_gcpt (pt : vec2 A) d dir s ls : (forall i l, In (i, l) ls -> layer_wf l /\ baked_ok l) ->
  safe (gcpt_layers bvh pt d dir s ls).
Proof.
  intros H. induction ls as [|[i l] r IH]; cbn [gcpt_layers]; [apply safe_Ok|].
  destruct (H i l (or_introl eq_refl)). apply safe_bind.
  - unfold get_closest_point_towards_inner. apply safe_bind; [now apply safe_loc|intros; apply safe_Ok].
  - intros [[np k]|] _; [apply safe_Ok|apply IH]. intros; apply (H i0); now right.
Qed.
Lemma safe_first_step {T} (f : N -> res (option T)) ss : (forall s, In s ss -> safe (f s)) -> safe (first_step f ss).
Proof.
  induction ss as [|s r IH]; simpl; intro H; [apply safe_Ok|]. apply safe_bind; [apply H; now left|].
  intros [] _; [apply safe_Ok|]. apply IH. intros; apply H; now right.
Qed.

(** every layer is consistent *)
Definition layers_ok m : Prop := forall l, In l (layers m) -> layer_wf l /\ baked_ok l.

Lemma safe_get_closest_point m (q : Coords A) :
  layers_ok m -> 10 * search_steps m < 2^32 -> (forall li, clayer q = Some li -> li < lengthN (layers m)) ->
  safe (get_closest_point bvh m q).
Proof.
  intros H Hs Hc. unfold get_closest_point. destruct (clayer q) as [li|].
  - apply safe_bind; [apply safe_index; auto|]. intros l Hl. apply index_Ok, nthN_In in Hl.
    apply safe_first_step. intros s Hin. apply rangeN_spec in Hin. apply safe_gcp; [|lia].
    intros i l0 [E|[]]. inversion E; subst. now apply H.
  - apply safe_first_step. intros s Hin. apply rangeN_spec in Hin. apply safe_gcp; [|lia].
    intros i l Hi. apply enumerate_spec, nthN_In in Hi. now apply H.
Qed.
Lemma safe_get_closest_point_towards m (q : Coords A) t :
  layers_ok m -> (forall li, clayer q = Some li -> li < lengthN (layers m)) ->
  safe (get_closest_point_towards bvh m q t).
Proof.
  intros H Hc. unfold get_closest_point_towards. destruct (clayer q) as [li|].
  - apply safe_bind; [apply safe_index; auto|]. intros l Hl. apply index_Ok, nthN_In in Hl.
    apply safe_first_step. intros s Hin. apply safe_gcpt.
    intros i l0 [E|[]]. inversion E; subst. now apply H.
  - apply safe_first_step. intros s Hin. apply safe_gcpt.
    intros i l Hi. apply enumerate_spec, nthN_In in Hi. now apply H.
Qed.
Lemma safe_get_point_location m (q : Coords A) : layers_ok m -> safe (get_point_location bvh m q).
Proof.
  intro H. unfold get_point_location. destruct (clayer q) as [li|].
  - destruct (nthN (layers m) li) as [l|] eqn:E; [|apply safe_Ok]. apply nthN_In in E. destruct (H l E).
    apply safe_bind; [now apply safe_probe|]. intros; apply safe_Ok.
  - assert (forall ls, (forall i l, In (i, l) ls -> layer_wf l /\ baked_ok l) -> safe (gpl_loop bvh m (cpos q) ls)) as HG.
    { induction ls as [|[i l] r IH]; intro HL; cbn [gpl_loop]; [apply safe_Ok|].
      destruct (HL i l (or_introl eq_refl)). apply safe_bind; [now apply safe_probe|].
      assert (HR : forall j l0, In (j, l0) r -> layer_wf l0 /\ baked_ok l0) by (intros; eapply HL; right; eauto).
      intros [k|] _; [|now apply IH]. destruct (N.eqb _ MAX); [now apply IH|apply safe_Ok]. }
    apply HG. intros i l Hi. apply enumerate_spec, nthN_In in Hi. now apply H.
Qed.
Lemma safe_get_point_locations m (q : Coords A) : layers_ok m -> safe (get_point_locations bvh m q).
Proof.
  intro H. unfold get_point_locations. destruct (clayer q) as [li|].
  - destruct (nthN (layers m) li) as [l|] eqn:E; [|apply safe_Ok]. apply nthN_In in E. destruct (H l E).
    apply safe_bind; [now apply safe_probe|]. intros; apply safe_Ok.
  - assert (forall ls, (forall i l, In (i, l) ls -> layer_wf l /\ baked_ok l) -> safe (gpls_loop bvh m (cpos q) ls)) as HG.
    { induction ls as [|[i l] r IH]; intro HL; cbn [gpls_loop]; [apply safe_Ok|].
      destruct (HL i l (or_introl eq_refl)). apply safe_bind; [now apply safe_probe|]. intros o _.
      apply safe_bind; [apply IH; intros; eapply HL; right; eauto|]. intros; apply safe_Ok. }
    apply HG. intros i l Hi. apply enumerate_spec, nthN_In in Hi. now apply H.
Qed.
End Queries.

(** ** The search *)
(** squared distances between vertices are numbers *)
Definition dists_ok m : Prop :=
  forall l v l' v', In l (layers m) -> In v (vertices l) -> In l' (layers m) -> In v' (vertices l') ->
    fnan (vdist2 (world l v) (world l' v')) = false.

Definition poly_ok m (id : N) : Prop := exists l p, polygon_at m id l p.

Definition node_ok c n : Prop :=
  poly_ok (cmesh c) (nto n) /\
  exists pl, nthN (layers (cmesh c)) (nprev n) = Some pl /\
    fst (nedge n) < lengthN (vertices pl) /\ snd (nedge n) < lengthN (vertices pl).

Context (c : Ctx A) (Hwf : mesh_wf (cmesh c)) (Hd : dists_ok (cmesh c)) (Hto : poly_ok (cmesh c) (cpto c)).

Lemma mesh_polygon_Ok m id p : mesh_polygon m id = Ok p -> poly_ok m id.
Proof. unfold mesh_polygon. intro H. inv_bind H. apply index_Ok in E. apply index_Ok in H. exists a, p. split; assumption. Qed.
Lemma poly_ok_safe m id : poly_ok m id -> safe (mesh_polygon m id).
Proof.
  intros (l & p & H1 & H2). unfold mesh_polygon. apply index_Ok in H1. rewrite H1. cbn [bind].
  eapply safe_index'. exact H2.
Qed.

Lemma gen_start_ok from ps n : gen_start c from ps n -> node_ok c n.
Proof.
  intros (l & p & a & b & sv & ev & [H1 H2] & H3 & H4 & H5 & H6 & H7 & -> & _). split.
  - simpl. destruct H7 as [->|(_ & q & Hq & _)]; [assumption|]. eapply mesh_polygon_Ok; eauto.
  - simpl. exists l. split; [assumption|]. split; eapply nthN_Some_lt; eauto.
Qed.
Lemma gen_step_ok n n' : gen_step c n n' -> node_ok c n'.
Proof.
  intros (s & root & l & ss & sv & ev & H1 & H2 & H3 & H4 & H5 & H6 & H7 & H8 & H9 & H10 & H11 & -> & _). split.
  - simpl. destruct H8 as [->|(q & Hq & _)]; [assumption|]. eapply mesh_polygon_Ok; eauto.
  - simpl. exists l. split; [assumption|]. split; eapply nthN_Some_lt; eauto.
Qed.

Lemma safe_edges_index p : pverts p <> [] -> safe (edges_index p).
Proof. intro H. rewrite edges_index_edge_list by assumption. apply safe_Ok. Qed.

Lemma safe_close_index l pt vs : (forall v, In v vs -> v < lengthN (vertices l)) -> forall i, safe (close_index l pt vs i).
Proof.
  induction vs as [|v r IH]; intros H i; simpl; [apply safe_Ok|]. apply safe_bind; [apply safe_index, H; now left|].
  intros x _. destruct (flt _ _); [apply safe_Ok|]. apply IH. intros; apply H; now right.
Qed.

Lemma safe_nearest (ds : list (F A)) : ds <> [] -> (forall x, In x ds -> fnan x = false) -> safe (nearest_index ds).
Proof.
  intros H1 H2. unfold nearest_index. destruct ds as [|d r]; [congruence|].
  unfold enumerate. simpl. assert (existsb fnan (d :: r) = false) as HE.
  { apply not_true_iff_false. rewrite existsb_exists. intros (x & Hx & Hn). rewrite (H2 x Hx) in Hn. discriminate. }
  destruct (enum_from 1 r); [apply safe_Ok|]. simpl in HE. rewrite HE. apply safe_Ok.
Qed.

Lemma safe_right_index l p n : node_ok c n -> In l (layers (cmesh c)) -> In p (polygons l) -> safe (right_index c l p n).
Proof.
  intros [_ (pl & Hpl & He1 & He2)] Hl Hp. destruct (proj1 Hwf l Hl p Hp) as [Hne Hin].
  unfold right_index. pose proof Hpl as Hpl'. apply index_Ok in Hpl'. rewrite Hpl'. cbn [bind].
  apply safe_bind; [now apply safe_index|]. intros v Hv. apply index_Ok, nthN_In in Hv.
  apply safe_bind; [now apply safe_close_index|]. intros [i|] _; [apply safe_Ok|].
  apply safe_bind.
  - apply safe_mapM. intros x Hx. apply safe_bind; [apply safe_index; auto|]. intros; apply safe_Ok.
  - intros ds Hds. apply safe_bind; [|intros; apply safe_Ok]. apply mapM_Ok in Hds. apply safe_nearest.
    + intros ->. inversion Hds. congruence.
    + intros x Hx. assert (exists vi, (let* vv := index (vertices l) vi in
          Ok (vdist2 (vadd (coords vv) (offset l)) (vadd (coords v) (offset pl)))) = Ok x) as [vi Hvi].
      { clear - Hds Hx. induction Hds; [destruct Hx|]. destruct Hx as [<-|Hx]; eauto. }
      inv_bind Hvi. inversion Hvi; subst. apply index_Ok, nthN_In in E. apply nthN_In in Hpl.
      apply (Hd l a pl v); assumption.
Qed.

Lemma safe_cut_edges l root i es : (forall a b, In (a, b) es -> a < lengthN (vertices l) /\ b < lengthN (vertices l)) ->
  forall ty, safe (cut_edges l root i es ty).
Proof.
  induction es as [|[a b] r IH]; intros H ty; simpl; [apply safe_Ok|].
  assert (HR : forall a b, In (a, b) r -> a < lengthN (vertices l) /\ b < lengthN (vertices l)) by (intros; apply H; now right).
  destruct (H a b (or_introl eq_refl)).
  destruct (_ <? _); [now apply IH|].
  apply safe_bind; [now apply safe_unchecked|]. intros. apply safe_bind; [now apply safe_unchecked|]. intros.
  destruct (cut_edge _ _ _ _ _ _). apply safe_bind; [now apply IH|]. intros. apply safe_Ok.
Qed.

Lemma boundary_In vs a b : boundary_edge vs a b -> In a vs /\ In b vs.
Proof. intros (i & H1 & H2). split; eapply nth_error_In; eauto. Qed.

Lemma safe_edges_between n : node_ok c n -> safe (edges_between c n).
Proof.
  intro Hn. pose proof Hn as [(l & p & Hl & Hp) _]. unfold edges_between.
  pose proof Hl as Hl'. apply index_Ok in Hl'. rewrite Hl'. cbn [bind].
  pose proof Hp as Hp'. apply index_Ok in Hp'. rewrite Hp'. cbn [bind].
  apply nthN_In in Hl. apply nthN_In in Hp. destruct (proj1 Hwf l Hl p Hp) as [Hne Hin].
  apply safe_bind; [now apply safe_right_index|]. intros ri _.
  apply safe_bind.
  - unfold circular_edges_index. apply safe_bind; [now apply safe_edges_index|]. intros; apply safe_Ok.
  - intros es Hes. apply safe_cut_edges. intros a b Hab. eapply circular_edges_In in Hab; [|exact Hes].
    apply boundary_In in Hab. destruct Hab. auto.
Qed.

Lemma safe_corner_ok n vi pt : node_ok c n -> vi = fst (nedge n) \/ vi = snd (nedge n) -> safe (corner_ok c n vi pt).
Proof.
  intros [_ (pl & Hpl & He1 & He2)] Hvi. unfold corner_ok. apply index_Ok in Hpl. rewrite Hpl. cbn [bind].
  apply safe_bind; [apply safe_index; destruct Hvi; subst; assumption|]. intros; apply safe_Ok.
Qed.

Lemma safe_expand n st : node_ok c n -> safe (expand c n st).
Proof.
  intro Hn. pose proof Hn as [(l & p & Hl & Hp) _]. unfold expand.
  apply safe_bind; [now apply safe_edges_between|]. intros ss Hss.
  pose proof Hl as Hl'. apply index_Ok in Hl'. rewrite Hl'. cbn [bind].
  destruct (edges_between_spec c n ss Hss) as (l0 & p0 & [H1 H2] & HE).
  assert (l0 = l) by congruence. subst l0. assert (p0 = p) by congruence. subst p0.
  apply nthN_In in Hl. apply nthN_In in Hp. destruct (proj1 Hwf l Hl p Hp) as [Hne Hin].
  apply safe_foldM. intros s x Hx. apply HE in Hx. apply boundary_In in Hx. destruct Hx as [Hx1 Hx2].
  unfold expand_one.
  apply safe_bind; [apply safe_unchecked; auto|]. intros sv Hsv. apply get_unchecked_Ok, nthN_In in Hsv.
  apply safe_bind; [apply safe_unchecked; auto|]. intros ev Hev.
  destruct (other_side_spec sv ev (nto n)) as [Ho|(Ho & _ & Ho2 & _)].
  - rewrite Ho, N.eqb_refl. apply safe_Ok.
  - destruct (N.eqb_spec (other_side sv ev (nto n)) MAX); [contradiction|].
    destruct (memN _ _); [apply safe_Ok|].
    apply safe_bind.
    + destruct (N.eqb (cpto c) (other_side sv ev (nto n))); [apply safe_Ok|].
      apply safe_bind; [apply poly_ok_safe; eapply (proj2 Hwf); eauto|]. intros; apply safe_Ok.
    + intros dead _. destruct dead; [apply safe_Ok|].
      destruct (N.eqb (nfrom n) (other_side sv ev (nto n))); [apply safe_Ok|].
      apply safe_bind.
      * destruct (sty x); try apply safe_Ok; (destruct (fgt _ _); [apply safe_Ok|]);
          (apply safe_bind; [apply safe_corner_ok; auto|intros; apply safe_Ok]).
      * intros [root|] _; [|apply safe_Ok]. destruct (flt _ _); apply safe_Ok.
Qed.

Lemma safe_successors : forall fuel vis n st, node_ok c n -> all_nodes (node_ok c) st -> safe (successors fuel c vis n st).
Proof.
  induction fuel as [|fuel IH]; intros vis n st Hn Hst; [split; discriminate|].
  cbn [successors]. apply safe_bind; [now apply safe_expand|]. intros st' E.
  assert (Ha : all_nodes (node_ok c) st').
  { eapply expand_inv with (I := all_nodes (node_ok c)); [|exact Hst|exact E].
    intros st0 n' st1 H1 H2 H3. eapply all_nodes_added; [exact H1| |exact H3]. eapply gen_step_ok; eauto. }
  destruct (sbuffer st') as [|n' [|]] eqn:EB; try apply safe_Ok.
  destruct (N.eqb (nto n') (cpto c)); [apply safe_Ok|].
  destruct (reverse_of n' n); [apply safe_Ok|]. destruct (memN (nto n') vis); [apply safe_Ok|].
  apply IH; [apply Ha; rewrite EB; now left|]. destruct Ha as [Ha1 Ha2]. split; simpl; [assumption|tauto].
Qed.

Lemma safe_setup from ps : poly_ok (cmesh c) ps -> safe (setup c from ps).
Proof.
  intros (l & p & Hl & Hp). unfold setup.
  pose proof Hl as Hl'. apply index_Ok in Hl'. rewrite Hl'. cbn [bind].
  pose proof Hp as Hp'. apply index_Ok in Hp'. rewrite Hp'. cbn [bind].
  apply nthN_In in Hl. apply nthN_In in Hp. destruct (proj1 Hwf l Hl p Hp) as [Hne Hin].
  apply safe_bind; [now apply safe_edges_index|]. intros es _.
  apply safe_bind; [|intros; apply safe_Ok]. apply safe_foldM. intros st [a b] _. unfold setup_edge. cbn [fst snd].
  destruct (nthN (vertices l) a) as [sv|] eqn:EA; [|apply safe_Ok].
  destruct (nthN (vertices l) b) as [ev|] eqn:EB; [|apply safe_Ok].
  destruct (memN _ _); [apply safe_Ok|]. apply safe_bind; [|intros; apply safe_Ok].
  destruct (N.eqb (other_side sv ev ps) (cpto c)); [apply safe_Ok|].
  destruct (N.eqb_spec (other_side sv ev ps) MAX) as [Ho|Ho]; [apply safe_Ok|].
  destruct (other_side_spec sv ev ps) as [Ho'|(_ & _ & Ho2 & _)]; [contradiction|].
  apply safe_bind; [|intros; apply safe_Ok]. apply poly_ok_safe. apply nthN_In in EA. eapply (proj2 Hwf); eauto.
Qed.

Lemma safe_next lib st : pop_perm (lpop lib) -> all_nodes (node_ok c) st -> sbuffer st = [] -> safe (next lib c st).
Proof.
  intros Hpop [H1 H2] HB. unfold next. specialize (Hpop (squeue st)).
  destruct (lpop lib (squeue st)) as [[n q]|]; [|apply safe_Ok]. cbn [shist].
  destruct (match hist_get _ _ with Some _ => _ | None => _ end); [apply safe_Ok|].
  destruct (N.eqb (nto n) (cpto c)); [apply safe_Ok|].
  apply safe_bind; [|intros; apply safe_Ok]. apply safe_successors.
  - apply H1. eapply Permutation_in; [symmetry; exact Hpop|now left].
  - split; simpl; [|assumption]. intros x Hx. apply H1. eapply Permutation_in; [symmetry; exact Hpop|now right].
Qed.

Lemma safe_run lib : pop_perm (lpop lib) -> forall k st, all_nodes (node_ok c) st -> sbuffer st = [] -> safe (run k lib c st).
Proof.
  intro Hpop. induction k as [|k IH]; intros st Hst HB; cbn [run]; [apply safe_Ok|].
  apply safe_bind; [now apply safe_next|]. intros [st' r] E. cbn [fst snd].
  destruct (next_all lib c st st' r (node_ok c) Hpop (fun n n' _ H => gen_step_ok n n' H) Hst HB E) as (G1 & G2 & _).
  destruct r; [apply safe_Ok|now apply IH|now apply IH].
Qed.

Lemma safe_three lib : pop_perm (lpop lib) -> forall k st, all_nodes (node_ok c) st -> sbuffer st = [] ->
  safe (three k lib c st) /\
  (forall st' o, three k lib c st = Ok (st', o) -> all_nodes (node_ok c) st' /\ sbuffer st' = []).
Proof.
  intro Hpop. induction k as [|k IH]; intros st Hst HB; cbn [three].
  - split; [apply safe_Ok|]. intros st' o H. inversion H; subst. auto.
  - split.
    + apply safe_bind; [now apply safe_next|]. intros [st' r] E. cbn [fst snd].
      destruct (next_all lib c st st' r (node_ok c) Hpop (fun n n' _ H => gen_step_ok n n' H) Hst HB E) as (G1 & G2 & _).
      destruct r; try apply safe_Ok. now apply IH.
    + intros st' o H. inv_bind H. destruct a as [st1 r]. cbn [fst snd] in H.
      destruct (next_all lib c st st1 r (node_ok c) Hpop (fun n n' _ H => gen_step_ok n n' H) Hst HB E) as (G1 & G2 & _).
      destruct r; try (inversion H; subst; auto; fail). eapply IH; eauto.
Qed.

Lemma setup_nodes_ok from ps st : setup c from ps = Ok st -> all_nodes (node_ok c) st /\ sbuffer st = [].
Proof. intro H. eapply setup_all; [|exact H]. apply gen_start_ok. Qed.
End Safe.

Section Path.
Context {A : Arith}.
Implicit Types (m : Mesh A) (lib : Lib A).

(** an end point: its polygon, if given, exists; otherwise its layer, if given, exists *)
Definition end_ok m (q : Coords A) : Prop :=
  if N.eqb (cpoly q) MAX then (forall li, clayer q = Some li -> li < lengthN (layers m)) else poly_ok m (cpoly q).

Lemma safe_locate lib m q : bvh_ok (lbvh lib) -> layers_ok m -> mesh_small m -> 10 * search_steps m < 2^32 -> end_ok m q ->
  safe (locate_end lib m q) /\ (forall id, locate_end lib m q = Ok (Some id) -> poly_ok m id).
Proof.
  intros Hb Hl Hm Hs He. unfold locate_end, end_ok in *. destruct (N.eqb_spec (cpoly q) MAX) as [Hq|Hq]; cbn [negb].
  - split.
    + apply safe_bind; [now apply safe_get_closest_point|]. intros; apply safe_Ok.
    + intros id H. inv_bind H. destruct a as [c'|]; [|discriminate]. simpl in H. inversion H; subst.
      destruct (get_closest_point_Some _ m q c' Hm E) as (s & i & li & l & p & _ & _ & _ & _ & Hp & _). exists l, p. assumption.
  - split; [apply safe_Ok|]. intros id H. inversion H; subst. assumption.
Qed.

Lemma path_on_layers_safe lib m from to blocked :
  bvh_ok (lbvh lib) -> pop_perm (lpop lib) -> mesh_wf m -> mesh_small m -> (forall l, In l (layers m) -> baked_ok l) ->
  dists_ok m -> 10 * search_steps m < 2^32 -> end_ok m from -> end_ok m to ->
  exists r, path_on_layers lib m from to blocked = Ok r.
Proof.
  intros Hb Hpop Hw Hm Hbk Hd Hs Hf Ht.
  assert (Hl : layers_ok m) by (intros l Hl; split; [now apply Hw|now apply Hbk]).
  assert (HS : safe (path_on_layers lib m from to blocked)).
  { unfold path_on_layers. destruct (safe_locate lib m from Hb Hl Hm Hs Hf) as [S1 P1].
    apply safe_bind; [assumption|]. intros [ps|] E1; [|apply safe_Ok].
    destruct (safe_locate lib m to Hb Hl Hm Hs Ht) as [S2 P2].
    apply safe_bind; [assumption|]. intros [pe|] E2; [|apply safe_Ok].
    pose proof (P1 _ E1) as Hps. pose proof (P2 _ E2) as Hpe.
    apply safe_bind.
    - unfold islands_reject. destruct (N.eqb _ 1); [|apply safe_Ok]. destruct Hps as (l & p & H1 & _).
      apply safe_bind; [eapply safe_index'; eauto|]. intros; apply safe_Ok.
    - intros [] _; [apply safe_Ok|]. destruct (N.eqb ps pe); [apply safe_Ok|].
      apply safe_bind; [apply safe_setup; assumption|]. intros st Hst.
      destruct (setup_nodes_ok (mkCtx m (cpos to) pe blocked) Hpe (cpos from) ps st Hst) as [G1 G2].
      apply safe_run; assumption. }
  pose proof (path_on_layers_nf lib m from to blocked) as HN. unfold nf in HN. destruct HS as [S1 S2].
  destruct (path_on_layers lib m from to blocked); try contradiction. eauto.
Qed.

(** A future: what stays true between polls *)
Definition future_ok (f : Future A) : Prop :=
  forall c st, finst f = Some (c, st) -> cmesh c = fmesh f /\ poly_ok (fmesh f) (cpto c) /\
    all_nodes (node_ok c) st /\ sbuffer st = [].

Lemma poll_safe lib (f : Future A) :
  bvh_ok (lbvh lib) -> pop_perm (lpop lib) -> mesh_wf (fmesh f) -> mesh_small (fmesh f) ->
  (forall l, In l (layers (fmesh f)) -> baked_ok l) -> dists_ok (fmesh f) -> future_ok f ->
  safe (poll lib f) /\ (forall f' w p, poll lib f = Ok (f', w, p) -> future_ok f' /\ fmesh f' = fmesh f).
Proof.
  intros Hb Hpop Hw Hm Hbk Hd Hf.
  assert (Hl : layers_ok (fmesh f)) by (intros l Hl; split; [now apply Hw|now apply Hbk]).
  unfold poll. destruct (finst f) as [[c st]|] eqn:EF.
  - destruct (Hf _ _ EF) as (Hcm & Hcp & Hst & Hbf). rewrite <- Hcm in Hw, Hd, Hcp.
    destruct (safe_three c Hw Hd Hcp lib Hpop 3 st Hst Hbf) as [S1 S2]. split.
    + apply safe_bind; [assumption|]. intros [st' o] _. apply safe_Ok.
    + intros f' w p H. inv_bind H. destruct a as [st' o]. cbn [fst snd] in H. destruct (S2 _ _ E) as [G1 G2].
      assert (H' : mkFuture (ffrom f) (fto f) (fmesh f) (Some (c, st')) = f') by (destruct o; congruence).
      subst f'. split; [|reflexivity]. intros c0 st0 H0. cbn [finst fmesh] in *. inversion H0; subst. rewrite <- Hcm. auto.
  - assert (Hps : forall q id, get_point_location (lbvh lib) (fmesh f) q = Ok id -> id <> MAX -> poly_ok (fmesh f) id).
    { intros q id H Hid. destruct (get_point_location_found _ _ _ _ Hm H Hid) as (l & p & Hp & _). exists l, p. assumption. }
    split.
    + apply safe_bind; [now apply safe_get_point_location|]. intros ps E1.
      destruct (N.eqb_spec ps MAX); [apply safe_Ok|].
      apply safe_bind; [now apply safe_get_point_location|]. intros pe E2.
      destruct (N.eqb_spec pe MAX); [apply safe_Ok|].
      pose proof (Hps _ _ E1 n) as P1. pose proof (Hps _ _ E2 n0) as P2.
      apply safe_bind.
      * unfold async_islands_reject. destruct (N.eqb _ _); [|apply safe_Ok]. destruct P1 as (l & p & H1 & _).
        apply safe_bind; [eapply safe_index'; eauto|]. intros; apply safe_Ok.
      * intros [] _; [apply safe_Ok|]. destruct (N.eqb ps pe); [apply safe_Ok|].
        apply safe_bind; [apply safe_setup; assumption|]. intros; apply safe_Ok.
    + intros f' w p H. inv_bind H. destruct (N.eqb_spec a MAX); [inversion H; subst; auto|].
      inv_bind H. destruct (N.eqb_spec a0 MAX); [inversion H; subst; auto|].
      inv_bind H. destruct a1; [inversion H; subst; auto|]. destruct (N.eqb a a0); [inversion H; subst; auto|].
      inv_bind H. inversion H; subst. split; [|reflexivity]. intros c st H0. cbn [finst fmesh] in *.
      inversion H0; subst. cbn [cmesh cpto]. split; [reflexivity|]. split; [eapply Hps; eauto|].
      eapply setup_nodes_ok; [|exact E2]. eapply Hps; eauto.
Qed.

Lemma poll_times_safe lib : bvh_ok (lbvh lib) -> pop_perm (lpop lib) -> forall k (f : Future A),
  mesh_wf (fmesh f) -> mesh_small (fmesh f) -> (forall l, In l (layers (fmesh f)) -> baked_ok l) -> dists_ok (fmesh f) ->
  future_ok f -> safe (poll_times k lib f).
Proof.
  intros Hb Hpop. induction k as [|k IH]; intros f Hw Hm Hbk Hd Hf; cbn [poll_times]; [apply safe_Ok|].
  destruct (poll_safe lib f Hb Hpop Hw Hm Hbk Hd Hf) as [S1 S2].
  apply safe_bind; [assumption|]. intros [[f' w] p] E. destruct (S2 _ _ _ E) as [G1 G2].
  destruct p; [apply safe_Ok|]. apply safe_bind; [|intros; apply safe_Ok]. apply IH; rewrite ?G2; assumption.
Qed.
End Path.
