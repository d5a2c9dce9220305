(** Facts about src/mesh_cleanup.rs. *)
From Coq Require Import List NArith ZArith Bool Permutation Sorted Lia.
From Verif Require Import Base Arith U32 Mesh Helpers Spec Spec_mesh Cleanup.
Import ListNotations.
Open Scope N_scope.

(** What sort_unstable_by_key must do *)
Definition sort_ok (sort : list (Z * N) -> list (Z * N)) : Prop :=
  forall l, Permutation l (sort l) /\ StronglySorted (fun a b => (fst a <= fst b)%Z) (sort l).

Lemma dedup_In l x : In x (dedup l) <-> In x l.
Proof.
  induction l as [|a r IH]; [tauto|]. destruct r as [|b r']; [tauto|].
  change (dedup (a :: b :: r')) with (if N.eqb a b then dedup (b :: r') else a :: dedup (b :: r')).
  destruct (N.eqb_spec a b) as [->|H].
  - rewrite IH. simpl. tauto.
  - simpl In. rewrite IH. simpl. tauto.
Qed.
Lemma dedup_nil l : dedup l = [] <-> l = [].
Proof.
  split; [|now intros ->]. intro H. destruct l as [|a r]; [reflexivity|].
  assert (In a (dedup (a :: r))) as G by (apply dedup_In; now left). rewrite H in G. destruct G.
Qed.

(** no two consecutive elements are equal *)
Fixpoint no_repeat (l : list N) : Prop :=
  match l with
  | a :: ((b :: _) as r) => a <> b /\ no_repeat r
  | _ => True
  end.
Lemma dedup_head a r : exists r', dedup (a :: r) = a :: r'.
Proof.
  revert a. induction r as [|b r IH]; intro a; [now exists []|].
  change (dedup (a :: b :: r)) with (if N.eqb a b then dedup (b :: r) else a :: dedup (b :: r)).
  destruct (N.eqb_spec a b) as [->|H]; [apply IH|]. eauto.
Qed.
Lemma dedup_no_repeat l : no_repeat (dedup l).
Proof.
  induction l as [|a r IH]; [exact I|]. destruct r as [|b r]; [exact I|].
  change (dedup (a :: b :: r)) with (if N.eqb a b then dedup (b :: r) else a :: dedup (b :: r)).
  destruct (N.eqb_spec a b) as [->|H]; [assumption|]. destruct (dedup_head b r) as [r' E]. rewrite E in *. split; assumption.
Qed.

Section Facts.
Context {A : Arith}.
Variable sort : list (Z * N) -> list (Z * N).
Hypothesis Hsort : sort_ok sort.
Implicit Types (m : Mesh A) (l : Layer A) (v : Vertex A).

(** sorted by [key] *)
Definition sorted_by (key : N -> res Z) (ps : list N) : Prop :=
  exists ks, Forall2 (fun p k => key p = Ok k) ps ks /\ StronglySorted Z.le ks.

Lemma sort_by_key_spec key ps s : sort_by_key sort key ps = Ok s ->
  Permutation ps s /\ ((2 <= length ps)%nat -> sorted_by key s).
Proof.
  unfold sort_by_key. destruct ps as [|a [|b r]]; intro H.
  - injection H as <-. split; [constructor|simpl; lia].
  - injection H as <-. split; [reflexivity|simpl; lia].
  - inv_bind H. injection H as <-. rename a0 into ks. set (ps := a :: b :: r) in *.
    destruct (Hsort ks) as [Hp Hs]. apply mapM_Ok in E.
    assert (Em : map snd ks = ps).
    { clear -E. induction E; [reflexivity|]. inv_bind H. injection H as <-. simpl. now rewrite IHE. }
    assert (Hk : forall kp, In kp ks -> key (snd kp) = Ok (fst kp)).
    { clear -E. induction E; intros kp Hi; [destruct Hi|]. destruct Hi as [<-|Hi]; [|now apply IHE]. inv_bind H. injection H as <-. assumption. }
    split; [rewrite <- Em; now apply Permutation_map|]. intros _. exists (map fst (sort ks)). split.
    + assert (forall xs : list (Z * N), incl xs ks -> Forall2 (fun p k => key p = Ok k) (map snd xs) (map fst xs)) as G.
      { induction xs as [|x xs IH]; intro Hi; simpl; constructor; [apply Hk, Hi; now left|apply IH; intros y Hy; apply Hi; now right]. }
      apply G. intros x Hx. eapply Permutation_in; [symmetry; exact Hp|assumption].
    + clear -Hs. induction Hs; simpl; constructor; [assumption|]. rewrite Forall_map. exact H.
Qed.

Lemma sort_by_key_total key ps : (forall p, In p ps -> exists k, key p = Ok k) -> exists s, sort_by_key sort key ps = Ok s.
Proof.
  intro H. unfold sort_by_key. destruct ps as [|a [|b r]]; eauto.
  destruct (mapM_total (fun p => let* k := key p in Ok (k, p)) (a :: b :: r)) as [ks ->]; [|simpl; eauto].
  intros p Hp. destruct (H p Hp) as [k ->]. simpl. eauto.
Qed.

(** *** The hole test *)
Lemma after_near_found l vc vs w : after_near l vc true vs = Ok w -> w = hd_error vs.
Proof. destruct vs; simpl; congruence. Qed.
Lemma after_near_spec l vc : forall vs o, after_near l vc false vs = Ok o ->
  match o with
  | Some w => exists pre u post, vs = pre ++ u :: w :: post /\ near l vc u /\ forall x, In x pre -> ~ near l vc x
  | None => forall pre u w post, vs = pre ++ u :: w :: post -> ~ near l vc u
  end.
Proof.
  induction vs as [|x r IH]; intros o H.
  - injection H as <-. intros pre u w post E. destruct pre; discriminate.
  - cbn [after_near] in H. inv_bind H. apply index_Ok in E.
    destruct (flt (vdist2 (vadd (coords a) (offset l)) vc) (flit 1 10000)) eqn:En.
    + assert (Hn : near l vc x) by (exists a; split; [assumption|exact En]).
      apply after_near_found in H. subst o. destruct r as [|w r]; simpl.
      * intros pre u w post Eq. destruct pre as [|? [|? ?]]; discriminate.
      * exists [], x, r. split; [reflexivity|]. split; [assumption|]. intros ? [].
    + assert (Hn : ~ near l vc x).
      { intros (v & Ev & Hv). assert (v = a) by congruence. subst. unfold world in Hv. congruence. }
      apply IH in H. destruct o as [w|].
      * destruct H as (pre & u & post & -> & Hu & Hp). exists (x :: pre), u, post. split; [reflexivity|]. split; [assumption|].
        intros y [<-|Hy]; auto.
      * intros pre u w post Eq. destruct pre as [|y pre]; [injection Eq as <- _; assumption|].
        injection Eq as _ Eq. eapply H; eassumption.
Qed.
Lemma after_near_total l vc : forall vs f, (forall x, In x vs -> exists v, nthN (vertices l) x = Some v) ->
  exists o, after_near l vc f vs = Ok o.
Proof.
  induction vs as [|x r IH]; intros f H; cbn [after_near]; [eauto|]. destruct f; [eauto|].
  destruct (H x (or_introl eq_refl)) as [v Ev]. apply index_Ok in Ev. rewrite Ev. cbn [bind]. apply IH. intros; apply H; now right.
Qed.

Lemma pre_uniq {T} (P : T -> Prop) pre u post pre' u' post' :
  pre ++ u :: post = pre' ++ u' :: post' -> P u -> P u' -> (forall x, In x pre -> ~ P x) -> (forall x, In x pre' -> ~ P x) ->
  pre = pre' /\ u = u' /\ post = post'.
Proof.
  revert pre'. induction pre as [|a pre IH]; intros [|b pre'] E Hu Hu' Hp Hp'; simpl in E.
  - injection E as <- <-. auto.
  - injection E as -> _. exfalso. apply (Hp' b); [now left|assumption].
  - injection E as <- _. exfalso. apply (Hp a); [now left|assumption].
  - injection E as <- E. destruct (IH pre' E Hu Hu') as (-> & -> & ->); auto.
    + intros; apply Hp; now right.
    + intros; apply Hp'; now right.
Qed.
Lemma next_near_fun l pos vs w w' : next_near l pos vs w -> next_near l pos vs w' -> w = w'.
Proof.
  intros (pre & u & post & E & Hu & Hp) (pre' & u' & post' & E' & Hu' & Hp'). rewrite E in E'.
  destruct (pre_uniq (near l pos) _ _ _ _ _ _ E' Hu Hu' Hp Hp') as (_ & _ & E2). now injection E2 as -> _.
Qed.

Lemma polygon_of_Ok m id l p : polygon_of m id = Ok (l, p) <-> polygon_at m id l p.
Proof.
  unfold polygon_of, polygon_at. split.
  - intro H. inv_bind H. inv_bind H. injection H as <- <-. split; now apply index_Ok.
  - intros [H1 H2]. apply index_Ok in H1, H2. rewrite H1. cbn [bind]. rewrite H2. reflexivity.
Qed.

Lemma gap_spec m vc a b g : gap m vc a b = Ok g -> (g = false <-> glued m vc a b).
Proof.
  unfold gap. intro H. inv_bind H. destruct a0 as [la pa]. apply polygon_of_Ok in E. inv_bind H. rename a0 into lb.
  apply index_Ok in E0. cbn [fst snd] in *. inv_bind H. apply after_near_spec in E1. destruct a0 as [w0|].
  2:{ injection H as <-. split; [discriminate|]. intros (la' & pa' & lb' & pb' & w0 & w1 & v0 & v1 & Ha & _ & Hn & _).
      exfalso. destruct E as [E E']. destruct Ha as [Ha Ha']. assert (la' = la) by congruence. subst. assert (pa' = pa) by congruence. subst.
      destruct Hn as (pre & u & post & Eq & Hu & _). eapply E1; eassumption. }
  inv_bind H. rename a0 into pb. apply index_Ok in E2. inv_bind H. apply after_near_spec in E3. destruct a0 as [w1|].
  2:{ injection H as <-. split; [discriminate|]. intros (la' & pa' & lb' & pb' & w0' & w1 & v0 & v1 & _ & Hb & _ & Hn & _).
      exfalso. destruct Hb as [Hb Hb']. assert (lb' = lb) by congruence. subst. assert (pb' = pb) by congruence. subst.
      destruct Hn as (pre & u & post & Eq & Hu & _). eapply E3; eassumption. }
  inv_bind H. rename a0 into v0. inv_bind H. rename a0 into v1. apply index_Ok in E4, E5. injection H as <-.
  assert (N0 : next_near la vc (rev (pverts pa)) w0) by exact E1. assert (N1 : next_near lb vc (pverts pb) w1) by exact E3.
  rewrite negb_false_iff. split.
  - intro Hv. exists la, pa, lb, pb, w0, w1, v0, v1. repeat split; try assumption; apply E.
  - intros (la' & pa' & lb' & pb' & w0' & w1' & v0' & v1' & [Ha Ha'] & [Hb Hb'] & Hn0 & Hn1 & G0 & G1 & Hv).
    destruct E as [E E']. assert (la' = la) by congruence. subst. assert (pa' = pa) by congruence. subst.
    assert (lb' = lb) by congruence. subst. assert (pb' = pb) by congruence. subst.
    assert (w0' = w0) by (eapply next_near_fun; eassumption). assert (w1' = w1) by (eapply next_near_fun; eassumption). subst.
    assert (v0' = v0) by congruence. assert (v1' = v1) by congruence. subst. exact Hv.
Qed.

(** *** The new neighbours of a vertex *)
Lemma cyclic_pairs_fst (ps : list N) : map fst (cyclic_pairs ps) = ps.
Proof.
  destruct ps as [|a r]; [reflexivity|]. unfold cyclic_pairs. rewrite map_app. cbn [map fst].
  revert a. induction r as [|b r IH]; intro a; [reflexivity|].
  change (windows2 (a :: b :: r)) with ((a, b) :: windows2 (b :: r)). cbn [map fst app]. f_equal.
  rewrite <- (IH b) at 3. f_equal. f_equal. destruct r; [reflexivity|]. clear. revert n b.
  induction r; intros; [reflexivity|]. simpl in *. destruct r; auto.
Qed.

(** the list [ps] with the marker inserted after each element followed by a hole *)
Definition with_markers (h : N * N -> bool) (ps : list N) : list N :=
  flat_map (fun ab => if h ab then [fst ab; MAX] else [fst ab]) (cyclic_pairs ps).

Definition new_neighbours m (pos : vec2 A) (old new : list N) : Prop :=
  exists s, Permutation (filter (fun p => negb (N.eqb p MAX)) old) s /\
    ((2 <= length s)%nat -> sorted_by (angle_key m pos) s) /\
    ((s = [] /\ new = [MAX]) \/
     (exists first r, dedup s = first :: r /\ last r first = first /\ new = dedup s ++ [MAX]) \/
     (exists first r h, dedup s = first :: r /\ last r first <> first /\
        (forall a b, In (a, b) (cyclic_pairs (dedup s)) -> (h (a, b) = false <-> glued m pos a b)) /\
        new = with_markers h (dedup s))).

Lemma reorder_vertex_spec m l v new : reorder_vertex sort m l v = Ok new -> new_neighbours m (world l v) (vpolys v) new.
Proof.
  unfold reorder_vertex. intro H. inv_bind H. rename a into s. fold (world l v) in *.
  destruct (sort_by_key_spec _ _ _ E) as [Hp Hs]. exists s. split; [assumption|].
  split; [intro; apply Hs; rewrite (Permutation_length Hp); assumption|].
  destruct (dedup s) as [|first r] eqn:Ed.
  - left. apply (proj1 (dedup_nil s)) in Ed. injection H as <-. auto.
  - destruct (N.eqb_spec first (last r first)) as [El|El].
    + right; left. exists first, r. injection H as <-. auto.
    + right; right. inv_bind H. injection H as <-. rename a into ls. apply mapM_Ok in E0.
      exists first, r, (fun ab => match gap m (world l v) (fst ab) (snd ab) with Ok g => g | _ => true end).
      split; [reflexivity|]. split; [congruence|]. split.
      * intros a b Hab. cbn [fst snd].
        assert (exists g, gap m (world l v) a b = Ok g) as [g Hg].
        { clear -E0 Hab. induction E0; [destruct Hab|]. destruct Hab as [->|Hab]; [|now apply IHE0]. inv_bind H. cbn [fst snd] in E. eauto. }
        rewrite Hg. now apply gap_spec.
      * unfold with_markers. clear -E0. induction E0; [reflexivity|]. inv_bind H. injection H as <-. simpl. rewrite E. now rewrite IHE0.
Qed.

Lemma with_markers_In h ps x : x <> MAX -> (In x (with_markers h ps) <-> In x ps).
Proof.
  intro Hx. unfold with_markers. rewrite <- (cyclic_pairs_fst ps) at 2. rewrite in_flat_map, in_map_iff.
  split; intros (ab & H1 & H2); exists ab.
  - split; [|assumption]. destruct (h ab); simpl in H2; intuition congruence.
  - split; [assumption|]. destruct (h ab); simpl; auto.
Qed.
Lemma new_neighbours_In m pos old new x : new_neighbours m pos old new -> x <> MAX -> (In x new <-> In x old).
Proof.
  intros (s & Hp & _ & H) Hx.
  assert (Hs : In x s <-> In x old).
  { split; intro G.
    - apply Permutation_sym in Hp. eapply Permutation_in in G; [|exact Hp]. apply filter_In in G. apply G.
    - eapply Permutation_in; [exact Hp|]. apply filter_In. split; [assumption|]. destruct (N.eqb_spec x MAX); [contradiction|reflexivity]. }
  rewrite <- Hs. destruct H as [(-> & ->)|[(f & r & E & _ & ->)|(f & r & h & E & _ & _ & ->)]].
  - simpl. intuition congruence.
  - rewrite in_app_iff, dedup_In. simpl. intuition congruence.
  - rewrite with_markers_In by assumption. apply dedup_In.
Qed.

(** *** The whole mesh *)
Lemma Forall2_nthN {S T} (P : S -> T -> Prop) xs ys : Forall2 P xs ys -> forall i x, nthN xs i = Some x -> exists y, nthN ys i = Some y /\ P x y.
Proof.
  induction 1; intros i z Hz; [discriminate|]. simpl in *. destruct (N.eqb i 0); [|now apply IHForall2].
  injection Hz as <-. eauto.
Qed.
Lemma Forall2_nthN_r {S T} (P : S -> T -> Prop) xs ys : Forall2 P xs ys -> forall i y, nthN ys i = Some y -> exists x, nthN xs i = Some x /\ P x y.
Proof.
  induction 1; intros i z Hz; [discriminate|]. simpl in *. destruct (N.eqb i 0); [|now apply IHForall2].
  injection Hz as <-. eauto.
Qed.

Definition layer_reordered m l l' : Prop :=
  polygons l' = polygons l /\ offset l' = offset l /\ baked l' = baked l /\ islands l' = islands l /\
  Forall2 (fun v v' => coords v' = coords v /\ is_corner v' = memN MAX (vpolys v') /\
                       new_neighbours m (world l v) (vpolys v) (vpolys v')) (vertices l) (vertices l').

Lemma reorder_spec m m' : reorder sort m = Ok m' ->
  search_delta m' = search_delta m /\ search_steps m' = search_steps m /\ Forall2 (layer_reordered m) (layers m) (layers m').
Proof.
  unfold reorder. intro H. inv_bind H. injection H as <-. cbn [search_delta search_steps layers]. split; [reflexivity|]. split; [reflexivity|].
  apply mapM_Ok in E. induction E; constructor; [|assumption]. inv_bind H. injection H as <-. unfold layer_reordered.
  cbn [polygons offset baked islands vertices]. repeat split. apply mapM_Ok in E0.
  clear -E0 Hsort. induction E0; constructor; [|assumption]. inv_bind H. injection H as <-. cbn [coords vpolys is_corner].
  split; [reflexivity|]. split; [reflexivity|]. now apply reorder_vertex_spec.
Qed.

Lemma vertex_at_fun m li vi v v' : vertex_at m li vi v -> vertex_at m li vi v' -> v = v'.
Proof. intros (l & H1 & H2) (l' & H1' & H2'). assert (l = l') by congruence. subst. congruence. Qed.

Lemma reorder_vertices m m' : reorder sort m = Ok m' ->
  same_geometry m m' /\
  forall li vi v', vertex_at m' li vi v' -> exists l v, nthN (layers m) li = Some l /\ nthN (vertices l) vi = Some v /\
    is_corner v' = memN MAX (vpolys v') /\ new_neighbours m (world l v) (vpolys v) (vpolys v').
Proof.
  intro H. apply reorder_spec in H. destruct H as (H1 & H2 & H). split.
  - repeat split; try assumption. clear -H. induction H; constructor; auto. destruct H as (G1 & G2 & G3 & G4 & G5).
    repeat split; try assumption. clear -G5. induction G5; constructor; auto. apply H.
  - intros li vi v' (l' & Hl' & Hv'). destruct (Forall2_nthN_r _ _ _ H _ _ Hl') as (l & Hl & _ & _ & _ & _ & G).
    destruct (Forall2_nthN_r _ _ _ G _ _ Hv') as (v & Hv & _ & Hc & Hn). exists l, v. auto.
Qed.

(** *** No panic on a consistent mesh *)
Lemma polygon_of_wf m id : mesh_wf m -> (exists l p, polygon_at m id l p) ->
  exists l p, polygon_of m id = Ok (l, p) /\ polygon_at m id l p /\ forall x, In x (pverts p) -> exists v, nthN (vertices l) x = Some v.
Proof.
  intros [Hw _] (l & p & H). exists l, p. split; [now apply polygon_of_Ok|]. split; [assumption|].
  intros x Hx. apply nthN_lt_Some. eapply (Hw l); [eapply nthN_In; apply H|eapply nthN_In; apply H|assumption].
Qed.
Lemma angle_key_total m vc id : mesh_wf m -> (exists l p, polygon_at m id l p) -> exists k, angle_key m vc id = Ok k.
Proof.
  intros Hw Hp. destruct (polygon_of_wf m id Hw Hp) as (l & p & E & _ & Hv). unfold angle_key. rewrite E. cbn [bind fst snd].
  destruct (mapM_total (index (vertices l)) (pverts p)) as [vs ->]; [|cbn [bind]; eauto].
  intros x Hx. destruct (Hv x Hx) as [v Ev]. exists v. now apply index_Ok.
Qed.
Lemma after_near_In l vc : forall vs f w, after_near l vc f vs = Ok (Some w) -> In w vs.
Proof.
  induction vs as [|x r IH]; intros f w H; cbn [after_near] in H; [discriminate|]. destruct f; [injection H as <-; now left|].
  inv_bind H. right. eapply IH; eassumption.
Qed.
Lemma gap_total m vc a b : mesh_wf m -> (exists l p, polygon_at m a l p) -> (exists l p, polygon_at m b l p) -> exists g, gap m vc a b = Ok g.
Proof.
  intros Hw Ha Hb. destruct (polygon_of_wf m a Hw Ha) as (la & pa & Ea & _ & Hva). destruct (polygon_of_wf m b Hw Hb) as (lb & pb & _ & [Hlb Hpb] & Hvb).
  unfold gap. rewrite Ea. cbn [bind fst snd]. apply index_Ok in Hlb, Hpb. rewrite Hlb. cbn [bind].
  destruct (after_near_total la vc (rev (pverts pa) ++ rev (pverts pa)) false) as [o Ho].
  { intros x Hx. apply Hva. rewrite in_app_iff, <- !in_rev in Hx. tauto. }
  rewrite Ho. cbn [bind]. destruct o as [w0|]; [|eauto]. rewrite Hpb. cbn [bind].
  destruct (after_near_total lb vc (pverts pb ++ pverts pb) false) as [o Ho'].
  { intros x Hx. apply Hvb. rewrite in_app_iff in Hx. tauto. }
  rewrite Ho'. cbn [bind]. destruct o as [w1|]; [|eauto].
  apply after_near_In in Ho, Ho'. rewrite in_app_iff, <- !in_rev in Ho. rewrite in_app_iff in Ho'.
  destruct (Hva w0) as [v0 E0]; [tauto|]. destruct (Hvb w1) as [v1 E1]; [tauto|]. apply index_Ok in E0, E1.
  rewrite E0. cbn [bind]. rewrite E1. cbn [bind]. eauto.
Qed.
Lemma windows2_In (ps : list N) a b : In (a, b) (windows2 ps) -> In a ps /\ In b ps.
Proof.
  induction ps as [|x r IH]; [intros []|]. destruct r as [|y r]; [intros []|].
  change (windows2 (x :: y :: r)) with ((x, y) :: windows2 (y :: r)). intros [E|H].
  - injection E as <- <-. split; [now left|right; now left].
  - destruct (IH H). split; now right.
Qed.
Lemma last_In {T} (r : list T) d : In (last r d) (d :: r).
Proof.
  revert d. induction r as [|x r IH]; intro d; [now left|]. destruct r as [|y r]; [right; now left|].
  change (last (x :: y :: r) d) with (last (y :: r) d). specialize (IH d). destruct IH as [<-|H]; [now left|right; now right].
Qed.
Lemma cyclic_pairs_In (ps : list N) a b : In (a, b) (cyclic_pairs ps) -> In a ps /\ In b ps.
Proof.
  destruct ps as [|x r]; [intros []|]. unfold cyclic_pairs. rewrite in_app_iff. intros [H|[H|[]]]; [now apply windows2_In|].
  injection H as <- <-. split; [apply last_In|now left].
Qed.
Lemma reorder_vertex_total m l v : mesh_wf m -> (forall id, In id (vpolys v) -> id <> MAX -> exists l' p, polygon_at m id l' p) ->
  exists new, reorder_vertex sort m l v = Ok new.
Proof.
  intros Hw Hid. unfold reorder_vertex.
  destruct (sort_by_key_total (angle_key m (vadd (coords v) (offset l))) (filter (fun p => negb (N.eqb p MAX)) (vpolys v))) as [s Hs].
  { intros p Hp. apply filter_In in Hp. destruct Hp as [Hp Hm]. apply angle_key_total; [assumption|]. apply Hid; [assumption|].
    destruct (N.eqb_spec p MAX); [discriminate|assumption]. }
  rewrite Hs. cbn [bind]. destruct (dedup s) as [|first r] eqn:Ed; [eauto|].
  destruct (N.eqb first (last r first)); [eauto|].
  destruct (mapM_total (fun ab => let* g := gap m (vadd (coords v) (offset l)) (fst ab) (snd ab) in
                                  Ok (if g then [fst ab; MAX] else [fst ab])) (cyclic_pairs (first :: r))) as [ls ->]; [|cbn [bind]; eauto].
  assert (Hin : forall x, In x (first :: r) -> exists l' p, polygon_at m x l' p).
  { intros x Hx. rewrite <- Ed, dedup_In in Hx. apply sort_by_key_spec in Hs. destruct Hs as [Hs _].
    apply Permutation_sym in Hs. eapply Permutation_in in Hx; [|exact Hs]. apply filter_In in Hx. destruct Hx as [Hx Hm].
    apply Hid; [assumption|]. destruct (N.eqb_spec x MAX); [discriminate|assumption]. }
  intros [a b] Hab. apply cyclic_pairs_In in Hab. cbn [fst snd].
  destruct (gap_total m (vadd (coords v) (offset l)) a b Hw) as [g ->]; [apply Hin, Hab|apply Hin, Hab|]. cbn [bind]. eauto.
Qed.
Lemma reorder_total m : mesh_wf m -> exists m', reorder sort m = Ok m'.
Proof.
  intro Hw. unfold reorder.
  match goal with |- exists m', (let* ls := mapM ?f _ in _) = Ok m' => destruct (mapM_total f (layers m)) as [ls ->]; [|cbn [bind]; eauto] end.
  intros l Hl.
  match goal with |- exists b, (let* vs := mapM ?f _ in _) = Ok b => destruct (mapM_total f (vertices l)) as [vs ->]; [|cbn [bind]; eauto] end.
  intros v Hv. destruct (reorder_vertex_total m l v Hw) as [new ->]; [|cbn [bind]; eauto].
  intros id Hid Hm. apply (proj2 Hw l v id); assumption.
Qed.

End Facts.
