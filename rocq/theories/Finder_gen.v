(** The polygon finder in any arithmetic: if a polygon that contains a position always has it in its bounding box, the finder does not
    change the answers. *)
From Coq Require Import List NArith ZArith Bool Lia.
From Verif Require Import Base Arith U32 Mesh Helpers Locate Bake StdLib Spec Locate_facts Properties_locate Properties_contain.
Import ListNotations.
Open Scope N_scope.

Section Finder.
Context {A : Arith} (bvh : list (vec2 A * vec2 A) -> vec2 A -> list N) (Hbvh : bvh_ok bvh).

(** every polygon of the layer that contains [x] has it in its bounding box *)
Definition boxed (l : Layer A) (x : vec2 A) : Prop :=
  forall p, In p (polygons l) -> contains l p x -> box_contains (polygon_aabb (vertices l) p) x = true.

Lemma baked_loc_gen (l : Layer A) x : boxed l x -> (forall p, In p (polygons l) -> pverts p <> []) -> small_layer l ->
  exists k, loc_any bvh (bake_polygon_finder l) x = Ok k /\
    (k = MAX -> forall k p, nthN (polygons l) k = Some p -> ~ contains l p x).
Proof using Hbvh.
  intros Hr Hne Hs. unfold loc_any, loc_unit_baked. cbn [baked bake_polygon_finder polygons].
  set (boxes := map (polygon_aabb (vertices l)) (polygons l)).
  destruct (Hbvh boxes x) as [H1 H2].
  destruct (findM_total (fun i => let* poly := index (polygons l) i in point_in_polygon (bake_polygon_finder l) x poly)
     (bvh boxes x)) as [o Ho].
  { intros i Hi. apply H2 in Hi. unfold boxes, lengthN in Hi. rewrite map_length in Hi.
    destruct (nthN_lt_Some (polygons l) i Hi) as [p Hp]. unfold index. rewrite Hp. cbn [unwrap bind].
    destruct (point_in_polygon_spec (bake_polygon_finder l) x p (Hne p (nthN_In _ _ _ Hp))) as (b & Hb & _). eauto. }
  rewrite Ho. cbn [bind]. eexists. split; [reflexivity|]. destruct o as [i|].
  - intros ->. apply findM_Some in Ho. destruct Ho as (l1 & l2 & E & Hp & _). inv_bind Hp. apply index_Ok, nthN_Some_lt in E0.
    unfold small_layer in Hs. unfold MAX in E0. exfalso. lia.
  - intros _ k p Hk Hc. pose proof (proj1 (findM_None _ _) Ho k) as Hf.
    assert (In k (bvh boxes x)) as Hin.
    { apply (H1 k (polygon_aabb (vertices l) p)).
      - unfold boxes. rewrite nthN_nth_error in Hk. rewrite nthN_nth_error, nth_error_map, Hk. reflexivity.
      - apply Hr; [now apply nthN_In in Hk|exact Hc]. }
    specialize (Hf Hin). unfold index in Hf. rewrite Hk in Hf. cbn [unwrap bind] in Hf.
    apply point_in_polygon_false in Hf. apply Hf. exact Hc.
Qed.
Lemma layer_same_gen (l : Layer A) x : boxed l x -> (forall p, In p (polygons l) -> pverts p <> []) -> small_layer l ->
  baked l = None ->
  exists k k', loc_any bvh l x = Ok k /\ loc_any bvh (bake_polygon_finder l) x = Ok k' /\ (k = MAX <-> k' = MAX) /\
    ((forall i j p q, nthN (polygons l) i = Some p -> nthN (polygons l) j = Some q ->
        contains l p x -> contains l q x -> i = j) -> k = k').
Proof using Hbvh.
  intros Hr Hne Hs Hb. destruct (loc_any_total bvh l x Hne Hb) as [k Hk]. destruct (baked_loc_gen l x Hr Hne Hs) as (k' & Hk' & Hn').
  pose proof (loc_any_none bvh l x Hb Hs) as Hn.
  assert (Hf : k <> MAX -> exists p, nthN (polygons l) k = Some p /\ contains l p x) by (intro; eapply loc_any_found; eauto).
  assert (Hf' : k' <> MAX -> exists p, nthN (polygons l) k' = Some p /\ contains l p x).
  { intro H. exact (loc_any_found bvh (bake_polygon_finder l) x k' Hk' H). }
  exists k, k'. split; [assumption|]. split; [assumption|].
  assert (HI : k = MAX <-> k' = MAX).
  { split; intros ->.
    - destruct (N.eq_dec k' MAX) as [|H]; [assumption|]. destruct (Hf' H) as (p & G1 & G2). exfalso. eapply (Hn Hk); eauto.
    - destruct (N.eq_dec k MAX) as [|H]; [assumption|]. destruct (Hf H) as (p & G1 & G2). exfalso. eapply (Hn' eq_refl); eauto. }
  split; [exact HI|]. intro HU. destruct (N.eq_dec k MAX) as [->|H].
  - symmetry. now apply HI.
  - destruct (Hf H) as (p & G1 & G2). assert (H' : k' <> MAX) by tauto. destruct (Hf' H') as (p' & G1' & G2'). eauto.
Qed.
Lemma probe_same_gen (l : Layer A) x ds : (forall d, In d ds -> boxed l (vadd x d)) -> (forall p, In p (polygons l) -> pverts p <> []) -> small_layer l -> baked l = None ->
  exists o o', probe_loop bvh l x ds = Ok o /\ probe_loop bvh (bake_polygon_finder l) x ds = Ok o' /\ (o = None <-> o' = None).
Proof using Hbvh.
  intros Hr Hne Hs Hb. revert Hr. induction ds as [|d r IH]; intro Hd; cbn [probe_loop].
  - exists None, None. repeat split.
  - destruct (layer_same_gen l (vadd x d) (Hd d (or_introl eq_refl)) Hne Hs Hb) as (k & k' & -> & -> & HI & _). cbn [bind].
    destruct (N.eqb_spec k MAX) as [E|E], (N.eqb_spec k' MAX) as [E'|E']; try tauto.
    + apply IH. intros; apply Hd; now right.
    + eexists _, _. split; [reflexivity|]. split; [reflexivity|]. split; discriminate.
Qed.
(** what a search of a layer returns, baked or not, is the number of a polygon *)
Lemma gpl_id_gen (m : Mesh A) i l o d x : mesh_small m -> nthN (layers m) i = Some l ->
  layer_get_point_location bvh l x d = Ok o ->
  match o with None => True | Some k => id_make (i mod 256) k <> MAX /\ id_layer (id_make (i mod 256) k) = i end.
Proof using Hbvh.
  intros Hm Hi H. destruct o as [k|]; [|exact I]. apply probe_loop_Some in H. destruct H as (_ & v & p & _ & Hk & _).
  destruct (id_make_polygon_at m i l k p Hm Hi Hk) as (_ & H2 & _ & H4). tauto.
Qed.
Lemma with_finder_small_gen (m : Mesh A) : mesh_small m -> mesh_small (with_finder m).
Proof using Hbvh.
  intros [H1 H2]. unfold with_finder. split; cbn [layers].
  - unfold lengthN in *. now rewrite map_length.
  - intros l Hl. apply in_map_iff in Hl. destruct Hl as (l0 & <- & Hl). exact (H2 l0 Hl).
Qed.
Lemma with_finder_nth_gen (m : Mesh A) i : nthN (layers (with_finder m)) i = option_map bake_polygon_finder (nthN (layers m) i).
Proof. unfold with_finder. cbn [layers]. rewrite !nthN_nth_error. apply nth_error_map. Qed.
Lemma gpl_id_gen' (m : Mesh A) i (l : Layer A) o d x : mesh_small m -> nthN (layers m) i = Some l ->
  layer_get_point_location bvh (bake_polygon_finder l) x d = Ok o ->
  match o with None => True | Some k => id_make (i mod 256) k <> MAX /\ id_layer (id_make (i mod 256) k) = i end.
Proof using Hbvh.
  intros Hs Hi E. eapply (gpl_id_gen (with_finder m)); [now apply with_finder_small_gen| |exact E].
  now rewrite with_finder_nth_gen, Hi.
Qed.

(** every position probed for [c] is boxed, in every layer the query is about *)
Definition finder_safe (m : Mesh A) (c : Coords A) : Prop :=
  forall li l v, queried m c li l -> probed (search_delta m) v -> boxed l (vadd (vsub (cpos c) (offset l)) v).
Definition good_mesh_gen (m : Mesh A) : Prop := mesh_small m /\ no_empty m /\ unbaked m.

Lemma good_layer_gen (m : Mesh A) i (l : Layer A) c : good_mesh_gen m -> (forall v, probed (search_delta m) v -> boxed l (vadd (vsub c (offset l)) v)) -> nthN (layers m) i = Some l -> exists o o',
  layer_get_point_location bvh l (vsub c (offset l)) (search_delta m) = Ok o /\
  layer_get_point_location bvh (bake_polygon_finder l) (vsub c (offset l)) (search_delta m) = Ok o' /\ (o = None <-> o' = None).
Proof using Hbvh.
  intros (Hs & Hne & Hu) Hp Hi. pose proof (nthN_In _ _ _ Hi) as Hl.
  apply probe_same_gen; [intros d Hd; apply Hp; now apply probes_probed|intros p; now apply Hne|exact (proj2 Hs l Hl)|now apply Hu].
Qed.

Lemma gpl_loop_same_gen (m : Mesh A) c : good_mesh_gen m -> forall ls, (forall i l, In (i, l) ls -> nthN (layers m) i = Some l) -> (forall i l, In (i, l) ls -> forall v, probed (search_delta m) v -> boxed l (vadd (vsub c (offset l)) v)) ->
  exists id id', gpl_loop bvh m c ls = Ok id /\
    gpl_loop bvh (with_finder m) c (map (fun ix => (fst ix, bake_polygon_finder (snd ix))) ls) = Ok id' /\
    (id = MAX <-> id' = MAX) /\ id_layer id = id_layer id'.
Proof using Hbvh.
  intros Hg. pose proof Hg as (Hs & Hne & Hu). induction ls as [|[i l] r IH]; intros Hls HP.
  - exists MAX, MAX. repeat split.
  - pose proof (Hls i l (or_introl eq_refl)) as Hi. cbn [gpl_loop map fst snd]. cbn [offset bake_polygon_finder].
    destruct (good_layer_gen m i l c Hg (HP i l (or_introl eq_refl)) Hi) as (o & o' & E & E' & HO). rewrite E. change (search_delta (with_finder m)) with (search_delta m).
    fold (bake_polygon_finder l). rewrite E'. cbn [bind].
    pose proof (gpl_id_gen m i l o _ _ Hs Hi E) as G.
    pose proof (gpl_id_gen' m i l o' _ _ Hs Hi E') as G'.
    destruct o as [k|], o' as [k'|]; try (exfalso; destruct HO as [HO1 HO2]; specialize (HO1 eq_refl) || specialize (HO2 eq_refl); discriminate).
    + destruct G as [G1 G2], G' as [G1' G2']. apply N.eqb_neq in G1. apply N.eqb_neq in G1'. rewrite G1, G1'.
      apply N.eqb_neq in G1. apply N.eqb_neq in G1'. eexists _, _. split; [reflexivity|]. split; [reflexivity|].
      split; [tauto|congruence].
    + apply IH; [intros; apply Hls; now right|intros i0 l0 H0; apply (HP i0 l0); now right].
Qed.
Lemma get_point_location_same_gen m c : good_mesh_gen m -> finder_safe m c ->
  exists id id', get_point_location bvh m c = Ok id /\ get_point_location bvh (with_finder m) c = Ok id' /\
    (id = MAX <-> id' = MAX) /\ id_layer id = id_layer id'.
Proof using Hbvh.
  intros Hg HP. pose proof Hg as (Hs & Hne & Hu). unfold get_point_location. destruct (clayer c) as [li|] eqn:Hcl.
  - rewrite with_finder_nth_gen. destruct (nthN (layers m) li) as [l|] eqn:Hi; cbn [option_map]; [|exists MAX, MAX; repeat split].
    destruct (good_layer_gen m li l (cpos c) Hg (fun v => HP li l v ltac:(split; [exact Hi|congruence])) Hi) as (o & o' & E & E' & HO).
    change (offset (bake_polygon_finder l)) with (offset l). change (search_delta (with_finder m)) with (search_delta m).
    rewrite E, E'. cbn [bind]. pose proof (gpl_id_gen m li l o _ _ Hs Hi E) as G.
    pose proof (gpl_id_gen' m li l o' _ _ Hs Hi E') as G'. destruct (nth_lt_256 _ _ _ Hs Hi) as [Hlt _].
    rewrite N.mod_small in G, G' by assumption.
    destruct o as [k|], o' as [k'|]; try (exfalso; destruct HO as [HO1 HO2]; specialize (HO1 eq_refl) || specialize (HO2 eq_refl); discriminate).
    + eexists _, _. split; [reflexivity|]. split; [reflexivity|]. split; [tauto|]. destruct G, G'. congruence.
    + exists MAX, MAX. repeat split.
  - unfold with_finder at 2. cbn [layers]. unfold enumerate. rewrite enumerate_map_fst. apply gpl_loop_same_gen; [assumption|intros i l H; now apply enumerate_spec|]. intros i l H v Hv. apply (HP i l); [|exact Hv]. split; [now apply enumerate_spec|rewrite Hcl; discriminate].
Qed.

(** point_in_mesh gives the same answer *)
Lemma point_in_mesh_same_gen (m : Mesh A) c : good_mesh_gen m -> finder_safe m c ->
  exists b, point_in_mesh bvh m c = Ok b /\ point_in_mesh bvh (with_finder m) c = Ok b.
Proof using Hbvh.
  intros Hg HP. destruct (get_point_location_same_gen m c Hg HP) as (id & id' & E & E' & HI & _).
  unfold point_in_mesh. rewrite E, E'. cbn [bind]. eexists. split; [reflexivity|]. do 2 f_equal.
  destruct (N.eqb_spec id MAX), (N.eqb_spec id' MAX); tauto.
Qed.
(** and get_point_layer finds the point in the same layers *)
Lemma gpls_loop_same_gen (m : Mesh A) c : good_mesh_gen m -> forall ls, (forall i l, In (i, l) ls -> nthN (layers m) i = Some l) -> (forall i l, In (i, l) ls -> forall v, probed (search_delta m) v -> boxed l (vadd (vsub c (offset l)) v)) ->
  exists ids ids', gpls_loop bvh m c ls = Ok ids /\
    gpls_loop bvh (with_finder m) c (map (fun ix => (fst ix, bake_polygon_finder (snd ix))) ls) = Ok ids' /\
    map id_layer ids = map id_layer ids'.
Proof using Hbvh.
  intros Hg. pose proof Hg as (Hs & Hne & Hu). induction ls as [|[i l] r IH]; intros Hls HP.
  - exists [], []. repeat split.
  - pose proof (Hls i l (or_introl eq_refl)) as Hi. cbn [gpls_loop map fst snd]. cbn [offset bake_polygon_finder].
    destruct (good_layer_gen m i l c Hg (HP i l (or_introl eq_refl)) Hi) as (o & o' & E & E' & HO). rewrite E. change (search_delta (with_finder m)) with (search_delta m).
    fold (bake_polygon_finder l). rewrite E'. cbn [bind].
    pose proof (gpl_id_gen m i l o _ _ Hs Hi E) as G.
    pose proof (gpl_id_gen' m i l o' _ _ Hs Hi E') as G'.
    destruct IH as (ids & ids' & -> & -> & HM); [intros; apply Hls; now right|intros i0 l0 H0; apply (HP i0 l0); now right|]. cbn [bind].
    destruct o as [k|], o' as [k'|]; try (exfalso; destruct HO as [HO1 HO2]; specialize (HO1 eq_refl) || specialize (HO2 eq_refl); discriminate).
    + destruct G as [G1 G2], G' as [G1' G2']. apply N.eqb_neq in G1. apply N.eqb_neq in G1'. rewrite G1, G1'.
      eexists _, _. split; [reflexivity|]. split; [reflexivity|]. cbn [map]. congruence.
    + eexists _, _. split; [reflexivity|]. split; [reflexivity|]. assumption.
Qed.
Lemma get_point_layer_same_gen (m : Mesh A) c : good_mesh_gen m -> finder_safe m c ->
  exists cs cs', get_point_layer bvh m c = Ok cs /\ get_point_layer bvh (with_finder m) c = Ok cs' /\
    map clayer cs = map clayer cs'.
Proof using Hbvh.
  intros Hg HP. pose proof Hg as (Hs & Hne & Hu).
  assert (exists ids ids', get_point_locations bvh m c = Ok ids /\ get_point_locations bvh (with_finder m) c = Ok ids' /\
    map id_layer ids = map id_layer ids') as (ids & ids' & E & E' & HM).
  { unfold get_point_locations. destruct (clayer c) as [li|] eqn:Hcl.
    - rewrite with_finder_nth_gen. destruct (nthN (layers m) li) as [l|] eqn:Hi; cbn [option_map]; [|exists [], []; repeat split].
      destruct (good_layer_gen m li l (cpos c) Hg (fun v => HP li l v ltac:(split; [exact Hi|congruence])) Hi) as (o & o' & E & E' & HO).
      change (offset (bake_polygon_finder l)) with (offset l). change (search_delta (with_finder m)) with (search_delta m).
      rewrite E, E'. cbn [bind]. pose proof (gpl_id_gen m li l o _ _ Hs Hi E) as G.
      pose proof (gpl_id_gen' m li l o' _ _ Hs Hi E') as G'. destruct (nth_lt_256 _ _ _ Hs Hi) as [Hlt _].
      rewrite N.mod_small in G, G' by assumption.
      destruct o as [k|], o' as [k'|]; try (exfalso; destruct HO as [HO1 HO2]; specialize (HO1 eq_refl) || specialize (HO2 eq_refl); discriminate).
      + eexists _, _. split; [reflexivity|]. split; [reflexivity|]. cbn [map]. destruct G, G'. congruence.
      + exists [], []. repeat split.
    - unfold with_finder at 2. cbn [layers]. unfold enumerate. rewrite enumerate_map_fst. apply gpls_loop_same_gen; [assumption|intros i l H; now apply enumerate_spec|]. intros i l H v Hv. apply (HP i l); [|exact Hv]. split; [now apply enumerate_spec|rewrite Hcl; discriminate]. }
  unfold get_point_layer. rewrite E, E'. cbn [bind]. eexists _, _. split; [reflexivity|]. split; [reflexivity|].
  rewrite !map_map. cbn [clayer]. rewrite <- (map_map id_layer Some ids), <- (map_map id_layer Some ids'). now rewrite HM.
Qed.
End Finder.
