(** Theorems for C03, C04, C07, C09, C19 (queries), C50: point location and closest points. *)
From Coq Require Import List NArith ZArith Bool Lia Sorted.
From Verif Require Import Base Arith F32 U32 Mesh Helpers Locate Search StdLib Spec Locate_facts Closest_facts
  Search_facts Search_props F32_facts Checkers Tests.
Import ListNotations.
Open Scope N_scope.

Section Any.
Context {A : Arith}.
Implicit Types (m : Mesh A) (c : Coords A) (bvh : list (vec2 A * vec2 A) -> vec2 A -> list N) (lib : Lib A).

(** ** C03: answers are sound, baked or not, whatever the polygon finder returns *)

(** "The point is in the mesh": some existing polygon of a queried layer contains the point or one of its eight
    neighbours at distance search_delta. *)
Theorem C03_point_in_mesh_sound bvh m c :
  mesh_small m -> point_in_mesh bvh m c = Ok true ->
  exists li l k, queried m c li l /\ layer_near l (search_delta m) (cpos c) k.
Proof.
  intros Hm H. unfold point_in_mesh in H. inv_bind H. inversion H as [H1]. apply negb_true_iff, N.eqb_neq in H1.
  destruct (get_point_location_found bvh m c a Hm E H1) as (l & p & [H2 H3] & H4 & H5).
  exists (id_layer a), l, (id_polygon a). split; [|assumption]. split; [assumption|]. intros x Hx. symmetry. now apply H5.
Qed.

Lemma get_point_locations_spec bvh m c ids :
  mesh_small m -> get_point_locations bvh m c = Ok ids ->
  StronglySorted N.lt (map id_layer ids) /\
  (forall id, In id ids -> exists l p, polygon_at m id l p /\ queried m c (id_layer id) l /\
       layer_near l (search_delta m) (cpos c) (id_polygon id)) /\
  (unbaked m -> forall i l k, queried m c i l -> layer_near l (search_delta m) (cpos c) k -> In i (map id_layer ids)).
Proof.
  intros Hm H. unfold get_point_locations, queried in *. destruct (clayer c) as [li|] eqn:EL.
  - destruct (nthN (layers m) li) as [l|] eqn:El.
    + inv_bind H. destruct (nth_lt_256 _ _ _ Hm El) as [Hlt Hsm]. destruct a as [k|]; inversion H; subst; clear H.
      * pose proof (layer_gpl_Some _ _ _ _ _ E) as HN. pose proof HN as (p & v & Hk & _).
        destruct (id_make_polygon_at m li l k p Hm El Hk) as (G1 & G2 & G3 & G4). rewrite N.mod_small in * by assumption.
        split; [simpl; repeat constructor|]. split.
        -- intros id [<-|[]]. exists l, p. split; [assumption|]. rewrite G2, G3. split; [|assumption].
           split; [assumption|]. congruence.
        -- intros _ i l0 k0 [Hi Hc] _. left. rewrite G2. now apply Hc.
      * split; [constructor|]. split; [intros ? []|]. intros Hu i l0 k0 [Hi Hc] Hn.
        rewrite <- (Hc li eq_refl) in Hi. assert (l0 = l) by congruence. subst.
        eapply layer_gpl_None; [| |exact E|exact Hn]; [|assumption]. apply Hu. eapply nthN_In; eauto.
    + inversion H; subst. split; [constructor|]. split; [intros ? []|].
      intros _ i l0 k0 [Hi Hc] _. rewrite <- (Hc li eq_refl) in Hi. congruence.
  - destruct (gpls_loop_spec bvh m (cpos c) Hm (enumerate (layers m)) 0 ids) as (H1 & H2 & H3);
      [reflexivity|assumption|]. split; [assumption|]. split.
    + intros id Hid. destruct (H2 id Hid) as (_ & l & p & Hp & Hn). exists l, p. split; [assumption|].
      split; [|assumption]. split; [apply Hp|discriminate].
    + intros Hu i l k [Hi _] Hn. eapply H3; eauto. lia.
Qed.

(** Each answer of get_point_layer keeps the position and names an existing polygon (of the named layer) near it. *)
Theorem C03_get_point_layer_sound bvh m c cs c' :
  mesh_small m -> get_point_layer bvh m c = Ok cs -> In c' cs ->
  exists li l p, cpos c' = cpos c /\ clayer c' = Some li /\ queried m c li l /\
    polygon_at m (cpoly c') l p /\ id_layer (cpoly c') = li /\
    layer_near l (search_delta m) (cpos c) (id_polygon (cpoly c')).
Proof.
  intros Hm H Hin. unfold get_point_layer in H. inv_bind H. inversion H; subst; clear H.
  destruct (get_point_locations_spec bvh m c a Hm E) as (_ & H2 & _).
  apply in_map_iff in Hin. destruct Hin as (id & <- & Hid). simpl.
  destruct (H2 id Hid) as (l & p & G1 & G2 & G3). exists (id_layer id), l, p. auto 10.
Qed.

(** ** C04: and complete on an unbaked mesh (baked: C05) *)
Theorem C04_point_in_mesh_iff bvh m c :
  mesh_small m -> unbaked m -> no_empty m ->
  exists b, point_in_mesh bvh m c = Ok b /\
    (b = true <-> exists li l k, queried m c li l /\ layer_near l (search_delta m) (cpos c) k).
Proof.
  intros Hm Hu Hne. destruct (get_point_location_total bvh m c Hne Hu) as [id Hid].
  unfold point_in_mesh. rewrite Hid. cbn [bind]. eexists. split; [reflexivity|]. split.
  - intro H. apply (C03_point_in_mesh_sound bvh m c Hm). unfold point_in_mesh. rewrite Hid. cbn [bind]. now rewrite H.
  - intros (li & l & k & [H1 H2] & H3). apply negb_true_iff, N.eqb_neq. intros ->.
    eapply (get_point_location_none bvh m c Hm Hu Hid li l k); eauto.
Qed.

Lemma gpls_loop_total bvh m (pt : vec2 A) ls :
  (forall i l, In (i, l) ls -> In l (layers m)) -> no_empty m -> unbaked m -> exists ids, gpls_loop bvh m pt ls = Ok ids.
Proof.
  intros Hls Hne Hu. induction ls as [|[i l] r IH]; simpl; [eauto|].
  pose proof (Hls _ _ (or_introl eq_refl)) as Hl. unfold layer_get_point_location.
  destruct (probe_loop_total bvh l (vsub pt (offset l)) (probes (search_delta m))) as [o ->].
  - intros p Hp. eapply Hne; eauto.
  - now apply Hu.
  - cbn [bind]. destruct IH as [ids ->]; [intros; eapply Hls; right; eauto|]. cbn [bind]. eauto.
Qed.

(** get_point_layer lists exactly the layers near the point, in increasing order, once each. *)
Theorem C04_get_point_layer_iff bvh m c :
  mesh_small m -> unbaked m -> no_empty m ->
  exists cs, get_point_layer bvh m c = Ok cs /\
    (exists lis, map (fun c' => clayer c') cs = map Some lis /\ StronglySorted N.lt lis) /\
    (forall li l, nthN (layers m) li = Some l ->
       ((exists c', In c' cs /\ clayer c' = Some li) <->
        queried m c li l /\ exists k, layer_near l (search_delta m) (cpos c) k)).
Proof.
  intros Hm Hu Hne.
  assert (exists ids, get_point_locations bvh m c = Ok ids) as [ids Hids].
  { unfold get_point_locations. destruct (clayer c) as [li|].
    - destruct (nthN (layers m) li) as [l|] eqn:El; [|eauto]. unfold layer_get_point_location.
      apply nthN_In in El.
      destruct (probe_loop_total bvh l (vsub (cpos c) (offset l)) (probes (search_delta m))) as [o ->].
      + intros p Hp. eapply Hne; eauto.
      + now apply Hu.
      + cbn [bind]. eauto.
    - apply gpls_loop_total; auto. intros i l H. apply enumerate_spec in H. eapply nthN_In; eauto. }
  destruct (get_point_locations_spec bvh m c ids Hm Hids) as (H1 & H2 & H3).
  unfold get_point_layer. rewrite Hids. cbn [bind]. eexists. split; [reflexivity|]. split.
  - exists (map id_layer ids). split; [|assumption]. rewrite !map_map. reflexivity.
  - intros li l Hli. split.
    + intros (c' & Hin & Hc'). apply in_map_iff in Hin. destruct Hin as (id & <- & Hid). simpl in Hc'.
      inversion Hc'; subst. destruct (H2 id Hid) as (l' & p & [G1 _] & G2 & G3).
      assert (l' = l) by congruence. subst. split; [assumption|]. eauto.
    + intros [Hq [k Hk]]. specialize (H3 Hu li l k Hq Hk). apply in_map_iff in H3.
      destruct H3 as (id & Hid & Hin). eexists. split; [apply in_map_iff; exists id; split; [reflexivity|exact Hin]|].
      simpl. now rewrite Hid.
Qed.

(** ** C07: get_closest_point *)

(** A returned point is a sample of the circle of radius search_delta * step around the query, for a step below
    search_steps, contained in the polygon it names; on an unbaked mesh no smaller circle has a sample in the mesh. *)
Theorem C07_closest_point_sound bvh m c c' :
  mesh_small m -> get_closest_point bvh m c = Ok (Some c') ->
  exists step i li l p,
    step < search_steps m /\ i <= 10 * step /\ queried m c li l /\
    clayer c' = Some li /\ polygon_at m (cpoly c') l p /\ id_layer (cpoly c') = li /\
    contains l p (circle_sample (vsub (cpos c) (offset l)) (search_delta m) step i) /\
    cpos c' = vadd (circle_sample (vsub (cpos c) (offset l)) (search_delta m) step i) (offset l) /\
    (unbaked m -> forall step' i' li' l', step' < step -> i' <= 10 * step' -> queried m c li' l' ->
       ~ in_layer l' (circle_sample (vsub (cpos c) (offset l')) (search_delta m) step' i')).
Proof.
  intros Hm H. destruct (get_closest_point_Some bvh m c c' Hm H) as (step & i & li & l & p & H1 & H2 & H3 & H4 & H5 & H6 & _ & H7 & H8 & H9).
  exists step, i, li, l, p. auto 12.
Qed.
Theorem C07_closest_point_none bvh m c :
  mesh_small m -> unbaked m -> get_closest_point bvh m c = Ok None ->
  forall step i li l, step < search_steps m -> i <= 10 * step -> queried m c li l ->
    ~ in_layer l (circle_sample (vsub (cpos c) (offset l)) (search_delta m) step i).
Proof. apply get_closest_point_None. Qed.

(** ** C09: get_closest_point_towards *)
Theorem C09_towards_sound bvh m c (towards : vec2 A) c' :
  mesh_small m -> get_closest_point_towards bvh m c towards = Ok (Some c') ->
  exists step li l p,
    step < search_steps m /\ queried m c li l /\
    clayer c' = Some li /\ polygon_at m (cpoly c') l p /\ id_layer (cpoly c') = li /\
    contains l p (line_sample (vsub (cpos c) (offset l)) (search_delta m) (vneg (vnormalize (vsub (cpos c) towards))) step) /\
    cpos c' = vadd (line_sample (vsub (cpos c) (offset l)) (search_delta m) (vneg (vnormalize (vsub (cpos c) towards))) step) (offset l) /\
    (unbaked m -> forall step' li' l', step' < step -> queried m c li' l' ->
       ~ in_layer l' (line_sample (vsub (cpos c) (offset l')) (search_delta m) (vneg (vnormalize (vsub (cpos c) towards))) step')).
Proof.
  intros Hm H. destruct (get_closest_point_towards_Some bvh m c towards c' Hm H) as (step & li & l & p & H1 & H2 & H3 & H4 & H5 & _ & H6 & H7 & H8).
  exists step, li, l, p. auto 12.
Qed.
Theorem C09_towards_none bvh m c (towards : vec2 A) :
  mesh_small m -> unbaked m -> get_closest_point_towards bvh m c towards = Ok None ->
  forall step li l, step < search_steps m -> queried m c li l ->
    ~ in_layer l (line_sample (vsub (cpos c) (offset l)) (search_delta m) (vneg (vnormalize (vsub (cpos c) towards))) step).
Proof. apply get_closest_point_towards_None. Qed.

(** ** C19: no query reads out of bounds through get_unchecked, on any mesh, however inconsistent *)
Definition no_oob {T} (r : res T) : Prop := r <> Oob.
Lemma no_bind {T U} (r : res T) (k : T -> res U) : no_oob r -> (forall a, no_oob (k a)) -> no_oob (bind r k).
Proof. intros H1 H2. destruct r; simpl; unfold no_oob in *; auto; congruence. Qed.
Lemma no_Ok {T} (a : T) : no_oob (Ok a). Proof. unfold no_oob. discriminate. Qed.
Lemma no_index {T} (l : list T) i : no_oob (index l i).
Proof. unfold index, unwrap, no_oob. destruct (nthN l i); discriminate. Qed.
Lemma no_findM {T} (f : T -> res bool) l : (forall x, no_oob (f x)) -> no_oob (findM f l).
Proof. intros H. induction l; simpl; [apply no_Ok|]. apply no_bind; auto. intros []; auto. apply no_Ok. Qed.
Lemma no_pip (l : Layer A) p poly : no_oob (point_in_polygon l p poly).
Proof.
  unfold no_oob. destruct (pverts poly) eqn:E.
  - unfold point_in_polygon, edges_index. rewrite E. discriminate.
  - destruct (point_in_polygon_spec l p poly) as (b & -> & _); congruence.
Qed.
Lemma no_loc bvh (l : Layer A) p : no_oob (loc_any bvh l p).
Proof.
  unfold loc_any, loc_unit, loc_unit_baked. destruct (baked l).
  - apply no_bind; [|intros; apply no_Ok]. apply no_findM. intro. apply no_bind; [apply no_index|]. intro. apply no_pip.
  - apply no_bind; [|intros; apply no_Ok]. apply no_findM. intro. apply no_pip.
Qed.
Lemma no_probe bvh (l : Layer A) p ds : no_oob (probe_loop bvh l p ds).
Proof. induction ds; simpl; [apply no_Ok|]. apply no_bind; [apply no_loc|]. intro k. destruct (N.eqb k MAX); [assumption|apply no_Ok]. Qed.
Lemma no_ring bvh (l : Layer A) p d s is : no_oob (ring_loop bvh l p d s is).
Proof. induction is; simpl; [apply no_Ok|]. apply no_bind; [apply no_loc|]. intro k. destruct (N.eqb k MAX); [assumption|apply no_Ok]. Qed.
Lemma no_gcp bvh (p : vec2 A) d s ls : no_oob (gcp_layers bvh p d s ls).
Proof.
  induction ls as [|[i l] r IH]; simpl; [apply no_Ok|]. apply no_bind.
  - unfold get_closest_point_inner. destruct (2 ^ 32 <=? 10 * (s + 1)); [unfold no_oob; discriminate|apply no_ring].
  - intros [[np k]|]; [apply no_Ok|exact IH].
Qed.
Lemma no_gcpt bvh (p : vec2 A) d dir s ls : no_oob (gcpt_layers bvh p d dir s ls).
Proof.
  induction ls as [|[i l] r IH]; simpl; [apply no_Ok|]. apply no_bind.
  - unfold get_closest_point_towards_inner. apply no_bind; [apply no_loc|intros; apply no_Ok].
  - intros [[np k]|]; [apply no_Ok|exact IH].
Qed.
Lemma no_first_step {T} (f : N -> res (option T)) ss : (forall s, no_oob (f s)) -> no_oob (first_step f ss).
Proof. intro H. induction ss; simpl; [apply no_Ok|]. apply no_bind; [apply H|]. intros []; [apply no_Ok|assumption]. Qed.

Theorem C19_queries_never_out_of_bounds bvh m c (towards : vec2 A) :
  point_in_mesh bvh m c <> Oob /\ get_point_layer bvh m c <> Oob /\
  get_closest_point bvh m c <> Oob /\ get_closest_point_towards bvh m c towards <> Oob.
Proof.
  repeat split.
  - apply no_bind; [|intros; apply no_Ok]. unfold get_point_location. destruct (clayer c) as [li|].
    + destruct (nthN (layers m) li); [|apply no_Ok]. apply no_bind; [apply no_probe|intros; apply no_Ok].
    + generalize (enumerate (layers m)). induction l as [|[i l] r IH]; simpl; [apply no_Ok|].
      apply no_bind; [apply no_probe|]. intros [k|]; [|assumption]. destruct (N.eqb _ MAX); [assumption|apply no_Ok].
  - apply no_bind; [|intros; apply no_Ok]. unfold get_point_locations. destruct (clayer c) as [li|].
    + destruct (nthN (layers m) li); [|apply no_Ok]. apply no_bind; [apply no_probe|intros; apply no_Ok].
    + generalize (enumerate (layers m)). induction l as [|[i l] r IH]; simpl; [apply no_Ok|].
      apply no_bind; [apply no_probe|]. intro o. apply no_bind; [exact IH|]. intros; apply no_Ok.
  - unfold get_closest_point. destruct (clayer c).
    + apply no_bind; [apply no_index|]. intro. apply no_first_step. intro. apply no_gcp.
    + apply no_first_step. intro. apply no_gcp.
  - unfold get_closest_point_towards. destruct (clayer c).
    + apply no_bind; [apply no_index|]. intro. apply no_first_step. intro. apply no_gcpt.
    + apply no_first_step. intro. apply no_gcpt.
Qed.

(** ** C50: located coordinates *)

(** For an end given with its polygon the search uses that polygon: nothing about point location matters. *)
Theorem C50_located_not_searched_again lib lib' m from to blocked :
  lpop lib' = lpop lib -> cpoly from <> MAX -> cpoly to <> MAX ->
  path_on_layers lib' m from to blocked = path_on_layers lib m from to blocked.
Proof.
  intros Hl Hf Ht. unfold path_on_layers, locate_end.
  apply N.eqb_neq in Hf. apply N.eqb_neq in Ht. rewrite Hf, Ht. simpl.
  destruct (islands_reject m (cpoly from) (cpoly to)) as [[]| | |]; simpl; auto.
  destruct (N.eqb (cpoly from) (cpoly to)); auto.
  destruct (setup _ _ _) as [st| | |]; simpl; auto.
  assert (HR : forall k st, run k lib' (mkCtx m (cpos to) (cpoly to) blocked) st = run k lib (mkCtx m (cpos to) (cpoly to) blocked) st).
  { induction k as [|k IH]; intro s; cbn [run]; [reflexivity|].
    assert (next lib' (mkCtx m (cpos to) (cpoly to) blocked) s = next lib (mkCtx m (cpos to) (cpoly to) blocked) s) as ->.
    { unfold next. rewrite Hl. reflexivity. }
    destruct (next _ _ _) as [[s' r]| | |]; cbn [bind snd fst]; auto. destruct r; auto. }
  apply HR.
Qed.

(** Attaching to the start (or the destination) the polygon that get_closest_point reported for it does not change the
    answer of path. *)
Theorem C50_prelocated_same_path lib m from to blocked cf ct :
  mesh_small m -> cpoly from = MAX -> cpoly to = MAX ->
  get_closest_point (lbvh lib) m from = Ok (Some cf) ->
  get_closest_point (lbvh lib) m to = Ok (Some ct) ->
  path_on_layers lib m (mkCoords (cpos from) (clayer cf) (cpoly cf)) (mkCoords (cpos to) (clayer ct) (cpoly ct)) blocked
  = path_on_layers lib m from to blocked.
Proof.
  intros Hm Hf Ht H1 H2.
  assert (Nf : cpoly cf <> MAX) by (destruct (get_closest_point_Some _ m from cf Hm H1) as (? & ? & ? & ? & ? & ?); tauto).
  assert (Nt : cpoly ct <> MAX) by (destruct (get_closest_point_Some _ m to ct Hm H2) as (? & ? & ? & ? & ? & ?); tauto).
  apply N.eqb_neq in Nf. apply N.eqb_neq in Nt.
  unfold path_on_layers, locate_end. cbn [cpoly cpos]. rewrite Nf, Nt, Hf, Ht. cbn [negb bind].
  rewrite H1, H2. reflexivity.
Qed.
End Any.

(** ** Examples: the hypotheses are met by a concrete mesh, in binary32 *)
Example ex_no_empty : mesh_small mesh_from_paper /\ unbaked mesh_from_paper /\ no_empty mesh_from_paper.
Proof.
  split; [apply mesh_smallb_ok; vmc|]. split; [apply unbakedb_ok; vmc|].
  apply no_emptyb_ok. vmc.
Qed.
Example ex_in_mesh :
  point_in_mesh std_bvh mesh_from_paper (at_ (pt 2 6)) = Ok true /\
  point_in_mesh std_bvh mesh_from_paper (at_ (pt10 5 5)) = Ok false /\
  (exists cs, get_point_layer std_bvh mesh_from_paper (at_ (pt 2 6)) = Ok cs).
Proof. split; [vmc|]. split; [vmc|]. apply is_Ok_ex. vmc. Qed.
(** just outside: found on the second circle, and towards the middle of the mesh *)
Example ex_closest :
  is_Ok_Some (fun _ => true) (get_closest_point std_bvh mesh_u_grid (at_ (pt100 50 (-5)))) = true /\
  is_Ok_Some (fun _ => true) (get_closest_point_towards std_bvh mesh_u_grid (at_ (pt100 50 (-5))) (pt10 5 5)) = true /\
  get_closest_point std_bvh mesh_u_grid (at_ (pt10 5 (-50))) = Ok None.
Proof. repeat split; vmc. Qed.
Example ex_prelocated : exists cf ct,
  get_closest_point std_bvh mesh_u_grid (at_ (pt10 1 19)) = Ok (Some cf) /\
  get_closest_point std_bvh mesh_u_grid (at_ (pt10 29 19)) = Ok (Some ct) /\ cpoly cf = 3 /\ cpoly ct = 4.
Proof.
  destruct (is_Ok_Some_ex (fun c => N.eqb (cpoly c) 3) (get_closest_point std_bvh mesh_u_grid (at_ (pt10 1 19)))) as (cf & H1 & H2); [vmc|].
  destruct (is_Ok_Some_ex (fun c => N.eqb (cpoly c) 4) (get_closest_point std_bvh mesh_u_grid (at_ (pt10 29 19)))) as (ct & H3 & H4); [vmc|].
  apply N.eqb_eq in H2. apply N.eqb_eq in H4. exists cf, ct. auto.
Qed.

Print Assumptions C03_point_in_mesh_sound.
Print Assumptions C03_get_point_layer_sound.
Print Assumptions C04_point_in_mesh_iff.
Print Assumptions C04_get_point_layer_iff.
Print Assumptions C07_closest_point_sound.
Print Assumptions C07_closest_point_none.
Print Assumptions C09_towards_sound.
Print Assumptions C09_towards_none.
Print Assumptions C19_queries_never_out_of_bounds.
Print Assumptions C50_located_not_searched_again.
Print Assumptions C50_prelocated_same_path.
