(** Proofs about point location (C03, C04, C07, C09, C19). *)
From Coq Require Import List NArith ZArith Bool Lia Sorted.
From Verif Require Import Base Arith U32 Mesh Helpers Locate Spec.
Import ListNotations.
Open Scope N_scope.

Lemma windows2_combine r : forall x a, windows2 (x :: r) ++ [(last r x, a)] = combine (x :: r) (r ++ [a]).
Proof.
  induction r as [|y r IH]; intros x a; [reflexivity|].
  change (windows2 (x :: y :: r)) with ((x, y) :: windows2 (y :: r)).
  change (combine (x :: y :: r) ((y :: r) ++ [a])) with ((x, y) :: combine (y :: r) (r ++ [a])).
  simpl app. f_equal. rewrite <- IH. f_equal. f_equal. f_equal.
  destruct r; [reflexivity|]. 
  change (last (n :: r) x = last (n :: r) y). clear. revert n. induction r; intros; [reflexivity|]. apply IHr.
Qed.

Lemma edges_index_edge_list p : pverts p <> [] -> edges_index p = Ok (edge_list (pverts p)).
Proof.
  unfold edges_index, edge_list. destruct (pverts p) as [|x r]; [congruence|]. intros _.
  rewrite windows2_combine. reflexivity.
Qed.

Lemma edges_index_Ok p es : edges_index p = Ok es -> pverts p <> [] /\ es = edge_list (pverts p).
Proof.
  intro H. assert (pverts p <> []) as Hn.
  { unfold edges_index in H. destruct (pverts p); [discriminate|discriminate]. }
  split; [assumption|]. rewrite edges_index_edge_list in H by assumption. congruence.
Qed.

Lemma edge_list_nil vs : edge_list vs = [] -> vs = [].
Proof. unfold edge_list. destruct vs as [|x [|y r]]; simpl; congruence. Qed.

Lemma skipn_skipn_add {T} a : forall b (l : list T), skipn (a + b) l = skipn a (skipn b l).
Proof.
  intro b. revert a. induction b as [|b IH]; intros a l.
  - now rewrite Nat.add_0_r.
  - rewrite Nat.add_succ_r. destruct l; simpl; [now rewrite skipn_nil|apply IH].
Qed.

Section Facts.
Context {A : Arith}.

Lemma on_segment_side (pt : vec2 A) s : on_segment pt s = true -> side pt s = SEdge.
Proof. unfold on_segment. intro H. apply andb_prop in H. destruct H as [_ H]. now apply side_eqb_eq. Qed.

(** The loop always answers, and answers true iff declaratively so. *)
Lemma pip_loop_spec (l : Layer A) pt es : forall edged,
  exists b, pip_loop (vertices l) pt es edged = Ok b /\
   (b = true <-> (Forall (left_of l pt) es /\ (es = [] -> edged = true)) \/
      exists pre e post, es = pre ++ e :: post /\ Forall (left_of l pt) pre /\ touches l pt e).
Proof.
  induction es as [|[a b] r IH]; intro edged; simpl.
  - exists edged. split; [reflexivity|]. split; [left; auto|].
    intros [[_ H]|(pre & e & post & H & _)]; [auto|destruct pre; discriminate].
  - destruct (N.leb_spec (lengthN (vertices l)) (N.max a b)) as [Hlt|Hlt].
    + exists false. split; [reflexivity|]. split; [discriminate|].
      assert (forall (P : Vertex A -> Vertex A -> Prop), 
               ~ exists va vb, nthN (vertices l) a = Some va /\ nthN (vertices l) b = Some vb /\ P va vb) as HN.
      { intros P (va & vb & H1 & H2 & _). apply nthN_Some_lt in H1. apply nthN_Some_lt in H2. lia. }
      intros [[H _]|(pre & e & post & H & H1 & H2)]; exfalso.
      * inversion H; subst. eapply HN; exact H2.
      * destruct pre as [|e' pre]; inversion H; subst.
        -- eapply HN; exact H2.
        -- inversion H1; subst. eapply HN; exact H4.
    + destruct (nthN_lt_Some (vertices l) a) as [va Ha]; [lia|].
      destruct (nthN_lt_Some (vertices l) b) as [vb Hb]; [lia|].
      unfold get_unchecked at 1 2. rewrite Ha, Hb. cbn [bind].
      assert (HL : left_of l pt (a, b) <-> side pt (coords va, coords vb) = SLeft).
      { split; [|intro; exists va, vb; auto]. intros (v & w & H1 & H2 & H3). simpl in *. congruence. }
      assert (HT : touches l pt (a, b) <-> on_segment pt (coords va, coords vb) = true).
      { split; [|intro; exists va, vb; auto]. intros (v & w & H1 & H2 & H3). simpl in *. congruence. }
      destruct (on_segment pt (coords va, coords vb)) eqn:EO.
      * rewrite (on_segment_side _ _ EO). simpl. exists true. split; [reflexivity|].
        split; [|reflexivity]. intros _. right. exists [], (a, b), r. repeat split; [constructor|now apply HT].
      * rewrite andb_false_r. destruct (side_eqb (side pt (coords va, coords vb)) SLeft) eqn:ES; simpl.
        -- apply side_eqb_eq in ES. destruct (IH true) as (b0 & H1 & H2). exists b0. split; [assumption|].
           rewrite H2. split.
           ++ intros [[H _]|(pre & e & post & -> & Hp & Ht)].
              ** left. split; [constructor; [now apply HL|assumption]|discriminate].
              ** right. exists ((a, b) :: pre), e, post. repeat split; auto. constructor; [now apply HL|assumption].
           ++ intros [[H _]|(pre & e & post & H & Hp & Ht)].
              ** inversion H; subst. left. split; auto.
              ** destruct pre as [|e' pre]; inversion H; subst.
                 --- apply HT in Ht. discriminate.
                 --- inversion Hp; subst. right. exists pre, e, post. auto.
        -- exists false. split; [reflexivity|]. split; [discriminate|].
           assert (side pt (coords va, coords vb) <> SLeft) as HS.
           { intro Hc. rewrite Hc in ES. discriminate. }
           intros [[H _]|(pre & e & post & H & Hp & Ht)]; exfalso.
           ++ inversion H; subst. tauto.
           ++ destruct pre as [|e' pre]; inversion H; subst.
              ** apply HT in Ht. discriminate.
              ** inversion Hp; subst. tauto.
Qed.

Lemma point_in_polygon_spec (l : Layer A) pt p : pverts p <> [] ->
  exists b, point_in_polygon l pt p = Ok b /\ (b = true <-> contains l p pt).
Proof.
  intro Hne. unfold point_in_polygon. rewrite edges_index_edge_list by assumption. cbn [bind].
  destruct (pip_loop_spec l pt (edge_list (pverts p)) false) as (b & H1 & H2).
  exists b. split; [assumption|]. rewrite H2. unfold contains. split.
  - intros [[H _]|H]; split; auto.
  - intros [_ [H|H]]; [left|right; assumption]. split; [assumption|].
    intro H0. apply edge_list_nil in H0. contradiction.
Qed.

Lemma point_in_polygon_true (l : Layer A) pt p :
  point_in_polygon l pt p = Ok true <-> contains l p pt.
Proof.
  split; intro H.
  - assert (Hne : pverts p <> []).
    { unfold point_in_polygon in H. inv_bind H. apply edges_index_Ok in E. tauto. }
    destruct (point_in_polygon_spec l pt p Hne) as (b & H1 & H2). apply H2. congruence.
  - destruct (point_in_polygon_spec l pt p (proj1 H)) as (b & H1 & H2). apply H2 in H. congruence.
Qed.

Lemma point_in_polygon_false (l : Layer A) pt p :
  point_in_polygon l pt p = Ok false -> ~ contains l p pt.
Proof.
  intros H Hc. apply point_in_polygon_true in Hc. congruence.
Qed.

Context (bvh : list (vec2 A * vec2 A) -> vec2 A -> list N).

Definition small_layer (l : Layer A) : Prop := lengthN (polygons l) <= 2^24 - 1.

Lemma loc_unit_found (l : Layer A) pt k : loc_unit l pt = Ok k -> k <> MAX ->
  exists p, nthN (polygons l) k = Some p /\ contains l p pt.
Proof.
  unfold loc_unit. intros H Hk. inv_bind H. destruct a as [[i p]|]; [|congruence].
  inversion H; subst. apply findM_Some in E. destruct E as (l1 & l2 & E & Hp & _).
  exists p. split.
  - apply enumerate_spec. rewrite E. apply in_elt.
  - now apply point_in_polygon_true.
Qed.

Lemma loc_any_found (l : Layer A) pt k : loc_any bvh l pt = Ok k -> k <> MAX ->
  exists p, nthN (polygons l) k = Some p /\ contains l p pt.
Proof.
  unfold loc_any. destruct (baked l) as [boxes|]; [|apply loc_unit_found].
  unfold loc_unit_baked. intros H Hk. inv_bind H. destruct a as [i|]; [|congruence].
  inversion H; subst. apply findM_Some in E. destruct E as (l1 & l2 & E & Hp & _).
  inv_bind Hp. apply index_Ok in E0. exists a. split; [assumption|]. now apply point_in_polygon_true.
Qed.

Lemma loc_any_none (l : Layer A) pt : baked l = None -> small_layer l -> loc_any bvh l pt = Ok MAX ->
  forall k p, nthN (polygons l) k = Some p -> ~ contains l p pt.
Proof.
  unfold loc_any, loc_unit. intros -> Hs H k p Hk. inv_bind H. destruct a as [[i p']|].
  - inversion H; subst. apply findM_Some in E. destruct E as (l1 & l2 & E & _).
    assert (In (MAX, p') (enumerate (polygons l))) as HI by (rewrite E; apply in_elt).
    apply enumerate_spec, nthN_Some_lt in HI. unfold small_layer, MAX in *. lia.
  - apply findM_None with (y := (k, p)) in E; [|now apply enumerate_spec].
    now apply point_in_polygon_false in E.
Qed.

(** ** The probes *)
Lemma probes_probed (d : F A) v : In v (probes d) <-> probed d v.
Proof.
  unfold probes, probed. split.
  - intro H. simpl in H. repeat destruct H as [<-|H]; try contradiction; eexists _, _; repeat split; auto.
  - intros (x & y & Hx & Hy & ->). simpl.
    destruct Hx as [-> | [-> | ->]], Hy as [-> | [-> | ->]]; tauto.
Qed.

Lemma probe_loop_Some (l : Layer A) pt ds k : probe_loop bvh l pt ds = Ok (Some k) ->
  k <> MAX /\ exists v p, In v ds /\ nthN (polygons l) k = Some p /\ contains l p (vadd pt v).
Proof.
  induction ds as [|d r IH]; simpl; intro H; [discriminate|].
  inv_bind H. destruct (N.eqb_spec a MAX) as [->|Ha].
  - destruct (IH H) as (H1 & v & p & H2 & H3). split; [assumption|]. exists v, p. auto.
  - inversion H; subst. split; [assumption|].
    destruct (loc_any_found _ _ _ E Ha) as (p & H1 & H2). exists d, p. auto.
Qed.

Lemma probe_loop_None (l : Layer A) pt ds : baked l = None -> small_layer l ->
  probe_loop bvh l pt ds = Ok None ->
  forall v k p, In v ds -> nthN (polygons l) k = Some p -> ~ contains l p (vadd pt v).
Proof.
  intros Hb Hs. induction ds as [|d r IH]; simpl; intros H v k p Hv Hk; [contradiction|].
  inv_bind H. destruct (N.eqb_spec a MAX) as [->|Ha]; [|discriminate].
  destruct Hv as [<-|Hv]; [|eapply IH; eauto].
  eapply loc_any_none; eauto.
Qed.

Lemma layer_gpl_Some (l : Layer A) pt d k :
  layer_get_point_location bvh l (vsub pt (offset l)) d = Ok (Some k) -> layer_near l d pt k.
Proof.
  intro H. apply probe_loop_Some in H. destruct H as (_ & v & p & H1 & H2 & H3).
  exists p, v. rewrite probes_probed in H1. auto.
Qed.

Lemma layer_gpl_None (l : Layer A) pt d : baked l = None -> small_layer l ->
  layer_get_point_location bvh l (vsub pt (offset l)) d = Ok None -> forall k, ~ layer_near l d pt k.
Proof.
  intros Hb Hs H k (p & v & H1 & H2 & H3). rewrite <- probes_probed in H2.
  eapply probe_loop_None; eauto.
Qed.

Lemma nth_lt_256 (m : Mesh A) i l : mesh_small m -> nthN (layers m) i = Some l -> i < 256 /\ small_layer l.
Proof.
  intros [H1 H2] H. split.
  - apply nthN_Some_lt in H. lia.
  - apply H2. eapply nthN_In; eauto.
Qed.

Lemma id_make_polygon_at (m : Mesh A) i l k p : mesh_small m ->
  nthN (layers m) i = Some l -> nthN (polygons l) k = Some p ->
  polygon_at m (id_make (i mod 256) k) l p /\ id_layer (id_make (i mod 256) k) = i /\
  id_polygon (id_make (i mod 256) k) = k /\ id_make (i mod 256) k <> MAX.
Proof.
  intros Hm Hi Hk. destruct (nth_lt_256 _ _ _ Hm Hi) as [H1 H2].
  assert (k < 2^24 - 1) by (apply nthN_Some_lt in Hk; unfold small_layer in H2; lia).
  rewrite N.mod_small by assumption.
  rewrite id_layer_make by lia. rewrite id_polygon_make by lia.
  repeat split; try (rewrite ?id_layer_make, ?id_polygon_make by lia; assumption).
  apply id_make_not_MAX; lia.
Qed.

(** Answer of Mesh::get_point_location *)
Lemma gpl_loop_found (m : Mesh A) pt ls id :
  mesh_small m -> (forall i l, In (i, l) ls -> nthN (layers m) i = Some l) ->
  gpl_loop bvh m pt ls = Ok id -> id <> MAX ->
  exists i l, In (i, l) ls /\ id_layer id = i /\ layer_near l (search_delta m) pt (id_polygon id).
Proof.
  intros Hm. induction ls as [|[i l] r IH]; simpl; intros Hls H Hid; [congruence|].
  assert (Hr : forall j l0, In (j, l0) r -> nthN (layers m) j = Some l0) by (intros; apply Hls; now right).
  inv_bind H. destruct a as [k|].
  - pose proof (layer_gpl_Some _ _ _ _ E) as HN. destruct HN as (p & v & Hk & Hrest).
    destruct (id_make_polygon_at m i l k p Hm (Hls _ _ (or_introl eq_refl)) Hk) as (H1 & H2 & H3 & H4).
    destruct (N.eqb_spec (id_make (i mod 256) k) MAX); [contradiction|].
    inversion H; subst id. exists i, l. split; [now left|]. split; [assumption|].
    rewrite H3. exists p, v. auto.
  - destruct (IH Hr H Hid) as (i' & l' & H1 & H2). exists i', l'. auto.
Qed.

Lemma get_point_location_found (m : Mesh A) c id :
  mesh_small m -> get_point_location bvh m c = Ok id -> id <> MAX ->
  exists l p, polygon_at m id l p /\ layer_near l (search_delta m) (cpos c) (id_polygon id) /\
    (forall li, clayer c = Some li -> id_layer id = li).
Proof.
  intros Hm H Hid. unfold get_point_location in H. destruct (clayer c) as [li|] eqn:EL.
  - destruct (nthN (layers m) li) as [l|] eqn:El; [|congruence].
    inv_bind H. destruct a as [k|]; [|congruence].
    pose proof (layer_gpl_Some _ _ _ _ E) as (p & v & Hk & Hrest).
    destruct (nth_lt_256 _ _ _ Hm El) as [Hlt _].
    destruct (id_make_polygon_at m li l k p Hm El Hk) as (H1 & H2 & H3 & H4).
    rewrite N.mod_small in H1, H2, H3, H4 by assumption. inversion H; subst id.
    exists l, p. split; [assumption|]. split.
    + rewrite H3. exists p, v. auto.
    + intros li' Hli. congruence.
  - destruct (gpl_loop_found m (cpos c) (enumerate (layers m)) id Hm) as (i & l & H1 & H2 & H3); auto.
    { intros i l Hi. now apply enumerate_spec. }
    apply enumerate_spec in H1. pose proof H3 as (p & v & Hk & _). exists l, p. split; [|split].
    + split; [rewrite H2; assumption|assumption].
    + assumption.
    + discriminate.
Qed.

Lemma gpl_loop_none (m : Mesh A) pt ls :
  mesh_small m -> unbaked m -> (forall i l, In (i, l) ls -> nthN (layers m) i = Some l) ->
  gpl_loop bvh m pt ls = Ok MAX ->
  forall i l k, In (i, l) ls -> ~ layer_near l (search_delta m) pt k.
Proof.
  intros Hm Hu. induction ls as [|[i l] r IH]; simpl; intros Hls H i' l' k Hin; [contradiction|].
  assert (Hr : forall j l0, In (j, l0) r -> nthN (layers m) j = Some l0) by (intros; apply Hls; now right).
  pose proof (Hls _ _ (or_introl eq_refl)) as Hl.
  inv_bind H. destruct a as [k0|].
  - pose proof (layer_gpl_Some _ _ _ _ E) as (p & v & Hk & Hrest).
    destruct (id_make_polygon_at m i l k0 p Hm Hl Hk) as (H1 & H2 & H3 & H4).
    destruct (N.eqb_spec (id_make (i mod 256) k0) MAX); [contradiction|]. congruence.
  - destruct Hin as [Hin|Hin]; [|eapply IH; eauto]. inversion Hin; subst.
    eapply layer_gpl_None; [| |exact E].
    + apply Hu. eapply nthN_In; eauto.
    + eapply nth_lt_256; eauto.
Qed.

Lemma get_point_location_none (m : Mesh A) c :
  mesh_small m -> unbaked m -> get_point_location bvh m c = Ok MAX ->
  forall i l k, nthN (layers m) i = Some l -> (forall li, clayer c = Some li -> li = i) ->
  ~ layer_near l (search_delta m) (cpos c) k.
Proof.
  intros Hm Hu H i l k Hi Hc. unfold get_point_location in H. destruct (clayer c) as [li|] eqn:EL.
  - rewrite (Hc li eq_refl), Hi in H. inv_bind H. destruct a as [k0|].
    + pose proof (layer_gpl_Some _ _ _ _ E) as (p & v & Hk & Hrest).
      destruct (id_make_polygon_at m i l k0 p Hm Hi Hk) as (H1 & H2 & H3 & H4).
      destruct (nth_lt_256 _ _ _ Hm Hi) as [Hlt _]. rewrite N.mod_small in H4 by assumption.
      congruence.
    + eapply layer_gpl_None; [| |exact E].
      * apply Hu. eapply nthN_In; eauto.
      * eapply nth_lt_256; eauto.
  - eapply gpl_loop_none; [exact Hm|exact Hu| |exact H|]; [intros; now apply enumerate_spec|].
    apply enumerate_spec. exact Hi.
Qed.

(** get_point_locations over all the layers *)
Lemma gpls_loop_spec (m : Mesh A) pt : mesh_small m -> forall ls start ids,
  ls = enum_from start (skipn (N.to_nat start) (layers m)) ->
  gpls_loop bvh m pt ls = Ok ids ->
  StronglySorted N.lt (map id_layer ids) /\
  (forall id, In id ids -> start <= id_layer id /\ exists l p, polygon_at m id l p /\
       layer_near l (search_delta m) pt (id_polygon id)) /\
  (unbaked m -> forall i l k, start <= i -> nthN (layers m) i = Some l ->
     layer_near l (search_delta m) pt k -> In i (map id_layer ids)).
Proof.
  intro Hm. induction ls as [|[i l] r IH]; intros start ids Hls H; simpl in H.
  - inversion H; subst. simpl. repeat split; try constructor; try contradiction.
    intros _ i l k Hi Hl _. exfalso.
    assert (skipn (N.to_nat start) (layers m) = []) as Hs.
    { destruct (skipn _ _); [reflexivity|discriminate]. }
    apply nthN_Some_lt in Hl. assert (length (skipn (N.to_nat start) (layers m)) = 0%nat) by now rewrite Hs.
    rewrite skipn_length in H0. unfold lengthN in Hl. lia.
  - destruct (skipn (N.to_nat start) (layers m)) as [|l0 rest] eqn:ES; [discriminate|].
    simpl in Hls. injection Hls as -> -> Hr.
    assert (Hl : nthN (layers m) start = Some l0).
    { rewrite nthN_nth_error. rewrite <- (firstn_skipn (N.to_nat start) (layers m)), ES.
      assert (length (firstn (N.to_nat start) (layers m)) = N.to_nat start) as HF.
      { apply firstn_length_le. assert (length (skipn (N.to_nat start) (layers m)) > 0)%nat by (rewrite ES; simpl; lia).
        rewrite skipn_length in H0. lia. }
      rewrite nth_error_app2 by lia. rewrite HF, Nat.sub_diag. reflexivity. }
    assert (ES' : skipn (N.to_nat (start + 1)) (layers m) = rest).
    { replace (N.to_nat (start + 1)) with (1 + N.to_nat start)%nat by lia.
      rewrite skipn_skipn_add, ES. reflexivity. }
    inv_bind H. inv_bind H.
    destruct (IH (start + 1) a0) as (H1 & H2 & H3).
    { rewrite ES', N.add_1_r. exact Hr. }
    { exact E0. }
    assert (Hrest : forall id, In id a0 -> start <= id_layer id /\ exists l p, polygon_at m id l p /\
       layer_near l (search_delta m) pt (id_polygon id)).
    { intros id Hid. destruct (H2 id Hid) as [H4 H5]. split; [lia|assumption]. }
    destruct a as [k|].
    + pose proof (layer_gpl_Some _ _ _ _ E) as HN. pose proof HN as (p & v & Hk & _).
      destruct (id_make_polygon_at m start l0 k p Hm Hl Hk) as (G1 & G2 & G3 & G4).
      destruct (N.eqb_spec (id_make (start mod 256) k) MAX); [contradiction|].
      inversion H; subst ids; clear H. split; [|split].
      * simpl. constructor; [assumption|]. rewrite G2. apply Forall_forall. intros x Hx.
        apply in_map_iff in Hx. destruct Hx as (id & <- & Hid). apply H2 in Hid. lia.
      * intros id [<-|Hid]; [|now apply Hrest]. split; [lia|]. exists l0, p. split; [assumption|].
        rewrite G3. assumption.
      * intros Hu i l k' Hi Hli Hn. simpl. destruct (N.eq_dec i start) as [->|Hne]; [left; exact G2|right].
        eapply H3; eauto. lia.
    + inversion H; subst ids. split; [assumption|]. split; [assumption|].
      intros Hu i l k Hi Hli Hn. destruct (N.eq_dec i start) as [->|Hne].
      * exfalso. assert (l = l0) by congruence. subst. eapply layer_gpl_None; [| |exact E|exact Hn].
        -- apply Hu. eapply nthN_In; eauto.
        -- eapply nth_lt_256; eauto.
      * eapply H3; eauto. lia.
Qed.

(** ** Totality *)
Definition no_empty (m : Mesh A) : Prop :=
  forall l p, In l (layers m) -> In p (polygons l) -> pverts p <> [].

Lemma loc_any_total (l : Layer A) pt :
  (forall p, In p (polygons l) -> pverts p <> []) -> baked l = None -> exists k, loc_any bvh l pt = Ok k.
Proof.
  intros Hne Hb. unfold loc_any, loc_unit. rewrite Hb.
  destruct (findM_total (fun ip => point_in_polygon l pt (snd ip)) (enumerate (polygons l))) as [o ->].
  - intros [i p] Hi. apply enumerate_spec, nthN_In in Hi. simpl.
    destruct (point_in_polygon_spec l pt p (Hne _ Hi)) as (b & H & _). eauto.
  - simpl. eauto.
Qed.

Lemma probe_loop_total (l : Layer A) pt ds :
  (forall p, In p (polygons l) -> pverts p <> []) -> baked l = None ->
  exists o, probe_loop bvh l pt ds = Ok o.
Proof.
  intros Hne Hb. induction ds as [|d r IH]; simpl; [eauto|].
  destruct (loc_any_total l (vadd pt d) Hne Hb) as [k ->]. simpl.
  destruct (N.eqb k MAX); eauto.
Qed.

Lemma gpl_loop_total (m : Mesh A) pt ls :
  (forall i l, In (i, l) ls -> In l (layers m)) -> no_empty m -> unbaked m ->
  exists id, gpl_loop bvh m pt ls = Ok id.
Proof.
  intros Hls Hne Hu. induction ls as [|[i l] r IH]; simpl; [eauto|].
  pose proof (Hls _ _ (or_introl eq_refl)) as Hl.
  unfold layer_get_point_location.
  destruct (probe_loop_total l (vsub pt (offset l)) (probes (search_delta m)) (Hne l) (Hu _ Hl)) as [o ->]
    || (destruct (probe_loop_total l (vsub pt (offset l)) (probes (search_delta m))) as [o ->];
        [intros p Hp; eapply Hne; eauto|now apply Hu|]).
  simpl. destruct o as [k|]; [|apply IH; intros; eapply Hls; right; eauto].
  destruct (N.eqb _ _); [apply IH; intros; eapply Hls; right; eauto|eauto].
Qed.

Lemma get_point_location_total (m : Mesh A) c :
  no_empty m -> unbaked m -> exists id, get_point_location bvh m c = Ok id.
Proof.
  intros Hne Hu. unfold get_point_location. destruct (clayer c) as [li|].
  - destruct (nthN (layers m) li) as [l|] eqn:E; [|eauto].
    apply nthN_In in E. unfold layer_get_point_location.
    destruct (probe_loop_total l (vsub (cpos c) (offset l)) (probes (search_delta m))) as [o ->].
    + intros p Hp. eapply Hne; eauto.
    + now apply Hu.
    + simpl. eauto.
  - apply gpl_loop_total; auto. intros i l H. apply enumerate_spec in H. eapply nthN_In; eauto.
Qed.

End Facts.
