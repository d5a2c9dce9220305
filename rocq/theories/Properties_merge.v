(** Merging polygons: C35, C36. *)
From Coq Require Import List NArith ZArith Bool Permutation Lia Reals Lra.
From Verif Require Import Base Arith F32 U32 Mesh Helpers Locate Bake Search StdLib Spec Spec_mesh Cleanup Cleanup_facts Merger Spec_merge
  Locate_facts Islands_facts Stitch_facts Bake_facts Merger_facts Rings RealArith Checkers Tests Stitch Tests_stitch Tests_merge.
Import ListNotations.
Open Scope N_scope.

Section Any.
Context {A : Arith}.
Variable area_of : list (vec2 A) -> F A.
Variable sort_area : list (N * F A) -> list (N * F A).
Variable convex : list (vec2 A) -> bool.
Hypothesis Hsort : forall l, Permutation l (sort_area l).
Implicit Types (m : Mesh A) (l : Layer A) (v : Vertex A).
Local Notation layer_merge := (layer_merge area_of sort_area convex).
Local Notation mesh_merge := (mesh_merge area_of sort_area convex).
Local Notation merge_all := (merge_all area_of sort_area convex).

Lemma order_In l order : merge_order area_of sort_area l = Ok order -> forall i, In i order <-> i < lengthN (polygons l).
Proof.
  unfold merge_order. intro H. inv_bind H. destruct (_ && _); [discriminate|]. injection H as <-. intro i.
  apply mapM_length in E. split.
  - intro Hi. apply in_map_iff in Hi. destruct Hi as ((j & x) & <- & Hi). apply (Permutation_in _ (Permutation_sym (Hsort _))) in Hi.
    apply enumerate_spec, nthN_Some_lt in Hi. cbn [fst]. unfold lengthN in *. lia.
  - intro Hi. destruct (nthN_lt_Some a i) as [x Hx]; [unfold lengthN in *; lia|]. apply in_map_iff. exists (i, x). split; [reflexivity|].
    apply (Permutation_in _ (Hsort _)). now apply enumerate_spec.
Qed.

Lemma Forall2_weaken {S T} (P Q : S -> T -> Prop) xs ys : (forall x y, P x y -> Q x y) -> Forall2 P xs ys -> Forall2 Q xs ys.
Proof. intros H F. induction F; constructor; auto. Qed.
Lemma firstn_nthN {T} (x : list T) n k : nthN (firstn (N.to_nat n) x) k = if k <? n then nthN x k else None.
Proof.
  rewrite !nthN_nth_error. destruct (N.ltb_spec k n) as [H|H].
  - assert (G : forall (y : list T) a c, (c < a)%nat -> nth_error (firstn a y) c = nth_error y c).
    { clear. induction y as [|z y IH]; intros [|a] [|c] H; try lia; try reflexivity. simpl. apply IH. lia. }
    apply G. lia.
  - apply nth_error_None. rewrite firstn_length. lia.
Qed.

(** C35: what one call does to a layer, on success.  [g] is the renumbering of the polygons. *)
Theorem C35_merge l l' b : lengthN (polygons l) <= MAX -> layer_merge l = Ok (l', b) ->
  (b = true <-> lengthN (polygons l') < lengthN (polygons l)) /\ lengthN (polygons l') <= lengthN (polygons l) /\
  offset l' = offset l /\ baked l' = None /\ islands l' = None /\
  exists g : N -> N,
    (forall i, i < lengthN (polygons l) -> g i < lengthN (polygons l')) /\
    (forall k, k < lengthN (polygons l') -> exists i, i < lengthN (polygons l) /\ g i = k) /\
    Forall2 (fun v v' => coords v' = coords v /\ is_corner v' = is_corner v /\
        (forall id, In id (vpolys v) -> id = MAX \/ id < lengthN (polygons l)) /\
        vpolys v' = dedup (map (fun id => if N.eqb id MAX then MAX else g id) (vpolys v))) (vertices l) (vertices l') /\
    (forall k p', nthN (polygons l') k = Some p' ->
       exists c, merged convex (vertices l) (polygons l) c (pverts p') /\ NoDup c /\
         (forall i, In i c <-> i < lengthN (polygons l) /\ g i = k) /\
         ((exists i, c = [i] /\ nthN (polygons l) i = Some p') \/ ((2 <= length c)%nat /\ is_one_way p' = false))).
Proof.
  intros Hmax H. unfold Merger.layer_merge in H. inv_bind H. rename a into order. inv_bind H. destruct a as [ps par]. inv_bind H.
  destruct a as [[ni kept] ps']. cbn [fst snd] in *. destruct (N.ltb_spec (lengthN ps') kept) as [|Hkept]; [discriminate|]. inv_bind H.
  rename a into vs'. injection H as <- <-. unfold layer_unbake. cbn [polygons offset baked islands vertices].
  destruct (merge_loop_ok convex (vertices l) (polygons l) order (polygons l, uf_new (polygons l)) (ps, par) (loop_start convex _ _) E0) as [(L1 & L2 & Hu & _ & Hr) _].
  cbn [fst snd] in L1, L2, Hu, Hr.
  destruct (renumber_ok par ps ((ni, kept), ps') Hu) as [R HR]; [congruence|unfold lengthN in *; lia|assumption|].
  unfold renumbered in HR. cbn [fst snd] in HR. destruct HR as (S1 & S2 & S3 & S4 & S5 & S6 & S7 & _ & _ & S10).
  assert (Ln : lengthN par = lengthN (polygons l)) by (unfold lengthN; congruence). rewrite Ln in *.
  assert (Lk : lengthN (firstn (N.to_nat kept) ps') = kept) by (unfold lengthN in *; rewrite firstn_length; lia). rewrite Lk.
  set (n := lengthN (polygons l)) in *.
  assert (Lni : lengthN ni = n) by (unfold lengthN in *; congruence).
  split; [|split; [assumption|split; [reflexivity|split; [reflexivity|split; [reflexivity|]]]]].
  { rewrite Lni. rewrite negb_true_iff, N.eqb_neq. lia. }
  exists (fun i => match nthN ni i with Some k => k | None => MAX end).
  assert (Hg : forall i, i < n -> exists r, root_of par i r /\ nthN R (match nthN ni i with Some k => k | None => MAX end) = Some r).
  { intros i Hi. destruct (S7 i Hi) as (k & r & G1 & G2 & G3). exists r. rewrite G3. auto. }
  split; [|split; [|split]].
  - intros i Hi. destruct (Hg i Hi) as (r & _ & G). apply nthN_Some_lt in G. now rewrite <- S3 in G.
  - intros k Hk. rewrite S3 in Hk. destruct (nthN_lt_Some R k Hk) as [r Gr]. destruct (S6 _ _ Gr) as (G1 & G2 & _). exists r.
    destruct (root_of_lt _ _ _ G1) as [G3 _]. rewrite Ln in G3. split; [assumption|]. now rewrite G2.
  - apply mapM_Ok in E2. eapply Forall2_weaken; [|exact E2]. clear -Lni. intros v v' H. cbv beta in H. unfold rename_vertex in H. inv_bind H. injection H as <-.
    cbn [coords vpolys is_corner]. split; [reflexivity|]. split; [reflexivity|]. apply mapM_Ok in E.
    assert (G : a = map (fun id => if id =? MAX then MAX else match nthN ni id with Some k => k | None => MAX end) (vpolys v) /\
                forall id, In id (vpolys v) -> id = MAX \/ id < n).
    { revert E. generalize (vpolys v) as ids. intros ids E. induction E as [|id k ids ks Ek _ [IH1 IH2]]; [split; [reflexivity|intros ? []]|].
      destruct (N.eqb_spec id MAX) as [->|Hne].
      - injection Ek as <-. split; [cbn [map]; rewrite N.eqb_refl; now f_equal|]. intros x [<-|Hx]; auto.
      - apply index_Ok in Ek. split.
        + cbn [map]. apply N.eqb_neq in Hne. rewrite Hne, Ek. now f_equal.
        + intros x [<-|Hx]; [right; rewrite <- Lni; eapply nthN_Some_lt; eassumption|auto]. }
    destruct G as [-> G]. split; [exact G|reflexivity].
  - intros k p' Hp'. rewrite firstn_nthN in Hp'. destruct (N.ltb_spec k kept) as [Hk|]; [|discriminate].
    rewrite S3 in Hk. destruct (nthN_lt_Some R k Hk) as [r Gr]. destruct (S6 _ _ Gr) as (G1 & G2 & _).
    destruct (root_of_lt _ _ _ G1) as [G3 _]. rewrite Ln in G3. rewrite (S10 k r Gr G3) in Hp'.
    assert (Grr : nthN par r = Some r) by (destruct G1 as [kk G1]; exact (root_is_root _ _ _ _ G1)).
    destruct (Hr r p' Grr Hp') as (c & M & ND & I & Fl). exists c. split; [assumption|]. split; [assumption|]. split.
    + intro i. rewrite I. split.
      * intro Hi. destruct (root_of_lt _ _ _ Hi) as [Hil _]. rewrite Ln in Hil. split; [assumption|]. destruct (S7 i Hil) as (k' & r' & K1 & K2 & K3). rewrite K3.
        assert (r' = r) by (eapply root_of_fun; eassumption). subst r'. exact (nthN_NoDup R _ _ r S5 K2 Gr).
      * intros [Hi Hgi]. destruct (Hg i Hi) as (r' & K1 & K2). rewrite Hgi in K2. assert (r' = r) by congruence. now subst.
    + destruct Fl as [[-> Fl]|Fl]; [left; exists r; auto|now right].
Qed.

(** The neighbours of a vertex after merging are the merged polygons of those it had. *)
Corollary C35_neighbours l l' b : lengthN (polygons l) <= MAX -> layer_merge l = Ok (l', b) ->
  exists g : N -> N, forall i v, nthN (vertices l) i = Some v -> exists v', nthN (vertices l') i = Some v' /\ coords v' = coords v /\
    (forall k, k <> MAX -> (In k (vpolys v') <-> exists id, In id (vpolys v) /\ id <> MAX /\ g id = k)) /\
    (forall k, In k (vpolys v') -> k = MAX \/ k < lengthN (polygons l')) /\ (In MAX (vpolys v') <-> In MAX (vpolys v)).
Proof.
  intros Hmax H. destruct (C35_merge l l' b Hmax H) as (_ & Hle & _ & _ & _ & g & G1 & G2 & G3 & _). exists g. intros i v Hv.
  destruct (Forall2_nthN _ _ _ G3 _ _ Hv) as (v' & Hv' & Ec & _ & Hids & Ep). exists v'. split; [assumption|]. split; [assumption|].
  assert (HI : forall k, In k (vpolys v') <-> exists id, (if id =? MAX then MAX else g id) = k /\ In id (vpolys v)).
  { intro k. rewrite Ep, dedup_In, in_map_iff. reflexivity. }
  assert (Hlt : forall id, In id (vpolys v) -> id <> MAX -> g id < lengthN (polygons l')) by (intros id Hi Hn; destruct (Hids id Hi); [contradiction|auto]).
  split; [|split].
  - intros k Hk. rewrite HI. split.
    + intros (id & E & Hi). destruct (N.eqb_spec id MAX); [congruence|]. eauto.
    + intros (id & Hi & Hn & E). exists id. apply N.eqb_neq in Hn. now rewrite Hn.
  - intros k Hk. apply HI in Hk. destruct Hk as (id & <- & Hi). destruct (N.eqb_spec id MAX); [now left|right; auto].
  - rewrite HI. split.
    + intros (id & E & Hi). destruct (N.eqb_spec id MAX) as [Hm|Hn]; [now rewrite <- Hm|]. specialize (Hlt id Hi Hn). lia.
    + intro Hi. exists MAX. now rewrite N.eqb_refl.
Qed.

(** C35: a call returns false only when no polygon can be merged with the neighbour it looks at along any of its edges; the
    polygons are left as they are. *)
Theorem C35_false_means_done l l' : lengthN (polygons l) <= MAX -> layer_merge l = Ok (l', false) ->
  polygons l' = polygons l /\
  Forall2 (fun v v' => coords v' = coords v /\ is_corner v' = is_corner v /\ vpolys v' = dedup (vpolys v)) (vertices l) (vertices l') /\
  forall i p a b va vb o q cs, nthN (polygons l) i = Some p -> In (a, b) (edge_list (pverts p)) ->
    nthN (vertices l) a = Some va -> nthN (vertices l) b = Some vb -> first_common va vb i o -> nthN (polygons l) o = Some q ->
    at_positions (vertices l) (arc (pverts p) b a ++ arc (pverts q) a b) cs -> convex cs = false.
Proof.
  intros Hmax H. unfold Merger.layer_merge in H. inv_bind H. rename a into order. inv_bind H. destruct a as [ps par]. inv_bind H.
  destruct a as [[ni kept] ps']. cbn [fst snd] in *. destruct (N.ltb_spec (lengthN ps') kept) as [|Hkept]; [discriminate|]. inv_bind H.
  rename a into vs'. injection H as <- Hb. unfold layer_unbake. cbn [polygons vertices].
  destruct (merge_loop_ok convex (vertices l) (polygons l) order (polygons l, uf_new (polygons l)) (ps, par) (loop_start convex _ _) E0) as [(L1 & L2 & Hu & Hid & _) Hdone].
  cbn [fst snd] in L1, L2, Hu, Hid, Hdone.
  destruct (renumber_ok par ps ((ni, kept), ps') Hu) as [R HR]; [congruence|unfold lengthN in *; lia|assumption|].
  unfold renumbered in HR. cbn [fst snd] in HR. destruct HR as (S1 & S2 & S3 & S4 & S5 & S6 & _).
  apply negb_false_iff, N.eqb_eq in Hb.
  assert (Hn : nroots par = length (polygons l)).
  { pose proof (nroots_le par) as Hle. assert (length R <= nroots par)%nat; [|unfold lengthN in *; lia].
    apply roots_length; [assumption|]. intros r Hr. apply In_nthN in Hr. destruct Hr as [k Hk]. destruct (S6 _ _ Hk) as ([kk G] & _).
    exact (root_is_root _ _ _ _ G). }
  specialize (Hid Hn). subst ps. assert (par = uf_new (polygons l)) by (apply nroots_full_new; congruence). subst par.
  rewrite (renumber_id (polygons l) Hmax) in E1. injection E1 as <- <- <-.
  split; [unfold lengthN; rewrite Nnat.Nat2N.id; apply firstn_all|]. split.
  - apply mapM_Ok in E2. eapply Forall2_weaken; [|exact E2]. clear. intros v v' H. cbv beta in H. unfold rename_vertex in H. inv_bind H. injection H as <-.
    cbn [coords vpolys is_corner]. split; [reflexivity|]. split; [reflexivity|]. f_equal. apply mapM_Ok in E.
    induction E as [|id k ids ks Ek _ IH]; [reflexivity|]. rewrite IH. f_equal. destruct (N.eqb_spec id MAX) as [->|]; [congruence|].
    apply index_Ok in Ek. pose proof (nthN_Some_lt _ _ _ Ek) as Hl. rewrite uf_new_lengthN in Hl. rewrite (uf_new_nth _ _ Hl) in Ek. congruence.
  - intros i p a b va vb o q cs Hp He Hva Hvb (Ho1 & Ho2 & Ho3 & pre & post & Hpre & Hfirst) Hq Hcs.
    destruct Hdone as [[_ Hdone]|Hdone]; [|lia].
    assert (Hi : i < lengthN (polygons l)) by (eapply nthN_Some_lt; eassumption).
    assert (Ho : o < lengthN (polygons l)) by (eapply nthN_Some_lt; eassumption).
    pose proof (Hdone i (proj2 (order_In l order E i) Hi)) as Hst. unfold merge_step in Hst. cbn [fst snd] in Hst.
    assert (Hfind : forall x, x < lengthN (polygons l) -> find (uf_new (polygons l)) x = Ok x).
    { intros x Hx. apply (uf_find_ok _ 0); [constructor; now apply uf_new_nth|unfold uf_fuel; lia]. }
    rewrite (Hfind i Hi) in Hst. cbn [bind] in Hst. rewrite N.eqb_refl in Hst. cbn [negb] in Hst.
    rewrite (proj2 (index_Ok _ _ _) Hp) in Hst. cbn [bind] in Hst. inv_bind Hst. apply edges_index_In in E1. subst a0.
    destruct (merge_edges_ok convex (vertices l) (polygons l) (polygons l) (uf_new (polygons l)) i p _ _ (loop_start convex _ _) (uf_new_nth _ _ Hi) Hp (incl_refl _) Hst)
      as [_ [[_ Hno]|Hlt]]; [|cbn [snd] in Hlt; lia].
    specialize (Hno (a, b) He). unfold merge_edge in Hno. cbn [fst snd] in Hno. rewrite Hva, Hvb in Hno.
    assert (other_side i va vb = Some o) as Eo.
    { unfold other_side. rewrite Hpre. clear -Ho1 Ho2 Ho3 Hfirst. induction pre as [|x pre IH]; cbn [List.find app].
      - apply N.eqb_neq in Ho1, Ho2. rewrite Ho1, Ho2. cbn [negb andb]. now rewrite (proj2 (memN_In _ _) Ho3).
      - destruct (Hfirst x (or_introl eq_refl)) as [->|[->|Hx]].
        + rewrite N.eqb_refl. cbn [negb andb]. apply IH. intros; apply Hfirst; now right.
        + rewrite N.eqb_refl. rewrite andb_false_r. cbn [andb]. apply IH. intros; apply Hfirst; now right.
        + rewrite (proj2 (memN_false _ _) Hx), andb_false_r. apply IH. intros; apply Hfirst; now right. }
    rewrite Eo, (Hfind o Ho) in Hno. cbn [bind] in Hno. rewrite N.eqb_refl in Hno. cbn [negb] in Hno. rewrite (proj2 (index_Ok _ _ _) Hq) in Hno. cbn [bind] in Hno.
    destruct (_ <? 2) in Hno; [discriminate|]. inv_bind Hno. apply mapM_positions in E1.
    rewrite (at_positions_fun _ _ _ _ Hcs E1). destruct (convex _); [|reflexivity]. inv_bind Hno. discriminate.
Qed.

Lemma coords_map vs vs' (P : Vertex A -> Vertex A -> Prop) : (forall v v', P v v' -> coords v' = coords v) -> Forall2 P vs vs' ->
  map (fun v => coords v) vs' = map (fun v => coords v) vs.
Proof. intros H F. induction F; [reflexivity|]. cbn [map]. f_equal; auto. Qed.

(** C35: on a layer that is not stitched, a call succeeds, and leaves such a layer. *)
Theorem C35_merge_never_fails l : convex [] = false -> merge_ready area_of l ->
  exists l' b, layer_merge l = Ok (l', b) /\ merge_ready area_of l'.
Proof.
  intros Hc (Hmax & Hps & Hids & Harea).
  assert (exists l' b, layer_merge l = Ok (l', b) /\ (forall p, In p (polygons l') -> pverts p <> [] /\ forall i, In i (pverts p) -> i < lengthN (vertices l)))
    as (l' & b & E & Hps').
  { unfold Merger.layer_merge, merge_order.
    destruct (mapM_total (polygon_area area_of (vertices l)) (polygons l)) as [areas Ea].
    { intros p Hp. unfold polygon_area. destruct (mapM_total (index (vertices l)) (pverts p)) as [cs ->]; [|simpl; eauto].
      intros i Hi. destruct (nthN_lt_Some (vertices l) i) as [v Hv]; [now apply (Hps p Hp)|]. exists v. now apply index_Ok. }
    rewrite Ea. cbn [bind].
    assert (Hnan : existsb fnan areas = false).
    { apply mapM_Ok in Ea. assert (H : forall x, In x areas -> fnan x = false); [|clear -H; induction areas as [|x areas IH]; [reflexivity|]; cbn [existsb];
        rewrite (H x (or_introl eq_refl)); apply IH; intros; apply H; now right].
      intros x Hx. apply In_nthN in Hx. destruct Hx as [k Hx]. destruct (Forall2_nthN_r _ _ _ Ea _ _ Hx) as (p & _ & H). unfold polygon_area in H.
      inv_bind H. injection H as <-. apply Harea. intros c Hcc. apply in_map_iff in Hcc. destruct Hcc as (v & <- & Hv). apply in_map.
      apply mapM_Ok in E. apply In_nthN in Hv. destruct Hv as [j Hv]. destruct (Forall2_nthN_r _ _ _ E _ _ Hv) as (i & _ & Hi). apply index_Ok in Hi.
      eapply nthN_In; eassumption. }
    rewrite Hnan, andb_false_r.
    assert (Ho : merge_order area_of sort_area l = Ok (map fst (sort_area (enumerate areas)))).
    { unfold merge_order. rewrite Ea. cbn [bind]. now rewrite Hnan, andb_false_r. }
    pose proof (order_In l _ Ho) as Hord. set (order := map fst (sort_area (enumerate areas))) in *.
    cbn [bind]. destruct (merge_loop_total convex (vertices l) (polygons l) order Hc Hids (fun x H => proj1 (Hord x) H) (polygons l, uf_new (polygons l)) (loop_start convex _ _) Hps)
      as (s & Es & Hs). rewrite Es. cbn [bind].
    destruct (merge_loop_ok convex (vertices l) (polygons l) order (polygons l, uf_new (polygons l)) s (loop_start convex _ _) Es) as [(L1 & L2 & Hu & _) _].
    destruct s as [ps par]. cbn [fst snd] in *.
    destruct (renumber_total par ps Hu) as [[[ni kept] ps'] Er]; [congruence|unfold lengthN in *; lia|]. rewrite Er. cbn [bind fst snd].
    destruct (renumber_ok par ps _ Hu ltac:(congruence) ltac:(unfold lengthN in *; lia) Er) as [R HR]. unfold renumbered in HR. cbn [fst snd] in HR.
    destruct HR as (S1 & S2 & S3 & S4 & S5 & S6 & S7 & _ & _ & S10).
    destruct (N.ltb_spec (lengthN ps') kept) as [Hlt|_]; [unfold lengthN in *; lia|].
    destruct (mapM_total (rename_vertex ni) (vertices l)) as [vs' Ev].
    { intros v Hv. unfold rename_vertex.
      destruct (mapM_total (fun p => if N.eqb p MAX then Ok MAX else index ni p) (vpolys v)) as [ids ->]; [|simpl; eauto].
      intros id Hid. destruct (N.eqb_spec id MAX); [eauto|]. destruct (Hids v id Hv Hid); [contradiction|].
      destruct (nthN_lt_Some ni id) as [k Hk]; [unfold lengthN in *; lia|]. exists k. now apply index_Ok. }
    rewrite Ev. cbn [bind]. eexists _, _. split; [reflexivity|]. cbn [layer_unbake polygons]. intros p Hp.
    apply In_nthN in Hp. destruct Hp as [k Hp]. rewrite firstn_nthN in Hp. destruct (N.ltb_spec k kept) as [Hk|]; [|discriminate].
    rewrite S3 in Hk. destruct (nthN_lt_Some R k Hk) as [r Gr]. destruct (S6 _ _ Gr) as (G1 & G2 & _). destruct (root_of_lt _ _ _ G1) as [G3 _].
    rewrite (S10 k r Gr G3) in Hp. apply Hs. eapply nthN_In; eassumption. }
  exists l', b. split; [assumption|]. destruct (C35_merge l l' b Hmax E) as (_ & Hle & _ & _ & _ & g & G1 & _ & G3 & _).
  assert (Lv : lengthN (vertices l') = lengthN (vertices l)).
  { unfold lengthN. f_equal. clear -G3. induction G3; [reflexivity|]. simpl. congruence. }
  split; [lia|]. split; [|split].
  - intros p Hp. rewrite Lv. auto.
  - intros v' id Hv' Hid. apply In_nthN in Hv'. destruct Hv' as [k Hv']. destruct (Forall2_nthN_r _ _ _ G3 _ _ Hv') as (v & Hv & _ & _ & Hi & Ep).
    rewrite Ep in Hid. apply dedup_In, in_map_iff in Hid. destruct Hid as (id0 & <- & Hid). destruct (N.eqb_spec id0 MAX); [now left|]. right. apply G1.
    destruct (Hi id0 Hid); [contradiction|assumption].
  - assert (Em : map (fun v => coords v) (vertices l') = map (fun v => coords v) (vertices l)).
    { eapply coords_map; [|exact G3]. cbv beta. tauto. }
    rewrite Em. exact Harea.
Qed.

Definition total (ls : list (Layer A)) : nat := fold_right (fun l n => (length (polygons l) + n)%nat) 0%nat ls.
Lemma until_merge ls : convex [] = false -> Forall (merge_ready area_of) ls ->
  exists ls' b, until_true layer_merge ls = Ok (ls', b) /\ Forall (merge_ready area_of) ls' /\ (b = true -> (total ls' < total ls)%nat).
Proof.
  intros Hc H. induction H as [|l ls Hl Hls IH]; cbn [until_true]; [exists [], false; repeat split; [constructor|discriminate]|].
  destruct (C35_merge_never_fails l Hc Hl) as (l' & b & E & Hl'). destruct (C35_merge l l' b (proj1 Hl) E) as (Hb & Hle & _). rewrite E. cbn [bind fst snd].
  destruct b.
  - exists (l' :: ls), true. split; [reflexivity|]. split; [now constructor|]. intros _. pose proof (proj1 Hb eq_refl) as Hlt.
    unfold total. cbn [fold_right]. unfold lengthN in Hlt. lia.
  - destruct IH as (ls' & b' & E' & F' & T'). rewrite E'. cbn [bind fst snd]. exists (l' :: ls'), b'. split; [reflexivity|]. split; [now constructor|].
    intro Hb'. specialize (T' Hb'). unfold total in *. cbn [fold_right]. unfold lengthN in Hle. lia.
Qed.

(** C35: `while mesh.merge_polygons() {}` ends after at most as many turns as there are polygons, the last call having returned
    false. *)
Theorem C35_loop_terminates m : convex [] = false -> (forall l, In l (layers m) -> merge_ready area_of l) ->
  exists m1 m2, merge_all (S (count_polygons m)) m = Ok m2 /\ mesh_merge m1 = Ok (m2, false) /\
    forall l, In l (layers m2) -> merge_ready area_of l.
Proof.
  intros Hc H. assert (Hf : Forall (merge_ready area_of) (layers m)) by (now apply Forall_forall). clear H.
  change (count_polygons m) with (total (layers m)). remember (total (layers m)) as n eqn:Hn.
  assert (Hle : (total (layers m) <= n)%nat) by lia. clear Hn. revert m Hf Hle.
  induction n as [|n IH]; intros m Hf Hle; destruct (until_merge (layers m) Hc Hf) as (ls' & b & E & F' & T);
    cbn [Merger.merge_all]; unfold Merger.mesh_merge at 1; rewrite E; cbn [bind fst snd]; destruct b.
  1: { specialize (T eq_refl). lia. }
  2: { specialize (T eq_refl). destruct (IH (mkMesh ls' (search_delta m) (search_steps m))) as (m1 & m2 & G); [exact F'|cbn [layers]; lia|]. exists m1, m2. exact G. }
  all: exists m, (mkMesh ls' (search_delta m) (search_steps m)); split; [reflexivity|]; split; [unfold Merger.mesh_merge; rewrite E; reflexivity|];
    now apply Forall_forall.
Qed.

(** C36: every polygon after merging is an old one or passed the convexity test. *)
Theorem C36_unchanged_or_accepted l l' b : lengthN (polygons l) <= MAX -> layer_merge l = Ok (l', b) ->
  forall p', In p' (polygons l') -> In p' (polygons l) \/ (exists cs, at_positions (vertices l) (pverts p') cs /\ convex cs = true).
Proof.
  intros Hmax E p' Hp'. apply In_nthN in Hp'. destruct Hp' as [k Hk]. destruct (C35_merge l l' b Hmax E) as (_ & _ & _ & _ & _ & g & _ & _ & _ & G).
  destruct (G k p' Hk) as (c & M & _ & _ & [(i & _ & Hi)|[Hl _]]); [left; eapply nthN_In; eassumption|]. right.
  inversion M; subst; [simpl in Hl; lia|]. eauto.
Qed.
End Any.

(** * Areas, in exact arithmetic *)
Section Area.
Variable pos : N -> P2.
Local Open Scope R_scope.
(** Twice the signed area of the ring whose vertex [i] is at [pos i] (shoelace formula) *)
Definition sum_R (l : list R) : R := fold_right Rplus 0 l.
Definition ring_area2 (r : list N) : R := sum_R (map (fun e => cross (pos (fst e)) (pos (snd e))) (edge_list r)).

Lemma sum_R_app a b : sum_R (a ++ b) = sum_R a + sum_R b.
Proof. unfold sum_R. induction a as [|x a IH]; simpl; [lra|]. rewrite IH. lra. Qed.
Lemma sum_R_perm a b : Permutation a b -> sum_R a = sum_R b.
Proof. intro H. unfold sum_R. induction H; simpl; lra. Qed.

(** Like [merged]: each time two rings without repeated vertices are glued along an edge (a, b) of the first one and its
    opposite (b, a) in the second one. *)
Inductive glued_along_edges (ps : list Polygon) : list N -> list N -> Prop :=
| glued_one i p : nthN ps i = Some p -> glued_along_edges ps [i] (pverts p)
| glued_two c1 r1 c2 r2 a b :
    glued_along_edges ps c1 r1 -> glued_along_edges ps c2 r2 -> NoDup r1 -> NoDup r2 -> a <> b ->
    In (a, b) (edge_list r1) -> In (b, a) (edge_list r2) ->
    glued_along_edges ps (c1 ++ c2) (arc r1 b a ++ arc r2 a b).

Definition polygon_area2 (ps : list Polygon) (i : N) : R :=
  match nthN ps i with Some p => ring_area2 (pverts p) | None => 0 end.

Lemma glue_area r1 r2 a b : NoDup r1 -> NoDup r2 -> a <> b -> In (a, b) (edge_list r1) -> In (b, a) (edge_list r2) ->
  ring_area2 (arc r1 b a ++ arc r2 a b) = ring_area2 r1 + ring_area2 r2.
Proof.
  intros. unfold ring_area2. rewrite <- sum_R_app, <- map_app. rewrite <- (sum_R_perm _ _ (Permutation_map _ (glue_edges r1 r2 a b H H0 H1 H2 H3))).
  unfold sum_R, cross. simpl. lra.
Qed.
Theorem C36_area_of_a_group ps c r : glued_along_edges ps c r -> ring_area2 r = sum_R (map (polygon_area2 ps) c).
Proof.
  induction 1 as [i p Hp|c1 r1 c2 r2 a b H1 IH1 H2 IH2 N1 N2 Hne E1 E2].
  - unfold sum_R, polygon_area2. simpl. rewrite Hp. lra.
  - rewrite glue_area, map_app, sum_R_app by assumption. lra.
Qed.

(** C36: the sum of the signed areas of the polygons of a layer is preserved, if all the gluings are along edges.  Missing: that
    condition can fail on consistent meshes, see [C36_refuted]. *)
Theorem C36_area_partial {A : Arith} area_of sort_area convex (l l' : Layer A) b :
  (forall x, Permutation x (sort_area x)) -> (lengthN (polygons l) <= MAX)%N ->
  layer_merge area_of sort_area convex l = Ok (l', b) ->
  (forall c r, merged convex (vertices l) (polygons l) c r -> NoDup c -> glued_along_edges (polygons l) c r) ->
  sum_R (map (fun p => ring_area2 (pverts p)) (polygons l')) = sum_R (map (fun p => ring_area2 (pverts p)) (polygons l)).
Proof.
  intros Hsort Hmax E Hg. destruct (C35_merge area_of sort_area convex l l' b Hmax E) as (_ & _ & _ & _ & _ & g & G1 & _ & _ & G).
  assert (Hpart : forall post pre, polygons l' = pre ++ post ->
     exists cs, sum_R (map (fun p => ring_area2 (pverts p)) post) = sum_R (map (polygon_area2 (polygons l)) cs) /\ NoDup cs /\
       forall i, In i cs <-> (i < lengthN (polygons l) /\ lengthN pre <= g i)%N).
  { induction post as [|p post IH]; intros pre Hpre.
    - exists []. split; [reflexivity|]. split; [constructor|]. intro i. split; [easy|]. intros [Hi Hgi]. specialize (G1 i Hi). rewrite Hpre, app_nil_r in G1. lia.
    - destruct (IH (pre ++ [p])) as (cs & I1 & I2 & I3); [now rewrite <- app_assoc|].
      assert (Hk : nthN (polygons l') (lengthN pre) = Some p).
      { rewrite Hpre. unfold lengthN. rewrite nthN_of_nat, nth_error_app2, Nat.sub_diag by lia. reflexivity. }
      destruct (G _ _ Hk) as (c & M & ND & I & _). exists (c ++ cs). split; [|split].
      + rewrite map_app, sum_R_app, <- I1. simpl. rewrite (C36_area_of_a_group _ _ _ (Hg _ _ M ND)). reflexivity.
      + apply NoDup_app_intro; [assumption|assumption|]. intros i H1 H2. apply I in H1. apply I3 in H2. unfold lengthN in H2 at 2. rewrite app_length in H2. unfold lengthN in H1. simpl in H2. lia.
      + intro i. rewrite in_app_iff, I, I3. unfold lengthN. rewrite app_length. simpl length. lia. }
  destruct (Hpart (polygons l') [] eq_refl) as (cs & I1 & I2 & I3). rewrite I1.
  transitivity (sum_R (map (polygon_area2 (polygons l)) (uf_new (polygons l)))).
  - apply sum_R_perm, Permutation_map. apply NoDup_Permutation; [assumption| |].
    + apply NoDup_nth_error. intros i j Hi Hij. rewrite uf_new_length in Hi. rewrite <- !nthN_of_nat in Hij.
      rewrite (uf_new_nth (polygons l) (N.of_nat i)) in Hij by (unfold lengthN; lia). symmetry in Hij. pose proof (nthN_Some_lt _ _ _ Hij) as Hj.
      rewrite uf_new_lengthN in Hj. rewrite (uf_new_nth _ _ Hj) in Hij. injection Hij as Hij. lia.
    + intro i. rewrite I3. change (lengthN (@nil Polygon)) with 0%N. split.
      * intros [Hi _]. eapply nthN_In. now apply uf_new_nth.
      * intro Hi. apply In_nthN in Hi. destruct Hi as [k Hk]. pose proof (nthN_Some_lt _ _ _ Hk) as Hl. rewrite uf_new_lengthN in Hl.
        rewrite (uf_new_nth _ _ Hl) in Hk. injection Hk as <-. split; [assumption|lia].
  - f_equal. clear. unfold uf_new, enumerate.
    assert (forall post pre, polygons l = pre ++ post -> map (polygon_area2 (polygons l)) (map fst (enum_from (lengthN pre) post)) = map (fun p => ring_area2 (pverts p)) post) as H.
    { induction post as [|p post IH]; intros pre Hpre; [reflexivity|]. cbn [enum_from map fst]. f_equal.
      - unfold polygon_area2. rewrite Hpre. unfold lengthN. rewrite nthN_of_nat, nth_error_app2, Nat.sub_diag by lia. reflexivity.
      - specialize (IH (pre ++ [p])). rewrite <- app_assoc in IH. specialize (IH Hpre). unfold lengthN in *. rewrite app_length in IH. simpl length in IH.
        replace (N.succ (N.of_nat (length pre))) with (N.of_nat (length pre + 1)) by lia. exact IH. }
    apply (H (polygons l) [] eq_refl).
Qed.
End Area.

(** * Concrete cases *)
Lemma std_sort_area_perm {A : Arith} (l : list (N * F A)) : Permutation l (std_sort_area l).
Proof.
  unfold std_sort_area. induction l as [|x l IH]; [constructor|]. cbn [fold_right]. rewrite IH at 1. generalize (fold_right ins_area [] l) as r.
  induction r as [|y r IHr]; [reflexivity|]. cbn [ins_area]. destruct (fge (snd x) (snd y)); [reflexivity|]. rewrite perm_swap. now constructor.
Qed.

Definition grid2 : Mesh F32 := mesh1
  [vtx 0 0 [0; MAX]; vtx 1 0 [0; 1; MAX]; vtx 2 0 [1; MAX];
   vtx 0 1 [0; 2; MAX]; vtx 1 1 [0; 1; 3; 2]; vtx 2 1 [1; 3; MAX];
   vtx 0 2 [2; MAX]; vtx 1 2 [2; 3; MAX]; vtx 2 2 [3; MAX]]
  [mkPolygon [0; 1; 4; 3] false; mkPolygon [1; 2; 5; 4] false; mkPolygon [3; 4; 7; 6] false; mkPolygon [4; 5; 8; 7] false].

(** C36 fails: the four unit squares of a 2x2 grid are merged into one ring that goes into the middle and back: no point is in it
    any more, and no path is found.  [std_convex] is geo's test of consecutive points. *)
Theorem C36_refuted :
  all_polygons (merge32 grid2) = [[mkPolygon [3; 0; 1; 2; 5; 4; 5; 8; 7; 6] false]] /\
  map (loc grid2) [pt10 5 5; pt10 15 5; pt10 5 15; pt10 15 15] = [Ok 0; Ok 1; Ok 2; Ok 3] /\
  (match merge32 grid2 with Ok m => map (loc (baked_of m)) [pt10 5 5; pt10 15 5; pt10 5 15; pt10 15 15] | _ => [] end) = [Ok MAX; Ok MAX; Ok MAX; Ok MAX] /\
  path lib32 (baked_of grid2) (at_ (pt10 5 5)) (at_ (pt10 15 6)) = Ok (Some (mkPath (vdist (pt10 5 5) (pt10 15 6)) [pt10 15 6])) /\
  (match merge32 grid2 with Ok m => path lib32 (baked_of m) (at_ (pt10 5 5)) (at_ (pt10 15 6)) | _ => Panic end) = Ok None.
Proof. repeat split; vmc. Qed.

(** C35: merging needs an unstitched mesh: after stitching it panics. *)
Theorem C35_stitched_refuted :
  exists m, stitch_at_points std_sort basic_layers basic_points false = Ok m /\ mesh_merge std_area std_sort_area std_convex m = Panic.
Proof.
  destruct (stitch_at_points std_sort basic_layers basic_points false) as [m| | |] eqn:E.
  - exists m. split; [reflexivity|]. 
    assert (G : (let* m := stitch_at_points std_sort basic_layers basic_points false in mesh_merge std_area std_sort_area std_convex m) = Panic) by vmc.
    rewrite E in G. exact G.
  - exfalso. assert (G : (match stitch_at_points std_sort basic_layers basic_points false with Panic => true | _ => false end) = false) by vmc. rewrite E in G. discriminate.
  - exfalso. assert (G : (match stitch_at_points std_sort basic_layers basic_points false with Oob => true | _ => false end) = false) by vmc. rewrite E in G. discriminate.
  - exfalso. assert (G : (match stitch_at_points std_sort basic_layers basic_points false with NoFuel => true | _ => false end) = false) by vmc. rewrite E in G. discriminate.
Qed.

(** The hypotheses are met: in exact arithmetic, areas are numbers when the positions are. *)
Lemma exact_area_is_a_number cs : Forall (fun c => exists p, c = vp p) cs -> fnan (std_area (A:=RA) cs) = false.
Proof.
  assert (G : forall o cs, Forall (fun c => exists p, c = vp p) cs -> exists x, shoelace (A:=RA) (vp o) cs = Some x).
  { intros o cs0 H. induction H as [|c cs0 (p & ->) H IH]; [eexists; reflexivity|]. destruct H as [|c' cs0 (p' & ->) H]; [eexists; reflexivity|].
    destruct IH as [x IH]. change (shoelace (vp o) (vp p :: vp p' :: cs0)) with (fadd (perp_dot (vsub (vp p) (vp o)) (vsub (vp p') (vp o))) (shoelace (A:=RA) (vp o) (vp p' :: cs0))).
    rewrite IH. eexists. reflexivity. }
  intro H. destruct H as [|c cs (p & ->) H]; [reflexivity|]. unfold std_area.
  destruct (G p (vp p :: cs)) as [x ->]; [constructor; eauto|]. cbn. unfold rdiv. destruct (Req_EM_T _ 0) as [E|]; [exfalso; lra|reflexivity].
Qed.
Definition rvtx (x y : Z) (ps : list N) : Vertex RA := vertex_new (vp (P (IZR x) (IZR y))) ps.
Definition grid2_exact : Layer RA := mkLayer
  [rvtx 0 0 [0; MAX]; rvtx 1 0 [0; 1; MAX]; rvtx 2 0 [1; MAX];
   rvtx 0 1 [0; 2; MAX]; rvtx 1 1 [0; 1; 3; 2]; rvtx 2 1 [1; 3; MAX];
   rvtx 0 2 [2; MAX]; rvtx 1 2 [2; 3; MAX]; rvtx 2 2 [3; MAX]]
  [mkPolygon [0; 1; 4; 3] false; mkPolygon [1; 2; 5; 4] false; mkPolygon [3; 4; 7; 6] false; mkPolygon [4; 5; 8; 7] false] vzero None None.
Example C35_concrete : std_convex (A:=RA) [] = false /\ merge_ready std_area grid2_exact /\
  exists l' b, layer_merge std_area std_sort_area std_convex grid2_exact = Ok (l', b) /\ merge_ready std_area l'.
Proof.
  assert (H : merge_ready std_area grid2_exact).
  { split; [unfold lengthN, MAX; simpl; lia|]. split; [|split].
    - intros p Hp. simpl in Hp. unfold lengthN. simpl. repeat (destruct Hp as [<-|Hp]; [split; [discriminate|]; simpl; intros i Hi; repeat (destruct Hi as [<-|Hi]; [lia|]); destruct Hi|]). destruct Hp.
    - intros v id Hv Hid. unfold lengthN. simpl. simpl in Hv.
      repeat (destruct Hv as [<-|Hv]; [simpl in Hid; repeat (destruct Hid as [<-|Hid]; [first [now left|right; lia]|]); destruct Hid|]). destruct Hv.
    - intros cs Hcs. apply exact_area_is_a_number. apply Forall_forall. intros c Hc. apply Hcs in Hc. simpl in Hc.
      repeat (destruct Hc as [<-|Hc]; [eexists; reflexivity|]). destruct Hc. }
  split; [reflexivity|]. split; [exact H|]. apply C35_merge_never_fails; [apply std_sort_area_perm|reflexivity|exact H].
Qed.

(** two squares side by side: all the gluings are along the common edge *)
Definition two_squares : Layer F32 := layer0
  [vtx 0 0 [0; MAX]; vtx 1 0 [0; 1; MAX]; vtx 1 1 [0; 1; MAX]; vtx 0 1 [0; MAX]; vtx 2 0 [1; MAX]; vtx 2 1 [1; MAX]]
  [mkPolygon [0; 1; 2; 3] false; mkPolygon [1; 4; 5; 2] true].
Example C36_concrete : 
  (match layer_merge std_area std_sort_area std_convex two_squares with Ok (l', b) => (polygons l', b) | _ => ([], false) end) = ([mkPolygon [2; 3; 0; 1; 4; 5] false], true) /\
  forall c r, merged std_convex (vertices two_squares) (polygons two_squares) c r -> NoDup c -> glued_along_edges (polygons two_squares) c r.
Proof.
  split; [vmc|]. remember (vertices two_squares) as vs eqn:Evs. remember (polygons two_squares) as ps eqn:Eps.
  assert (Hin : forall c r, merged std_convex vs ps c r -> c <> [] /\ forall i, In i c -> i < 2).
  { induction 1 as [i p Hp|c1 r1 c2 r2 a b va vb o cs H1 [N1 I1] H2 [N2 I2]].
    - split; [discriminate|]. intros j [<-|[]]. apply nthN_Some_lt in Hp. subst ps. exact Hp.
    - split; [destruct c1; [contradiction|discriminate]|]. intros i Hi. apply in_app_iff in Hi. destruct Hi; auto. }
  assert (Hone : forall c r, merged std_convex vs ps c r -> length c = 1%nat -> exists i p, c = [i] /\ nthN ps i = Some p /\ r = pverts p).
  { intros c r H Hl. inversion H as [i p Hp|c1 r1 c2 r2 a b va vb o cs H1 H2]; subst c r; [eauto|].
    destruct (Hin _ _ H1) as [N1 _], (Hin _ _ H2) as [N2 _]. destruct c1, c2; try contradiction. rewrite app_length in Hl. simpl in Hl. lia. }
  intros c r H ND. inversion H as [i p Hp|c1 r1 c2 r2 a b va vb o cs H1 H2 He Ha Hb Ho Hoa Hob Hp Hc]; subst c r; [now constructor|].
  destruct (Hin _ _ H1) as [N1 I1], (Hin _ _ H2) as [N2 I2].
  assert (Hlen : (length (c1 ++ c2) <= 2)%nat).
  { change 2%nat with (length [0; 1]). apply NoDup_incl_length; [assumption|]. intros i Hi. assert (i < 2) by (apply in_app_iff in Hi; destruct Hi; auto).
    simpl. lia. }
  rewrite app_length in Hlen. destruct c1 as [|x1 c1]; [contradiction|]. destruct c2 as [|x2 c2]; [contradiction|]. simpl in Hlen.
  assert (c1 = []) by (destruct c1; [reflexivity|simpl in Hlen; lia]). assert (c2 = []) by (destruct c2; [reflexivity|simpl in Hlen; lia]). subst c1 c2.
  destruct (Hone _ _ H1 eq_refl) as (i1 & p1 & E1 & P1 & R1). injection E1 as <-. destruct (Hone _ _ H2 eq_refl) as (i2 & p2 & E2 & P2 & R2). injection E2 as <-.
  destruct Ho as [<-|[]]. specialize (I1 x1 (or_introl eq_refl)). specialize (I2 x2 (or_introl eq_refl)).
  assert (x1 <> x2) by (intros ->; inversion ND as [|y ll Hn _]; apply Hn; now left).
  assert (Hv : forall i j v, nthN vs i = Some v -> In j (vpolys v) -> In j [0; 1] -> In (i, j) [(0, 0); (1, 0); (1, 1); (2, 0); (2, 1); (3, 0); (4, 1); (5, 1)]).
  { intros i j v Hi Hj Hj2. clear -Evs Hi Hj Hj2. pose proof (nthN_Some_lt _ _ _ Hi) as Hl. subst vs. assert (Hi6 : i < 6) by exact Hl.
    assert (i = 0 \/ i = 1 \/ i = 2 \/ i = 3 \/ i = 4 \/ i = 5) as Hc by lia.
    destruct Hc as [->|[->|[->|[->|[->| ->]]]]]; injection Hi as <-; cbn [vpolys vtx vertex_new] in Hj;
      (repeat (destruct Hj as [<-|Hj]; [first [now (simpl; tauto)|exfalso; simpl in Hj2; unfold MAX in Hj2; lia]|])); destruct Hj. }
  assert (Hpl : forall i p, nthN ps i = Some p -> i < 2 -> (i = 0 /\ pverts p = [0; 1; 2; 3]) \/ (i = 1 /\ pverts p = [1; 4; 5; 2])).
  { intros i p Hi Hl. subst ps. assert (i = 0 \/ i = 1) as [->| ->] by lia; injection Hi as <-; auto. }
  assert (Hva := Hv a x2 va Ha Hoa ltac:(simpl; lia)). assert (Hvb := Hv b x2 vb Hb Hob ltac:(simpl; lia)). clear Hv.
  change ([x1] ++ [x2]) with ([x1] ++ [x2]).
  assert (Hcase : (x1 = 0 /\ x2 = 1 /\ a = 1 /\ b = 2) \/ (x1 = 1 /\ x2 = 0 /\ a = 2 /\ b = 1)).
  { destruct (Hpl _ _ P1 I1) as [[X1 Q1]|[X1 Q1]]; rewrite R1, Q1 in He; subst x1; (assert (x2 = 1 \/ x2 = 0) as [X2|X2] by lia); subst x2; try contradiction; [left|right];
    simpl in He, Hva, Hvb; repeat (destruct He as [He|He]; [injection He as <- <-; repeat split; try reflexivity; exfalso; repeat (destruct Hva as [Hva|Hva]; [try discriminate|]); repeat (destruct Hvb as [Hvb|Hvb]; [try discriminate|]); try contradiction|]); destruct He. }
  assert (ND4 : forall i p, nthN ps i = Some p -> i < 2 -> NoDup (pverts p)).
  { intros i p Hi Hl. destruct (Hpl _ _ Hi Hl) as [[_ ->]|[_ ->]]; repeat constructor; simpl; lia. }
  subst r1 r2. apply (glued_two ps [x1] (pverts p1) [x2] (pverts p2) a b).
  - now constructor.
  - now constructor.
  - exact (ND4 _ _ P1 I1).
  - exact (ND4 _ _ P2 I2).
  - destruct Hcase as [(_ & _ & -> & ->)|(_ & _ & -> & ->)]; lia.
  - exact He.
  - destruct (Hpl _ _ P2 I2) as [[X2 ->]|[X2 ->]]; destruct Hcase as [(Y1 & Y2 & -> & ->)|(Y1 & Y2 & -> & ->)]; try lia; simpl; tauto.
Qed.

Print Assumptions C35_merge.
Print Assumptions C35_neighbours.
Print Assumptions C35_false_means_done.
Print Assumptions C35_merge_never_fails.
Print Assumptions C35_loop_terminates.
Print Assumptions C35_stitched_refuted.
Print Assumptions C36_unchanged_or_accepted.
Print Assumptions C36_area_of_a_group.
Print Assumptions C36_area_partial.
Print Assumptions C36_refuted.
