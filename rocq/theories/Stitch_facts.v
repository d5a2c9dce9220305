(** Facts about src/stitching.rs. *)
From Coq Require Import List NArith ZArith Bool Permutation Lia.
From Verif Require Import Base Arith U32 Mesh Helpers Spec Spec_mesh Cleanup Cleanup_facts Stitch.
Import ListNotations.
Open Scope N_scope.

Lemma nthN_enumerate {T} (l : list T) i x : nthN (enumerate l) i = Some x <-> (fst x = i /\ nthN l i = Some (snd x)).
Proof.
  unfold enumerate. enough (G : forall k i, nthN (enum_from k l) i = Some x <-> fst x = k + i /\ nthN l i = Some (snd x)).
  { rewrite G. reflexivity. }
  clear i. induction l as [|y r IH]; intros k i; simpl.
  - split; [discriminate|intros [_ H]; discriminate].
  - destruct (N.eqb_spec i 0) as [->|H].
    + rewrite N.add_0_r. split; [intro E; injection E as <-; auto|]. intros [E1 E2]. injection E2 as ->. destruct x; simpl in *; now subst.
    + rewrite IH. replace (N.succ k + N.pred i) with (k + i) by lia. reflexivity.
Qed.

Lemma Forall2_of_nthN {S T} (P : S -> T -> Prop) xs : forall ys, length xs = length ys ->
  (forall i x y, nthN xs i = Some x -> nthN ys i = Some y -> P x y) -> Forall2 P xs ys.
Proof.
  induction xs as [|x xs IH]; intros [|y ys] HL H; try discriminate; constructor.
  - apply (H 0); reflexivity.
  - apply IH; [now injection HL|]. intros i a b Ha Hb. apply (H (N.succ i)); simpl; rewrite N.pred_succ;
      (destruct (N.eqb_spec (N.succ i) 0); [lia|assumption]).
Qed.

Section Facts.
Context {A : Arith}.
Implicit Types (m : Mesh A) (l : Layer A) (v : Vertex A) (ls : list (Layer A)).

Definition vat ls (li vi : N) v : Prop := exists l, nthN ls li = Some l /\ nthN (vertices l) vi = Some v.
Lemma vat_fun ls li vi v w : vat ls li vi v -> vat ls li vi w -> v = w.
Proof. intros (l & H1 & H2) (l' & H1' & H2'). assert (l = l') by congruence. subst. congruence. Qed.
Lemma vertex_at_vat m li vi v : vertex_at m li vi v <-> vat (layers m) li vi v.
Proof. reflexivity. Qed.

Lemma same_layer_refl l : same_layer l l.
Proof. repeat split. induction (vertices l); constructor; [reflexivity|assumption]. Qed.
Lemma Forall2_refl {T} (P : T -> T -> Prop) (xs : list T) : (forall x, P x x) -> Forall2 P xs xs.
Proof. intro H. induction xs; constructor; auto. Qed.
Lemma Forall2_trans {T} (P : T -> T -> Prop) (xs ys zs : list T) : (forall x y z, P x y -> P y z -> P x z) ->
  Forall2 P xs ys -> Forall2 P ys zs -> Forall2 P xs zs.
Proof. intros Ht H. revert zs. induction H; intros zs G; inversion G; subst; constructor; eauto. Qed.
Lemma same_layer_trans (l1 l2 l3 : Layer A) : same_layer l1 l2 -> same_layer l2 l3 -> same_layer l1 l3.
Proof.
  intros (H1 & H2 & H3 & H4 & H5) (G1 & G2 & G3 & G4 & G5). repeat split; try congruence.
  eapply Forall2_trans; [|exact H5|exact G5]. unfold same_vertex. intros. congruence.
Qed.
Lemma same_geometry_refl m : same_geometry m m.
Proof. repeat split. apply Forall2_refl. apply same_layer_refl. Qed.
Lemma same_geometry_trans (m1 m2 m3 : Mesh A) : same_geometry m1 m2 -> same_geometry m2 m3 -> same_geometry m1 m3.
Proof.
  intros (H1 & H2 & H3) (G1 & G2 & G3). repeat split; try congruence. eapply Forall2_trans; [|exact H3|exact G3]. apply same_layer_trans.
Qed.
Lemma same_layers_vat ls ls' li vi : Forall2 same_layer ls ls' ->
  (forall v, vat ls li vi v -> exists v', vat ls' li vi v' /\ coords v' = coords v) /\
  (forall v', vat ls' li vi v' -> exists v, vat ls li vi v /\ coords v' = coords v).
Proof.
  intro H. split.
  - intros v (l & Hl & Hv). destruct (Forall2_nthN _ _ _ H _ _ Hl) as (l' & Hl' & _ & _ & _ & _ & G).
    destruct (Forall2_nthN _ _ _ G _ _ Hv) as (v' & Hv' & Hc). exists v'. split; [now exists l'|assumption].
  - intros v' (l' & Hl' & Hv'). destruct (Forall2_nthN_r _ _ _ H _ _ Hl') as (l & Hl & _ & _ & _ & _ & G).
    destruct (Forall2_nthN_r _ _ _ G _ _ Hv') as (v & Hv & Hc). exists v. split; [now exists l|assumption].
Qed.
Lemma same_layers_length ls ls' : Forall2 same_layer ls ls' -> length ls' = length ls.
Proof. induction 1; simpl; congruence. Qed.
Lemma updN_same ls i f : (forall l, same_layer l (f l)) -> Forall2 same_layer ls (updN ls i f).
Proof.
  intro H. revert i. induction ls as [|l r IH]; intro i; simpl; [constructor|].
  destruct (N.eqb i 0); constructor; auto using same_layer_refl. apply Forall2_refl. apply same_layer_refl.
Qed.

(** *** append *)
Lemma append_at_same ls li vi ids : Forall2 same_layer ls (append_at ls li vi ids).
Proof.
  apply updN_same. intro l. repeat split. cbn [set_vertices vertices].
  generalize (vertices l) as vs. intro vs. revert vi. induction vs as [|v r IH]; intro vi; simpl; [constructor|].
  destruct (N.eqb vi 0); constructor; auto; try reflexivity. apply Forall2_refl. reflexivity.
Qed.
Lemma append_at_vat ls li vi ids lj vj w : vat (append_at ls li vi ids) lj vj w ->
  exists v, vat ls lj vj v /\ is_corner w = is_corner v /\
    vpolys w = vpolys v ++ (if N.eqb li lj && N.eqb vi vj then ids else []).
Proof.
  intros (l' & Hl & Hw). unfold append_at in Hl. rewrite nthN_updN in Hl. destruct (N.eqb_spec li lj) as [<-|Hne].
  - destruct (nthN ls li) as [l|] eqn:El; [|discriminate]. simpl in Hl. injection Hl as <-. cbn [set_vertices vertices] in Hw.
    rewrite nthN_updN in Hw. destruct (N.eqb_spec vi vj) as [<-|Hv].
    + destruct (nthN (vertices l) vi) as [v|] eqn:Ev; [|discriminate]. injection Hw as <-. exists v.
      split; [now exists l|]. split; reflexivity.
    + exists w. split; [now exists l|]. split; [reflexivity|]. simpl. now rewrite app_nil_r.
  - exists w. split; [now exists l'|]. split; [reflexivity|]. simpl. now rewrite app_nil_r.
Qed.

Lemma own_ids_In li v id : In id (own_ids li v) <-> In id (vpolys v) /\ id <> MAX /\ id_layer id = li.
Proof.
  unfold own_ids. rewrite filter_In, andb_true_iff, negb_true_iff, N.eqb_neq, N.eqb_eq. tauto.
Qed.

(** *** one stitch *)
Definition added (ow : bool) (s : (N * N) * (N * N)) ls (li vi id : N) : Prop :=
  (li = fst (fst s) /\ vi = fst (snd s) /\ exists w, vat ls (snd (fst s)) (snd (snd s)) w /\ In id (own_ids (snd (fst s)) w)) \/
  (ow = false /\ li = snd (fst s) /\ vi = snd (snd s) /\
   exists w, vat ls (fst (fst s)) (fst (snd s)) w /\ In id (own_ids (fst (fst s)) w)).

Definition stitch1 (ow : bool) ls (s : (N * N) * (N * N)) : res (list (Layer A)) :=
  stitch_one ow (fst (fst s)) (snd (fst s)) ls (snd s).

Lemma stitch1_spec ow ls s ls1 : fst (fst s) <> snd (fst s) -> stitch1 ow ls s = Ok ls1 ->
  Forall2 same_layer ls ls1 /\
  forall li vi w, vat ls1 li vi w -> exists v, vat ls li vi v /\ is_corner w = is_corner v /\
    forall id, In id (vpolys w) <-> In id (vpolys v) \/ added ow s ls li vi id.
Proof.
  destruct s as [[from to] [f t]]. cbn [fst snd]. intros Hne H. unfold stitch1, stitch_one in H. cbn [fst snd] in H.
  inv_bind H. rename a into lf. apply index_Ok in E. inv_bind H. rename a into vf. apply unwrap_Ok in E0. inv_bind H. rename a into lt.
  apply unwrap_Ok in E1. inv_bind H. rename a into vt. apply unwrap_Ok in E2. injection H as <-.
  assert (Vf : vat ls from f vf) by (now exists lf). assert (Vt : vat ls to t vt) by (now exists lt).
  split.
  { destruct ow; [apply append_at_same|]. eapply Forall2_trans; [apply same_layer_trans| |]; apply append_at_same. }
  intros li vi w Hw. apply append_at_vat in Hw. destruct Hw as (u & Hu & Cu & Pu).
  assert (exists v, vat ls li vi v /\ is_corner u = is_corner v /\
            vpolys u = vpolys v ++ (if negb ow && (N.eqb to li && N.eqb t vi) then own_ids from vf else [])) as (v & Hv & Cv & Pv).
  { destruct ow.
    - exists u. split; [assumption|]. split; [reflexivity|]. simpl. now rewrite app_nil_r.
    - now apply append_at_vat in Hu. }
  exists v. split; [assumption|]. split; [congruence|]. intro id. rewrite Pu, Pv, !in_app_iff. unfold added. cbn [fst snd].
  assert (G1 : In id (if N.eqb from li && N.eqb f vi then own_ids to vt else []) <->
               (li = from /\ vi = f /\ exists w0, vat ls to t w0 /\ In id (own_ids to w0))).
  { destruct (N.eqb_spec from li) as [<-|D]; destruct (N.eqb_spec f vi) as [<-|D2]; cbn [andb].
    - split; [intro; repeat split; eauto|]. intros (_ & _ & w0 & G & Gi). now rewrite (vat_fun _ _ _ _ _ Vt G).
    - split; [intros []|intros (_ & -> & _); congruence].
    - split; [intros []|intros (-> & _ & _); congruence].
    - split; [intros []|intros (-> & _ & _); congruence]. }
  assert (G2 : In id (if negb ow && (N.eqb to li && N.eqb t vi) then own_ids from vf else []) <->
               (ow = false /\ li = to /\ vi = t /\ exists w0, vat ls from f w0 /\ In id (own_ids from w0))).
  { destruct ow; cbn [negb andb].
    - split; [intros []|intros (? & _); discriminate].
    - destruct (N.eqb_spec to li) as [<-|D]; destruct (N.eqb_spec t vi) as [<-|D2]; cbn [andb].
      + split; [intro; repeat split; eauto|]. intros (_ & _ & _ & w0 & G & Gi). now rewrite (vat_fun _ _ _ _ _ Vf G).
      + split; [intros []|intros (_ & _ & -> & _); congruence].
      + split; [intros []|intros (_ & -> & _ & _); congruence].
      + split; [intros []|intros (_ & -> & _ & _); congruence]. }
  rewrite G1, G2. tauto.
Qed.
Lemma stitch1_total ow ls s : (exists v, vat ls (fst (fst s)) (fst (snd s)) v) -> (exists v, vat ls (snd (fst s)) (snd (snd s)) v) ->
  exists ls1, stitch1 ow ls s = Ok ls1.
Proof.
  intros (vf & lf & H1 & H2) (vt & lt & H3 & H4). unfold stitch1, stitch_one, index. rewrite H1. cbn [unwrap bind]. rewrite H2. cbn [unwrap bind].
  rewrite H3. cbn [unwrap bind]. rewrite H4. cbn [unwrap bind]. eauto.
Qed.

(** *** all the stitches *)
Definition flat (S : StitchVertices) : list ((N * N) * (N * N)) := flat_map (fun s => map (fun ft => (fst s, ft)) (snd s)) S.

Lemma foldM_app {T U} (f : U -> T -> res U) xs : forall ys u, foldM f u (xs ++ ys) = bind (foldM f u xs) (fun u => foldM f u ys).
Proof. induction xs as [|x xs IH]; intros ys u; simpl; [reflexivity|]. destruct (f u x); simpl; auto. Qed.
Lemma foldM_map {T T' U} (f : U -> T -> res U) (g : T' -> T) xs : forall u, foldM f u (map g xs) = foldM (fun u x => f u (g x)) u xs.
Proof. induction xs as [|x xs IH]; intro u; simpl; [reflexivity|]. destruct (f u (g x)); simpl; auto. Qed.

Lemma fold_flat t ow S : forall ls, foldM (stitch_pair t ow) ls S =
  foldM (stitch1 ow) ls (flat (filter (fun s => concerns t (fst (fst s)) (snd (fst s))) S)).
Proof.
  induction S as [|[[from to] ps] S IH]; intro ls; [reflexivity|]. cbn [foldM filter fst snd]. unfold stitch_pair at 1. cbn [fst snd].
  destruct (concerns t from to).
  - cbn [flat flat_map fst snd]. rewrite foldM_app, foldM_map. unfold stitch1 at 1. cbn [fst snd]. 
    change (foldM (fun u x => stitch_one ow from to u x) ls ps) with (foldM (stitch_one ow from to) ls ps).
    destruct (foldM (stitch_one ow from to) ls ps); simpl; auto.
  - cbn [bind]. apply IH.
Qed.

Lemma flat_In S s : In s (flat S) <-> exists ps, In (fst s, ps) S /\ In (snd s) ps.
Proof.
  unfold flat. rewrite in_flat_map. split.
  - intros ([k ps] & H1 & H2). apply in_map_iff in H2. destruct H2 as (ft & <- & H2). cbn [fst snd] in *. eauto.
  - intros (ps & H1 & H2). exists (fst s, ps). split; [assumption|]. cbn [fst snd]. apply in_map_iff. exists (snd s). split; [now destruct s|assumption].
Qed.

Definition gets (ow : bool) (fs : list ((N * N) * (N * N))) ls (li vi id : N) : Prop :=
  exists s, In s fs /\ added ow s ls li vi id.

Lemma added_own ow s ls li vi id : fst (fst s) <> snd (fst s) -> added ow s ls li vi id -> id_layer id <> li.
Proof.
  intros Hne [(-> & _ & w & _ & Hi)|(_ & -> & _ & w & _ & Hi)]; apply own_ids_In in Hi; destruct Hi as (_ & _ & ->); congruence.
Qed.

Lemma stitch_all_spec ow : forall fs ls ls', (forall s, In s fs -> fst (fst s) <> snd (fst s)) -> foldM (stitch1 ow) ls fs = Ok ls' ->
  Forall2 same_layer ls ls' /\
  forall li vi w, vat ls' li vi w -> exists v, vat ls li vi v /\ is_corner w = is_corner v /\
    forall id, In id (vpolys w) <-> In id (vpolys v) \/ gets ow fs ls li vi id.
Proof.
  induction fs as [|s fs IH]; intros ls ls' Hne H.
  - injection H as <-. split; [apply Forall2_refl; apply same_layer_refl|]. intros li vi w Hw. exists w.
    split; [assumption|]. split; [reflexivity|]. intro id. split; [tauto|]. intros [H|(s & [] & _)]; assumption.
  - cbn [foldM] in H. inv_bind H. rename a into ls1. destruct (stitch1_spec _ _ _ _ (Hne s (or_introl eq_refl)) E) as [S1 V1].
    assert (Hne' : forall s, In s fs -> fst (fst s) <> snd (fst s)) by (intros; apply Hne; now right).
    destruct (IH ls1 ls' Hne' H) as [S2 V2]. split; [eapply Forall2_trans; [apply same_layer_trans|eassumption|eassumption]|].
    assert (Hown : forall s', fst (fst s') <> snd (fst s') -> forall li vi id, added ow s' ls1 li vi id <-> added ow s' ls li vi id).
    { assert (HO : forall lj vj id, (exists w, vat ls1 lj vj w /\ In id (own_ids lj w)) <-> (exists w, vat ls lj vj w /\ In id (own_ids lj w))).
      { intros lj vj id. split.
        - intros (w & Hw & Hi). destruct (V1 _ _ _ Hw) as (v & Hv & _ & Hid). exists v. split; [assumption|].
          rewrite own_ids_In in Hi |- *. destruct Hi as (Hi & Hm & Hl). split; [|auto]. apply Hid in Hi. destruct Hi as [Hi|Hi]; [assumption|].
          exfalso. apply added_own in Hi; [congruence|]. apply Hne; now left.
        - intros (v & Hv & Hi). destruct (same_layers_vat ls ls1 lj vj S1) as [G _]. destruct (G v Hv) as (w & Hw & _). exists w. split; [assumption|].
          destruct (V1 _ _ _ Hw) as (v2 & Hv2 & _ & Hid). rewrite (vat_fun _ _ _ _ _ Hv Hv2) in Hi. rewrite own_ids_In in Hi |- *.
          split; [apply Hid; now left|apply Hi]. }
      intros s' _ li vi id. unfold added. rewrite (HO (snd (fst s')) (snd (snd s')) id), (HO (fst (fst s')) (fst (snd s')) id). reflexivity. }
    intros li vi w Hw. destruct (V2 _ _ _ Hw) as (u & Hu & Cu & Pu). destruct (V1 _ _ _ Hu) as (v & Hv & Cv & Pv).
    exists v. split; [assumption|]. split; [congruence|]. intro id. rewrite Pu, Pv. unfold gets. split.
    + intros [[G|G]|(s' & Hs & G)]; [now left|right; exists s; split; [now left|assumption]|].
      right. exists s'. split; [now right|]. apply (Hown s'); [apply Hne; now right|assumption].
    + intros [G|(s' & [<-|Hs] & G)]; [auto|auto|]. right. exists s'. split; [assumption|]. apply (Hown s'); [apply Hne; now right|assumption].
Qed.

Lemma stitch_all_total ow : forall fs ls, (forall s, In s fs -> fst (fst s) <> snd (fst s)) ->
  (forall s, In s fs -> (exists v, vat ls (fst (fst s)) (fst (snd s)) v) /\ (exists v, vat ls (snd (fst s)) (snd (snd s)) v)) ->
  exists ls', foldM (stitch1 ow) ls fs = Ok ls'.
Proof.
  induction fs as [|s fs IH]; intros ls Hne Hv; [eexists; reflexivity|]. cbn [foldM].
  destruct (Hv s (or_introl eq_refl)) as [Hf Ht]. destruct (stitch1_total ow ls s Hf Ht) as [ls1 E]. rewrite E. cbn [bind]. apply IH.
  - intros; apply Hne; now right.
  - destruct (stitch1_spec _ _ _ _ (Hne s (or_introl eq_refl)) E) as [S1 _]. intros s' Hs'. destruct (Hv s' (or_intror Hs')) as [(v & G1) (w & G2)].
    split.
    + destruct (same_layers_vat ls ls1 (fst (fst s')) (fst (snd s')) S1) as [G _]. destruct (G v G1) as (v' & ? & _). eauto.
    + destruct (same_layers_vat ls ls1 (snd (fst s')) (snd (snd s')) S1) as [G _]. destruct (G w G2) as (v' & ? & _). eauto.
Qed.

(** [gets] in the words of the specification *)
Lemma gets_linked ow t S ls li vi id :
  gets ow (flat (filter (fun s => concerns t (fst (fst s)) (snd (fst s))) S)) ls li vi id <->
  exists lj vj w, linked S ow li vi lj vj /\ concerns t li lj = true /\ vat ls lj vj w /\ In id (own_ids lj w).
Proof.
  assert (Hc : forall a b, concerns t a b = concerns t b a) by (intros; unfold concerns; destruct t; [apply orb_comm|reflexivity]).
  unfold gets, linked. split.
  - intros ([[from to] [f g]] & Hs & Ha). apply flat_In in Hs. cbn [fst snd] in Hs. destruct Hs as (ps & Hs & Hp). apply filter_In in Hs.
    cbn [fst snd] in Hs. destruct Hs as [Hs Hcc]. destruct Ha as [(-> & -> & w & Hw & Hi)|(Ho & -> & -> & w & Hw & Hi)]; cbn [fst snd] in *.
    + exists to, g, w. split; [left; eauto|auto].
    + exists from, f, w. split; [right; eauto|]. rewrite Hc. auto.
  - intros (lj & vj & w & Hl & Hcc & Hw & Hi). destruct Hl as [(ps & Hs & Hp)|(-> & ps & Hs & Hp)].
    + exists ((li, lj), (vi, vj)). split.
      * apply flat_In. exists ps. cbn [fst snd]. split; [apply filter_In; auto|assumption].
      * left. cbn [fst snd]. eauto.
    + exists ((lj, li), (vj, vi)). split.
      * apply flat_In. exists ps. cbn [fst snd]. split; [apply filter_In; cbn [fst snd]; rewrite Hc; auto|assumption].
      * right. cbn [fst snd]. eauto 6.
Qed.

(** *** layer numbers *)
Definition tagged (li p p' : N) : Prop := (p = MAX /\ p' = MAX) \/ (p <> MAX /\ p' = p + (li mod 256) * 2^24 /\ p' < 2^32).

Lemma tag_layer_spec li l l' : tag_layer li l = Ok l' ->
  polygons l' = polygons l /\ offset l' = offset l /\ baked l' = baked l /\ islands l' = islands l /\
  Forall2 (fun v v' => coords v' = coords v /\ is_corner v' = is_corner v /\ Forall2 (tagged li) (vpolys v) (vpolys v')) (vertices l) (vertices l').
Proof.
  unfold tag_layer. intro H. inv_bind H. injection H as <-. cbn [set_vertices polygons offset baked islands vertices]. repeat split.
  apply mapM_Ok in E. induction E; constructor; [|assumption]. inv_bind H. injection H as <-. cbn [set_vpolys coords is_corner vpolys].
  split; [reflexivity|]. split; [reflexivity|]. apply mapM_Ok in E0. clear -E0. induction E0; constructor; [|assumption].
  unfold tagged. destruct (N.eqb_spec x0 MAX) as [->|Hm]; [injection H as <-; auto|]. unfold add_u32 in H.
  destruct (N.ltb_spec (x0 + (li mod 256) * 2^24) (2^32)); [injection H as <-; auto|discriminate].
Qed.

Definition tag_at (target : option N) (li : N) : bool :=
  match target with Some t => N.eqb t (li mod 256) | None => true end.

Lemma tag_layers_spec t ls ls' : tag_layers t ls = Ok ls' ->
  Forall2 same_layer ls ls' /\
  forall li vi w, vat ls' li vi w -> exists v, vat ls li vi v /\ is_corner w = is_corner v /\
    (if tag_at t li then Forall2 (tagged li) (vpolys v) (vpolys w) else vpolys w = vpolys v).
Proof.
  unfold tag_layers. intro H. apply mapM_Ok in H.
  assert (G : forall li l', nthN ls' li = Some l' -> exists l, nthN ls li = Some l /\ same_layer l l' /\
     Forall2 (fun v w => is_corner w = is_corner v /\ (if tag_at t li then Forall2 (tagged li) (vpolys v) (vpolys w) else vpolys w = vpolys v)) (vertices l) (vertices l')).
  { intros li l' Hl'. destruct (Forall2_nthN_r _ _ _ H _ _ Hl') as ([i l] & He & Hf). apply nthN_enumerate in He. cbn [fst snd] in *.
    destruct He as [-> Hl]. exists l. split; [assumption|].
    assert (HT : tag_layer li l = Ok l' -> same_layer l l' /\ Forall2 (fun v w => is_corner w = is_corner v /\ Forall2 (tagged li) (vpolys v) (vpolys w)) (vertices l) (vertices l')).
    { intro HT. apply tag_layer_spec in HT. destruct HT as (T1 & T2 & T3 & T4 & T5). split.
      - repeat split; try assumption. clear -T5. induction T5; constructor; [apply H|assumption].
      - clear -T5. induction T5; constructor; [split; apply H|assumption]. }
    destruct t as [t|]; cbn [tag_at].
    - destruct (N.eqb t (li mod 256)); [now apply HT|]. injection Hf as <-. split; [apply same_layer_refl|]. apply Forall2_refl. auto.
    - now apply HT. }
  split.
  - assert (length ls' = length ls) as EL. { assert (length (enumerate ls) = length ls') as <- by (clear -H; induction H; simpl; congruence). apply enum_from_length. }
    apply Forall2_of_nthN; [now symmetry|]. intros i l l' Hl Hl'. destruct (G i l' Hl') as (l0 & E0 & Hs & _).
    assert (l0 = l) by congruence. now subst.
  - intros li vi w (l' & Hl' & Hw). destruct (G li l' Hl') as (l & Hl & _ & Hf). destruct (Forall2_nthN_r _ _ _ Hf _ _ Hw) as (v & Hv & Hc & Hp).
    exists v. split; [now exists l|]. auto.
Qed.

(** *** ids of a plain mesh *)
(** what vertex [vi] of layer [li] must list: its own polygons and those of the linked vertices *)
Definition own_of m (li vi id : N) : Prop := exists p, lists m li vi p /\ id = id_make li p.
Definition link_of (t : option N) (S : StitchVertices) (ow : bool) m (li vi id : N) : Prop :=
  exists lj vj, linked S ow li vi lj vj /\ concerns t li lj = true /\ own_of m lj vj id.

Lemma plain_lists m li vi p : plain m -> lists m li vi p -> li < 256 /\ p < 2^24 - 1 /\
  exists l, nthN (layers m) li = Some l /\ p < lengthN (polygons l).
Proof.
  intros (H1 & H2 & H3) (v & (l & Hl & Hv) & Hp & Hm). pose proof (nthN_Some_lt _ _ _ Hl). split; [lia|].
  assert (Hi : In l (layers m)) by (eapply nthN_In; eassumption).
  assert (p < lengthN (polygons l)) by (eapply H3; try eassumption; eapply nthN_In; eassumption).
  specialize (H2 l Hi). split; [lia|]. exists l. auto.
Qed.
Lemma own_of_layer m li vi id : plain m -> own_of m li vi id -> id_layer id = li /\ id <> MAX .
Proof.
  intros Hp (p & Hl & ->). destruct (plain_lists _ _ _ _ Hp Hl) as (H1 & H2 & _).
  split; [apply id_layer_make; lia|]. apply id_make_not_MAX; lia.
Qed.
Lemma own_of_valid m m' li vi id : plain m -> Forall2 same_layer (layers m) (layers m') -> own_of m li vi id -> exists l p, polygon_at m' id l p.
Proof.
  intros Hp Hs (p & Hl & ->). destruct (plain_lists _ _ _ _ Hp Hl) as (H1 & H2 & l & Hn & Hlt).
  destruct (Forall2_nthN _ _ _ Hs _ _ Hn) as (l' & Hl' & Ep & _). destruct (nthN_lt_Some _ _ Hlt) as [pl Hpl].
  exists l', pl. unfold polygon_at. rewrite id_layer_make, id_polygon_make by lia. rewrite Ep. auto.
Qed.

Lemma layers_wf_same ls ls' : Forall2 same_layer ls ls' -> (forall l, In l ls -> layer_wf l) -> forall l', In l' ls' -> layer_wf l'.
Proof.
  intros Hs H l' Hl'. apply In_nthN in Hl'. destruct Hl' as [i Hi]. destruct (Forall2_nthN_r _ _ _ Hs _ _ Hi) as (l & Hl & Ep & _ & _ & _ & Ev).
  intros p Hp. rewrite Ep in Hp. destruct (H l (nthN_In _ _ _ Hl) p Hp) as [G1 G2]. split; [assumption|].
  intros v Hv. specialize (G2 v Hv). unfold lengthN in *. assert (length (vertices l') = length (vertices l)) as -> by (clear -Ev; induction Ev; simpl; congruence). assumption.
Qed.

Lemma finish sort m t S ow ls1 :
  sort_ok sort -> plain m -> (forall l, In l (layers m) -> layer_wf l) ->
  (forall s, In s S -> concerns t (fst (fst s)) (snd (fst s)) = true -> fst (fst s) <> snd (fst s)) ->
  Forall2 same_layer (layers m) ls1 ->
  (forall lj vj w, vat ls1 lj vj w -> forall id, In id (own_ids lj w) <-> own_of m lj vj id) ->
  (forall lj vj w, vat ls1 lj vj w -> forall id, In id (vpolys w) -> id <> MAX -> exists l p, polygon_at m id l p) ->
  (forall from to ps f g, In ((from, to), ps) S -> concerns t from to = true -> In (f, g) ps ->
     (exists v, vertex_at m from f v) /\ (exists v, vertex_at m to g v)) ->
  exists m', (let* ls := foldM (stitch_pair t ow) ls1 S in reorder sort (set_layers m ls)) = Ok m' /\
    same_geometry m m' /\ mesh_wf m' /\
    forall li vi w, vertex_at m' li vi w -> is_corner w = memN MAX (vpolys w) /\
      exists v, vat ls1 li vi v /\ forall id, id <> MAX -> (In id (vpolys w) <-> In id (vpolys v) \/ link_of t S ow m li vi id).
Proof.
  intros Hsort Hp Hw Hne Hs Hown Hval Hex. rewrite fold_flat. set (fs := flat (filter _ S)).
  assert (Hne' : forall s, In s fs -> fst (fst s) <> snd (fst s)).
  { intros s Hi. apply flat_In in Hi. destruct Hi as (ps & Hi & _). apply filter_In in Hi. destruct Hi as [H1 H2]. apply (Hne _ H1 H2). }
  destruct (stitch_all_total ow fs ls1 Hne') as [ls2 E2].
  { intros [[from to] [f g]] Hi. apply flat_In in Hi. cbn [fst snd] in Hi |- *. destruct Hi as (ps & Hi & Hi'). apply filter_In in Hi.
    destruct Hi as [H1 H2]. cbn [fst snd] in H2. destruct (Hex _ _ _ _ _ H1 H2 Hi') as [[v1 G1] [v2 G2]]. split.
    - destruct (same_layers_vat (layers m) ls1 from f Hs) as [G _]. destruct (G v1 G1) as (w & ? & _). eauto.
    - destruct (same_layers_vat (layers m) ls1 to g Hs) as [G _]. destruct (G v2 G2) as (w & ? & _). eauto. }
  rewrite E2. cbn [bind]. destruct (stitch_all_spec ow fs ls1 ls2 Hne' E2) as [S2 V2].
  assert (S02 : Forall2 same_layer (layers m) ls2) by (eapply Forall2_trans; [apply same_layer_trans|eassumption|eassumption]).
  assert (HL : forall li vi id, gets ow fs ls1 li vi id -> link_of t S ow m li vi id).
  { intros li vi id G. apply gets_linked in G. destruct G as (lj & vj & w & G1 & G2 & G3 & G4). exists lj, vj. split; [assumption|]. split; [assumption|].
    apply (Hown _ _ _ G3). assumption. }
  assert (HL' : forall li vi id, link_of t S ow m li vi id -> gets ow fs ls1 li vi id).
  { intros li vi id (lj & vj & G1 & G2 & G3). apply gets_linked. 
    destruct G3 as (p & (v & Hv & Hi & Hm) & ->). destruct (same_layers_vat (layers m) ls1 lj vj Hs) as [G _]. destruct (G v Hv) as (w & Hw1 & _).
    exists lj, vj, w. split; [assumption|]. split; [assumption|]. split; [assumption|]. apply (Hown _ _ _ Hw1). exists p. split; [exists v; auto|reflexivity]. }
  assert (Hwf2 : mesh_wf (set_layers m ls2)).
  { split.
    - cbn [set_layers layers]. eapply layers_wf_same; eassumption.
    - intros l v id Hl Hv Hid Hm. cbn [set_layers layers] in Hl. apply In_nthN in Hl, Hv. destruct Hl as [li Hl]. destruct Hv as [vi Hv].
      assert (V : vat ls2 li vi v) by (now exists l). destruct (V2 _ _ _ V) as (u & Hu & _ & Hiff). apply Hiff in Hid. destruct Hid as [Hid|Hid].
      + destruct (Hval _ _ _ Hu id Hid Hm) as (l0 & p0 & [G1 G2]). destruct (Forall2_nthN _ _ _ S02 _ _ G1) as (l' & Hl' & Ep & _).
        exists l', p0. split; [exact Hl'|]. now rewrite Ep.
      + apply HL in Hid. destruct Hid as (lj & vj & _ & _ & Ho). eapply own_of_valid; [exact Hp| |exact Ho]. exact S02. }
  destruct (reorder_total sort Hsort _ Hwf2) as [m' Hm']. exists m'. split; [assumption|].
  destruct (reorder_vertices sort Hsort _ _ Hm') as [Hg Hv]. 
  assert (Hg' : same_geometry m m').
  { eapply same_geometry_trans; [|exact Hg]. repeat split. exact S02. }
  split; [assumption|]. split.
  - split.
    + destruct Hg' as (_ & _ & Hg'). eapply layers_wf_same; eassumption.
    + intros l v id Hl Hvv Hid Hm. apply In_nthN in Hl, Hvv. destruct Hl as [li Hl]. destruct Hvv as [vi Hvv].
      assert (V : vertex_at m' li vi v) by (now exists l). destruct (Hv _ _ _ V) as (l0 & v0 & H1 & H2 & _ & Hnn).
      apply (new_neighbours_In _ _ _ _ _ Hnn Hm) in Hid.
      destruct (proj2 Hwf2 l0 v0 id (nthN_In _ _ _ H1) (nthN_In _ _ _ H2) Hid Hm) as (l2 & p2 & [G1 G2]).
      destruct Hg as (_ & _ & Hg). destruct (Forall2_nthN _ _ _ Hg _ _ G1) as (l' & Hl' & Ep & _). exists l', p2. split; [assumption|]. now rewrite Ep.
  - intros li vi w Hwv. destruct (Hv _ _ _ Hwv) as (l0 & v0 & H1 & H2 & Hc & Hnn). split; [assumption|].
    assert (V : vat ls2 li vi v0) by (now exists l0). destruct (V2 _ _ _ V) as (u & Hu & _ & Hiff). exists u. split; [assumption|].
    intros id Hm. rewrite (new_neighbours_In _ _ _ _ _ Hnn Hm), Hiff. split; intros [G|G]; auto.
Qed.

(** *** the first stitching of a plain mesh *)
Lemma tag_plain m : plain m -> exists ls1, tag_layers None (layers m) = Ok ls1 /\ Forall2 same_layer (layers m) ls1 /\
  forall li vi w, vat ls1 li vi w -> forall id, id <> MAX -> (In id (vpolys w) <-> own_of m li vi id).
Proof.
  intro Hp. pose proof Hp as (H1 & H2 & H3).
  destruct (mapM_total (fun il => match None with
                  | Some t => if N.eqb t (fst il mod 256) then tag_layer (fst il) (snd il) else Ok (snd il)
                  | None => tag_layer (fst il) (snd il)
                  end) (enumerate (layers m))) as [ls1 E].
  { intros [li l] Hi. apply enumerate_spec in Hi. cbn [fst snd]. pose proof (nthN_Some_lt _ _ _ Hi). apply nthN_In in Hi. unfold tag_layer.
    match goal with |- exists b, (let* vs := mapM ?f _ in _) = Ok b => destruct (mapM_total f (vertices l)) as [vs ->]; [|cbn [bind]; eauto] end.
    intros v Hv.
    match goal with |- exists b, (let* vs := mapM ?f _ in _) = Ok b => destruct (mapM_total f (vpolys v)) as [ps ->]; [|cbn [bind]; eauto] end.
    intros p Hpp. destruct (N.eqb_spec p MAX); [eauto|]. unfold add_u32. specialize (H3 l v p Hi Hv Hpp n). specialize (H2 l Hi).
    rewrite N.mod_small by lia. destruct (N.ltb_spec (p + li * 2^24) (2^32)); [eauto|]. exfalso. change (2^32) with (256 * 2^24) in *. nia. }
  exists ls1. split; [exact E|]. destruct (tag_layers_spec None _ _ E) as [Hs Hv]. split; [assumption|].
  intros li vi w Hw id Hm. destruct (Hv _ _ _ Hw) as (v & (l & Hl & Hvv) & _ & Hf). cbn [tag_at] in Hf. pose proof (nthN_Some_lt _ _ _ Hl).
  assert (Hid : forall p p', tagged li p p' -> In p (vpolys v) -> p <> MAX -> p' = id_make li p /\ p' <> MAX).
  { intros p p' [[? ?]|(_ & G & _)] Hpp Hpm; [contradiction|]. rewrite N.mod_small in G by lia.
    assert (lists m li vi p) as HLL by (exists v; split; [now exists l|auto]). destruct (plain_lists _ _ _ _ Hp HLL) as (G1 & G2 & _).
    assert (p' = id_make li p) as -> by (rewrite id_make_eq by lia; lia). split; [reflexivity|]. apply id_make_not_MAX; lia. }
  split.
  - intro Hi. apply In_nthN in Hi. destruct Hi as [k Hk]. destruct (Forall2_nthN_r _ _ _ Hf _ _ Hk) as (p & Hpk & Ht).
    assert (p <> MAX) as Hpm by (destruct Ht as [[_ ->]|[? _]]; [contradiction|assumption]).
    destruct (Hid _ _ Ht (nthN_In _ _ _ Hpk) Hpm) as [-> _]. exists p. split; [|reflexivity]. exists v. split; [now exists l|]. split; [eapply nthN_In; eassumption|assumption].
  - intros (p & (v' & Hv' & Hpp & Hpm) & ->). assert (v' = v) by (apply (vat_fun _ _ _ _ _ Hv'); now exists l). subst v'.
    pose proof Hpp as Hpp'. apply In_nthN in Hpp. destruct Hpp as [k Hk]. destruct (Forall2_nthN _ _ _ Hf _ _ Hk) as (p' & Hk' & Ht).
    destruct (Hid _ _ Ht Hpp' Hpm) as [-> _]. eapply nthN_In; eassumption.
Qed.

Lemma stitch_plain sort m S ow : sort_ok sort -> plain m -> (forall l, In l (layers m) -> layer_wf l) -> stitches_ok m S ->
  exists m', stitch_internals sort m None S ow = Ok m' /\ same_geometry m m' /\ mesh_wf m' /\
    (forall li vi w, vertex_at m' li vi w -> is_corner w = memN MAX (vpolys w)) /\
    forall li vi id, lists m' li vi id <-> own_of m li vi id \/ link_of None S ow m li vi id.
Proof.
  intros Hsort Hp Hw HS. destruct (tag_plain m Hp) as (ls1 & E & Hs & Hv). unfold stitch_internals. rewrite E. cbn [bind].
  assert (HO : forall li vi id, own_of m li vi id -> exists v, vertex_at m li vi v).
  { intros li vi id (p & (v & H & _) & _). eauto. }
  destruct (finish sort m None S ow ls1 Hsort Hp Hw) as (m' & Em & Hg & Hwf & Hn).
  - intros [[from to] ps] Hi _. apply (HS from to ps Hi).
  - assumption.
  - intros lj vj w Hwv id. rewrite own_ids_In. split.
    + intros (Hi & Hm & _). now apply (Hv _ _ _ Hwv).
    + intro Ho. destruct (own_of_layer _ _ _ _ Hp Ho) as (G1 & G2). split; [now apply (Hv _ _ _ Hwv)|auto].
  - intros lj vj w Hwv id Hi Hm. apply (Hv _ _ _ Hwv id Hm) in Hi. eapply own_of_valid; [eassumption| |eassumption].
    apply Forall2_refl. apply same_layer_refl.
  - intros from to ps f g Hi _ Hfg. destruct (HS _ _ _ Hi) as (_ & _ & _ & G). apply G. assumption.
  - exists m'. split; [exact Em|]. split; [assumption|]. split; [assumption|]. split; [intros; now eapply Hn; eauto|].
    intros li vi id. split.
    + intros (w & Hwv & Hi & Hm). destruct (Hn _ _ _ Hwv) as (_ & v & Hvv & G). apply (G id Hm) in Hi. destruct Hi as [Hi|Hi]; [|now right].
      left. now apply (Hv _ _ _ Hvv).
    + intro H.
      assert (id <> MAX) as Hm.
      { destruct H as [H|(lj & vj & _ & _ & H)]; apply (own_of_layer _ _ _ _ Hp) in H; tauto. }
      assert (exists v, vertex_at m li vi v) as [v0 Hv0].
      { destruct H as [H|(lj & vj & Hl & _ & _)]; [eapply HO; eassumption|].
        destruct Hl as [(ps & Hi & Hps)|(_ & ps & Hi & Hps)]; destruct (HS _ _ _ Hi) as (_ & _ & _ & G); destruct (G _ _ Hps); assumption. }
      destruct Hg as (_ & _ & Hg). destruct (same_layers_vat _ _ li vi Hg) as [G _]. destruct (G v0 Hv0) as (w & Hwv & _).
      exists w. split; [exact Hwv|]. split; [|assumption]. destruct (Hn _ _ _ Hwv) as (_ & v & Hvv & Hiff). apply (Hiff id Hm).
      destruct H as [H|H]; [left; now apply (Hv _ _ _ Hvv)|now right].
Qed.

(** *** removing stitches *)
Lemma map_enumerate {S T} (f : N * S -> T) (xs : list S) i y : nthN (map f (enumerate xs)) i = Some y <-> exists x, nthN xs i = Some x /\ y = f (i, x).
Proof.
  assert (E : forall (zs : list (N * S)) j, nthN (map f zs) j = option_map f (nthN zs j)).
  { induction zs as [|z zs IH]; intro j; [reflexivity|]. simpl. destruct (N.eqb j 0); [reflexivity|apply IH]. }
  rewrite E. split.
  - destruct (nthN (enumerate xs) i) as [[j x]|] eqn:G; [|discriminate]. intro H. injection H as <-. apply nthN_enumerate in G. cbn [fst snd] in G.
    destruct G as [-> G]. eauto.
  - intros (x & G & ->). assert (nthN (enumerate xs) i = Some (i, x)) as -> by (apply nthN_enumerate; auto). reflexivity.
Qed.
Lemma nthN_map_eq {S T} (f : S -> T) xs : forall i, nthN (map f xs) i = option_map f (nthN xs i).
Proof. induction xs as [|x xs IH]; intro i; [reflexivity|]. simpl. destruct (N.eqb i 0); [reflexivity|apply IH]. Qed.

Lemma map_vpolys_same f l : same_layer l (map_vpolys f l).
Proof. repeat split. cbn [map_vpolys set_vertices vertices]. induction (vertices l); constructor; [reflexivity|assumption]. Qed.
Lemma map_layers_same (f : N -> list N -> list N) ls : Forall2 same_layer ls (map (fun il => map_vpolys (f (fst il)) (snd il)) (enumerate ls)).
Proof.
  apply Forall2_of_nthN; [rewrite map_length; unfold enumerate; now rewrite enum_from_length|].
  intros i l l' Hl Hl'. apply map_enumerate in Hl'. destruct Hl' as (l0 & H0 & ->). assert (l0 = l) by congruence. subst. apply map_vpolys_same.
Qed.
Lemma map_layers_vat (f : N -> list N -> list N) ls li vi w :
  vat (map (fun il => map_vpolys (f (fst il)) (snd il)) (enumerate ls)) li vi w ->
  exists v, vat ls li vi v /\ is_corner w = is_corner v /\ vpolys w = f li (vpolys v).
Proof.
  intros (l' & Hl' & Hw). apply map_enumerate in Hl'. destruct Hl' as (l & Hl & ->). cbn [fst snd map_vpolys set_vertices vertices] in Hw.
  rewrite nthN_map_eq in Hw. destruct (nthN (vertices l) vi) as [v|] eqn:Ev; [|discriminate]. injection Hw as <-.
  exists v. split; [now exists l|]. split; reflexivity.
Qed.

Lemma drop_foreign_In li ps id : In id (drop_foreign li ps) <->
  (id = MAX /\ In MAX ps) \/ (exists p, In p ps /\ p <> MAX /\ id_layer p = li mod 256 /\ id = id_polygon p).
Proof.
  unfold drop_foreign. rewrite in_flat_map. split.
  - intros (p & Hp & Hi). destruct (N.eqb_spec p MAX) as [->|Hm]; [destruct Hi as [<-|[]]; auto|].
    destruct (N.eqb_spec (id_layer p) (li mod 256)); [|destruct Hi]. destruct Hi as [<-|[]]. right. exists p. auto.
  - intros [(-> & H)|(p & Hp & Hm & Hl & ->)].
    + exists MAX. split; [assumption|]. rewrite N.eqb_refl. now left.
    + exists p. split; [assumption|]. destruct (N.eqb_spec p MAX); [contradiction|]. rewrite Hl, N.eqb_refl. now left.
Qed.

Definition remove_to (t li : N) (ps : list N) : list N :=
  (if N.eqb (li mod 256) t then drop_foreign li else filter (fun p => N.eqb p MAX || negb (N.eqb (id_layer p) t))) ps.
Lemma remove_to_eq m t : layers (remove_stitches_to_layer m t) = map (fun il => map_vpolys (remove_to t (fst il)) (snd il)) (enumerate (layers m)).
Proof. reflexivity. Qed.

(** no link stays in its layer *)
Lemma link_layer m S ow t li vi id : plain m -> stitches_ok m S -> link_of t S ow m li vi id -> id_layer id <> li.
Proof.
  intros Hp HS (lj & vj & Hl & _ & Ho). apply (own_of_layer _ _ _ _ Hp) in Ho. destruct Ho as [-> _].
  destruct Hl as [(ps & Hi & _)|(_ & ps & Hi & _)]; destruct (HS _ _ _ Hi) as [Hne _]; congruence.
Qed.
Lemma concerns_None a b : concerns None a b = true.
Proof. reflexivity. Qed.

Lemma restitch sort m S ow m' t : sort_ok sort -> plain m -> (forall l, In l (layers m) -> layer_wf l) -> stitches_ok m S ->
  stitch_internals sort m None S ow = Ok m' ->
  exists m3, stitch_internals sort (remove_stitches_to_layer m' t) (Some t) S ow = Ok m3 /\ same_geometry m m3 /\ mesh_wf m3 /\
    (forall li vi w, vertex_at m3 li vi w -> is_corner w = memN MAX (vpolys w)) /\
    forall li vi id, lists m3 li vi id <-> lists m' li vi id.
Proof.
  intros Hsort Hp Hw HS Em. destruct (stitch_plain sort m S ow Hsort Hp Hw HS) as (m1 & E1 & Hg & Hwf & _ & Hl).
  assert (m1 = m') by congruence. subst m1. clear E1.
  pose proof Hp as (P1 & P2 & P3).
  set (m2 := remove_stitches_to_layer m' t).
  assert (S2 : Forall2 same_layer (layers m) (layers m2)).
  { eapply Forall2_trans; [apply same_layer_trans|apply Hg|]. unfold m2. rewrite remove_to_eq. apply map_layers_same. }
  assert (HLen : forall li l, nthN (layers m2) li = Some l -> li < 256).
  { intros li l H. apply nthN_Some_lt in H. unfold lengthN in *. rewrite (same_layers_length _ _ S2) in H. lia. }
  (* the ids after the removal *)
  assert (HR : forall li vi w, vat (layers m2) li vi w -> forall id, id <> MAX ->
            (In id (vpolys w) <-> if N.eqb li t then lists m li vi id else lists m' li vi id /\ id_layer id <> t)).
  { intros li vi w Hwv id Hm. assert (li < 256) as Hli by (destruct Hwv as (l & Hn & _); eapply HLen; eassumption).
    unfold m2 in Hwv. rewrite remove_to_eq in Hwv. apply map_layers_vat in Hwv. destruct Hwv as (v & Hv & _ & Ep).
    rewrite Ep. unfold remove_to. rewrite N.mod_small by assumption. destruct (N.eqb_spec li t) as [<-|Ht].
    - rewrite drop_foreign_In, N.mod_small by assumption. split.
      + intros [[? _]|(p & Hpp & Hpm & HL & ->)]; [contradiction|].
        assert (lists m' li vi p) as HH by (exists v; auto). apply Hl in HH. destruct HH as [(p0 & H0 & ->)|HH].
        * destruct (plain_lists _ _ _ _ Hp H0) as (? & ? & _). now rewrite id_polygon_make by lia.
        * exfalso. now apply (link_layer _ _ _ _ _ _ _ Hp HS) in HH.
      + intro HH. right. destruct (plain_lists _ _ _ _ Hp HH) as (? & ? & _).
        assert (lists m' li vi (id_make li id)) as (v' & Hv' & Hi & Hmm) by (apply Hl; left; exists id; auto).
        assert (v' = v) by (eapply vat_fun; [exact Hv'|exact Hv]). subst v'. exists (id_make li id).
        split; [assumption|]. split; [assumption|]. split; [apply id_layer_make; lia|]. symmetry. apply id_polygon_make. lia.
    - rewrite filter_In, orb_true_iff, negb_true_iff, N.eqb_eq, N.eqb_neq. split.
      + intros (Hi & [?|Hn]); [contradiction|]. split; [exists v; auto|assumption].
      + intros ((v' & Hv' & Hi & _) & Hn). assert (v' = v) by (eapply vat_fun; [exact Hv'|exact Hv]). subst v'. auto. }
  (* the numbering of the target layer *)
  assert (exists ls1, tag_layers (Some t) (layers m2) = Ok ls1) as [ls1 E1].
  { apply mapM_total. intros [li l] Hi. apply enumerate_spec in Hi. cbn [fst snd]. destruct (N.eqb_spec t (li mod 256)) as [Et|Et]; [|eauto].
    pose proof (HLen _ _ Hi) as Hli. unfold tag_layer.
    match goal with |- exists b, (let* vs := mapM ?f _ in _) = Ok b => destruct (mapM_total f (vertices l)) as [vs ->]; [|cbn [bind]; eauto] end.
    intros v Hv.
    match goal with |- exists b, (let* vs := mapM ?f _ in _) = Ok b => destruct (mapM_total f (vpolys v)) as [ps ->]; [|cbn [bind]; eauto] end.
    intros p Hpp. destruct (N.eqb_spec p MAX); [eauto|]. unfold add_u32. apply In_nthN in Hv. destruct Hv as [vi Hv].
    apply (proj1 (HR li vi v (ex_intro _ l (conj Hi Hv)) p n)) in Hpp. rewrite N.mod_small in Et |- * by assumption. subst t. rewrite N.eqb_refl in Hpp.
    destruct (plain_lists _ _ _ _ Hp Hpp) as (? & ? & _).
    destruct (N.ltb_spec (p + li * 2^24) (2^32)); [eauto|]. exfalso. change (2^32) with (256 * 2^24) in *. nia. }
  destruct (tag_layers_spec _ _ _ E1) as [S21 V21].
  assert (S1 : Forall2 same_layer (layers m) ls1) by (eapply Forall2_trans; [apply same_layer_trans|eassumption|eassumption]).
  assert (HB : forall li vi w, vat ls1 li vi w -> forall id, id <> MAX ->
            (In id (vpolys w) <-> if N.eqb li t then own_of m li vi id else lists m' li vi id /\ id_layer id <> t)).
  { intros li vi w Hwv id Hm. destruct (V21 _ _ _ Hwv) as (v & Hv & _ & Ht). assert (li < 256) as Hli by (destruct Hv as (l & Hn & _); eapply HLen; eassumption).
    unfold tag_at in Ht. rewrite N.mod_small in Ht by assumption. rewrite N.eqb_sym in Ht. pose proof (HR _ _ _ Hv) as HRv.
    destruct (N.eqb_spec li t) as [<-|Hne].
    - split.
      + intro Hi. apply In_nthN in Hi. destruct Hi as [k Hk]. destruct (Forall2_nthN_r _ _ _ Ht _ _ Hk) as (p & Hpk & Htg).
        destruct Htg as [[_ ?]|(Hpm & -> & _)]; [contradiction|]. apply nthN_In in Hpk. apply (proj1 (HRv p Hpm)) in Hpk.
        exists p. split; [assumption|]. destruct (plain_lists _ _ _ _ Hp Hpk) as (? & ? & _). rewrite N.mod_small by assumption.
        rewrite id_make_eq by lia. lia.
      + intros (p & Hpp & ->). destruct (plain_lists _ _ _ _ Hp Hpp) as (? & ? & _).
        assert (p <> MAX) as Hpm by (unfold MAX; lia). apply (proj2 (HRv p Hpm)) in Hpp. apply In_nthN in Hpp. destruct Hpp as [k Hk].
        destruct (Forall2_nthN _ _ _ Ht _ _ Hk) as (p' & Hk' & Htg). destruct Htg as [[? _]|(_ & -> & _)]; [contradiction|].
        apply nthN_In in Hk'. rewrite N.mod_small in Hk' by assumption. rewrite id_make_eq by lia. now rewrite N.add_comm.
    - rewrite Ht. apply HRv. assumption. }
  destruct (finish sort m (Some t) S ow ls1 Hsort Hp Hw) as (m3 & E3 & Hg3 & Hwf3 & Hn3).
  - intros [[from to] ps] Hi _. apply (HS from to ps Hi).
  - assumption.
  - intros lj vj w Hwv id. rewrite own_ids_In. split.
    + intros (Hi & Hm & HLj). apply (HB _ _ _ Hwv id Hm) in Hi. destruct (N.eqb_spec lj t); [assumption|]. destruct Hi as [Hi _].
      apply Hl in Hi. destruct Hi as [Hi|Hi]; [assumption|]. exfalso. now apply (link_layer _ _ _ _ _ _ _ Hp HS) in Hi.
    + intro Ho. destruct (own_of_layer _ _ _ _ Hp Ho) as (G1 & G2). split; [|auto]. apply (HB _ _ _ Hwv id G2).
      destruct (N.eqb_spec lj t); [assumption|]. split; [apply Hl; now left|congruence].
  - intros lj vj w Hwv id Hi Hm. apply (HB _ _ _ Hwv id Hm) in Hi. 
    assert (own_of m lj vj id \/ link_of None S ow m lj vj id) as [Ho|(lk & vk & _ & _ & Ho)].
    { destruct (N.eqb_spec lj t); [left; exact Hi|]. apply Hl. apply Hi. }
    + eapply own_of_valid; [eassumption| |eassumption]. apply Forall2_refl, same_layer_refl.
    + eapply own_of_valid; [eassumption| |eassumption]. apply Forall2_refl, same_layer_refl.
  - intros from to ps f g Hi _ Hfg. destruct (HS _ _ _ Hi) as (_ & _ & _ & G). apply G. assumption.
  - exists m3. unfold stitch_internals. fold m2. rewrite E1. cbn [bind].
    assert (Eset : forall ls, set_layers m2 ls = set_layers m ls).
    { intro ls. unfold m2, remove_stitches_to_layer, set_layers. cbn [search_delta search_steps]. destruct Hg as (G1 & G2 & _). now rewrite G1, G2. }
    split.
    { rewrite <- E3. destruct (foldM (stitch_pair (Some t) ow) ls1 S); cbn [bind]; [|reflexivity|reflexivity|reflexivity]. now rewrite Eset. }
    split; [assumption|]. split; [assumption|]. split; [intros; now eapply Hn3; eauto|].
    (* links with and without the target layer *)
    assert (HLK : forall li vi id, link_of None S ow m li vi id -> li = t \/ id_layer id = t -> link_of (Some t) S ow m li vi id).
    { intros li vi id (lj & vj & G1 & _ & G2) G. exists lj, vj. split; [assumption|]. split; [|assumption].
      apply (own_of_layer _ _ _ _ Hp) in G2. destruct G2 as [G2 _]. unfold concerns.
      destruct G as [->|G]; [now rewrite N.eqb_refl|]. rewrite <- G, G2, (N.eqb_refl lj). apply orb_true_r. }
    assert (HLK' : forall li vi id, link_of (Some t) S ow m li vi id -> link_of None S ow m li vi id).
    { intros li vi id (lj & vj & G1 & _ & G2). exists lj, vj. auto. }
    assert (HID : forall li vi id, lists m' li vi id -> own_of m li vi id \/ link_of None S ow m li vi id) by (intros; now apply Hl).
    intros li vi id. split.
    + intros (w & Hwv & Hi & Hm). destruct (Hn3 _ _ _ Hwv) as (_ & v & Hvv & G). apply (G id Hm) in Hi. destruct Hi as [Hi|Hi].
      * apply (HB _ _ _ Hvv id Hm) in Hi. destruct (N.eqb_spec li t); [apply Hl; now left|apply Hi].
      * apply Hl. right. now apply HLK'.
    + intro H. pose proof H as (v0 & Hv0 & Hi0 & Hm). destruct Hg as (_ & _ & Hg). destruct (same_layers_vat _ _ li vi Hg) as [_ G].
      destruct (G v0 Hv0) as (v & Hv & _). destruct Hg3 as (_ & _ & Hg3). destruct (same_layers_vat _ _ li vi Hg3) as [G3 _].
      destruct (G3 v Hv) as (w & Hwv & _). exists w. split; [exact Hwv|]. split; [|assumption].
      destruct (Hn3 _ _ _ Hwv) as (_ & u & Hu & Hiff). apply (Hiff id Hm).
      destruct (N.eq_dec li t) as [->|Hne].
      * apply HID in H. destruct H as [H|H]; [|right; apply HLK; auto]. left. apply (HB _ _ _ Hu id Hm). now rewrite N.eqb_refl.
      * destruct (N.eq_dec (id_layer id) t) as [Ht|Ht].
        -- apply HID in H. destruct H as [H|H]; [|right; apply HLK; auto]. apply (own_of_layer _ _ _ _ Hp) in H. destruct H; congruence.
        -- left. apply (HB _ _ _ Hu id Hm). destruct (N.eqb_spec li t); [contradiction|]. auto.
Qed.

Lemma unstitch sort m S ow m' : sort_ok sort -> plain m -> (forall l, In l (layers m) -> layer_wf l) -> stitches_ok m S ->
  stitch_internals sort m None S ow = Ok m' ->
  same_geometry m (remove_stitches m') /\ forall li vi id, lists (remove_stitches m') li vi id <-> lists m li vi id.
Proof.
  intros Hsort Hp Hw HS Em. destruct (stitch_plain sort m S ow Hsort Hp Hw HS) as (m1 & E1 & Hg & Hwf & _ & Hl).
  assert (m1 = m') by congruence. subst m1. clear E1. pose proof Hp as (P1 & P2 & P3).
  assert (S2 : Forall2 same_layer (layers m') (layers (remove_stitches m'))) by apply (map_layers_same drop_foreign).
  split.
  { eapply same_geometry_trans; [exact Hg|]. repeat split. exact S2. }
  intros li vi id. destruct Hg as (_ & _ & Hg). split.
  - intros (w & Hwv & Hi & Hm). apply (map_layers_vat drop_foreign) in Hwv. destruct Hwv as (v & Hv & _ & Ep). rewrite Ep in Hi.
    assert (li < 256) as Hli. { destruct Hv as (l & Hn & _). apply nthN_Some_lt in Hn. unfold lengthN in *. rewrite (same_layers_length _ _ Hg) in Hn. lia. }
    apply drop_foreign_In in Hi. rewrite N.mod_small in Hi by assumption. destruct Hi as [[? _]|(p & Hpp & Hpm & HL & ->)]; [contradiction|].
    assert (lists m' li vi p) as HH by (exists v; auto). apply Hl in HH. destruct HH as [(p0 & H0 & ->)|HH].
    + destruct (plain_lists _ _ _ _ Hp H0) as (? & ? & _). now rewrite id_polygon_make by lia.
    + exfalso. now apply (link_layer _ _ _ _ _ _ _ Hp HS) in HH.
  - intro H. destruct (plain_lists _ _ _ _ Hp H) as (G1 & G2 & _).
    assert (lists m' li vi (id_make li id)) as (v & Hv & Hi & Hm) by (apply Hl; left; exists id; auto).
    destruct (same_layers_vat _ _ li vi S2) as [G _]. destruct (G v Hv) as (w & Hwv & _). exists w. split; [exact Hwv|].
    apply (map_layers_vat drop_foreign) in Hwv. destruct Hwv as (v' & Hv' & _ & Ep). assert (v' = v) by (eapply vat_fun; eassumption). subst v'.
    split; [|unfold MAX; lia]. rewrite Ep. apply drop_foreign_In. right. exists (id_make li id). split; [assumption|]. split; [assumption|].
    rewrite N.mod_small by assumption. split; [apply id_layer_make; lia|]. symmetry. apply id_polygon_make. lia.
Qed.
End Facts.
