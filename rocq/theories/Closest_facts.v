(** Proofs about get_closest_point and get_closest_point_towards (C07, C09, C50). *)
From Coq Require Import List NArith ZArith Bool Lia.
From Verif Require Import Base Arith U32 Mesh Helpers Locate Spec Locate_facts.
Import ListNotations.
Open Scope N_scope.

Lemma rangeN_spec n i : In i (rangeN n) <-> i < n.
Proof.
  unfold rangeN. rewrite in_map_iff. split.
  - intros (k & <- & H). apply in_seq in H. lia.
  - intro H. exists (N.to_nat i). split; [lia|]. apply in_seq. lia.
Qed.

Lemma rangeN_S n : rangeN (N.succ n) = rangeN n ++ [n].
Proof.
  unfold rangeN. rewrite N2Nat.inj_succ, seq_S, map_app. simpl. now rewrite N2Nat.id.
Qed.

Lemma first_step_None {T} (f : N -> res (option T)) steps :
  first_step f steps = Ok None <-> (forall s, In s steps -> f s = Ok None).
Proof.
  induction steps as [|s r IH]; simpl; split; intro H.
  - intros ? [].
  - reflexivity.
  - inv_bind H. destruct a; [discriminate|]. intros s' [<-|Hs]; [assumption|]. now apply IH.
  - rewrite (H s (or_introl eq_refl)). simpl. apply IH. intros; apply H; now right.
Qed.

Lemma first_step_Some {T} (f : N -> res (option T)) steps t :
  first_step f steps = Ok (Some t) ->
  exists pre s post, steps = pre ++ s :: post /\ f s = Ok (Some t) /\ forall s', In s' pre -> f s' = Ok None.
Proof.
  induction steps as [|s r IH]; simpl; intro H; [discriminate|].
  inv_bind H. destruct a.
  - inversion H; subst. exists [], s, r. repeat split; auto. intros ? [].
  - destruct (IH H) as (pre & s' & post & -> & H1 & H2). exists (s :: pre), s', post.
    repeat split; auto. intros x [<-|Hx]; auto.
Qed.

(** On a range: the first step with an answer. *)
Lemma first_step_range {T} (f : N -> res (option T)) n t :
  first_step f (rangeN n) = Ok (Some t) ->
  exists s, s < n /\ f s = Ok (Some t) /\ forall s', s' < s -> f s' = Ok None.
Proof.
  induction n as [|n IH] using N.peano_ind; intro H; [discriminate|].
  rewrite rangeN_S in H.
  assert (HA : forall l1 l2, first_step f (l1 ++ l2) =
             let* o := first_step f l1 in match o with Some t => Ok (Some t) | None => first_step f l2 end).
  { clear. induction l1 as [|x r IH]; intro l2; simpl; [reflexivity|].
    destruct (f x) as [o| | |]; simpl; auto. destruct o; auto. }
  rewrite HA in H. inv_bind H. destruct a as [t'|].
  - assert (t' = t) by congruence. subst. destruct (IH E) as (s & H1 & H2 & H3). exists s. repeat split; auto. lia.
  - simpl in H. inv_bind H. destruct a; [|discriminate]. inversion H; subst.
    exists n. repeat split; auto; try lia. intros s' Hs'.
    apply (proj1 (first_step_None f (rangeN n)) E). now apply rangeN_spec.
Qed.

Section Closest.
Context {A : Arith} (bvh : list (vec2 A * vec2 A) -> vec2 A -> list N).

Lemma ring_loop_Some (l : Layer A) pt d step is np k :
  ring_loop bvh l pt d step is = Ok (Some (np, k)) ->
  exists i p, In i is /\ np = circle_sample pt d step i /\ nthN (polygons l) k = Some p /\ contains l p np.
Proof.
  induction is as [|i r IH]; simpl; intro H; [discriminate|].
  inv_bind H. destruct (N.eqb_spec a MAX).
  - destruct (IH H) as (i' & p & H1 & H2). exists i', p. auto.
  - inversion H; subst. destruct (loc_any_found _ _ _ _ E n) as (p & H1 & H2).
    exists i, p. repeat split; auto; apply H2.
Qed.

Lemma ring_loop_None (l : Layer A) pt d step is :
  baked l = None -> small_layer l ->
  ring_loop bvh l pt d step is = Ok None ->
  forall i, In i is -> ~ in_layer l (circle_sample pt d step i).
Proof.
  intros Hb Hs. induction is as [|i r IH]; simpl; intros H i' Hi'; [contradiction|].
  inv_bind H. destruct (N.eqb_spec a MAX) as [->|]; [|discriminate].
  destruct Hi' as [<-|Hi']; [|now apply IH].
  intros (p & Hp & Hc). apply In_nthN in Hp. destruct Hp as [k Hk].
  eapply loc_any_none; eauto.
Qed.

Lemma inner_Some (l : Layer A) pt d step np k :
  get_closest_point_inner bvh l pt d step = Ok (Some (np, k)) ->
  exists i p, i <= 10 * step /\ np = circle_sample pt d step i /\ nthN (polygons l) k = Some p /\ contains l p np.
Proof.
  unfold get_closest_point_inner. intro H. destruct (2 ^ 32 <=? 10 * (step + 1)); [discriminate|].
  apply ring_loop_Some in H.
  destruct H as (i & p & H1 & H2). exists i, p. apply rangeN_spec in H1. split; [lia|assumption].
Qed.

Lemma inner_None (l : Layer A) pt d step : baked l = None -> small_layer l ->
  get_closest_point_inner bvh l pt d step = Ok None ->
  forall i, i <= 10 * step -> ~ in_layer l (circle_sample pt d step i).
Proof.
  intros Hb Hs H i Hi. unfold get_closest_point_inner in H. destruct (2 ^ 32 <=? 10 * (step + 1)); [discriminate|].
  eapply ring_loop_None; eauto. apply rangeN_spec. lia.
Qed.

(** One ring or one step over several layers *)
Lemma gcp_layers_Some (m : Mesh A) pt d step ls c' :
  mesh_small m -> (forall i l, In (i, l) ls -> nthN (layers m) i = Some l) ->
  gcp_layers bvh pt d step ls = Ok (Some c') ->
  exists li l i p, In (li, l) ls /\ i <= 10 * step /\ clayer c' = Some li /\
    polygon_at m (cpoly c') l p /\ id_layer (cpoly c') = li /\ cpoly c' <> MAX /\
    contains l p (circle_sample (vsub pt (offset l)) d step i) /\
    cpos c' = vadd (circle_sample (vsub pt (offset l)) d step i) (offset l).
Proof.
  intros Hm. induction ls as [|[li l] r IH]; simpl; intros Hls H; [discriminate|].
  inv_bind H. destruct a as [[np k]|].
  - destruct (inner_Some _ _ _ _ _ _ E) as (i & p & Hi & -> & Hk & Hc).
    pose proof (Hls _ _ (or_introl eq_refl)) as Hl.
    destruct (id_make_polygon_at m li l k p Hm Hl Hk) as (H1 & H2 & H3 & H4).
    inversion H; subst c'; simpl. destruct (nth_lt_256 _ _ _ Hm Hl) as [Hlt _].
    exists li, l, i, p. repeat split; auto; try apply H1; try apply Hc.
    f_equal. now apply N.mod_small.
  - destruct IH as (li' & l' & i & p & H1 & H2); auto. exists li', l', i, p. split; [now right|assumption].
Qed.

Lemma gcp_layers_None (m : Mesh A) pt d step ls :
  mesh_small m -> unbaked m -> (forall i l, In (i, l) ls -> nthN (layers m) i = Some l) ->
  gcp_layers bvh pt d step ls = Ok None ->
  forall li l i, In (li, l) ls -> i <= 10 * step -> ~ in_layer l (circle_sample (vsub pt (offset l)) d step i).
Proof.
  intros Hm Hu. induction ls as [|[li l] r IH]; simpl; intros Hls H li' l' i Hin Hi; [contradiction|].
  inv_bind H. destruct a as [[np k]|]; [discriminate|].
  destruct Hin as [Hin|Hin]; [|eapply IH; eauto]. inversion Hin; subst.
  pose proof (Hls _ _ (or_introl eq_refl)) as Hl.
  eapply inner_None; [| |exact E|exact Hi].
  - apply Hu. eapply nthN_In; eauto.
  - eapply nth_lt_256; eauto.
Qed.

(** the layers a query looks at *)
Lemma query_layers (m : Mesh A) (c : Coords A) (f : list (N * Layer A) -> N -> res (option (Coords A))) r :
  (match clayer c with
   | Some li => let* l := index (layers m) li in first_step (f [(li, l)]) (rangeN (search_steps m))
   | None => first_step (f (enumerate (layers m))) (rangeN (search_steps m))
   end = Ok r) ->
  exists ls, first_step (f ls) (rangeN (search_steps m)) = Ok r /\
    (forall i l, In (i, l) ls <-> queried m c i l).
Proof.
  intro H. unfold queried. destruct (clayer c) as [li|].
  - inv_bind H. apply index_Ok in E. exists [(li, a)]. split; [assumption|].
    intros i l. simpl. split.
    + intros [H1|[]]. inversion H1; subst. split; [assumption|]. intros x Hx. congruence.
    + intros [H1 H2]. rewrite <- (H2 li eq_refl) in *. left. congruence.
  - exists (enumerate (layers m)). split; [assumption|]. intros i l. rewrite enumerate_spec. split; [|tauto].
    intro. split; [assumption|]. discriminate.
Qed.

Lemma get_closest_point_Some (m : Mesh A) c c' :
  mesh_small m -> get_closest_point bvh m c = Ok (Some c') ->
  exists step i li l p, step < search_steps m /\ i <= 10 * step /\ queried m c li l /\
    clayer c' = Some li /\ polygon_at m (cpoly c') l p /\ id_layer (cpoly c') = li /\ cpoly c' <> MAX /\
    contains l p (circle_sample (vsub (cpos c) (offset l)) (search_delta m) step i) /\
    cpos c' = vadd (circle_sample (vsub (cpos c) (offset l)) (search_delta m) step i) (offset l) /\
    (unbaked m -> forall step' i' li' l', step' < step -> i' <= 10 * step' -> queried m c li' l' ->
       ~ in_layer l' (circle_sample (vsub (cpos c) (offset l')) (search_delta m) step' i')).
Proof.
  intros Hm H. unfold get_closest_point in H.
  apply (query_layers m c (fun ls step => gcp_layers bvh (cpos c) (search_delta m) step ls)) in H.
  destruct H as (ls & H & Hls).
  assert (HL : forall i l, In (i, l) ls -> nthN (layers m) i = Some l) by (intros; now apply Hls).
  apply first_step_range in H. destruct H as (step & Hs & H & Hprev).
  destruct (gcp_layers_Some m _ _ _ _ _ Hm HL H) as (li & l & i & p & H1 & H2 & H3 & H4 & H5 & H6 & H7 & H8).
  exists step, i, li, l, p. pose proof (proj1 (Hls _ _) H1) as Hq0.
  do 9 (split; [assumption|]).
  intros Hu step' i' li' l' Hs' Hi' Hq. apply Hls in Hq.
  eapply gcp_layers_None; [exact Hm|exact Hu|exact HL| |exact Hq|exact Hi']. now apply Hprev.
Qed.

Lemma get_closest_point_None (m : Mesh A) c :
  mesh_small m -> unbaked m -> get_closest_point bvh m c = Ok None ->
  forall step i li l, step < search_steps m -> i <= 10 * step -> queried m c li l ->
    ~ in_layer l (circle_sample (vsub (cpos c) (offset l)) (search_delta m) step i).
Proof.
  intros Hm Hu H step i li l Hs Hi Hq. unfold get_closest_point in H.
  apply (query_layers m c (fun ls step => gcp_layers bvh (cpos c) (search_delta m) step ls)) in H.
  destruct H as (ls & H & Hls).
  assert (HL : forall i l, In (i, l) ls -> nthN (layers m) i = Some l) by (intros; now apply Hls).
  rewrite first_step_None in H. specialize (H step (proj2 (rangeN_spec _ _) Hs)).
  apply Hls in Hq. eapply gcp_layers_None; eauto.
Qed.

(** ** towards *)
Lemma gcpt_layers_Some (m : Mesh A) pt d dir step ls c' :
  mesh_small m -> (forall i l, In (i, l) ls -> nthN (layers m) i = Some l) ->
  gcpt_layers bvh pt d dir step ls = Ok (Some c') ->
  exists li l p, In (li, l) ls /\ clayer c' = Some li /\
    polygon_at m (cpoly c') l p /\ id_layer (cpoly c') = li /\ cpoly c' <> MAX /\
    contains l p (line_sample (vsub pt (offset l)) d dir step) /\
    cpos c' = vadd (line_sample (vsub pt (offset l)) d dir step) (offset l).
Proof.
  intros Hm. induction ls as [|[li l] r IH]; simpl; intros Hls H; [discriminate|].
  inv_bind H. unfold get_closest_point_towards_inner in E. inv_bind E.
  destruct (N.eqb_spec a0 MAX).
  - inversion E; subst. destruct IH as (li' & l' & p & H1 & H2); auto. exists li', l', p. split; [now right|assumption].
  - inversion E; subst. destruct (loc_any_found _ _ _ _ E0 n) as (p & Hk & Hc).
    pose proof (Hls _ _ (or_introl eq_refl)) as Hl.
    destruct (id_make_polygon_at m li l a0 p Hm Hl Hk) as (H1 & H2 & H3 & H4).
    inversion H; subst c'; simpl. destruct (nth_lt_256 _ _ _ Hm Hl) as [Hlt _].
    exists li, l, p. repeat split; auto; try apply H1; try apply Hc.
    f_equal. now apply N.mod_small.
Qed.

Lemma gcpt_layers_None (m : Mesh A) pt d dir step ls :
  mesh_small m -> unbaked m -> (forall i l, In (i, l) ls -> nthN (layers m) i = Some l) ->
  gcpt_layers bvh pt d dir step ls = Ok None ->
  forall li l, In (li, l) ls -> ~ in_layer l (line_sample (vsub pt (offset l)) d dir step).
Proof.
  intros Hm Hu. induction ls as [|[li l] r IH]; simpl; intros Hls H li' l' Hin; [contradiction|].
  inv_bind H. unfold get_closest_point_towards_inner in E. inv_bind E.
  destruct (N.eqb_spec a0 MAX) as [->|].
  2:{ inversion E; subst. discriminate. }
  inversion E; subst. destruct Hin as [Hin|Hin]; [|eapply IH; eauto]. inversion Hin; subst.
  pose proof (Hls _ _ (or_introl eq_refl)) as Hl.
  intros (p & Hp & Hc). apply In_nthN in Hp. destruct Hp as [k Hk].
  eapply loc_any_none; [| |exact E0|exact Hk|exact Hc].
  - apply Hu. eapply nthN_In; eauto.
  - eapply nth_lt_256; eauto.
Qed.

Lemma get_closest_point_towards_Some (m : Mesh A) c towards c' :
  mesh_small m -> get_closest_point_towards bvh m c towards = Ok (Some c') ->
  exists step li l p, step < search_steps m /\ queried m c li l /\
    clayer c' = Some li /\ polygon_at m (cpoly c') l p /\ id_layer (cpoly c') = li /\ cpoly c' <> MAX /\
    contains l p (line_sample (vsub (cpos c) (offset l)) (search_delta m) (direction (cpos c) towards) step) /\
    cpos c' = vadd (line_sample (vsub (cpos c) (offset l)) (search_delta m) (direction (cpos c) towards) step) (offset l) /\
    (unbaked m -> forall step' li' l', step' < step -> queried m c li' l' ->
       ~ in_layer l' (line_sample (vsub (cpos c) (offset l')) (search_delta m) (direction (cpos c) towards) step')).
Proof.
  intros Hm H. unfold get_closest_point_towards in H.
  apply (query_layers m c (fun ls step => gcpt_layers bvh (cpos c) (search_delta m) (direction (cpos c) towards) step ls)) in H.
  destruct H as (ls & H & Hls).
  assert (HL : forall i l, In (i, l) ls -> nthN (layers m) i = Some l) by (intros; now apply Hls).
  apply first_step_range in H. destruct H as (step & Hs & H & Hprev).
  destruct (gcpt_layers_Some m _ _ _ _ _ _ Hm HL H) as (li & l & p & H1 & H3 & H4 & H5 & H6 & H7 & H8).
  exists step, li, l, p. pose proof (proj1 (Hls _ _) H1) as Hq0.
  do 8 (split; [assumption|]).
  intros Hu step' li' l' Hs' Hq. apply Hls in Hq.
  eapply gcpt_layers_None; [exact Hm|exact Hu|exact HL| |exact Hq]. now apply Hprev.
Qed.

Lemma get_closest_point_towards_None (m : Mesh A) c towards :
  mesh_small m -> unbaked m -> get_closest_point_towards bvh m c towards = Ok None ->
  forall step li l, step < search_steps m -> queried m c li l ->
    ~ in_layer l (line_sample (vsub (cpos c) (offset l)) (search_delta m) (direction (cpos c) towards) step).
Proof.
  intros Hm Hu H step li l Hs Hq. unfold get_closest_point_towards in H.
  apply (query_layers m c (fun ls step => gcpt_layers bvh (cpos c) (search_delta m) (direction (cpos c) towards) step ls)) in H.
  destruct H as (ls & H & Hls).
  assert (HL : forall i l, In (i, l) ls -> nthN (layers m) i = Some l) by (intros; now apply Hls).
  rewrite first_step_None in H. specialize (H step (proj2 (rangeN_spec _ _) Hs)).
  apply Hls in Hq. eapply gcpt_layers_None; eauto.
Qed.

End Closest.
