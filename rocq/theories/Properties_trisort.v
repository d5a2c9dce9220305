(** C38: around a convex corner the triangles are taken by angle, whatever the list. *)
From Coq Require Import List NArith ZArith Bool Permutation Sorted Lia Reals Lra.
From Verif Require Import Base Arith U32 Mesh Helpers Bake StdLib Spec Spec_mesh Locate_facts Islands_facts Stitch_facts Cleanup Cleanup_facts Trimesh RealArith Tests_trimesh Properties_trimesh.
Import ListNotations.
Open Scope N_scope.

(** Triangle [j] has the edge from [w] to [v]. *)
Definition edge_into {A} (t : Trimesh A) (v j w : N) : Prop := exists x, nthN (triangles t) j = Some x /\ In (w, v) (edge_list (tri_list x)).
(** slice::sort_by permutes, and sorts if the comparison orders the different elements of the list. *)
Definition sorts {A : Arith} (sort_by : (N * vec2 A -> N * vec2 A -> comparison) -> list (N * vec2 A) -> res (list (N * vec2 A))) : Prop :=
  forall cmp l, exists s, sort_by cmp l = Ok s /\ Permutation l s /\
    (NoDup l -> (forall a b, In a l -> In b l -> a <> b -> cmp b a = CompOpp (cmp a b) /\ cmp a b <> Eq) ->
     (forall a b c, In a l -> In b l -> In c l -> cmp a b = Lt -> cmp b c = Lt -> cmp a c = Lt) ->
     StronglySorted (fun a b => cmp a b = Lt) s).

Section Sorted.
Variable sort_by : (N * vec2 RA -> N * vec2 RA -> comparison) -> list (N * vec2 RA) -> res (list (N * vec2 RA)).
Hypothesis HS : sorts sort_by.
Variables (t : Trimesh RA) (pos : N -> P2).
Hypotheses (Ht : tri_ok t) (Hpos : forall k, k < lengthN (tri_vertices t) -> nthN (tri_vertices t) k = Some (vp (pos k))).
Variables (i : N) (d : P2).
(** the directions in which the edges that end in vertex [i] start *)
Definition towards (w : N) : P2 := psub (pos w) (pos i).
Hypothesis Hhalf : forall j w, edge_into t i j w -> (0 < pdot d (towards w))%R.
Hypothesis Hdiff : forall j k w u, edge_into t i j w -> edge_into t i k u -> j <> k -> cross (towards w) (towards u) <> 0%R.

Lemma edge_into_fun j w u : edge_into t i j w -> edge_into t i j u -> w = u.
Proof using Ht.
  intros (x & X1 & X2) (y & Y1 & Y2). assert (y = x) by congruence. subst y. destruct (tri_distinct t j x Ht X1) as [D _].
  assert (In i (tri_list x)) as Hi. { unfold edge_list in X2. apply in_combine_r in X2. apply in_app_iff in X2. destruct x as [[a b] c]. unfold tri_list in *. cbn in X2. cbn. tauto. }
  destruct (tri_neighbors x i D Hi) as [(z & _ & _ & U) _]. apply U in X2, Y2. congruence.
Qed.
Lemma edges_around ids es : i < lengthN (tri_vertices t) -> (forall j, In j ids -> tri_uses t j i) ->
  mapM (ccw_edge t (to_polygons (triangles t)) i (vp (pos i))) ids = Ok es ->
  Forall2 (fun j e => fst e = j /\ exists w, edge_into t i j w /\ snd e = vp (towards w)) ids es.
Proof using Ht Hpos.
  intros Hi Hu E. apply mapM_Ok in E. induction E as [|j e ids es E _ IH]; constructor; [|apply IH; intros; apply Hu; now right].
  destruct (Hu j (or_introl eq_refl)) as (x & Hx & Hv). destruct (tri_distinct t j x Ht Hx) as [D B]. destruct (tri_neighbors x i D Hv) as [(w & Ew & Hw & U) _].
  unfold ccw_edge in E. rewrite (to_polygons_ok t Ht) in E. unfold index in E at 1. rewrite nthN_map', Hx in E. cbn [option_map unwrap bind pverts] in E. rewrite Ew in E. cbn [bind] in E.
  unfold index in E. rewrite (Hpos w (B w Hw)) in E. cbn [unwrap bind] in E. inversion E; subst e. split; [reflexivity|]. exists w. split; [exists x; split; [exact Hx|now apply U]|].
  cbn [snd]. unfold towards. apply vsub_vp.
Qed.
Lemma sorted_around order : i < lengthN (tri_vertices t) -> sort_around sort_by t (to_polygons (triangles t)) i (vp (pos i)) (incident t i) = Ok order ->
  StronglySorted (fun j k => forall w u, edge_into t i j w -> edge_into t i k u -> (0 < cross (towards w) (towards u))%R) order.
Proof using HS Ht Hpos Hhalf Hdiff.
  intros Hi E. assert (Hu : forall j, In j (incident t i) -> tri_uses t j i) by (intros j Hj; now apply incident_In). pose proof (incident_NoDup t i Ht) as Hnd.
  revert E Hu Hnd. generalize (incident t i) as ids. intros ids E Hu Hnd. destruct ids as [|a [|b r]]; [inversion E; subst; constructor|inversion E; subst; constructor; constructor|].
  unfold sort_around in E. inv_bind E. inv_bind E. inversion E; subst order. clear E. match goal with H : mapM _ _ = Ok ?x, H2 : sort_by _ ?x = Ok ?y |- _ => rename x into es, y into s, H into E1, H2 into E3 end.
  pose proof (edges_around _ _ Hi Hu E1) as F. set (ids := a :: b :: r) in *. clearbody ids.
  assert (G : forall e, In e es -> exists w, edge_into t i (fst e) w /\ e = (fst e, vp (towards w))).
  { intros e He. apply In_nthN in He. destruct He as [k Hk]. destruct (Forall2_nthN_r _ _ _ F _ _ Hk) as (j & _ & Ej & w & W1 & W2). exists w. rewrite Ej. split; [exact W1|]. rewrite <- Ej, <- W2. now destruct e. }
  assert (Efst : map fst es = ids). { clear -F. induction F as [|j e ids es [Ej _] _ IH]; [reflexivity|]. cbn [map]. now rewrite Ej, IH. }
  assert (Hne : NoDup es) by (apply (NoDup_map_inv fst); now rewrite Efst).
  assert (Hinj : forall x y, In x es -> In y es -> fst x = fst y -> x = y).
  { intros x y Hx Hy Exy. destruct (G x Hx) as (w & W1 & W2), (G y Hy) as (u & U1 & U2). rewrite Exy in W1. rewrite (edge_into_fun _ _ _ W1 U1) in W2. rewrite W2, U2, Exy. reflexivity. }
  destruct (HS tri_cmp es) as (s' & Es' & P & Hsorted). assert (s' = s) by congruence. subst s'.
  assert (K : StronglySorted (fun x y => tri_cmp x y = Lt) s).
  { apply Hsorted; [exact Hne| |].
    - intros x y Hx Hy Hxy. destruct (G x Hx) as (w & W1 & ->), (G y Hy) as (u & U1 & ->). cbn [fst] in *.
      assert (Hc : cross (towards w) (towards u) <> 0%R).
      { apply (Hdiff _ _ _ _ W1 U1). intro Ef. apply Hxy. apply Hinj; [exact Hx|exact Hy|exact Ef]. }
      assert (Ho : cross (towards u) (towards w) = (- cross (towards w) (towards u))%R) by (unfold cross; ring).
      destruct (Rlt_dec 0 (cross (towards w) (towards u))) as [H|H].
      + rewrite (proj2 (proj1 (tri_cmp_R (fst x) (fst y) _ _)) H). split; [|discriminate]. apply tri_cmp_R. rewrite Ho. lra.
      + assert (H' : (cross (towards w) (towards u) <= 0)%R) by lra. rewrite (proj2 (proj2 (tri_cmp_R (fst x) (fst y) _ _)) H'). split; [|discriminate]. apply tri_cmp_R. rewrite Ho. lra.
    - intros x y z Hx Hy Hz. destruct (G x Hx) as (w & W1 & ->), (G y Hy) as (u & U1 & ->), (G z Hz) as (v & V1 & ->). cbn [fst] in *.
      intros H1 H2. apply tri_cmp_R in H1, H2. apply tri_cmp_R. apply (cross_trans d (towards w) (towards u) (towards v)); auto; eapply Hhalf; eassumption. }
  assert (Gs : forall e, In e s -> exists w, edge_into t i (fst e) w /\ e = (fst e, vp (towards w))) by (intros e He; apply G; apply (Permutation_in _ (Permutation_sym P) He)).
  clear -K Gs Ht. induction K as [|x s K IH HF]; cbn [map]; [constructor|]. constructor; [apply IH; intros e He; apply Gs; now right|].
  apply Forall_forall. intros k Hk w u W U. apply in_map_iff in Hk. destruct Hk as (y & <- & Hy). rewrite Forall_forall in HF. specialize (HF y Hy).
  destruct (Gs x (or_introl eq_refl)) as (w' & W1 & W2), (Gs y (or_intror Hy)) as (u' & U1 & U2). rewrite W2, U2 in HF. apply tri_cmp_R in HF.
  rewrite (edge_into_fun _ _ _ W W1), (edge_into_fun _ _ _ U U1). exact HF.
Qed.
(** Exact arithmetic.  If the edges that end in a vertex come from directions in an open half plane, no two on one line, the triangles of
    that vertex are taken counterclockwise, however they are listed, and its neighbours are what that order says. *)
Theorem C38_convex_corner_partial m l v : mesh_of_trimesh sort_by t = Ok (Done m) -> layers m = [l] -> nthN (vertices l) i = Some v ->
  exists order, NoDup order /\ (forall j, In j order <-> tri_uses t j i) /\ tri_neighbours_of t i order (vpolys v) /\
    StronglySorted (fun j k => forall w u, edge_into t i j w -> edge_into t i k u -> (0 < cross (towards w) (towards u))%R) order.
Proof using HS Ht Hpos Hhalf Hdiff.
  intros Em El Ev. assert (Hperm : forall cmp l, exists s, sort_by cmp l = Ok s /\ Permutation l s) by (intros cmp l0; destruct (HS cmp l0) as (s & H1 & H2 & _); eauto).
  destruct (conversion sort_by Hperm t Ht) as (o & H1 & _ & _ & H4 & _). assert (o = Done m) by congruence. subst o. destruct (H4 m eq_refl) as (l' & L1 & _ & _ & L2 & L3).
  assert (l' = l) by congruence. subst l'. destruct (L3 i v Ev) as (V1 & _ & order & EO & O1 & O2 & O3). exists order. split; [exact O1|]. split; [exact O2|]. split; [exact O3|].
  pose proof (nthN_Some_lt _ _ _ V1) as Hi. rewrite (Hpos i Hi) in V1. injection V1 as V1. apply sorted_around; [exact Hi|]. now rewrite V1.
Qed.
End Sorted.

(** A sort that does all of this: the insertion sort of the tests. *)
Lemma sorted_app {T} (R : T -> T -> Prop) l m : StronglySorted R l -> StronglySorted R m -> (forall a b, In a l -> In b m -> R a b) -> StronglySorted R (l ++ m).
Proof.
  induction 1 as [|x l K IH F]; intros Hm Hab; cbn [app]; [exact Hm|]. constructor; [apply IH; [exact Hm|intros; apply Hab; [now right|assumption]]|].
  apply Forall_forall. intros y Hy. apply in_app_iff in Hy. destruct Hy as [Hy|Hy]; [rewrite Forall_forall in F; auto|apply Hab; [now left|exact Hy]].
Qed.
Lemma sorted_rev {T} (R : T -> T -> Prop) l : StronglySorted (fun a b => R b a) l -> StronglySorted R (rev l).
Proof.
  induction 1 as [|x l K IH F]; cbn [rev]; [constructor|]. apply sorted_app; [exact IH|constructor; constructor|].
  intros a b Ha Hb. apply in_rev in Ha. rewrite Forall_forall in F. destruct Hb as [<-|[]]. auto.
Qed.
Lemma insert_sorted {T} (cmp : T -> T -> comparison) x s :
  (forall a, In a s -> cmp x a = CompOpp (cmp a x) /\ cmp x a <> Eq) ->
  (forall a b c, In a (x :: s) -> In b (x :: s) -> In c (x :: s) -> cmp a b = Lt -> cmp b c = Lt -> cmp a c = Lt) ->
  StronglySorted (fun a b => cmp b a = Lt) s -> StronglySorted (fun a b => cmp b a = Lt) (insert_right cmp x s).
Proof.
  intros Hx Ht K. induction K as [|y s K IH F]; cbn [insert_right]; [constructor; constructor|].
  destruct (Hx y (or_introl eq_refl)) as [H1 H2]. rewrite Forall_forall in F. destruct (cmp x y) eqn:E; [congruence| |].
  - constructor.
    + apply IH; [intros; apply Hx; now right|]. intros a b c Ha Hb Hc. apply Ht; cbn in *; tauto.
    + apply Forall_forall. intros z Hz. apply (Permutation_in z (Permutation_sym (insert_right_perm cmp x s))) in Hz. destruct Hz as [<-|Hz]; [exact E|auto].
  - assert (Y : cmp y x = Lt) by (destruct (cmp y x); cbn in *; congruence). constructor; [constructor; [exact K|now apply Forall_forall]|].
    apply Forall_forall. intros z [<-|Hz]; [exact Y|]. apply (Ht z y x); cbn; auto.
Qed.
Lemma small_sort_sorts {A : Arith} : sorts (A := A) small_sort.
Proof.
  intros cmp l. destruct (small_sort_perm cmp l) as (s & Es & P). exists s. split; [exact Es|]. split; [exact P|]. intros Hnd Hc Ht.
  unfold small_sort in Es. inversion Es; subst s. clear Es P. apply sorted_rev.
  assert (G : forall l acc, NoDup (acc ++ l) -> (forall a b, In a (acc ++ l) -> In b (acc ++ l) -> a <> b -> cmp b a = CompOpp (cmp a b) /\ cmp a b <> Eq) ->
     (forall a b c, In a (acc ++ l) -> In b (acc ++ l) -> In c (acc ++ l) -> cmp a b = Lt -> cmp b c = Lt -> cmp a c = Lt) ->
     StronglySorted (fun a b => cmp b a = Lt) acc -> StronglySorted (fun a b => cmp b a = Lt) (fold_left (fun acc x => insert_right cmp x acc) l acc)).
  { clear. induction l as [|x l IH]; intros acc Hnd Hc Ht K; cbn [fold_left]; [exact K|].
    assert (P : Permutation (acc ++ x :: l) (insert_right cmp x acc ++ l)) by (rewrite <- (insert_right_perm cmp x acc); symmetry; apply Permutation_middle).
    assert (Q : forall a, In a (insert_right cmp x acc ++ l) -> In a (acc ++ x :: l)) by (intros a; apply Permutation_in; now symmetry).
    apply IH; [now apply (Permutation_NoDup P)|intros; apply Hc; auto|intros a b c ? ? ?; apply Ht; auto|].
    apply insert_sorted; [| |exact K].
    - intros a Ha. assert (Hn : a <> x) by (intros ->; apply NoDup_remove_2 in Hnd; apply Hnd; apply in_app_iff; now left).
      apply and_comm. split; [|apply Hc; [apply in_app_iff; now left|apply in_app_iff; right; now left|exact Hn]].
      apply Hc; [apply in_app_iff; right; now left|apply in_app_iff; now left|congruence].
    - intros a b c Ha Hb Hc'. apply Ht; apply in_app_iff; cbn in *; tauto. }
  apply (G l []); [exact Hnd|exact Hc|exact Ht|constructor].
Qed.

(** Three triangles in a corner, not listed in order. *)
Definition corner_fan : Trimesh RA := mkTrimesh [vp (P 0 0); vp (P 2 (-1)); vp (P 2 0); vp (P 2 1); vp (P 1 2)] [(0, 3, 4); (0, 1, 2); (0, 2, 3)].
Definition fan_pos (k : N) : P2 := nth (N.to_nat k) [(P 0 0); (P 2 (-1)); (P 2 0); (P 2 1); (P 1 2)] (P 0 0).
Lemma fan_towards : towards fan_pos 0 4 = P (1 - 0) (2 - 0) /\ towards fan_pos 0 2 = P (2 - 0) (0 - 0) /\ towards fan_pos 0 3 = P (2 - 0) (1 - 0).
Proof. repeat split. Qed.
Ltac fan_arith := rewrite ?(proj1 fan_towards), ?(proj1 (proj2 fan_towards)), ?(proj2 (proj2 fan_towards)); unfold pdot, cross; cbn [px py]; lra.
Lemma corner_fan_edges j w : edge_into corner_fan 0 j w -> (j = 0 /\ w = 4) \/ (j = 1 /\ w = 2) \/ (j = 2 /\ w = 3).
Proof.
  intros (x & X1 & X2). pose proof (nthN_Some_lt _ _ _ X1) as L. change (lengthN (triangles corner_fan)) with 3 in L.
  assert (j = 0 \/ j = 1 \/ j = 2) as [ -> |[ -> | -> ]] by lia; inversion X1; subst x; cbn in X2; intuition congruence.
Qed.
Example ex_C38_convex : exists m l v,
  tri_ok corner_fan /\
  (forall k, k < lengthN (tri_vertices corner_fan) -> nthN (tri_vertices corner_fan) k = Some (vp (fan_pos k))) /\
  (forall j w, edge_into corner_fan 0 j w -> (0 < pdot (P (1) (0)) (towards fan_pos 0 w))%R) /\
  (forall j k w u, edge_into corner_fan 0 j w -> edge_into corner_fan 0 k u -> j <> k -> cross (towards fan_pos 0 w) (towards fan_pos 0 u) <> 0%R) /\
  mesh_of_trimesh small_sort corner_fan = Ok (Done m) /\ layers m = [l] /\ nthN (vertices l) 0 = Some v /\
  exists order, tri_neighbours_of corner_fan 0 order (vpolys v) /\ order = [1; 2; 0].
Proof.
  assert (Ht : tri_ok corner_fan) by (apply tri_okb_ok; reflexivity).
  assert (Hpos : forall k, k < lengthN (tri_vertices corner_fan) -> nthN (tri_vertices corner_fan) k = Some (vp (fan_pos k))).
  { intros k Hk. change (lengthN (tri_vertices corner_fan)) with 5 in Hk. assert (k = 0 \/ k = 1 \/ k = 2 \/ k = 3 \/ k = 4) as [ -> |[ -> |[ -> |[ -> | -> ]]]] by lia; reflexivity. }
  assert (Hh : forall j w, edge_into corner_fan 0 j w -> (0 < pdot (P (1) (0)) (towards fan_pos 0 w))%R).
  { intros j w E. apply corner_fan_edges in E. destruct E as [[_ ->]|[[_ ->]|[_ ->]]]; fan_arith. }
  assert (Hd : forall j k w u, edge_into corner_fan 0 j w -> edge_into corner_fan 0 k u -> j <> k -> cross (towards fan_pos 0 w) (towards fan_pos 0 u) <> 0%R).
  { intros j k w u E1 E2 Hjk. apply corner_fan_edges in E1, E2.
    destruct E1 as [[-> ->]|[[-> ->]|[-> ->]]], E2 as [[-> ->]|[[-> ->]|[-> ->]]]; try congruence; fan_arith. }
  destruct (C37_conversion small_sort (fun cmp l => small_sort_perm cmp l) corner_fan Ht) as (o & H1 & _ & _ & H4 & H5).
  destruct H5 as [m ->].
  { intros v Hv. change (lengthN (tri_vertices corner_fan)) with 5 in Hv. unfold tri_uses.
    assert (v = 0 \/ v = 1 \/ v = 2 \/ v = 3 \/ v = 4) as [ -> |[ -> |[ -> |[ -> | -> ]]]] by lia.
    - exists 0, (0, 3, 4). cbn. tauto.
    - exists 1, (0, 1, 2). cbn. tauto.
    - exists 1, (0, 1, 2). cbn. tauto.
    - exists 0, (0, 3, 4). cbn. tauto.
    - exists 0, (0, 3, 4). cbn. tauto. }
  { discriminate. }
  { reflexivity. }
  destruct (H4 m eq_refl) as (l & L1 & _ & _ & L2 & _).
  assert (exists v, nthN (vertices l) 0 = Some v) as [v Hv]. { destruct (vertices l) as [|v r]; [discriminate|]. now exists v. }
  exists m, l, v. repeat (split; [assumption|]).
  destruct (C38_convex_corner_partial small_sort small_sort_sorts corner_fan fan_pos Ht Hpos 0 (P (1) (0)) Hh Hd m l v H1 L1 Hv) as (order & O1 & O2 & O3 & O4).
  exists order. split; [exact O3|].
  assert (M : forall j, In j order -> j = 0 \/ j = 1 \/ j = 2).
  { intros j Hj. apply O2 in Hj. destruct Hj as (x & X & _). apply nthN_Some_lt in X. change (lengthN (triangles corner_fan)) with 3 in X. lia. }
  assert (U : forall j, j = 0 \/ j = 1 \/ j = 2 -> In j order).
  { intros j Hj. apply O2. destruct Hj as [ -> |[ -> | -> ]]; [exists (0, 3, 4)|exists (0, 1, 2)|exists (0, 2, 3)]; cbn; tauto. }
  assert (Hl : length order = 3%nat).
  { apply Nat.le_antisymm.
    - apply (NoDup_incl_length (l' := [0; 1; 2]) O1). intros j Hj. apply M in Hj. cbn. intuition.
    - apply (NoDup_incl_length (l := [0; 1; 2]) (l' := order)); [repeat constructor; cbn; intuition discriminate|]. intros j Hj. apply U. cbn in Hj. intuition. }
  assert (E0 : edge_into corner_fan 0 0 4) by (exists (0, 3, 4); cbn; tauto).
  assert (E1 : edge_into corner_fan 0 1 2) by (exists (0, 1, 2); cbn; tauto).
  assert (E2 : edge_into corner_fan 0 2 3) by (exists (0, 2, 3); cbn; tauto).
  assert (K : forall j k w u, edge_into corner_fan 0 j w -> edge_into corner_fan 0 k u -> (cross (towards fan_pos 0 w) (towards fan_pos 0 u) < 0)%R ->
    ~ (forall w u, edge_into corner_fan 0 j w -> edge_into corner_fan 0 k u -> (0 < cross (towards fan_pos 0 w) (towards fan_pos 0 u))%R)).
  { intros j k w u A1 A2 A3 A4. specialize (A4 w u A1 A2). lra. }
  pose proof (K 0 1 4 2 E0 E1 ltac:(fan_arith)) as K01.
  pose proof (K 0 2 4 3 E0 E2 ltac:(fan_arith)) as K02.
  pose proof (K 2 1 3 2 E2 E1 ltac:(fan_arith)) as K21.
  destruct order as [|a [|b [|c [|]]]]; try discriminate Hl. clear K Hl. apply StronglySorted_inv in O4. destruct O4 as [O4 F1]. apply StronglySorted_inv in O4. destruct O4 as [_ F2].
  rewrite Forall_forall in F1, F2. pose proof (F1 b (or_introl eq_refl)) as Fab. pose proof (F1 c (or_intror (or_introl eq_refl))) as Fac. pose proof (F2 c (or_introl eq_refl)) as Fbc. cbv beta in Fab, Fac, Fbc.
  assert (a <> b /\ a <> c /\ b <> c) as (D1 & D2 & D3). { inversion O1 as [|? ? N1 O1']; subst. inversion O1' as [|? ? N2 _]; subst. cbn in N1, N2. intuition. }
  pose proof (M a (or_introl eq_refl)) as Ma. pose proof (M b (or_intror (or_introl eq_refl))) as Mb. pose proof (M c (or_intror (or_intror (or_introl eq_refl)))) as Mc.
  clear - Ma Mb Mc D1 D2 D3 Fab Fac Fbc K01 K02 K21.
  destruct Ma as [ -> |[ -> | -> ]], Mb as [ -> |[ -> | -> ]], Mc as [ -> |[ -> | -> ]]; try congruence; exfalso; auto.
Qed.
