(** Queries and complete searches on meshes that are alike. *)
From Coq Require Import List NArith ZArith Bool Lia.
From Verif Require Import Base Arith U32 Mesh Helpers Locate Search AsyncPath StdLib Spec Spec_alike Search_facts Search_cost Detailed_sim Cleanup_facts Alike Properties_async.
Import ListNotations.
Open Scope N_scope.

Section Queries.
Context {A : Arith}.
Variables (lib : Lib A) (f : vec2 A -> vec2 A) (m m' : Mesh A).

(** what the queries use of a layer *)
Record layer_queries (l l' : Layer A) : Prop := {
  lq_any : forall p, loc_any (lbvh lib) l' p = loc_any (lbvh lib) l p;
  lq_in : forall p, vsub (f p) (offset l') = vsub p (offset l);
  lq_out : forall p, vadd p (offset l') = f (vadd p (offset l))
}.
Hypotheses (HQ : Forall2 layer_queries (layers m) (layers m')) (HD : search_delta m' = search_delta m) (HT : search_steps m' = search_steps m).

Definition coords_moved (c : Coords A) : Coords A := mkCoords (f (cpos c)) (clayer c) (cpoly c).

Lemma probe_alike l l' p ds : layer_queries l l' -> probe_loop (lbvh lib) l' p ds = probe_loop (lbvh lib) l p ds.
Proof. intro H. induction ds as [|d r IH]; [reflexivity|]. cbn [probe_loop]. rewrite (lq_any _ _ H), IH. reflexivity. Qed.
Lemma enum_alike {X Y} (R : X -> Y -> Prop) l l' k : Forall2 R l l' -> Forall2 (fun a b => fst b = fst a /\ R (snd a) (snd b)) (enum_from k l) (enum_from k l').
Proof. intro H. revert k. induction H; intro k; cbn [enum_from]; constructor; auto. Qed.
Lemma layers_queries : Forall2 (fun a b => fst b = fst a /\ layer_queries (snd a) (snd b)) (enumerate (layers m)) (enumerate (layers m')).
Proof using HQ. apply (enum_alike _ _ _ 0 HQ). Qed.
Lemma gpl_alike p ls ls' : Forall2 (fun a b => fst b = fst a /\ layer_queries (snd a) (snd b)) ls ls' -> gpl_loop (lbvh lib) m' (f p) ls' = gpl_loop (lbvh lib) m p ls.
Proof using HD.
  induction 1 as [|[i l] [i' l'] r r' [E H] _ IH]; [reflexivity|]. cbn [fst snd] in *. subst i'. cbn [gpl_loop]. unfold layer_get_point_location.
  rewrite (lq_in _ _ H), HD, (probe_alike _ _ _ _ H), IH. reflexivity.
Qed.
Lemma gpls_alike p ls ls' : Forall2 (fun a b => fst b = fst a /\ layer_queries (snd a) (snd b)) ls ls' -> gpls_loop (lbvh lib) m' (f p) ls' = gpls_loop (lbvh lib) m p ls.
Proof using HD.
  induction 1 as [|[i l] [i' l'] r r' [E H] _ IH]; [reflexivity|]. cbn [fst snd] in *. subst i'. cbn [gpls_loop]. unfold layer_get_point_location.
  rewrite (lq_in _ _ H), HD, (probe_alike _ _ _ _ H), IH. reflexivity.
Qed.
Lemma location_alike c : get_point_location (lbvh lib) m' (coords_moved c) = get_point_location (lbvh lib) m c.
Proof using HQ HD.
  unfold get_point_location. cbn [coords_moved clayer cpos]. destruct (clayer c) as [li|]; [|apply gpl_alike, layers_queries].
  pose proof (Forall2_nth_both _ _ _ HQ li) as H. destruct (nthN (layers m) li) as [l|], (nthN (layers m') li) as [l'|]; try contradiction; [|reflexivity].
  unfold layer_get_point_location. now rewrite (lq_in _ _ H), HD, (probe_alike _ _ _ _ H).
Qed.
Lemma locations_alike c : get_point_locations (lbvh lib) m' (coords_moved c) = get_point_locations (lbvh lib) m c.
Proof using HQ HD.
  unfold get_point_locations. cbn [coords_moved clayer cpos]. destruct (clayer c) as [li|]; [|apply gpls_alike, layers_queries].
  pose proof (Forall2_nth_both _ _ _ HQ li) as H. destruct (nthN (layers m) li) as [l|], (nthN (layers m') li) as [l'|]; try contradiction; [|reflexivity].
  unfold layer_get_point_location. now rewrite (lq_in _ _ H), HD, (probe_alike _ _ _ _ H).
Qed.
Lemma ring_alike l l' p d s is : layer_queries l l' -> ring_loop (lbvh lib) l' p d s is = ring_loop (lbvh lib) l p d s is.
Proof. intro H. induction is as [|i r IH]; [reflexivity|]. cbn [ring_loop]. rewrite (lq_any _ _ H), IH. reflexivity. Qed.
Definition closest_moved (r : res (option (Coords A))) : res (option (Coords A)) := let* o := r in Ok (option_map coords_moved o).
Lemma gcp_alike p d s ls ls' : Forall2 (fun a b => fst b = fst a /\ layer_queries (snd a) (snd b)) ls ls' ->
  gcp_layers (lbvh lib) (f p) d s ls' = closest_moved (gcp_layers (lbvh lib) p d s ls).
Proof.
  induction 1 as [|[i l] [i' l'] r r' [E H] _ IH]; [reflexivity|]. cbn [fst snd] in *. subst i'. cbn [gcp_layers]. unfold get_closest_point_inner.
  rewrite (lq_in _ _ H). destruct (2^32 <=? _); [reflexivity|]. rewrite (ring_alike _ _ _ _ _ _ H).
  destruct (ring_loop (lbvh lib) l _ _ _ _) as [[[np k]|]| | |]; cbn [bind closest_moved]; try reflexivity; [|exact IH].
  cbn [option_map coords_moved cpos clayer cpoly]. now rewrite (lq_out _ _ H).
Qed.
Lemma gcpt_alike p d dir s ls ls' : Forall2 (fun a b => fst b = fst a /\ layer_queries (snd a) (snd b)) ls ls' ->
  gcpt_layers (lbvh lib) (f p) d dir s ls' = closest_moved (gcpt_layers (lbvh lib) p d dir s ls).
Proof.
  induction 1 as [|[i l] [i' l'] r r' [E H] _ IH]; [reflexivity|]. cbn [fst snd] in *. subst i'. cbn [gcpt_layers]. unfold get_closest_point_towards_inner.
  rewrite (lq_in _ _ H), (lq_any _ _ H). destruct (loc_any (lbvh lib) l _) as [k| | |]; cbn [bind closest_moved]; try reflexivity.
  destruct (N.eqb k MAX); [exact IH|]. cbn [bind option_map coords_moved cpos clayer cpoly]. now rewrite (lq_out _ _ H).
Qed.
Lemma first_step_moved (g g' : N -> res (option (Coords A))) steps : (forall s, g' s = closest_moved (g s)) -> first_step g' steps = closest_moved (first_step g steps).
Proof. intro H. induction steps as [|s r IH]; [reflexivity|]. cbn [first_step]. rewrite H. destruct (g s) as [[x|]| | |]; cbn [closest_moved bind option_map]; try reflexivity. exact IH. Qed.
Lemma single_alike (li : N) l l' : layer_queries l l' -> Forall2 (fun a b => fst b = fst a /\ layer_queries (snd a) (snd b)) [(li, l)] [(li, l')].
Proof. intro H. constructor; [split; [reflexivity|exact H]|constructor]. Qed.
Lemma closest_alike c : get_closest_point (lbvh lib) m' (coords_moved c) = closest_moved (get_closest_point (lbvh lib) m c).
Proof using HQ HD HT.
  unfold get_closest_point. cbn [coords_moved clayer cpos]. rewrite HD, HT. destruct (clayer c) as [li|].
  - pose proof (Forall2_nth_both _ _ _ HQ li) as H. unfold index. destruct (nthN (layers m) li) as [l|], (nthN (layers m') li) as [l'|]; try contradiction; [|reflexivity].
    cbn [unwrap bind]. apply first_step_moved. intro s. apply gcp_alike, single_alike, H.
  - apply first_step_moved. intro s. apply gcp_alike, layers_queries.
Qed.
Lemma towards_alike c t : (forall a b, vsub (f a) (f b) = vsub a b) ->
  get_closest_point_towards (lbvh lib) m' (coords_moved c) (f t) = closest_moved (get_closest_point_towards (lbvh lib) m c t).
Proof using HQ HD HT.
  intro HV. unfold get_closest_point_towards, direction. cbn [coords_moved clayer cpos]. rewrite HD, HT, HV. destruct (clayer c) as [li|].
  - pose proof (Forall2_nth_both _ _ _ HQ li) as H. unfold index. destruct (nthN (layers m) li) as [l|], (nthN (layers m') li) as [l'|]; try contradiction; [|reflexivity].
    cbn [unwrap bind]. apply first_step_moved. intro s. apply gcpt_alike, single_alike, H.
  - apply first_step_moved. intro s. apply gcpt_alike, layers_queries.
Qed.
Lemma locate_alike c : locate_end lib m' (coords_moved c) = locate_end lib m c.
Proof using HQ HD HT.
  unfold locate_end. cbn [coords_moved cpoly]. destruct (negb _); [reflexivity|]. fold (coords_moved c). rewrite closest_alike.
  destruct (get_closest_point (lbvh lib) m c) as [[x|]| | |]; reflexivity.
Qed.

Hypotheses (HF : motion f) (HM : mesh_alike f m m') (HP : pop_blind (lpop lib)).
Lemma count_alike : count_polygons m' = count_polygons m.
Proof using HM.
  unfold count_polygons. clear HQ. induction HM as [|l l' r r' [_ H] _ IH]; [reflexivity|]. cbn [fold_right]. rewrite (alike_len H). f_equal. exact IH.
Qed.
Lemma rsim_eq {T U} (g : T -> U) (a : res T) (b : res U) : rsim (fun x y => y = g x) a b -> b = let* x := a in Ok (g x).
Proof. destruct a, b; cbn; try contradiction; congruence. Qed.
Lemma layers_len : lengthN (layers m') = lengthN (layers m).
Proof using HQ. unfold lengthN. now rewrite (alike_len HQ). Qed.
Lemma reject_alike a b : islands_reject m' a b = islands_reject m a b.
Proof using HQ HM.
  unfold islands_reject. rewrite layers_len. destruct (N.eqb _ 1); [|reflexivity]. unfold index. pose proof (Forall2_nth_both _ _ _ HM (id_layer a)) as H.
  destruct (nthN (layers m) (id_layer a)) as [l|], (nthN (layers m') (id_layer a)) as [l'|]; try contradiction; [|reflexivity]. cbn [unwrap bind]. now rewrite (proj1 H).
Qed.
Lemma async_reject_alike a b : async_islands_reject m' a b = async_islands_reject m a b.
Proof using HM.
  unfold async_islands_reject. destruct (N.eqb _ _); [|reflexivity]. unfold index. pose proof (Forall2_nth_both _ _ _ HM (id_layer a)) as H.
  destruct (nthN (layers m) (id_layer a)) as [l|], (nthN (layers m') (id_layer a)) as [l'|]; try contradiction; [|reflexivity]. cbn [unwrap bind]. now rewrite (proj1 H).
Qed.

Lemma setup_buffer (c : Ctx A) from ps st : setup c from ps = Ok st -> sbuffer st = [].
Proof.
  unfold setup. intro H. inv_bind H. inv_bind H. inv_bind H. inv_bind H. inversion H; subst. reflexivity.
Qed.
(** The answer of a search moves with the mesh. *)
Lemma path_alike from to blocked : path_on_layers lib m' (coords_moved from) (coords_moved to) blocked =
  let* o := path_on_layers lib m from to blocked in Ok (option_map (path_moved f) o).
Proof using HQ HD HT HF HM HP.
  unfold path_on_layers. rewrite !locate_alike. destruct (locate_end lib m from) as [[ps|]| | |]; try reflexivity. cbn [bind].
  destruct (locate_end lib m to) as [[pe|]| | |]; try reflexivity. cbn [bind]. rewrite reject_alike. destruct (islands_reject m ps pe) as [[|]| | |]; try reflexivity. cbn [bind].
  cbn [coords_moved cpos]. destruct (N.eqb ps pe).
  - cbn [bind option_map path_moved plength ppath map]. now rewrite (mo_dist _ HF).
  - rewrite count_alike. apply rsim_eq. apply (rsim_bind (fun s s' => state_alike f m m' s s' /\ sbuffer s = [])).
    + pose proof (setup_alike f m m' HF HM (cpos to) pe blocked (cpos from) ps) as H. pose proof (setup_buffer (mkCtx m (cpos to) pe blocked) (cpos from) ps) as HB.
      destruct (setup _ (cpos from) ps), (setup _ (f (cpos from)) ps); try contradiction; cbn [rsim] in *; auto.
    + intros s s' _ [H1 H2]. apply run_alike; assumption.
Qed.

(** One poll of the future. *)
Definition inst_alike (i i' : option (Ctx A * State A)) : Prop :=
  match i, i' with
  | None, None => True
  | Some (c, s), Some (c', s') => exists g pe bl, c = mkCtx m g pe bl /\ c' = mkCtx m' (f g) pe bl /\ state_alike f m m' s s' /\ sbuffer s = []
  | _, _ => False
  end.
Definition future_alike (x x' : Future A) : Prop :=
  fmesh x = m /\ fmesh x' = m' /\ ffrom x' = f (ffrom x) /\ fto x' = f (fto x) /\ inst_alike (finst x) (finst x').
Definition poll_moved (p : Poll A) : Poll A := match p with Ready o => Ready (option_map (path_moved f) o) | Pending => Pending end.
Lemma poll_alike x x' : future_alike x x' ->
  rsim (fun r r' => future_alike (fst (fst r)) (fst (fst r')) /\ snd (fst r') = snd (fst r) /\ snd r' = poll_moved (snd r)) (poll lib x) (poll lib x').
Proof using HQ HD HF HM HP.
  intros (E1 & E2 & E3 & E4 & EI). unfold poll. rewrite E1, E2, E3, E4. unfold inst_alike in EI. destruct (finst x) as [[c s]|] eqn:Ei, (finst x') as [[c' s']|] eqn:Ei'; try contradiction.
  - destruct EI as (g & pe & bl & -> & -> & HS & HB). apply (rsim_bind _ _ _ _ _ _ (three_alike f m m' HF HM g pe bl lib HP 3 s s' HS HB)).
    intros [t o] [t' o'] _ (T1 & T2 & T3). cbn [fst snd] in *. subst o'.
    assert (HX : future_alike (mkFuture (ffrom x) (fto x) m (Some (mkCtx m g pe bl, t))) (mkFuture (f (ffrom x)) (f (fto x)) m' (Some (mkCtx m' (f g) pe bl, t')))).
    { split; [reflexivity|]. split; [reflexivity|]. split; [reflexivity|]. split; [reflexivity|]. cbn [finst inst_alike]. exists g, pe, bl. auto. }
    destruct o as [o|]; cbn [option_map rsim fst snd poll_moved]; auto.
  - change (coords_on_mesh (f (ffrom x))) with (coords_moved (coords_on_mesh (ffrom x))). change (coords_on_mesh (f (fto x))) with (coords_moved (coords_on_mesh (fto x))). rewrite !location_alike.
    assert (HX : future_alike x x') by (split; [exact E1|]; split; [exact E2|]; split; [exact E3|]; split; [exact E4|]; unfold inst_alike; now rewrite Ei, Ei').
    destruct (get_point_location (lbvh lib) m (coords_on_mesh (ffrom x))) as [ps| | |]; try exact I. cbn [bind]. destruct (N.eqb ps MAX); [cbn [rsim fst snd poll_moved]; auto|].
    destruct (get_point_location (lbvh lib) m (coords_on_mesh (fto x))) as [pe| | |]; try exact I. cbn [bind]. destruct (N.eqb pe MAX); [cbn [rsim fst snd poll_moved]; auto|].
    rewrite async_reject_alike. destruct (async_islands_reject m ps pe) as [[|]| | |]; try exact I; cbn [bind]; [cbn [rsim fst snd poll_moved]; auto|].
    destruct (N.eqb ps pe).
    + cbn [rsim fst snd poll_moved option_map path_moved plength ppath map]. rewrite (mo_dist _ HF). auto.
    + pose proof (setup_alike f m m' HF HM (fto x) pe [] (ffrom x) ps) as H. pose proof (setup_buffer (mkCtx m (fto x) pe []) (ffrom x) ps) as HB.
      destruct (setup _ (ffrom x) ps) as [t| | |], (setup _ (f (ffrom x)) ps) as [t'| | |]; try contradiction; try exact I. cbn [bind rsim fst snd poll_moved]. split; [|auto].
      split; [reflexivity|]. split; [reflexivity|]. split; [reflexivity|]. split; [reflexivity|]. cbn [finst inst_alike]. exists (fto x), pe, []. split; [reflexivity|]. split; [reflexivity|]. split; [exact H|]. now apply HB.
Qed.
Lemma polls_alike k : forall x x', future_alike x x' -> poll_times k lib x' = let* r := poll_times k lib x in Ok (option_map (option_map (path_moved f)) (fst r), snd r).
Proof using HQ HD HF HM HP.
  induction k as [|k IH]; intros x x' H; [reflexivity|]. cbn [poll_times]. pose proof (poll_alike x x' H) as P.
  destruct (poll lib x) as [[[y w] p]| | |], (poll lib x') as [[[y' w'] p']| | |]; try contradiction; try reflexivity. cbn [rsim fst snd bind] in *. destruct P as (P1 & -> & ->).
  destruct p as [o|]; cbn [poll_moved]; [reflexivity|]. rewrite (IH _ _ P1). destruct (poll_times k lib y) as [[a b]| | |]; reflexivity.
Qed.
End Queries.
