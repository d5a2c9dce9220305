(** Theorems for C20 (islands do not change answers), C25, C26 (the future). *)
From Coq Require Import List NArith ZArith Bool Lia Relations Reals Lra.
From Verif Require Import Base Arith F32 RealArith U32 Mesh Helpers Locate Bake Search AsyncPath StdLib Spec Locate_facts Closest_facts
  Bake_facts Search_facts Search_props Search_cost Islands_facts F32_facts Checkers Search_safe Tests Properties_mesh Properties_search.
Import ListNotations.
Open Scope N_scope.

Section Any.
Context {A : Arith}.
Implicit Types (m : Mesh A) (c : Ctx A) (st : State A) (lib : Lib A) (l : Layer A).

(** ** C20 *)
(** A one layer mesh [m] without islands, and the same mesh [m'] after island detection: whatever path answers on [m],
    it answers on [m'].  (On a consistent mesh path always answers: C18.) *)
Theorem C20_islands_do_not_change_paths lib l l' d steps from to blocked r :
  nan_sane A -> pop_perm (lpop lib) ->
  incidence_ok l -> lengthN (polygons l) < 2^24 -> islands l = None ->
  bake_islands_detection l = Ok l' ->
  path_on_layers lib (mkMesh [l] d steps) from to blocked = Ok r ->
  path_on_layers lib (mkMesh [l'] d steps) from to blocked = Ok r.
Proof.
  intros Hn Hpop Hinc Hlen Hi Hb H.
  pose proof (incidence_ids l Hinc) as Hok.
  destruct (C21_islands_are_components l Hinc Hlen) as (l1 & isl & E1 & E2 & E3 & E4 & E5 & E6 & E7 & Hiff).
  rewrite Hb in E1. inversion E1; subst l1; clear E1.
  set (m := mkMesh [l] d steps) in *. set (m' := mkMesh [l'] d steps).
  assert (Hs : m = strip m').
  { unfold m, m', strip, strip_l. cbn [layers map search_delta search_steps]. rewrite E4, E5, E6, E7.
    destruct l; cbn in *. now subst. }
  assert (Hm : mesh_small m) by (split; [cbn; lia|]; intros x [<-|[]]; lia).
  pose proof H as H0. unfold path_on_layers in H |- *.
  assert (HL : forall q, locate_end lib m q = locate_end lib m' q)
    by (intro q; rewrite Hs; now rewrite (locate_end_strip (lbvh lib))).
  rewrite !HL in H.
  destruct (locate_end lib m' from) as [[ps|]| | |] eqn:EF; cbn [bind] in *; try exact H.
  destruct (locate_end lib m' to) as [[pe|]| | |] eqn:ET; cbn [bind] in *; try exact H.
  assert (HR : islands_reject m ps pe = bind (index [l] (id_layer ps)) (fun _ => Ok false)).
  { unfold islands_reject. cbn [layers m]. change (lengthN [l] =? 1) with true. cbn iota.
    destruct (index [l] (id_layer ps)) as [x| | |] eqn:EI; cbn [bind]; try reflexivity.
    apply index_Ok, nthN_In in EI. destruct EI as [<-|[]]. now rewrite Hi. }
  rewrite HR in H.
  assert (HR' : islands_reject m' ps pe = bind (index [l] (id_layer ps)) (fun _ => Ok (islands_differ isl (id_polygon ps) (id_polygon pe)))).
  { unfold islands_reject. cbn [layers m']. change (lengthN [l'] =? 1) with true. cbn iota.
    unfold index, nthN. destruct (id_layer ps =? 0); cbn [unwrap bind]; [now rewrite E2|reflexivity]. }
  rewrite HR'. destruct (index [l] (id_layer ps)) as [x| | |]; cbn [bind] in *; try discriminate. clear x.
  destruct (islands_differ isl (id_polygon ps) (id_polygon pe)) eqn:EDf.
  - destruct r as [p|]; [|reflexivity]. exfalso.
    destruct (C11_path_is_supported lib m from to blocked p Hn Hpop Hm H0) as (ps' & pe' & xs & G1 & G2 & G3).
    assert (ps' = ps).
    { eapply located_fun; [exact G1|]. apply locate_end_located. rewrite Hs, (locate_end_strip (lbvh lib)) by reflexivity. exact EF. }
    assert (pe' = pe).
    { eapply located_fun; [exact G2|]. apply locate_end_located. rewrite Hs, (locate_end_strip (lbvh lib)) by reflexivity. exact ET. }
    subst. apply (corridor_neighbours m l) in G3; [|reflexivity|assumption|assumption].
    unfold islands_differ in EDf. destruct (nthN isl (id_polygon ps)) as [a|] eqn:EA; [|discriminate].
    destruct (nthN isl (id_polygon pe)) as [b|] eqn:EB; [|discriminate]. apply negb_true_iff, N.eqb_neq in EDf. apply EDf.
    apply (Hiff (id_polygon ps) (id_polygon pe) a b EA EB).
    assert (HM : lengthN (polygons l) <= MAX) by (unfold MAX; lia).
    clear - G3 Hinc HM. induction G3 as [x y Hxy|x|x y z _ IH1 _ IH2]; [apply rt_step; now apply incidence_neighbour|apply rt_refl|].
    eapply rt_trans; eauto.
  - destruct (N.eqb ps pe); [exact H|].
    change (mkCtx m (cpos to) pe blocked) with (mkCtx m (cpos to) pe blocked) in H.
    assert (HC : mkCtx m (cpos to) pe blocked = strip_c (mkCtx m' (cpos to) pe blocked)) by (unfold strip_c; cbn; now rewrite Hs).
    rewrite HC, setup_strip in H.
    destruct (setup (mkCtx m' (cpos to) pe blocked) (cpos from) ps) as [st| | |]; cbn [bind] in *; try discriminate.
    rewrite run_strip in H. replace (count_polygons m') with (count_polygons m); [exact H|].
    rewrite Hs. apply count_polygons_strip.
Qed.

(** ** C26: the poll contract *)
(** The waker is woken exactly on the polls that return Pending. *)
Theorem C26_woken_iff_pending lib (f f' : Future A) woken p :
  poll lib f = Ok (f', woken, p) -> (woken = true <-> p = Pending).
Proof.
  unfold poll. intro H. destruct (finst f) as [[c st]|].
  - inv_bind H. destruct (snd a); inversion H; subst; split; congruence.
  - inv_bind H. destruct (N.eqb a MAX); [inversion H; subst; split; congruence|].
    inv_bind H. destruct (N.eqb a0 MAX); [inversion H; subst; split; congruence|].
    inv_bind H. destruct a1; [inversion H; subst; split; congruence|].
    destruct (N.eqb a a0); [inversion H; subst; split; congruence|]. inv_bind H. inversion H; subst; split; congruence.
Qed.

(** The search, step by step: the answer [o] comes out of the [n]-th step. *)
Inductive answers lib c : State A -> nat -> option (Path A) -> Prop :=
| answers_found st st' p : next lib c st = Ok (st', Found p) -> answers lib c st 1 (Some p)
| answers_none st st' : next lib c st = Ok (st', NotFound) -> answers lib c st 1 None
| answers_later st st' n o : next lib c st = Ok (st', Continue) -> answers lib c st' n o -> answers lib c st (S n) o.

Lemma answers_det lib c st n o : answers lib c st n o -> forall n' o', answers lib c st n' o' -> n = n' /\ o = o'.
Proof.
  induction 1 as [st st' p H|st st' H|st st' n o H _ IH]; intros n' o' H'; inversion H'; subst; try (split; congruence).
  assert (st'0 = st') by congruence. subst. destruct (IH _ _ H1). split; congruence.
Qed.
Lemma answers_pos lib c st n o : answers lib c st n o -> (1 <= n)%nat.
Proof. destruct 1; lia. Qed.
Lemma three_some lib c : forall k st st' o, three k lib c st = Ok (st', Some o) -> exists n, (n <= k)%nat /\ answers lib c st n o.
Proof.
  induction k as [|k IH]; intros st st' o H; cbn [three] in H; [discriminate|]. inv_bind H. destruct a as [s1 step]. cbn [fst snd] in H.
  destruct step as [p| |]; inversion H; subst.
  - exists 1%nat. split; [lia|]. econstructor; eauto.
  - exists 1%nat. split; [lia|]. econstructor; eauto.
  - destruct (IH _ _ _ H) as (n & Hn & Hr). exists (S n). split; [lia|]. econstructor 3; eauto.
Qed.
Lemma three_none lib c : forall k st st', three k lib c st = Ok (st', None) ->
  forall n o, answers lib c st' n o -> answers lib c st (k + n) o.
Proof.
  induction k as [|k IH]; intros st st' H n o Ha; cbn [three] in H; [inversion H; subst; assumption|].
  inv_bind H. destruct a as [s1 step]. cbn [fst snd] in H. destruct step; try discriminate. simpl. econstructor 3; eauto.
Qed.
Lemma three_complete lib c st n o : answers lib c st n o -> forall k,
  (n <= k)%nat /\ (exists st', three k lib c st = Ok (st', Some o)) \/
  (k < n)%nat /\ exists st', three k lib c st = Ok (st', None) /\ answers lib c st' (n - k) o.
Proof.
  induction 1 as [st st' p H|st st' H|st st' n o H Ha IH]; intros [|k];
    try (right; split; [lia|]; eexists; split; [reflexivity|]; rewrite ?Nat.sub_0_r; econstructor; eassumption).
  - left. split; [lia|]. exists st'. cbn [three]. rewrite H. reflexivity.
  - left. split; [lia|]. exists st'. cbn [three]. rewrite H. reflexivity.
  - destruct (IH k) as [[Hk (s & Hs)]|[Hk (s & Hs & Hs2)]].
    + left. split; [lia|]. exists s. cbn [three]. rewrite H. cbn [bind fst snd]. exact Hs.
    + right. split; [lia|]. exists s. cbn [three]. rewrite H. cbn [bind fst snd]. split; [exact Hs|exact Hs2].
Qed.

(** A started future: its answer is the answer of the search; it takes one poll per three steps, every poll but the last
    one returns Pending and wakes, the last one does not. *)
Theorem C26_result_is_first_outcome lib (f : Future A) c st (k : nat) o :
  finst f = Some (c, st) ->
  ((exists log, poll_times k lib f = Ok (Some o, log)) <-> exists n, (n <= 3 * k)%nat /\ answers lib c st n o).
Proof.
  revert f st. induction k as [|k IH]; intros f st Hf; cbn [poll_times].
  - split; [intros (log & H); discriminate|]. intros (n & Hn & Ha). apply answers_pos in Ha. lia.
  - unfold poll at 1. rewrite Hf. split.
    + intros (log & H). inv_bind H. destruct a as [[f' w] p]. inv_bind E. destruct a as [st' [o'|]]; cbn [fst snd] in E; inversion E; subst; clear E.
      * inversion H; subst. destruct (three_some lib c 3 st st' o E0) as (n & Hn & Ha). exists n. split; [lia|assumption].
      * inv_bind H. destruct a as [o' log']. cbn [fst snd] in H. inversion H; subst.
        destruct (proj1 (IH (mkFuture (ffrom f) (fto f) (fmesh f) (Some (c, st'))) st' eq_refl)) as (n & Hn & Ha);
          [exists log'; exact E|]. exists (3 + n)%nat. split; [lia|]. eapply three_none; eauto.
    + intros (n & Hn & Ha). destruct (three_complete lib c st n o Ha 3) as [[Hk (s & Hs)]|[Hk (s & Hs & Hs2)]].
      * rewrite Hs. cbn [bind fst snd]. eauto.
      * rewrite Hs. cbn [bind fst snd].
        destruct (proj2 (IH (mkFuture (ffrom f) (fto f) (fmesh f) (Some (c, s))) s eq_refl)) as (log & Hl).
        -- exists (n - 3)%nat. split; [lia|assumption].
        -- rewrite Hl. cbn [bind fst snd]. eauto.
Qed.

(** all the wake-ups come before the answer *)
Theorem C26_wake_log lib (f : Future A) (k : nat) o log :
  poll_times k lib f = Ok (Some o, log) -> exists n, log = repeat true n ++ [false].
Proof.
  revert f log. induction k as [|k IH]; intros f log H; cbn [poll_times] in H; [discriminate|].
  inv_bind H. destruct a as [[f' w] p]. pose proof (C26_woken_iff_pending _ _ _ _ _ E) as Hw. destruct p.
  - inversion H; subst. exists 0%nat. destruct w; [|reflexivity].
    exfalso. pose proof (proj1 Hw eq_refl). discriminate.
  - inv_bind H. destruct a as [o' log']. cbn [fst snd] in H. inversion H; subst. destruct (IH _ _ E0) as (n & ->).
    exists (S n). simpl. now rewrite (proj2 Hw eq_refl).
Qed.

(** ** C25: agreement with path *)
Lemma run_answers lib c st n o : answers lib c st n o -> forall k,
  run k lib c st = Ok (if Nat.leb n k then o else None).
Proof.
  induction 1 as [st st' p H|st st' H|st st' n o H Ha IH]; intros [|k]; cbn [run]; try reflexivity.
  - rewrite H. reflexivity.
  - assert (st' = st) as ->.
    { unfold next in H. destruct (lpop lib (squeue st)) as [[n q]|]; [|now inversion H]. cbn [shist sbuffer] in H.
      destruct (match hist_get (shist st) (nroot n) with Some o => flt o (ng n) | None => false end); [discriminate|].
      destruct (N.eqb _ _); [discriminate|]. inv_bind H. discriminate. }
    rewrite H. cbn [bind fst snd]. induction k as [|k IH]; [reflexivity|]. cbn [run]. rewrite H. cbn [bind fst snd]. exact IH.
  - rewrite H. cbn [bind fst snd]. rewrite IH. reflexivity.
Qed.
Lemma run_Some lib c : forall k st p, run k lib c st = Ok (Some p) -> exists n, (n <= k)%nat /\ answers lib c st n (Some p).
Proof.
  induction k as [|k IH]; intros st p H; cbn [run] in H; [discriminate|]. inv_bind H. destruct a as [s1 step]. cbn [fst snd] in H.
  destruct step as [p'| |].
  - inversion H; subst. exists 1%nat. split; [lia|]. econstructor; eauto.
  - exfalso. assert (s1 = st) as ->.
    { unfold next in E. destruct (lpop lib (squeue st)) as [[n q]|]; [|now inversion E]. cbn [shist sbuffer] in E.
      destruct (match hist_get (shist st) (nroot n) with Some o => flt o (ng n) | None => false end); [discriminate|].
      destruct (N.eqb _ _); [discriminate|]. inv_bind E. discriminate. }
    pose proof (run_answers lib c st 1 None (answers_none lib c st st E) k) as HR. destruct (Nat.leb 1 k); congruence.
  - destruct (IH _ _ H) as (n & Hn & Hr). exists (S n). split; [lia|]. econstructor 3; eauto.
Qed.

(** Hypotheses of the three directions: both location procedures find the same polygons, and on a mesh with several layers
    the islands of layer 0 do not separate the two ends (the future uses them although the way may lead over another layer). *)
Definition same_ends lib m (from to : vec2 A) (ps pe : N) : Prop :=
  located lib m (coords_on_mesh from) ps /\ located lib m (coords_on_mesh to) pe /\
  get_point_location (lbvh lib) m (coords_on_mesh from) = Ok ps /\ get_point_location (lbvh lib) m (coords_on_mesh to) = Ok pe.

(** both ends are on layer 0, in different islands of it *)
Definition separated m (ps pe : N) : Prop :=
  id_layer ps = 0 /\ id_layer pe = 0 /\
  exists l isl a b, nthN (layers m) 0 = Some l /\ islands l = Some isl /\
    nthN isl (id_polygon ps) = Some a /\ nthN isl (id_polygon pe) = Some b /\ a <> b.
(** not more islands than polygons, as computed by bake (C21) *)
Definition islands_fit m : Prop := forall l isl, In l (layers m) -> islands l = Some isl -> lengthN isl <= lengthN (polygons l).
Definition one_or_joined m (ps pe : N) : Prop := lengthN (layers m) = 1 \/ (islands_fit m /\ ~ separated m ps pe).

Lemma one_layer_islands m ps pe : lengthN (layers m) = 1 -> id_layer ps = 0 -> id_layer pe = 0 -> ps < 2^24 -> pe < 2^24 ->
  async_islands_reject m ps pe = islands_reject m ps pe.
Proof.
  intros H1 H2 H3 H4 H5. unfold async_islands_reject, islands_reject. rewrite H1, H2, H3, !N.eqb_refl.
  rewrite !id_polygon_eq, !N.mod_small by assumption. reflexivity.
Qed.
Lemma one_layer_id m id (q : Coords A) bvh : lengthN (layers m) = 1 -> mesh_small m -> get_point_location bvh m q = Ok id -> id <> MAX ->
  id < 2^32 -> id_layer id = 0 /\ id < 2^24.
Proof.
  intros H1 Hm H Hid Hlt. destruct (get_point_location_found bvh m q id Hm H Hid) as (l & p & [Hl _] & _).
  apply nthN_Some_lt in Hl. rewrite H1 in Hl. assert (id_layer id = 0) by lia. split; [assumption|].
  rewrite id_layer_eq in H0. assert (id / 2^24 < 256) by (apply N.div_lt_upper_bound; [lia|]; change (2^24 * 256) with (2^32); assumption).
  rewrite N.mod_small in H0 by assumption. apply N.div_small_iff in H0; [assumption|lia].
Qed.
Lemma location_lt m id (q : Coords A) bvh : mesh_small m -> clayer q = None -> get_point_location bvh m q = Ok id -> id < 2^32.
Proof.
  intros Hm Hc H. unfold get_point_location in H. rewrite Hc in H.
  assert (HG : forall ls id, (forall i l, In (i, l) ls -> In l (layers m)) -> gpl_loop bvh m (cpos q) ls = Ok id -> id < 2^32).
  { induction ls as [|[i l] r IH]; intros id' Hls H'; cbn [gpl_loop] in H'.
    - inversion H'. unfold MAX. lia.
    - inv_bind H'. destruct a as [k|].
      + destruct (N.eqb _ MAX); [eapply IH; eauto; intros; eapply Hls; right; eauto|]. inversion H'; subst.
        pose proof (layer_gpl_Some _ _ _ _ _ E) as (p & v & Hk & _). apply nthN_Some_lt in Hk.
        pose proof (proj2 Hm l (Hls _ _ (or_introl eq_refl))). apply id_make_lt; [apply N.mod_lt; lia|lia].
      + eapply IH; eauto; intros; eapply Hls; right; eauto. }
  eapply HG; [|exact H]. intros i l Hi. apply enumerate_spec in Hi. eapply nthN_In; eauto.
Qed.

Lemma id_parts id : id < 2^32 -> id = id_layer id * 2^24 + id_polygon id.
Proof.
  intros H. rewrite id_layer_eq, id_polygon_eq.
  assert (id / 2^24 < 256) by (apply N.div_lt_upper_bound; [lia|]; change (2^24 * 256) with (2^32); assumption).
  rewrite (N.mod_small (id / 2^24)) by assumption. pose proof (N.div_mod' id (2^24)). lia.
Qed.
Lemma located_layer m id (q : Coords A) bvh : mesh_small m -> get_point_location bvh m q = Ok id -> id <> MAX ->
  exists l, nthN (layers m) (id_layer id) = Some l.
Proof. intros Hm H Hid. destruct (get_point_location_found bvh m q id Hm H Hid) as (l & p & [Hl _] & _). eauto. Qed.

(** a mesh of several layers: the future rejects exactly the separated ends, path none *)
Lemma many_layers_islands m ps pe ls : lengthN (layers m) <> 1 -> mesh_small m -> islands_fit m -> ps < 2^32 -> pe < 2^32 ->
  nthN (layers m) (id_layer ps) = Some ls ->
  islands_reject m ps pe = Ok false /\
  exists b, async_islands_reject m ps pe = Ok b /\ (b = true <-> separated m ps pe).
Proof.
  intros H1 Hm Hf Hs He Hl. split.
  { unfold islands_reject. apply N.eqb_neq in H1. rewrite H1. reflexivity. }
  unfold async_islands_reject. destruct (N.eqb_spec (id_layer ps) (id_layer pe)) as [EL|EL].
  2:{ exists false. split; [reflexivity|]. split; [discriminate|]. intros (E1 & E2 & _). exfalso. apply EL. congruence. }
  rewrite (proj2 (index_Ok _ _ _) Hl). cbn [bind]. eexists. split; [reflexivity|].
  destruct (islands ls) as [isl|] eqn:EI.
  2:{ split; [discriminate|]. intros (E1 & _ & l & isl & a & b & E3 & E4 & _). rewrite E1 in Hl. exfalso. congruence. }
  pose proof (Hf ls isl (nthN_In _ _ _ Hl) EI) as HL. pose proof (proj2 Hm ls (nthN_In _ _ _ Hl)) as HP.
  assert (HB : forall id, id < 2^32 -> forall x, nthN isl id = Some x -> id_layer id = 0 /\ id_polygon id = id).
  { intros id Hid x Hx. apply nthN_Some_lt in Hx. assert (id < 2^24) by lia. rewrite id_layer_eq, id_polygon_eq.
    rewrite (N.div_small id), (N.mod_small id) by assumption. split; reflexivity. }
  unfold islands_differ. split.
  - destruct (nthN isl ps) as [x|] eqn:EX; [|discriminate]. destruct (nthN isl pe) as [y|] eqn:EY; [|discriminate]. intros HD.
    destruct (HB ps Hs x EX) as [A1 A2]. destruct (HB pe He y EY) as [B1 B2]. rewrite A1 in Hl. split; [exact A1|]. split; [exact B1|].
    exists ls, isl, x, y. rewrite A2, B2. repeat (split; [assumption|]). intros E. rewrite E, N.eqb_refl in HD. discriminate.
  - intros (A1 & B1 & l & isl' & x & y & E1 & E2 & E3 & E4 & E5).
    pose proof (id_parts ps Hs) as P1. pose proof (id_parts pe He) as P2. rewrite A1 in P1, Hl. rewrite B1 in P2.
    assert (l = ls) by congruence. subst l. assert (isl' = isl) by congruence. subst isl'.
    rewrite N.mul_0_l, N.add_0_l in P1, P2. rewrite <- P1 in E3. rewrite <- P2 in E4. rewrite E3, E4.
    apply N.eqb_neq in E5. rewrite E5. reflexivity.
Qed.

Lemma same_islands m ps pe lib (from to : vec2 A) : one_or_joined m ps pe -> mesh_small m -> same_ends lib m from to ps pe ->
  async_islands_reject m ps pe = islands_reject m ps pe.
Proof.
  intros HO Hm (L1 & L2 & G1 & G2).
  pose proof (located_not_MAX _ _ _ _ Hm L1) as N1. pose proof (located_not_MAX _ _ _ _ Hm L2) as N2.
  pose proof (location_lt m ps (coords_on_mesh from) _ Hm eq_refl G1) as T1. pose proof (location_lt m pe (coords_on_mesh to) _ Hm eq_refl G2) as T2.
  destruct (N.eq_dec (lengthN (layers m)) 1) as [E|E].
  - destruct (one_layer_id m ps _ _ E Hm G1 N1 T1) as [I1 I2]. destruct (one_layer_id m pe _ _ E Hm G2 N2 T2) as [I3 I4].
    apply one_layer_islands; assumption.
  - destruct HO as [HO|[Hf HN]]; [contradiction|]. destruct (located_layer m ps _ _ Hm G1 N1) as [l Hl].
    destruct (many_layers_islands m ps pe l E Hm Hf T1 T2 Hl) as (R1 & b & R2 & R3). rewrite R1, R2.
    destruct b; [exfalso; apply HN, R3; reflexivity|reflexivity].
Qed.

Lemma first_poll lib m (from to : vec2 A) ps pe : one_or_joined m ps pe -> mesh_small m -> same_ends lib m from to ps pe ->
  poll lib (get_path m from to) =
    (let* rej := islands_reject m ps pe in
     if rej then Ok (get_path m from to, false, Ready None)
     else if N.eqb ps pe then Ok (get_path m from to, false, Ready (Some (mkPath (vdist from to) [to])))
     else let* st := setup (mkCtx m to pe []) from ps in
          Ok (mkFuture from to m (Some (mkCtx m to pe [], st)), true, Pending)) /\
  path lib m (coords_on_mesh from) (coords_on_mesh to) =
    (let* rej := islands_reject m ps pe in
     if rej then Ok None
     else if N.eqb ps pe then Ok (Some (mkPath (vdist from to) [to]))
     else let* st := setup (mkCtx m to pe []) from ps in run (count_polygons m * 10) lib (mkCtx m to pe []) st).
Proof.
  intros H1 Hm HE. pose proof (same_islands m ps pe lib from to H1 Hm HE) as HS. destruct HE as (L1 & L2 & G1 & G2).
  pose proof (located_not_MAX _ _ _ _ Hm L1) as N1. pose proof (located_not_MAX _ _ _ _ Hm L2) as N2.
  split.
  - unfold poll, get_path. cbn [finst ffrom fto fmesh]. rewrite G1. cbn [bind]. apply N.eqb_neq in N1. rewrite N1.
    rewrite G2. cbn [bind]. apply N.eqb_neq in N2. rewrite N2, HS. reflexivity.
  - unfold path, path_on_layers. apply locate_end_located in L1. apply locate_end_located in L2. rewrite L1. cbn [bind].
    rewrite L2. cbn [bind]. reflexivity.
Qed.

(** path finds [p]: polled often enough, so does the future. *)
Theorem C25_path_implies_future_partial lib m (from to : vec2 A) ps pe p :
  one_or_joined m ps pe -> mesh_small m -> same_ends lib m from to ps pe ->
  path lib m (coords_on_mesh from) (coords_on_mesh to) = Ok (Some p) ->
  exists k log, poll_times k lib (get_path m from to) = Ok (Some (Some p), log).
Proof.
  intros H1 Hm He H. destruct (first_poll lib m from to ps pe H1 Hm He) as [HA HB]. rewrite H in HB.
  destruct (islands_reject m ps pe) as [[]| | |]; cbn [bind] in HB; try discriminate.
  destruct (N.eqb ps pe) eqn:EQ.
  - exists 1%nat, [false]. cbn [poll_times]. rewrite HA. cbn [bind]. congruence.
  - destruct (setup (mkCtx m to pe []) from ps) as [st| | |] eqn:ES; cbn [bind] in *; try discriminate.
    symmetry in HB. destruct (run_Some _ _ _ _ _ HB) as (n & Hn & Ha).
    destruct (proj2 (C26_result_is_first_outcome lib (mkFuture from to m (Some (mkCtx m to pe [], st))) _ st n (Some p) eq_refl))
      as (log & Hl); [exists n; split; [lia|exact Ha]|].
    exists (S n), (true :: log). cbn [poll_times]. rewrite HA. cbn [bind]. rewrite Hl. reflexivity.
Qed.

(** the future answers [o]: so does path, unless its step limit is hit (then it answers None). *)
Theorem C25_future_implies_path_partial lib m (from to : vec2 A) ps pe o k log :
  one_or_joined m ps pe -> mesh_small m -> same_ends lib m from to ps pe ->
  poll_times k lib (get_path m from to) = Ok (Some o, log) ->
  path lib m (coords_on_mesh from) (coords_on_mesh to) = Ok o \/
  (path lib m (coords_on_mesh from) (coords_on_mesh to) = Ok None /\
   exists st n, setup (mkCtx m to pe []) from ps = Ok st /\ answers lib (mkCtx m to pe []) st n o /\ (count_polygons m * 10 < n)%nat).
Proof.
  intros H1 Hm He H. destruct (first_poll lib m from to ps pe H1 Hm He) as [HA HB]. rewrite HB.
  destruct k as [|k]; [discriminate|]. cbn [poll_times] in H. rewrite HA in H.
  destruct (islands_reject m ps pe) as [[]| | |]; cbn [bind] in *; try discriminate.
  - left. congruence.
  - destruct (N.eqb ps pe) eqn:EQ; [left; cbn [bind] in H; congruence|].
    destruct (setup (mkCtx m to pe []) from ps) as [st| | |] eqn:ES; cbn [bind] in *; try discriminate.
    inv_bind H. destruct a as [o' log']. cbn [fst snd] in H. inversion H; subst; clear H.
    destruct (proj1 (C26_result_is_first_outcome lib (mkFuture from to m (Some (mkCtx m to pe [], st))) _ st k o eq_refl)) as (n & Hn & Ha);
      [eauto|]. rewrite (run_answers _ _ _ _ _ Ha). destruct (Nat.leb_spec n (count_polygons m * 10)); [now left|].
    right. split; [reflexivity|]. exists st, n. auto.
Qed.

(** In particular "no path" by the future is "no path" by path. *)
Theorem C25_future_none_implies_path_none_partial lib m (from to : vec2 A) ps pe k log :
  one_or_joined m ps pe -> mesh_small m -> same_ends lib m from to ps pe ->
  poll_times k lib (get_path m from to) = Ok (Some None, log) ->
  path lib m (coords_on_mesh from) (coords_on_mesh to) = Ok None.
Proof. intros H1 Hm He H. destruct (C25_future_implies_path_partial lib m from to ps pe None k log H1 Hm He H) as [|[]]; assumption. Qed.

(** The condition on the islands cannot be left out: when they separate the ends the future answers "no path" at once. *)
Theorem C25_separated_no_path lib m (from to : vec2 A) ps pe :
  lengthN (layers m) <> 1 -> mesh_small m -> islands_fit m -> same_ends lib m from to ps pe -> separated m ps pe ->
  poll lib (get_path m from to) = Ok (get_path m from to, false, Ready None).
Proof.
  intros H1 Hm Hf (L1 & L2 & G1 & G2) HS.
  pose proof (located_not_MAX _ _ _ _ Hm L1) as N1. pose proof (located_not_MAX _ _ _ _ Hm L2) as N2.
  pose proof (location_lt m ps (coords_on_mesh from) _ Hm eq_refl G1) as T1. pose proof (location_lt m pe (coords_on_mesh to) _ Hm eq_refl G2) as T2.
  destruct (located_layer m ps _ _ Hm G1 N1) as [l Hl]. destruct (many_layers_islands m ps pe l H1 Hm Hf T1 T2 Hl) as (_ & b & R2 & R3).
  unfold poll, get_path. cbn [finst ffrom fto fmesh]. rewrite G1. cbn [bind]. apply N.eqb_neq in N1. rewrite N1.
  rewrite G2. cbn [bind]. apply N.eqb_neq in N2. rewrite N2, R2. cbn [bind]. rewrite (proj2 R3 HS). reflexivity.
Qed.
End Any.

(** ** When do both procedures find the same polygon?  When the point itself is in a polygon. *)
Lemma on_mesh_same_location {A : Arith} bvh (m : Mesh A) l (p : vec2 A) k :
  layers m = [l] -> mesh_small m -> 1 <= search_steps m ->
  ring_point (vsub p (offset l)) (search_delta m) 0 0 = vadd (vsub p (offset l)) vzero ->
  loc_any bvh l (vadd (vsub p (offset l)) vzero) = Ok k -> k <> MAX ->
  get_point_location bvh m (coords_on_mesh p) = Ok k /\
  (exists c, get_closest_point bvh m (coords_on_mesh p) = Ok (Some c) /\ cpoly c = k).
Proof.
  intros Hl Hm Hs Hr Hk Hk'. split.
  - unfold get_point_location. cbn [clayer coords_on_mesh cpos]. rewrite Hl. unfold enumerate. cbn [enum_from gpl_loop].
    unfold layer_get_point_location, probes. cbn [probe_loop]. unfold vzero in Hk. rewrite Hk. cbn [bind].
    apply N.eqb_neq in Hk'. rewrite Hk'. cbn [bind]. change (0 mod 256) with 0. rewrite id_make_zero, Hk'. reflexivity.
  - unfold get_closest_point. cbn [clayer coords_on_mesh cpos]. rewrite Hl.
    destruct (N.to_nat (search_steps m)) as [|n] eqn:EN; [lia|]. unfold rangeN at 1. rewrite EN. cbn [seq map first_step].
    unfold enumerate. cbn [enum_from gcp_layers]. unfold get_closest_point_inner.
    change (2 ^ 32 <=? 10 * (N.of_nat 0 + 1)) with false. cbn iota.
    change (rangeN (10 * N.of_nat 0 + 1)) with [0]. cbn [ring_loop]. change (N.of_nat 0) with 0. rewrite Hr, Hk. cbn [bind].
    apply N.eqb_neq in Hk'. rewrite Hk'. cbn [bind]. eexists. split; [reflexivity|]. cbn [cpoly]. apply id_make_zero.
Qed.

(** exact arithmetic: a point in the mesh (search_steps is never 0: C49) *)
Theorem C25_on_mesh_points_agree bvh (m : Mesh RA) (l : Layer RA) (p off : P2) (d : R) k :
  layers m = [l] -> mesh_small m -> 1 <= search_steps m -> search_delta m = Some d -> offset l = vp off ->
  loc_any bvh l (vp (psub p off)) = Ok k -> k <> MAX ->
  get_point_location bvh m (coords_on_mesh (vp p)) = Ok k /\
  (exists c, get_closest_point bvh m (coords_on_mesh (vp p)) = Ok (Some c) /\ cpoly c = k).
Proof.
  intros Hl Hm Hs Hd Ho Hk Hk'.
  assert (HV : forall q : P2, vadd (vp q) vzero = vp q).
  { intros [x y]. unfold vadd, vzero, vp, RealArith.pt. rewrite !fz_R. cbn. f_equal; f_equal; ring. }
  apply (on_mesh_same_location bvh m l); auto.
  - rewrite Ho, vsub_vp, HV, Hd. unfold ring_point, vadd, vscale, vp, RealArith.pt. rewrite !fz_R. cbn.
    destruct (Req_EM_T _ 0) as [E|E]; [exfalso; lra|]. cbn.
    destruct (psub p off) as [x y]. cbn. f_equal; f_equal; ring.
  - rewrite Ho, vsub_vp, HV. exact Hk.
Qed.

(** ** C25, refuted in general *)
(** A square; the destination is 0.05 right of it.  path samples only the right half of the circle of radius 0.1 and
    gives up, the future probes all around. *)
Definition one_square : Mesh F32 := mesh1
  [vtx 0 0 [0; MAX]; vtx 1 0 [0; MAX]; vtx 1 1 [0; MAX]; vtx 0 1 [0; MAX]] [mkPolygon [0; 1; 2; 3] true].
Theorem C25_location_refuted :
  exists (m : Mesh F32) from to p log, mesh_wf m /\ mesh_small m /\ lengthN (layers m) = 1 /\
    path lib32 m (coords_on_mesh from) (coords_on_mesh to) = Ok None /\
    poll_times 1 lib32 (get_path m from to) = Ok (Some (Some p), log).
Proof.
  exists one_square, (pt10 5 5), (pt100 105 50).
  assert (match poll_times 1 lib32 (get_path one_square (pt10 5 5) (pt100 105 50)) with Ok (Some (Some _), _) => true | _ => false end = true)
    as H by vmc.
  destruct (poll_times 1 lib32 (get_path one_square (pt10 5 5) (pt100 105 50))) as [[[[p|]|] log]| | |]; try discriminate.
  exists p, log. split; [apply mesh_wfb_ok; vmc|]. split; [apply mesh_smallb_ok; vmc|]. split; [vmc|]. split; [vmc|reflexivity].
Qed.

(** Two layers: two squares on layer 0, not connected there, and a third one on layer 1 between them, stitched.
    The islands are those computed when layer 0 was built.  path goes through layer 1; the future gives up because of
    the islands of layer 0. *)
Definition bridge : Mesh F32 :=
  let L := 16777216 in
  mkMesh
  [mkLayer [vtx 0 0 [0; MAX]; vtx 1 0 [0; L; MAX]; vtx 1 1 [L; 0; MAX]; vtx 0 1 [0; MAX];
            vtx 2 0 [1; MAX; L]; vtx 3 0 [1; MAX]; vtx 3 1 [1; MAX]; vtx 2 1 [1; L; MAX]]
           [mkPolygon [0; 1; 2; 3] false; mkPolygon [4; 5; 6; 7] false] vzero None (Some [0; 1]);
   mkLayer [vtx 1 0 [L; 0; MAX]; vtx 2 0 [1; L; MAX]; vtx 2 1 [L; 1; MAX]; vtx 1 1 [0; L; MAX]]
           [mkPolygon [0; 1; 2; 3] false] vzero None (Some [0])]
  (q 1 10) 2.
Theorem C25_islands_refuted :
  (match bake_islands_detection two_squares with Ok l => islands l | _ => None end) =
    (match layers bridge with l :: _ => islands l | _ => None end) /\
  exists from to p log, mesh_wf bridge /\ mesh_small bridge /\ same_ends lib32 bridge from to 0 1 /\
    path lib32 bridge (coords_on_mesh from) (coords_on_mesh to) = Ok (Some p) /\
    poll_times 1 lib32 (get_path bridge from to) = Ok (Some None, log).
Proof.
  split; [vmc|]. exists (pt10 5 5), (pt10 25 5).
  destruct (is_Ok_Some_ex (fun _ => true) (path lib32 bridge (coords_on_mesh (pt10 5 5)) (coords_on_mesh (pt10 25 5)))) as (p & Hp & _); [vmc|].
  exists p, [false]. split; [apply mesh_wfb_ok; vmc|]. split; [apply mesh_smallb_ok; vmc|].
  split; [|split; [exact Hp|vmc]]. split; [apply locate_end_located; vmc|]. split; [apply locate_end_located; vmc|]. split; vmc.
Qed.

(** ** Examples *)
(** C20: the two squares of C21's example satisfy its hypotheses; the path between them is None, and one inside a square
    exists, with and without islands. *)
Example ex_C20 : incidence_ok two_squares /\ islands two_squares = None /\
  path lib32 (mkMesh [two_squares] (q 1 10) 2) (at_ (pt10 5 5)) (at_ (pt10 25 5)) = Ok None.
Proof. split; [apply ex_C21|]. split; [reflexivity|vmc]. Qed.
(** C25: the U grid, from leg to leg *)
Example ex_C25 : lengthN (layers mesh_u_grid) = 1 /\ mesh_small mesh_u_grid /\
  same_ends lib32 mesh_u_grid (pt10 1 19) (pt10 29 19) 3 4 /\
  exists p, path lib32 mesh_u_grid (at_ (pt10 1 19)) (at_ (pt10 29 19)) = Ok (Some p).
Proof.
  split; [vmc|]. split; [apply mesh_smallb_ok; vmc|]. split.
  - split; [apply locate_end_located; vmc|]. split; [apply locate_end_located; vmc|]. split; vmc.
  - destruct (is_Ok_Some_ex (fun _ => true) (path lib32 mesh_u_grid (at_ (pt10 1 19)) (at_ (pt10 29 19)))) as (p & Hp & _); [vmc|]. eauto.
Qed.

(** C25 on two layers: from the first square of layer 0 to the square of layer 1 *)
Lemma bridge_fits : islands_fit bridge.
Proof.
  assert (HF : Forall (fun l => match islands l with Some isl => lengthN isl <= lengthN (polygons l) | None => True end) (layers bridge)).
  { apply Forall_cons; [apply N.leb_le; vmc|]. apply Forall_cons; [apply N.leb_le; vmc|apply Forall_nil]. }
  intros l isl Hl Hi. rewrite Forall_forall in HF. specialize (HF l Hl). rewrite Hi in HF. exact HF.
Qed.
Example ex_C25_two_layers : lengthN (layers bridge) = 2 /\ one_or_joined bridge 0 16777216 /\ mesh_small bridge /\
  same_ends lib32 bridge (pt10 5 5) (pt10 15 5) 0 16777216 /\
  exists p, path lib32 bridge (at_ (pt10 5 5)) (at_ (pt10 15 5)) = Ok (Some p).
Proof.
  split; [vmc|]. split; [right; split; [exact bridge_fits|intros (_ & E & _); vm_compute in E; discriminate]|].
  split; [apply mesh_smallb_ok; vmc|]. split.
  - split; [apply locate_end_located; vmc|]. split; [apply locate_end_located; vmc|]. split; vmc.
  - destruct (is_Ok_Some_ex (fun _ => true) (path lib32 bridge (at_ (pt10 5 5)) (at_ (pt10 15 5)))) as (p & Hp & _); [vmc|]. eauto.
Qed.
Example ex_C25_separated : lengthN (layers bridge) <> 1 /\ mesh_small bridge /\ islands_fit bridge /\
  same_ends lib32 bridge (pt10 5 5) (pt10 25 5) 0 1 /\ separated bridge 0 1.
Proof.
  split; [apply N.eqb_neq; vmc|]. split; [apply mesh_smallb_ok; vmc|]. split; [exact bridge_fits|]. split.
  - split; [apply locate_end_located; vmc|]. split; [apply locate_end_located; vmc|]. split; vmc.
  - split; [reflexivity|]. split; [reflexivity|]. do 2 eexists. exists 0, 1.
    split; [reflexivity|]. split; [reflexivity|]. split; [reflexivity|]. split; [reflexivity|discriminate].
Qed.

Print Assumptions C25_separated_no_path.
Print Assumptions C20_islands_do_not_change_paths.
Print Assumptions C26_woken_iff_pending.
Print Assumptions C26_result_is_first_outcome.
Print Assumptions C26_wake_log.
Print Assumptions C25_path_implies_future_partial.
Print Assumptions C25_future_implies_path_partial.
Print Assumptions C25_future_none_implies_path_none_partial.
Print Assumptions C25_on_mesh_points_agree.
Print Assumptions C25_location_refuted.
Print Assumptions C25_islands_refuted.
