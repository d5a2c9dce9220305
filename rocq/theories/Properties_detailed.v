(** Theorems for C57-C61: paths with the feature `detailed-layers`. *)
From Coq Require Import List NArith ZArith Bool Lia Permutation.
From Verif Require Import Base Arith F32 U32 Mesh Helpers Locate Search AsyncPath StdLib Spec
  Search_facts Search_props Search_hist F32_facts Checkers Tests Detailed Spec_detailed Detailed_facts Properties_segment
  Detailed_sim Properties_search Tests_detailed Tests_stitch Stitch.
Import ListNotations.
Open Scope N_scope.

Section Any.
Context {A : Arith}.
Implicit Types (lib : DLib A) (m : Mesh A) (from to : Coords A) (blocked : list N) (scales : list (vec2 A)) (p d : DPath A).

(** C57: both lists of points end at the requested destination, and the layer of the last one is that of the polygon of the
    destination. *)
Theorem C57_detailed_ends_at_destination lib m scales from to blocked p :
  dnan_sane A -> dpop_perm (dpop lib) -> mesh_small m ->
  dpath_on_layers lib m scales from to blocked = Ok (Some p) ->
  (exists front, dpath p = front ++ [cpos to]) /\
  exists pe front, located (dlib_lib lib) m to pe /\ dlayers p = front ++ [(cpos to, id_layer pe)].
Proof.
  intros Hn Hp Hm H. destruct (dpath_spec lib m scales from to blocked p Hn Hp Hm H) as (ps & pe & _ & H2 & [[_ ->]|H3]).
  - split; [exists []; reflexivity|]. exists pe, []. split; [exact H2|reflexivity].
  - destruct H3 as (_ & xs & x & marks & turns & lt & ent & _ & _ & _ & _ & _ & Hd & _ & Ht & _).
    split; [exists (turns ++ lt); rewrite Hd; now rewrite app_assoc|].
    rewrite map_app, app_assoc in Ht. cbn [map] in Ht. destruct (thinned_end _ _ _ Ht) as (front & ->).
    exists pe, front. auto.
Qed.

(** C57: the path is supported by a chain of polygons that does not enter a blocked layer, its turns are at corners. *)
Theorem C57_detailed_is_supported lib m scales from to blocked p :
  dnan_sane A -> dpop_perm (dpop lib) -> mesh_small m ->
  dpath_on_layers lib m scales from to blocked = Ok (Some p) ->
  exists ps pe xs, located (dlib_lib lib) m from ps /\ located (dlib_lib lib) m to pe /\ corridor m ps xs pe /\
    (forall x, In x xs -> ~ In (id_layer (cr_to x)) blocked) /\
    ((xs = [] /\ dpath p = [cpos to]) \/
     exists ys y turns last_turn, xs = ys ++ [y] /\ turns_along m blocked ys turns /\
       dpath p = turns ++ last_turn ++ [cpos to] /\
       (last_turn = [] \/ exists t, last_turn = [t] /\ crossing_point m y t)).
Proof.
  intros Hn Hp Hm H. destruct (dpath_spec lib m scales from to blocked p Hn Hp Hm H) as (ps & pe & H1 & H2 & [[He ->]|H3]).
  - exists ps, pe, []. split; [exact H1|]. split; [exact H2|]. subst. split; [constructor|]. split; [intros ? []|]. left. auto.
  - destruct H3 as (_ & xs & x & marks & turns & lt & ent & Hc & Hb & Ht & _ & Hl & Hd & _).
    exists ps, pe, (xs ++ [x]). repeat (split; [assumption|]). right. exists xs, x, turns, lt. auto.
Qed.

(** C58: what path_with_layers and the length are: with the turns and the entries into other layers along a chain of polygons,
    in order, each entry being where the straight line between the points before and after it meets the crossed edge; without
    points closer than 0.01 to the next one.  The length is the sum of the lengths of its legs, each in the scale of the layer in which
    the leg starts. *)
Theorem C58_path_with_layers lib m scales from to blocked p ps pe :
  dnan_sane A -> dpop_perm (dpop lib) -> mesh_small m ->
  located (dlib_lib lib) m from ps -> located (dlib_lib lib) m to pe -> ps <> pe ->
  dpath_on_layers lib m scales from to blocked = Ok (Some p) ->
  exists xs x marks turns last_turn entered,
    corridor m ps (xs ++ [x]) pe /\
    marks_along m blocked (xs ++ [x]) marks turns /\
    (last_turn = [] \/ exists t, last_turn = [t] /\ crossing_point m x t) /\
    dpath p = turns ++ last_turn ++ [cpos to] /\
    placed (hd (cpos to) last_turn) (cpos from) marks entered /\
    thinned (entered ++ map (fun q => (q, id_layer pe)) (last_turn ++ [cpos to])) (dlayers p) /\
    walked scales (fz 0) (cpos from) (id_layer ps) (dlayers p) (dlength p).
Proof.
  intros Hn Hp Hm L1 L2 Hne H.
  destruct (dpath_spec lib m scales from to blocked p Hn Hp Hm H) as (ps' & pe' & H1 & H2 & H3).
  assert (ps' = ps) by (eapply located_fun; eauto). assert (pe' = pe) by (eapply located_fun; eauto). subst ps' pe'.
  destruct H3 as [[He _]|(_ & xs & x & marks & turns & lt & ent & Hc & _ & _ & Hma & Hl & Hd & Hpl & Ht & Hw)]; [contradiction|].
  exists xs, x, marks, turns, lt, ent. repeat (split; [assumption|]). split; [|auto].
  destruct Hl as [->|(t & -> & _)]; exact Hpl.
Qed.

(** ** C60 *)
(** The search has made [n] steps, none of which failed. *)
Inductive after lib (c : DCtx A) : nat -> DState A -> DState A -> Prop :=
| after_O st : after lib c 0 st st
| after_S n st st1 o st2 : dnext lib c st = Ok (st1, o) -> after lib c n st1 st2 -> after lib c (S n) st st2.

(** [d] is found by the query: the straight segment when both ends are in the same polygon, otherwise by one of the first
    10 * (number of polygons) steps of the search. *)
Definition candidate lib m scales from to blocked d : Prop :=
  exists ps pe, located (dlib_lib lib) m from ps /\ located (dlib_lib lib) m to pe /\
    ((ps = pe /\ d = mkDPath (vdist (cpos from) (cpos to)) [cpos to] [(cpos to, id_layer pe)]) \/
     (ps <> pe /\ exists st n st1 st2,
        let c := mkDCtx (mkCtx m (cpos to) pe blocked) scales (cpos from, id_layer ps) in
        dsetup c (cpos from) ps = Ok st /\ (n < count_polygons m * 10)%nat /\ after lib c n st st1 /\
        dnext lib c st1 = Ok (st2, DFound d))).

Lemma drun_complete lib c d : forall k st paths out n st1 st2,
  drun k lib c st paths = Ok out -> after lib c n st st1 -> (n < k)%nat -> dnext lib c st1 = Ok (st2, DFound d) -> In d out.
Proof.
  induction k as [|k IH]; intros st paths out n st1 st2 H Ha Hn Hd; [lia|]. cbn [drun] in H. inv_bind H.
  destruct Ha as [st|n st s1 o s2 H1 H2].
  - rewrite Hd in E. apply Ok_eq in E. subst a. cbn [fst snd] in H.
    eapply drun_keeps; [exact H|]. apply in_or_app. right. now left.
  - rewrite H1 in E. apply Ok_eq in E. subst a. cbn [fst snd] in H.
    eapply IH; [exact H|exact H2|lia|exact Hd].
Qed.
Lemma drun_sound lib c d : forall k st paths out, drun k lib c st paths = Ok out -> In d out ->
  In d paths \/ exists n st1 st2, (n < k)%nat /\ after lib c n st st1 /\ dnext lib c st1 = Ok (st2, DFound d).
Proof.
  induction k as [|k IH]; intros st paths out H Hin; cbn [drun] in H.
  - apply Ok_eq in H. subst. now left.
  - inv_bind H. destruct a as [s1 o]. cbn [fst snd] in H.
    destruct (IH _ _ _ H Hin) as [H1|(n & st1 & st2 & H1 & H2 & H3)].
    + assert (In d paths \/ o = DFound d) as [H2|H2].
      { destruct o as [d'| |]; [|destruct paths as [|q r]|]; auto.
        - apply in_app_or in H1. destruct H1 as [H1|[<-|[]]]; auto.
        - left. apply in_app_or in H1. destruct H1 as [H1|[<-|[]]]; [now right|now left]. }
      * now left.
      * right. exists 0%nat, st, s1. split; [lia|]. split; [constructor|]. subst o. exact E.
    + right. exists (S n), st1, st2. split; [lia|]. split; [|exact H3]. econstructor; eauto.
Qed.

(** C60: the returned path is one of those the bounded search finds, and not longer than any other of them. *)
Theorem C60_shortest_of_the_found (L : lt_laws A) lib m scales from to blocked p :
  dpath_on_layers lib m scales from to blocked = Ok (Some p) ->
  candidate lib m scales from to blocked p /\
  forall d, candidate lib m scales from to blocked d -> flt (dlength d) (dlength p) = false.
Proof.
  intro H. apply dpath_cases in H. destruct H as (ps & pe & H1 & H2 & _ & H3). split.
  - exists ps, pe. split; [exact H1|]. split; [exact H2|].
    destruct H3 as [H3|(Hne & st & paths & Hs & Hr & Hd)]; [left; exact H3|right]. split; [exact Hne|].
    destruct (drun_sound lib _ p _ _ _ _ Hr (dselect_In _ _ Hd)) as [[]|(n & st1 & st2 & G1 & G2 & G3)].
    exists st, n, st1, st2. auto.
  - intros d (ps' & pe' & G1 & G2 & G3).
    assert (ps' = ps) by (eapply located_fun; eauto). assert (pe' = pe) by (eapply located_fun; eauto). subst ps' pe'.
    destruct H3 as [[He ->]|(Hne & st & paths & Hs & Hr & Hd)], G3 as [[He' ->]|(Hne' & st' & n & st1 & st2 & G3 & G4 & G5 & G6)];
      try contradiction; [apply (lt_irrefl L)|].
    cbv zeta in *. rewrite Hs in G3. apply Ok_eq in G3. subst st'.
    eapply dselect_min; [exact L|exact Hd|]. eapply drun_complete; eauto.
Qed.

Lemma dfirst_found lib c d : forall k st, dfirst k lib c st = Ok (Some (Some d)) ->
  exists n st1 st2, (n < k)%nat /\ after lib c n st st1 /\ dnext lib c st1 = Ok (st2, DFound d).
Proof.
  induction k as [|k IH]; intros st H; cbn [dfirst] in H; [discriminate|]. inv_bind H. destruct a as [s1 o]. cbn [fst snd] in H.
  destruct o as [d'| |].
  - apply Ok_eq in H. injection H as ->. exists 0%nat, st, s1. split; [lia|]. split; [constructor|exact E].
  - discriminate.
  - destruct (IH _ H) as (n & st1 & st2 & H1 & H2 & H3). exists (S n), st1, st2. split; [lia|]. split; [econstructor; eauto|exact H3].
Qed.

(** C60: in particular it is not longer than the path of the future, when the future finds it in as many steps. *)
Theorem C60_not_longer_than_the_future (L : lt_laws A) lib m scales (a b : vec2 A) ps pe p d k :
  located (dlib_lib lib) m (coords_on_mesh a) ps -> get_point_location (dbvh lib) m (coords_on_mesh a) = Ok ps ->
  located (dlib_lib lib) m (coords_on_mesh b) pe -> get_point_location (dbvh lib) m (coords_on_mesh b) = Ok pe ->
  (k <= count_polygons m * 10)%nat ->
  dpath_on_layers lib m scales (coords_on_mesh a) (coords_on_mesh b) [] = Ok (Some p) ->
  dget_path k lib m scales a b = Ok (Some (Some d)) ->
  flt (dlength d) (dlength p) = false.
Proof.
  intros H1 G1 H2 G2 Hk H G. apply (C60_shortest_of_the_found L) in H. destruct H as [_ H]. apply H. clear H p.
  exists ps, pe. split; [exact H1|]. split; [exact H2|].
  unfold dget_path in G. rewrite G1 in G. cbn [bind] in G. destruct (N.eqb ps MAX); [discriminate|].
  rewrite G2 in G. cbn [bind] in G. destruct (N.eqb pe MAX); [discriminate|]. inv_bind G. destruct a0; [discriminate|].
  destruct (N.eqb_spec ps pe) as [He|Hne].
  - left. split; [exact He|]. apply Ok_eq in G. injection G as <-. reflexivity.
  - right. split; [exact Hne|]. inv_bind G. destruct (dfirst_found _ _ _ _ _ G) as (n & st1 & st2 & K1 & K2 & K3).
    exists a0, n, st1, st2. cbn [coords_on_mesh cpos]. repeat split; auto. lia.
Qed.

(** ** C61 *)
(** C61: when all scales are one, the query succeeds exactly when it does without the feature, with the same points for one
    of the found paths; the returned one is not longer than that. *)
Theorem C61_unit_scales (L : lt_laws A) (lib0 : Lib A) lib m scales from to blocked r :
  one_law A -> unit_scales m scales -> verts_small m -> lbvh lib0 = dbvh lib -> pops_agree lib0 lib ->
  dpath_on_layers lib m scales from to blocked = Ok r ->
  exists r0, path_on_layers lib0 m from to blocked = Ok r0 /\
    match r0, r with
    | None, None => True
    | Some p0, Some p =>
        exists d, candidate lib m scales from to blocked d /\ dpath d = ppath p0 /\ flt (dlength d) (dlength p) = false
    | _, _ => False
    end.
Proof.
  intros H1 HU HV HB HP H.
  assert (HLoc : forall c, locate_end lib0 m c = locate_end (dlib_lib lib) m c).
  { intro c. unfold locate_end. rewrite HB. reflexivity. }
  destruct r as [p|].
  - pose proof (C60_shortest_of_the_found L lib m scales from to blocked p H) as [_ HS].
    apply dpath_cases in H. destruct H as (ps & pe & L1 & L2 & HI & H).
    pose proof (proj2 (locate_end_located _ _ _ _) L1) as E1. pose proof (proj2 (locate_end_located _ _ _ _) L2) as E2.
    unfold path_on_layers. rewrite HLoc, E1. cbn [bind]. rewrite HLoc, E2. cbn [bind]. rewrite HI. cbn [bind].
    destruct H as [[He Hp]|(Hne & st & paths & Hs & Hr & Hd)].
    + subst pe. rewrite N.eqb_refl. eexists. split; [reflexivity|]. exists p. split; [|split].
      * exists ps, ps. split; [exact L1|]. split; [exact L2|]. left. auto.
      * rewrite Hp. reflexivity.
      * apply (lt_irrefl L).
    + destruct (N.eqb_spec ps pe) as [He|_]; [contradiction|]. cbv zeta.
      set (c := mkDCtx (mkCtx m (cpos to) pe blocked) scales (cpos from, id_layer ps)) in *.
      pose proof (dsetup_sim H1 c HU HV (cpos from) ps) as HX. cbv zeta in Hs. rewrite Hs in HX.
      change (dctx c) with (mkCtx m (cpos to) pe blocked) in HX.
      destruct (setup _ _ _) as [s0| | |] eqn:E; cbn [rsim] in HX; try contradiction.
      change (exists r0, run (count_polygons m * 10) lib0 (dctx c) s0 = Ok r0 /\
        match r0 with Some p0 => exists d, candidate lib m scales from to blocked d /\ dpath d = ppath p0 /\ flt (dlength d) (dlength p) = false
                    | None => False end).
      destruct (drun_sim H1 c HU HV lib0 lib HP _ s0 st paths HX Hr) as (r0 & Hr0 & Hm). rewrite Hr0.
      exists r0. split; [reflexivity|]. destruct r0 as [p0|].
      * destruct Hm as (d & Hin & Hdp).
        assert (HC : candidate lib m scales from to blocked d).
        { exists ps, pe. split; [exact L1|]. split; [exact L2|]. right. split; [exact Hne|].
          destruct (drun_sound lib _ d _ _ _ _ Hr Hin) as [[]|(n & st1 & st2 & G1 & G2 & G3)]. exists st, n, st1, st2. auto. }
        exists d. auto.
      * subst paths. discriminate.
  - unfold dpath_on_layers in H. unfold path_on_layers. inv_bind H. rewrite HLoc, E. cbn [bind].
    destruct a as [ps|]; [|exists None; auto]. inv_bind H. rewrite HLoc, E0. cbn [bind].
    destruct a as [pe|]; [|exists None; auto]. inv_bind H. rewrite E1. cbn [bind].
    destruct a; [exists None; auto|]. destruct (N.eqb ps pe); [discriminate|]. cbv zeta in *.
    set (c := mkDCtx (mkCtx m (cpos to) pe blocked) scales (cpos from, id_layer ps)) in *.
    inv_bind H. inv_bind H.
    pose proof (dsetup_sim H1 c HU HV (cpos from) ps) as HX. rewrite E2 in HX.
    change (dctx c) with (mkCtx m (cpos to) pe blocked) in HX.
    destruct (setup _ _ _) as [s0| | |] eqn:ES; cbn [rsim] in HX; try contradiction.
    change (exists r0, run (count_polygons m * 10) lib0 (dctx c) s0 = Ok r0 /\ match r0 with Some _ => False | None => True end).
    destruct (drun_sim H1 c HU HV lib0 lib HP _ s0 a a0 HX E3) as (r0 & Hr0 & Hm). rewrite Hr0.
    exists r0. split; [reflexivity|]. destruct r0 as [p0|]; [|exact I].
    destruct Hm as (d & Hin & _). unfold dselect in H. destruct a0 as [|x [|y z]]; [destruct Hin|discriminate|].
    destruct (existsb _ _); discriminate.
Qed.

(** The reference heap pops the same nodes with and without the feature. *)
Lemma std_pops_agree : pops_agree (@std_lib A) (@std_dlib A).
Proof.
  intro q. unfold std_lib, std_dlib. cbn [lpop dpop]. induction q as [|n r IH]; [reflexivity|]. cbn [map std_pop std_dpop].
  rewrite IH. destruct (std_dpop r) as [[x r']|]; [|reflexivity]. cbn [map].
  destruct (node_cmp (dnode n) (dnode x)); reflexivity.
Qed.
Lemma std_dpop_perm : dpop_perm (@std_dpop A).
Proof.
  intro q. induction q as [|n r IH]; cbn [std_dpop]; [reflexivity|].
  destruct (std_dpop r) as [[x r']|].
  - destruct (node_cmp (dnode n) (dnode x)); try apply Permutation_refl.
    eapply Permutation_trans; [apply perm_skip; exact IH|apply perm_swap].
  - apply Permutation_refl.
Qed.
End Any.

(** ** The laws, for binary32 *)
From Coq.Floats Require Import SpecFloat.
Lemma s_mul_nan_l x : s_mul S754_nan x = S754_nan.
Proof. reflexivity. Qed.
Lemma F32_dnan_sane sin cos acos : dnan_sane (F32with sin cos acos).
Proof.
  intros g u v s H. unfold veq in H. cbn [feq F32with] in H. apply andb_false_iff in H.
  destruct u as [ux uy], v as [x y], s as [sx sy]. cbn [vx vy] in H.
  unfold vdist, vlen, vdot, vsub, vmulv. cbn [vx vy].
  change (s_isnan (s_add g (s_sqrt (s_add (s_mul (s_sub ux (s_mul x sx)) (s_sub ux (s_mul x sx)))
    (s_mul (s_sub uy (s_mul y sy)) (s_sub uy (s_mul y sy)))))) = true).
  destruct H as [H|H]; apply SFeqb_refl in H; rewrite H, s_mul_nan_l, s_sub_nan, s_mul_nan.
  - rewrite s_add_nan_l. change (s_sqrt S754_nan) with S754_nan. now rewrite s_add_nan.
  - rewrite s_add_nan. change (s_sqrt S754_nan) with S754_nan. now rewrite s_add_nan.
Qed.

(** ** The laws, for exact arithmetic, and C59 *)
From Coq Require Import Reals Lra.
From Verif Require Import RealArith Geometry.
Open Scope R_scope.

Lemma RA_dnan_sane : dnan_sane RA.
Proof.
  intros g u v s H. unfold veq in H. destruct v as [[x|] [y|]], u as [[a|] [b|]], s as [[c|] [d|]], g; cbn in *; try reflexivity.
  all: exfalso; apply andb_false_iff in H; rewrite !reqb_false in H; tauto.
Qed.
Lemma RA_one_law : one_law RA.
Proof. intros [x|]; rewrite fz_R; cbn; [f_equal; ring|reflexivity]. Qed.

(** C61 in exact arithmetic, with the reference heap *)
Corollary C61_unit_scales_exact (m : Mesh RA) scales (from to : Coords RA) blocked r :
  unit_scales m scales -> verts_small m ->
  dpath_on_layers std_dlib m scales from to blocked = Ok r ->
  exists r0, path_on_layers std_lib m from to blocked = Ok r0 /\
    match r0, r with
    | None, None => True
    | Some p0, Some p =>
        exists d, candidate std_dlib m scales from to blocked d /\ dpath d = ppath p0 /\ flt (dlength d) (dlength p) = false
    | _, _ => False
    end.
Proof. intros H1 H2. apply (C61_unit_scales RA_lt_laws); auto using RA_one_law, std_pops_agree. Qed.

(** scaling by factors of absolute value at least [k] stretches distances at least by [k] *)
Lemma dist_scaled (a b : P2) (sx sy k : R) : 0 <= k -> k <= Rabs sx -> k <= Rabs sy ->
  k * dist a b <= dist (P (px a * sx) (py a * sy)) (P (px b * sx) (py b * sy)).
Proof.
  intros Hk Hx Hy. unfold dist, plen.
  rewrite <- (sqrt_Rsqr k Hk), <- sqrt_mult; [|apply Rle_0_sqr|].
  2:{ apply pdot_nonneg. }
  apply sqrt_le_1_alt. unfold pdot, psub, Rsqr. cbn [px py].
  assert (k * k <= sx * sx) by (apply Rsqr_le_abs_1; rewrite (Rabs_pos_eq k Hk); exact Hx).
  assert (k * k <= sy * sy) by (apply Rsqr_le_abs_1; rewrite (Rabs_pos_eq k Hk); exact Hy).
  pose proof (Rle_0_sqr (px a - px b)) as Q1. pose proof (Rle_0_sqr (py a - py b)) as Q2. unfold Rsqr in Q1, Q2. nra.
Qed.

(** both factors of every scale are at least [k] in absolute value *)
Definition scales_at_least (k : R) (scales : list (vec2 RA)) : Prop :=
  forall s, In s scales -> exists sx sy, s = vp (P sx sy) /\ k <= Rabs sx /\ k <= Rabs sy.

Lemma fadd_Some (a b : F RA) t : fadd a b = Some t -> exists x y, a = Some x /\ b = Some y /\ t = x + y.
Proof. destruct a, b; cbn; try discriminate. intro H. injection H as <-. eauto. Qed.

Lemma walked_at_least k scales : 0 <= k -> scales_at_least k scales ->
  forall acc p l pts total, walked scales acc p l pts total ->
  forall a p' g t, acc = Some a -> p = vp p' -> total = Some t -> last (map fst pts) p = vp g ->
  a + k * dist p' g <= t.
Proof.
  intros Hk HS. induction 1 as [acc p l|acc p l q lq r total sc Hsc Hw IH]; intros a p' g t Ha Hp Ht Hl.
  - cbn [map last] in Hl. subst p. assert (p' = g) as <-.
    { destruct p', g. unfold vp, RealArith.pt in Hl. cbn in Hl. congruence. }
    rewrite dist_refl. rewrite Ha in Ht. injection Ht as <-. lra.
  - destruct (HS sc (nthN_In _ _ _ Hsc)) as (sx & sy & -> & Hx & Hy). subst acc p.
    assert (Hq : exists x, fadd (Some a : F RA) (vdist (scaled (vp p') (vp (P sx sy))) (scaled q (vp (P sx sy)))) = Some x).
    { clear - Hw Ht. revert Hw. generalize (fadd (Some a : F RA) (vdist (scaled (vp p') (vp (P sx sy))) (scaled q (vp (P sx sy))))).
      intros acc Hw. induction Hw as [|acc p l q' lq' r' total' sc' Hsc' Hw' IH']; [eauto|].
      destruct (IH' Ht) as (y & Hy). apply fadd_Some in Hy. destruct Hy as (y1 & y2 & -> & _). eauto. }
    destruct Hq as (x & Hx1). pose proof (fadd_Some _ _ _ Hx1) as (x1 & x2 & E1 & E2 & E3). injection E1 as <-.
    assert (Hq : exists q', q = vp q').
    { destruct q as [[qx|] [qy|]]; [exists (P qx qy); reflexivity|..]; exfalso; destruct p'; cbn in E2; discriminate. }
    destruct Hq as (q' & ->).
    assert (Hd : x2 = dist (P (px p' * sx) (py p' * sy)) (P (px q' * sx) (py q' * sy))).
    { change (vdist (vp (P (px p' * sx) (py p' * sy))) (vp (P (px q' * sx) (py q' * sy))) = Some x2) in E2.
      rewrite vdist_vp in E2. congruence. }
    pose proof (IH x q' g t Hx1 eq_refl Ht) as HI.
    assert (Hl' : last (map fst r) (vp q') = vp g).
    { cbn [map fst] in Hl. rewrite <- Hl. destruct (map fst r) as [|z zs]; [reflexivity|].
      change (last (z :: zs) (vp q') = last (z :: zs) (vp p')). clear. revert z. induction zs as [|w ws IHw]; intro z; [reflexivity|].
      change (last (w :: ws) (vp q') = last (w :: ws) (vp p')). apply IHw. }
    specialize (HI Hl').
    pose proof (dist_scaled p' q' sx sy k Hk Hx Hy). pose proof (dist_triangle p' q' g).
    rewrite <- Hd in H. nra.
Qed.

(** C59: in exact arithmetic, if the factors of all scales are at least [k], the length is at least [k] times the straight
    distance; for ends in different polygons. *)
Theorem C59_not_shorter_than_scaled_line (lib : DLib RA) (m : Mesh RA) scales (from to : Coords RA) blocked p ps pe (k t : R) (a b : P2) :
  dpop_perm (dpop lib) -> mesh_small m ->
  located (dlib_lib lib) m from ps -> located (dlib_lib lib) m to pe -> ps <> pe ->
  0 <= k -> scales_at_least k scales -> cpos from = vp a -> cpos to = vp b ->
  dpath_on_layers lib m scales from to blocked = Ok (Some p) -> dlength p = Some t ->
  k * dist a b <= t.
Proof.
  intros Hp Hm L1 L2 Hne Hk HS Ha Hb H Ht.
  destruct (C58_path_with_layers lib m scales from to blocked p ps pe RA_dnan_sane Hp Hm L1 L2 Hne H)
    as (xs & x & marks & turns & lt & ent & _ & _ & _ & _ & _ & Hth & Hw).
  rewrite map_app, app_assoc in Hth. cbn [map] in Hth. destruct (thinned_end _ _ _ Hth) as (front & Hd).
  pose proof (walked_at_least k scales Hk HS _ _ _ _ _ Hw 0 a b t) as HX.
  rewrite fz_R in HX. specialize (HX eq_refl Ha Ht). rewrite Hd, map_app in HX. cbn [map fst] in HX.
  rewrite last_last in HX. specialize (HX Hb). lra.
Qed.

(** C59: so if they are at least one, it is never below the straight distance. *)
Theorem C59_not_shorter_than_straight_line (lib : DLib RA) (m : Mesh RA) scales (from to : Coords RA) blocked p (t : R) (a b : P2) :
  dpop_perm (dpop lib) -> mesh_small m ->
  scales_at_least 1 scales -> cpos from = vp a -> cpos to = vp b ->
  dpath_on_layers lib m scales from to blocked = Ok (Some p) -> dlength p = Some t ->
  dist a b <= t.
Proof.
  intros Hp Hm HS Ha Hb H Ht. pose proof (dpath_cases _ _ _ _ _ _ _ H) as (ps & pe & L1 & L2 & _ & [[_ ->]|[Hne _]]).
  - cbn [dlength] in Ht. rewrite Ha, Hb, vdist_vp in Ht. injection Ht as <-. lra.
  - pose proof (C59_not_shorter_than_scaled_line lib m scales from to blocked p ps pe 1 t a b Hp Hm L1 L2 Hne ltac:(lra) HS Ha Hb H Ht). lra.
Qed.

(** ** Counterexamples in binary32, and that the hypotheses are met *)
Open Scope N_scope.
Lemma is_path_ex r len pth lay : is_path r len pth lay = true -> exists p, r = Ok (Some p) /\ feq (dlength p) len = true.
Proof.
  unfold is_path. destruct r as [[p|]| | |]; try discriminate. intro H. exists p. split; [reflexivity|].
  now repeat (apply andb_prop in H; destruct H as [H _]).
Qed.
Lemma Ok_Some_2 {T} (f : T -> T -> bool) (r s : res (option T)) :
  match r, s with Ok (Some a), Ok (Some b) => f a b | _, _ => false end = true ->
  exists a b, r = Ok (Some a) /\ s = Ok (Some b) /\ f a b = true.
Proof. destruct r as [[a|]| | |], s as [[b|]| | |]; try discriminate. eauto. Qed.
Lemma Ok_Some_3 {T U} (f : T -> U -> bool) (r : res (option T)) (s : res (option (option U))) :
  match r, s with Ok (Some a), Ok (Some (Some b)) => f a b | _, _ => false end = true ->
  exists a b, r = Ok (Some a) /\ s = Ok (Some (Some b)) /\ f a b = true.
Proof. destruct r as [[a|]| | |], s as [[[b|]|]| | |]; try discriminate. eauto. Qed.
Lemma Ok_Some_4 {T U} (f : T -> U -> bool) (r : res (option T)) (s : res (option U)) :
  match r, s with Ok (Some a), Ok (Some b) => f a b | _, _ => false end = true ->
  exists a b, r = Ok (Some a) /\ s = Ok (Some b) /\ f a b = true.
Proof. destruct r as [[a|]| | |], s as [[b|]| | |]; try discriminate. eauto. Qed.

(** C57, C58, C60: a query over three layers that turns twice *)
Example ex_detailed : exists p, dquery hill_mesh hill_scales (pt10 7 1) (pt10 7 39) = Ok (Some p) /\ length (dpath p) = 3%nat /\
  map snd (dlayers p) = [3; 4; 4] /\ mesh_small hill_mesh /\ dpop_perm (dpop dlib32) /\ dnan_sane F32 /\ lt_laws F32.
Proof.
  destruct (is_Ok_Some_ex (fun p => ((length (dpath p) =? 3)%nat && if list_eq_dec N.eq_dec (map snd (dlayers p)) [3; 4; 4] then true else false)%bool)
    (dquery hill_mesh hill_scales (pt10 7 1) (pt10 7 39))) as (p & Hp & H); [vmc|].
  apply andb_prop in H. destruct H as [H1 H2]. exists p. split; [exact Hp|]. split; [now apply Nat.eqb_eq|].
  split; [destruct (list_eq_dec _ _ _) as [E|]; [exact E|discriminate]|].
  split; [apply mesh_smallb_ok; vmc|]. split; [apply std_dpop_perm|]. split; [apply F32_dnan_sane|apply F32_lt_laws].
Qed.

(** C58 refuted for ends in the same polygon: the scale of the layer is ignored.  From (1.25, 0.5) to (1.75, 0.5) in a layer with
    scale (0.5, 1) the length is 0.5, the scaled distance 0.25. *)
Theorem C58_same_polygon_ignores_scale_refuted : exists (m : Mesh F32) scales (a b : vec2 F32) p sc,
  mesh_wf m /\ mesh_small m /\ loc m a = Ok (id_make 1 0) /\ loc m b = Ok (id_make 1 0) /\ nthN scales 1 = Some sc /\
  dquery m scales a b = Ok (Some p) /\
  feq (dlength p) (q 1 2) = true /\ feq (vdist (scaled a sc) (scaled b sc)) (q 1 4) = true.
Proof.
  destruct (is_path_ex _ _ _ _ t_row_2) as (p & H1 & H2).
  exists row_mesh, row_scales, (pt100 125 50), (pt100 175 50), p, (@V F32 (q 1 2) (q 1 1)).
  split; [apply mesh_wfb_ok; vmc|]. split; [apply mesh_smallb_ok; vmc|]. split; [vmc|]. split; [vmc|].
  split; [reflexivity|]. split; [exact H1|]. split; [exact H2|vmc].
Qed.

(** C58 refuted: path_with_layers can miss a turn of the path, so that the line between its points cuts through the wall that the path goes
    around, and the length is below that of the same path without the feature. *)
Theorem C58_turn_dropped_refuted : exists (m : Mesh F32) (a b : vec2 F32) p p0 t,
  mesh_wf m /\ mesh_small m /\ lengthN (layers m) = 1 /\
  dpath_on_layers dlib32 m [one] (at_ a) (at_ b) [] = Ok (Some p) /\
  path_on_layers lib32 m (at_ a) (at_ b) [] = Ok (Some p0) /\
  length (dpath p) = 3%nat /\ nthN (dpath p) 0 = Some t /\ length (dlayers p) = 2%nat /\
  (forall x, In x (dlayers p) -> veq (fst x) t = false) /\
  flt (dlength p) (plength p0) = true.
Proof.
  pose (f := fun (p : DPath F32) (p0 : Path F32) => ((length (dpath p) =? 3)%nat && (length (dlayers p) =? 2)%nat &&
      match nthN (dpath p) 0 with Some t => forallb (fun x : vec2 F32 * N => negb (veq (fst x) t)) (dlayers p) | None => false end &&
      flt (dlength p) (plength p0))%bool).
  destruct (Ok_Some_4 f (dpath_on_layers dlib32 wall_mesh [one] (at_ (pt10 (-5) 5)) (at_ (pt10 5 5)) [])
    (path_on_layers lib32 wall_mesh (at_ (pt10 (-5) 5)) (at_ (pt10 5 5)) [])) as (p & p0 & H1 & H2 & H3); [vmc|].
  unfold f in H3. apply andb_prop in H3. destruct H3 as [H3 H6]. apply andb_prop in H3. destruct H3 as [H3 H5].
  apply andb_prop in H3. destruct H3 as [H3 H4]. destruct (nthN (dpath p) 0) as [t|] eqn:Et; [|discriminate].
  exists wall_mesh, (pt10 (-5) 5), (pt10 5 5), p, p0, t.
  split; [apply mesh_wfb_ok; vmc|]. split; [apply mesh_smallb_ok; vmc|]. split; [vmc|].
  split; [exact H1|]. split; [exact H2|]. split; [now apply Nat.eqb_eq|]. split; [exact Et|]. split; [now apply Nat.eqb_eq|].
  split; [|exact H6]. intros x Hx. rewrite forallb_forall in H5. apply H5 in Hx. now apply negb_true_iff.
Qed.

(** C60 refuted: the returned path is not the cheapest one.  Blocking a layer (which can only remove paths) gives a path of less
    than a third of the length. *)
Theorem C60_not_the_cheapest_refuted : exists (m : Mesh F32) scales (a b : vec2 F32) blocked p p',
  mesh_wf m /\ mesh_small m /\ lengthN scales = lengthN (layers m) /\
  dpath_on_layers dlib32 m scales (at_ a) (at_ b) [] = Ok (Some p) /\
  dpath_on_layers dlib32 m scales (at_ a) (at_ b) blocked = Ok (Some p') /\
  flt (fmul (q 3 1) (dlength p')) (dlength p) = true.
Proof.
  destruct (Ok_Some_2 (fun p p' : DPath F32 => flt (fmul (q 3 1) (dlength p')) (dlength p))
    (dpath_on_layers dlib32 steep_mesh steep_scales (at_ (pt10 9 5)) (at_ (pt10 (-10) 26)) [])
    (dpath_on_layers dlib32 steep_mesh steep_scales (at_ (pt10 9 5)) (at_ (pt10 (-10) 26)) [1])) as (p & p' & H1 & H2 & H3); [vmc|].
  exists steep_mesh, steep_scales, (pt10 9 5), (pt10 (-10) 26), [1], p, p'.
  split; [apply mesh_wfb_ok; vmc|]. split; [apply mesh_smallb_ok; vmc|]. split; [vmc|]. auto.
Qed.

(** C60 refuted for the future: it stops at the first path, which can be longer than that of [path] (and the hypotheses of
    C60_not_longer_than_the_future are met). *)
Theorem C60_future_longer_refuted : exists (m : Mesh F32) scales (a b : vec2 F32) ps pe p d k,
  mesh_wf m /\ mesh_small m /\
  (located (dlib_lib dlib32) m (at_ a) ps /\ get_point_location (dbvh dlib32) m (at_ a) = Ok ps) /\
  (located (dlib_lib dlib32) m (at_ b) pe /\ get_point_location (dbvh dlib32) m (at_ b) = Ok pe) /\
  (k <= count_polygons m * 10)%nat /\
  dpath_on_layers dlib32 m scales (at_ a) (at_ b) [] = Ok (Some p) /\
  dget_path k dlib32 m scales a b = Ok (Some (Some d)) /\
  flt (dlength p) (dlength d) = true.
Proof.
  destruct (Ok_Some_3 (fun p d : DPath F32 => flt (dlength p) (dlength d))
    (dpath_on_layers dlib32 hill_mesh hill_scales (at_ (pt10 7 1)) (at_ (pt10 7 39)) [])
    (dget_path 50 dlib32 hill_mesh hill_scales (pt10 7 1) (pt10 7 39))) as (p & d & H1 & H2 & H3); [vmc|].
  exists hill_mesh, hill_scales, (pt10 7 1), (pt10 7 39), (id_make 0 0), (id_make 4 0), p, d, 50%nat.
  split; [apply mesh_wfb_ok; vmc|]. split; [apply mesh_smallb_ok; vmc|].
  split; [split; [apply locate_end_located; vmc|vmc]|]. split; [split; [apply locate_end_located; vmc|vmc]|].
  split; [apply Nat.leb_le; vmc|]. auto.
Qed.

Print Assumptions C57_detailed_ends_at_destination.
Print Assumptions C57_detailed_is_supported.
Print Assumptions C58_path_with_layers.
Print Assumptions C58_same_polygon_ignores_scale_refuted.
Print Assumptions C58_turn_dropped_refuted.
Print Assumptions C59_not_shorter_than_scaled_line.
Print Assumptions C59_not_shorter_than_straight_line.
Print Assumptions C60_shortest_of_the_found.
Print Assumptions C60_not_longer_than_the_future.
Print Assumptions C60_not_the_cheapest_refuted.
Print Assumptions C60_future_longer_refuted.
Print Assumptions C61_unit_scales.
Print Assumptions C61_unit_scales_exact.
