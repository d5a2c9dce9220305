(** C84: with detailed-layers, paths stay inside of the polygons they go through, whatever the scales are.
    C85: path_with_layers lists points of the path, in order; the length follows.  Exact arithmetic, general position. *)
From Coq Require Import List NArith ZArith Bool Reals Lra Psatz Lia.
From Verif Require Import Base Arith U32 Mesh Helpers Locate Search AsyncPath Detailed StdLib Spec Spec_detailed Locate_facts Rings
  RealArith Geometry Heuristic F32_facts Properties_geometry Properties_expand Spec_inside Sight Sight_search Sight_final Sight_static View Spec_area Spec_layered Spec_shortest.
From Verif Require Import Triangulation Spec_outline Spec_triangulation Inflate_facts Spec_free Properties_outline Properties_free Search_facts Detailed_facts Detailed_sim Properties_heuristic Properties_segment Properties_detailed Properties_inside Properties_dsafe Shortest_nodes Properties_area Shadow Search_props.
From Verif Require Import Spec_outline.
Import ListNotations.
Open Scope R_scope.

(** Where the future of get_path looks for its ends. *)
Definition dfuture_at (lib : DLib RA) m (q : P2) (id : N) : Prop := get_point_location (dbvh lib) m (coords_on_mesh (vp q)) = Ok id /\ id <> MAX.

(** ** Found paths *)
(** [d] is the path of a node of the default search, with points of layer changes on its legs *)
Definition traced m scales blocked start goal ps pe (d : DPath RA) : Prop :=
  exists n0 pts full, reachable (mkCtx m (vp goal) pe blocked) (vp start) ps n0 /\ nto n0 = pe /\ dpath d = ppath (final_path (mkCtx m (vp goal) pe blocked) n0) /\
    dpath d = map vp pts /\ refines start pts (map fst full) /\ thinned (map labelled full) (dlayers d) /\
    (off_borders m start pts -> in_layers m (id_layer ps) start full) /\
    walked scales (fz 0) (vp start) (id_layer ps) (dlayers d) (dlength d).

Lemma step_traced (lib : DLib RA) m scales blocked start goal ps pe st n st1 st2 d :
  dpop_perm (dpop lib) -> plane_mesh m -> u32_ids m -> (ps < 2 ^ 32)%N -> pe <> MAX ->
  (exists qs, corners m ps qs /\ inside qs start) -> (exists qs, corners m pe qs /\ inside qs goal) ->
  (forall n, reachable (mkCtx m (vp goal) pe blocked) (vp start) ps n -> clear_view m n) ->
  (forall n, reachable (mkCtx m (vp goal) pe blocked) (vp start) ps n -> nto n = pe -> clear_goal n goal) ->
  let c := mkDCtx (mkCtx m (vp goal) pe blocked) scales (vp start, id_layer ps) in
  dsetup c (vp start) ps = Ok st -> after lib c n st st1 -> dnext lib c st1 = Ok (st2, DFound d) -> traced m scales blocked start goal ps pe d.
Proof.
  intros Hpop HM HU HP32 HpM HS HG HC HCg c G1 G2 G3.
  assert (P1 : forall n, dgen_start c (vp start) ps n -> shadow c start ps n) by (intros n0 Hn; exact (shadow_start c start goal ps HM HU HP32 HpM eq_refl HS HC n0 Hn)).
  assert (P2 : forall n n', shadow c start ps n -> dgen_step c n n' -> shadow c start ps n') by (intros n0 n1 Hn0 Hn1; exact (shadow_step c start goal ps HM HU HP32 HpM eq_refl HS HC n0 n1 Hn0 Hn1)).
  destruct (dsetup_all c (vp start) ps st (shadow c start ps) P1 G1) as [A1 A2].
  destruct (after_all lib c (shadow c start ps) Hpop P2 n st st1 G2 A1 A2) as [B1 B2].
  destruct (dnext_all lib c st1 st2 _ (shadow c start ps) Hpop P2 B1 B2 G3) as (_ & _ & B3). destruct (B3 d eq_refl) as (n1 & N1 & N2 & N3).
  exact (shadow_final c start goal ps HM HU HP32 HpM eq_refl HS HC n1 d pe N1 eq_refl N2 eq_refl HG HCg N3).
Qed.

(** ** Lengths *)
Lemma in_order_total z qs : forall ys a, in_order a z ys -> total a (ys ++ z :: qs) = dist a z + total z qs.
Proof.
  induction ys as [|y ys IH]; intros a H; cbn [in_order app total] in *; [reflexivity|]. destruct H as [(t & Ht & E) H]. rewrite (IH y H).
  assert (dist a z = dist a y + dist y z); [|lra]. rewrite E. rewrite <- (lerp_1 a z) at 4. rewrite dist_lerp, dist_lerp2, !Rabs_pos_eq by lra. lra.
Qed.
Lemma refines_total a pts qs : refines a pts qs -> total a qs = total a pts.
Proof. induction 1 as [a|a z pts ys qs HO HR IH]; [reflexivity|]. rewrite (in_order_total z qs ys a HO). cbn [total]. now rewrite IH. Qed.

Lemma near_dist p q : flt (vdist2 (vp p) (vp q)) (flit 1 10000) = true -> dist p q < 1 / 100.
Proof.
  rewrite vdist2_vp. intro H. change (@flt RA (Some (pdot (psub p q) (psub p q)) : F RA) EPS = true) in H. rewrite EPS_R in H. apply lt_R in H. unfold eps in H.
  unfold dist, plen. replace (1 / 100) with (sqrt (1 / 100 * (1 / 100))) by (apply sqrt_square; lra). apply sqrt_lt_1_alt. split; [apply pdot_nonneg|lra].
Qed.
Lemma INR_cons {T} (x : T) l : INR (length (x :: l)) = 1 + INR (length l).
Proof. cbn [length]. rewrite S_INR. lra. Qed.
Lemma thinned_total full : forall out, thinned (map labelled full) out -> exists kept, out = map labelled kept /\ (length kept <= length full)%nat /\
  forall a, total a (map fst kept) <= total a (map fst full) <= total a (map fst kept) + 1 / 50 * (INR (length full) - INR (length kept)).
Proof.
  induction full as [|p full IH]; intros out H.
  - inversion H; subst. exists []. cbn [length map total INR]. repeat split; auto; lra.
  - destruct full as [|n r].
    + inversion H; subst. exists [p]. split; [reflexivity|]. split; [lia|]. intro a. lra.
    + change (map labelled (p :: n :: r)) with (labelled p :: labelled n :: map labelled r) in H. inversion H as [| |p' n' r' out' Hd Ht|p' n' r' out' Hd Ht]; subst.
      * change (labelled n :: map labelled r) with (map labelled (n :: r)) in Ht. destruct (IH _ Ht) as (kept & -> & Hl & HT). exists kept. split; [reflexivity|]. split; [cbn [length] in *; lia|].
        intro a. specialize (HT a). apply near_dist in Hd. change (map fst (p :: n :: r)) with (fst p :: fst n :: map fst r).
        change (map fst (n :: r)) with (fst n :: map fst r) in HT. cbn [total] in *. rewrite (INR_cons p (n :: r)).
        pose proof (dist_triangle a (fst p) (fst n)). pose proof (dist_triangle a (fst n) (fst p)). rewrite (dist_sym (fst n) (fst p)) in *. lra.
      * change (labelled n :: map labelled r) with (map labelled (n :: r)) in Ht. destruct (IH _ Ht) as (kept & -> & Hl & HT). exists (p :: kept). split; [reflexivity|]. split; [cbn [length] in *; lia|].
        intro a. specialize (HT (fst p)). change (map fst (p :: n :: r)) with (fst p :: map fst (n :: r)). cbn [map total].
        rewrite (INR_cons p (n :: r)). rewrite (INR_cons p kept). cbn [map total] in HT. lra.
Qed.

Lemma dist_scaled_le (a b : P2) (sx sy K : R) : 0 <= sx <= K -> 0 <= sy <= K ->
  dist (P (px a * sx) (py a * sy)) (P (px b * sx) (py b * sy)) <= K * dist a b.
Proof.
  intros Hx Hy. assert (HK : 0 <= K) by lra. unfold dist, plen. rewrite <- (sqrt_Rsqr K HK), <- sqrt_mult; [|apply Rle_0_sqr|apply pdot_nonneg].
  apply sqrt_le_1_alt. unfold pdot, psub, Rsqr. cbn [px py].
  assert (sx * sx <= K * K) by nra. assert (sy * sy <= K * K) by nra.
  pose proof (Rle_0_sqr (px a - px b)) as Q1. pose proof (Rle_0_sqr (py a - py b)) as Q2. unfold Rsqr in Q1, Q2. nra.
Qed.
Lemma walked_within k K scales : 0 <= k -> scales_within k K scales ->
  forall acc p l pts t, walked scales acc p l pts t -> forall (x : R) a kept, acc = Some x -> p = vp a -> pts = map labelled kept ->
  exists d, t = Some (x + d) /\ k * total a (map fst kept) <= d <= K * total a (map fst kept).
Proof.
  intros Hk HS. induction 1 as [acc p l|acc p l q lq r t sc Hsc Hw IH]; intros x a kept -> -> E.
  - destruct kept; [|discriminate]. exists 0. cbn [map total]. rewrite Rplus_0_r. split; [reflexivity|]. lra.
  - destruct kept as [|[q' lq'] kept]; [discriminate|]. injection E as -> -> ->. cbn [fst] in *.
    destruct (HS sc (nthN_In _ _ _ Hsc)) as (sx & sy & -> & Hx & Hy).
    change (scaled (vp a) (vp (P sx sy))) with (vp (P (px a * sx) (py a * sy))) in IH. change (scaled (vp q') (vp (P sx sy))) with (vp (P (px q' * sx) (py q' * sy))) in IH.
    rewrite vdist_vp in IH. destruct (IH _ q' kept eq_refl eq_refl eq_refl) as (d & -> & Hd).
    exists (dist (P (px a * sx) (py a * sy)) (P (px q' * sx) (py q' * sy)) + d). split; [f_equal; lra|]. cbn [map fst total].
    pose proof (dist_scaled_le a q' sx sy K ltac:(lra) ltac:(lra)). pose proof (dist_scaled a q' sx sy k Hk) as Q. rewrite !Rabs_pos_eq in Q by lra. specialize (Q ltac:(lra) ltac:(lra)). lra.
Qed.
Lemma total_nonneg l : forall a, 0 <= total a l.
Proof. induction l as [|q r IH]; intro a; cbn [total]; [lra|]. specialize (IH q). pose proof (dist_nonneg a q). lra. Qed.
Lemma traced_length k K m scales blocked start goal ps pe d : 0 <= k <= K -> scales_within k K scales -> traced m scales blocked start goal ps pe d ->
  exists t pts full, dlength d = Some t /\ dpath d = map vp pts /\ refines start pts (map fst full) /\ thinned (map labelled full) (dlayers d) /\
    (length (dlayers d) <= length full)%nat /\ k * (total start pts - 1 / 50 * (INR (length full) - INR (length (dlayers d)))) <= t <= K * total start pts.
Proof.
  intros Hk HS (n0 & pts & full & _ & _ & _ & H4 & H5 & H6 & _ & H7). destruct (thinned_total full _ H6) as (kept & EK & HL & HT). rewrite EK in H7.
  destruct (walked_within k K scales (proj1 Hk) HS _ _ _ _ _ H7 0 start kept) as (t & Et & Ht); auto; [now rewrite fz_R|].
  rewrite Rplus_0_l in Et. exists t, pts, full. rewrite EK, map_length. split; [exact Et|]. split; [exact H4|]. split; [exact H5|]. rewrite EK in H6. split; [exact H6|]. split; [exact HL|].
  specialize (HT start). rewrite (refines_total _ _ _ H5) in HT.
  split; [apply Rle_trans with (k * total start (map fst kept)); [apply Rmult_le_compat_l; lra|lra]|].
  apply Rle_trans with (K * total start (map fst kept)); [lra|apply Rmult_le_compat_l; lra].
Qed.

(** ** What is found *)
Lemma candidate_traced (lib : DLib RA) m scales from to blocked p start goal ps pe :
  dpop_perm (dpop lib) -> mesh_small m -> plane_mesh m -> u32_ids m -> (ps < 2 ^ 32)%N ->
  cpos from = vp start -> cpos to = vp goal -> located (dlib_lib lib) m from ps -> located (dlib_lib lib) m to pe ->
  (exists qs, corners m ps qs /\ inside qs start) -> steady m start -> steady_goal m start pe goal ->
  candidate lib m scales from to blocked p ->
  (ps = pe /\ p = mkDPath (vdist (vp start) (vp goal)) [vp goal] [(vp goal, id_layer pe)]) \/ (ps <> pe /\ traced m scales blocked start goal ps pe p).
Proof.
  intros Hpop Hsm HM HU HP32 Es Eg G1 G2 HS HSt HSg (ps' & pe' & H1 & H2 & H3).
  assert (ps' = ps) by (eapply located_fun; eauto). assert (pe' = pe) by (eapply located_fun; eauto). subst ps' pe'.
  pose proof (located_not_MAX (dlib_lib lib) m to pe Hsm G2) as HpM.
  destruct H3 as [[E ->]|(Hne & st & n & st1 & st2 & H3)]; [left; split; [exact E|]; now rewrite Es, Eg|].
  right. split; [exact Hne|]. cbv zeta in H3. rewrite Es, Eg in H3. destruct H3 as (K1 & _ & K2 & K3).
  destruct (steady_clear m blocked start goal ps pe HM HU HP32 HpM HS HSt HSg) as (HG & HC & HCg).
  exact (step_traced lib m scales blocked start goal ps pe st n st1 st2 p Hpop HM HU HP32 HpM HS HG HC HCg K1 K2 K3).
Qed.
Lemma found_traced (lib : DLib RA) m scales from to blocked p start goal ps pe :
  dpop_perm (dpop lib) -> mesh_small m -> plane_mesh m -> u32_ids m -> (ps < 2 ^ 32)%N ->
  cpos from = vp start -> cpos to = vp goal -> located (dlib_lib lib) m from ps -> located (dlib_lib lib) m to pe ->
  (exists qs, corners m ps qs /\ inside qs start) -> steady m start -> steady_goal m start pe goal ->
  dpath_on_layers lib m scales from to blocked = Ok (Some p) ->
  (ps = pe /\ p = mkDPath (vdist (vp start) (vp goal)) [vp goal] [(vp goal, id_layer pe)]) \/ (ps <> pe /\ traced m scales blocked start goal ps pe p).
Proof.
  intros Hpop Hsm HM HU HP32 Es Eg G1 G2 HS HSt HSg H.
  exact (candidate_traced lib m scales from to blocked p start goal ps pe Hpop Hsm HM HU HP32 Es Eg G1 G2 HS HSt HSg (proj1 (C60_shortest_of_the_found RA_lt_laws lib m scales from to blocked p H))).
Qed.
Lemma future_traced (lib : DLib RA) m scales k p start goal ps pe :
  dpop_perm (dpop lib) -> plane_mesh m -> u32_ids m -> (ps < 2 ^ 32)%N ->
  dfuture_at lib m start ps -> dfuture_at lib m goal pe ->
  (exists qs, corners m ps qs /\ inside qs start) -> steady m start -> steady_goal m start pe goal ->
  dget_path k lib m scales (vp start) (vp goal) = Ok (Some (Some p)) ->
  (ps = pe /\ p = mkDPath (vdist (vp start) (vp goal)) [vp goal] [(vp goal, id_layer pe)]) \/ (ps <> pe /\ traced m scales [] start goal ps pe p).
Proof.
  intros Hpop HM HU HP32 [G1 N1] [G2 N2] HS HSt HSg H. unfold dget_path in H. rewrite G1 in H. cbn [bind] in H. rewrite (proj2 (N.eqb_neq _ _) N1) in H.
  rewrite G2 in H. cbn [bind] in H. rewrite (proj2 (N.eqb_neq _ _) N2) in H. inv_bind H. destruct a; [discriminate|].
  destruct (N.eqb_spec ps pe) as [He|Hne].
  - left. split; [exact He|]. apply Ok_eq in H. injection H as <-. reflexivity.
  - right. split; [exact Hne|]. inv_bind H. destruct (dfirst_found _ _ _ _ _ H) as (n & st1 & st2 & K1 & K2 & K3).
    destruct (steady_clear m [] start goal ps pe HM HU HP32 N2 HS HSt HSg) as (HG & HC & HCg).
    exact (step_traced lib m scales [] start goal ps pe a n st1 st2 p Hpop HM HU HP32 N2 HS HG HC HCg E0 K2 K3).
Qed.
Lemma traced_walks m scales blocked start goal ps pe d : plane_mesh m -> u32_ids m -> (ps < 2 ^ 32)%N -> pe <> MAX ->
  (exists qs, corners m ps qs /\ inside qs start) -> steady m start -> steady_goal m start pe goal ->
  (ps = pe /\ d = mkDPath (vdist (vp start) (vp goal)) [vp goal] [(vp goal, id_layer pe)]) \/ (ps <> pe /\ traced m scales blocked start goal ps pe d) ->
  exists pts xs, dpath d = map vp pts /\ corridor m ps xs pe /\ walks m start pts (ps :: map cr_to xs) /\ Forall (fun x => ~ In (id_layer (cr_to x)) blocked) xs.
Proof.
  intros HM HU HP32 HpM HS HSt HSg H. destruct (steady_clear m blocked start goal ps pe HM HU HP32 HpM HS HSt HSg) as (HG & HC & HCg).
  destruct H as [[-> ->]|(_ & n0 & pts & full & Hr & Hto & E & _)]; [exact (same_walks m blocked start goal pe HS HG)|].
  rewrite E. exact (node_walks m blocked start goal ps pe n0 HM HU HP32 HpM HS HG HC HCg Hr Hto).
Qed.

Lemma traced_ends m scales blocked start goal ps pe d : traced m scales blocked start goal ps pe d -> exists pre, dpath d = pre ++ [vp goal].
Proof.
  intros (n0 & _ & _ & _ & _ & E & _). rewrite E. unfold final_path. cbn [ppath cgoal]. destruct (turning_point _ _ _); eexists; reflexivity.
Qed.

(** ** C84 *)
(** C84: with detailed-layers and any scales, the path found goes through the polygons of a chain and never leaves them; none of them is
    on a blocked layer. *)
Theorem C84_walks_through_chain (lib : DLib RA) m scales from to blocked p start goal ps pe :
  dpop_perm (dpop lib) -> mesh_small m -> plane_mesh m -> u32_ids m -> (ps < 2 ^ 32)%N ->
  cpos from = vp start -> cpos to = vp goal -> located (dlib_lib lib) m from ps -> located (dlib_lib lib) m to pe ->
  (exists qs, corners m ps qs /\ inside qs start) -> steady m start -> steady_goal m start pe goal ->
  dpath_on_layers lib m scales from to blocked = Ok (Some p) ->
  exists pts xs, dpath p = map vp pts /\ corridor m ps xs pe /\ walks m start pts (ps :: map cr_to xs) /\ Forall (fun x => ~ In (id_layer (cr_to x)) blocked) xs.
Proof.
  intros Hpop Hsm HM HU HP32 Es Eg G1 G2 HS HSt HSg H.
  exact (traced_walks m scales blocked start goal ps pe p HM HU HP32 (located_not_MAX (dlib_lib lib) m to pe Hsm G2) HS HSt HSg
    (found_traced lib m scales from to blocked p start goal ps pe Hpop Hsm HM HU HP32 Es Eg G1 G2 HS HSt HSg H)).
Qed.
(** C84: and so does the path of the future, however many steps it takes. *)
Theorem C84_future_walks_through_chain (lib : DLib RA) m scales k p start goal ps pe :
  dpop_perm (dpop lib) -> plane_mesh m -> u32_ids m -> (ps < 2 ^ 32)%N -> dfuture_at lib m start ps -> dfuture_at lib m goal pe ->
  (exists qs, corners m ps qs /\ inside qs start) -> steady m start -> steady_goal m start pe goal ->
  dget_path k lib m scales (vp start) (vp goal) = Ok (Some (Some p)) ->
  exists pts xs, dpath p = map vp pts /\ corridor m ps xs pe /\ walks m start pts (ps :: map cr_to xs).
Proof.
  intros Hpop HM HU HP32 G1 G2 HS HSt HSg H.
  destruct (traced_walks m scales [] start goal ps pe p HM HU HP32 (proj2 G2) HS HSt HSg (future_traced lib m scales k p start goal ps pe Hpop HM HU HP32 G1 G2 HS HSt HSg H)) as (pts & xs & E1 & E2 & E3 & _).
  exists pts, xs. auto.
Qed.
(** C84: on a triangulated mesh, the path keeps the radius of the agent from every obstacle (C76). *)
Theorem C84_keeps_distance (lib : TriLib RA) t0 cs t c m (d p : R) (n : N) (a0 a1 : P2) (rest : list P2) (plib : DLib RA) scales from to blocked path start goal ps pe :
  built lib t0 cs t c m -> agent_radius t0 = RObstacles (rr d) n (rr p) \/ agent_radius t0 = REverything (rr d) n (rr p) ->
  1 / 100000 < d -> (3 <= n)%N -> real_trig lib -> union_ok lib -> simplify_keeps lib p ->
  In (map vp (a0 :: a1 :: rest)) (Spec_triangulation.added cs) -> (rest = [] -> a0 <> a1) ->
  (forall r, outline lib (agent_radius t0) (map vp (a0 :: a1 :: rest)) (map vp r) -> finds_enclosed lib r) ->
  dpop_perm (dpop plib) -> mesh_small m -> plane_mesh m -> u32_ids m -> (ps < 2 ^ 32)%N ->
  cpos from = vp start -> cpos to = vp goal -> located (dlib_lib plib) m from ps -> located (dlib_lib plib) m to pe ->
  (exists qs, corners m ps qs /\ inside qs start) -> steady m start -> steady_goal m start pe goal ->
  dpath_on_layers plib m scales from to blocked = Ok (Some path) ->
  exists pts, dpath path = map vp pts /\
    polyline_in (fun x => forall a b k, In (a, b) (pairs (a0 :: a1 :: rest ++ [a0])) -> 0 <= k <= 1 -> d * cos (PI / (2 * IZR (Z.of_N (arc_count n)))) <= dist x (lerp a b k)) start pts.
Proof.
  intros HB HA Hd Hn HT HU HS Ho HD HJ H1 H2 H3 H4 H5 H6 H7 H8 H9 H10 H11 H12 H.
  destruct (C84_walks_through_chain plib m scales from to blocked path start goal ps pe H1 H2 H3 H4 H5 H6 H7 H8 H9 H10 H11 H12 H) as (pts & xs & E & _ & HW & _).
  exists pts. split; [exact E|]. apply (polyline_weaken _ _ (C76_area_keeps_distance lib t0 cs t c m d p n a0 a1 rest HB HA Hd Hn HT HU HS Ho HD HJ)).
  exact (walks_covered m start ps pts _ H10 HW).
Qed.
(** C84: scales never give a path that is shorter, on the plane, than the one without the feature. *)
Theorem C84_default_not_longer (lib : Lib RA) (dlib : DLib RA) m scales from to blocked path p start goal ps pe :
  proper lib m blocked start goal ps pe -> dpop_perm (dpop dlib) ->
  cpos from = vp start -> cpos to = vp goal -> located lib m from ps -> located lib m to pe -> located (dlib_lib dlib) m from ps -> located (dlib_lib dlib) m to pe ->
  path_on_layers lib m from to blocked = Ok (Some path) -> dpath_on_layers dlib m scales from to blocked = Ok (Some p) ->
  exists d pts, plength path = Some d /\ dpath p = map vp pts /\ d <= total start pts.
Proof.
  intros HP Hpop Es Eg G1 G2 G3 G4 H K.
  destruct (C65_shortest_in_the_area lib m from to blocked path start goal ps pe HP Es Eg G1 G2 H) as (pts0 & F1 & F2 & F3 & F4 & F5).
  destruct HP as [Hp Hsm HM HI HU HP32 HG HF HSe].
  assert (HS : exists qs, corners m ps qs /\ inside qs start).
  { destruct (ge_start _ _ _ _ _ HG) as (qs & Hqs & Hin). exists qs. split; [exact Hqs|]. intros s e He. apply Rlt_le. auto. }
  destruct (C84_walks_through_chain dlib m scales from to blocked p start goal ps pe Hpop Hsm HM HU HP32 Es Eg G3 G4 HS
    (generic_steady m start ps pe goal HG) (generic_goal m start ps pe goal HG) K) as (pts & xs & W1 & W2 & W3 & W4).
  assert (HL : last pts start = goal).
  { destruct (found_traced dlib m scales from to blocked p start goal ps pe Hpop Hsm HM HU HP32 Es Eg G3 G4 HS
      (generic_steady m start ps pe goal HG) (generic_goal m start ps pe goal HG) K) as [[_ E]|[_ E]].
    - rewrite E in W1. cbn [dpath] in W1. destruct pts as [|q [|q' r]]; try discriminate. injection W1 as W1 W1'. cbn [last]. symmetry. apply vp_inj. unfold vp. congruence.
    - destruct (traced_ends _ _ _ _ _ _ _ _ E) as (pre & EP). rewrite EP in W1. destruct (exists_last (l := pts)) as (p0 & q & ->). { intros ->. destruct pre; discriminate. }
      rewrite map_app in W1. apply app_inj_tail in W1. destruct W1 as [_ W1]. rewrite last_last. symmetry. now apply vp_inj. }
  exists (total start pts0), pts. split; [exact F3|]. split; [exact W1|]. apply F5; [|exact HL].
  apply (walks_area m blocked ps start pts (ps :: map cr_to xs) W3); [|exact (corridor_usable m blocked ps xs pe HU HP32 W2 W4)].
  destruct HS as (qs & Hqs & Hin). exists ps, qs. split; [split; [exact HP32|now left]|]. auto.
Qed.

Lemma map_vp_inj : forall xs ys : list P2, map vp xs = map vp ys -> xs = ys.
Proof. induction xs as [|x xs IH]; intros [|y ys] H; try discriminate; [reflexivity|]. cbn [map] in H. f_equal; [apply vp_inj; congruence|apply IH; congruence]. Qed.

(** ** C85 *)
(** C85: path_with_layers is the path itself with more points on its legs, in order, without some points closer than 0.01 to the next
    one. *)
Theorem C85_follows_the_path (lib : DLib RA) m scales from to blocked p start goal ps pe :
  dpop_perm (dpop lib) -> mesh_small m -> plane_mesh m -> u32_ids m -> (ps < 2 ^ 32)%N ->
  cpos from = vp start -> cpos to = vp goal -> located (dlib_lib lib) m from ps -> located (dlib_lib lib) m to pe ->
  (exists qs, corners m ps qs /\ inside qs start) -> steady m start -> steady_goal m start pe goal ->
  dpath_on_layers lib m scales from to blocked = Ok (Some p) ->
  exists pts full, dpath p = map vp pts /\ refines start pts (map fst full) /\ thinned (map labelled full) (dlayers p).
Proof.
  intros Hpop Hsm HM HU HP32 Es Eg G1 G2 HS HSt HSg H.
  destruct (found_traced lib m scales from to blocked p start goal ps pe Hpop Hsm HM HU HP32 Es Eg G1 G2 HS HSt HSg H) as [[_ ->]|(_ & n0 & pts & full & _ & _ & _ & E1 & E2 & E3 & _)].
  - exists [goal], [(goal, id_layer pe)]. split; [reflexivity|]. split; [|constructor]. apply (refines_leg start goal [] [] []); [exact I|constructor].
  - exists pts, full. auto.
Qed.
(** C85: so is that of the future, however many steps it takes. *)
Theorem C85_future_follows_the_path (lib : DLib RA) m scales k p start goal ps pe :
  dpop_perm (dpop lib) -> plane_mesh m -> u32_ids m -> (ps < 2 ^ 32)%N -> dfuture_at lib m start ps -> dfuture_at lib m goal pe ->
  (exists qs, corners m ps qs /\ inside qs start) -> steady m start -> steady_goal m start pe goal ->
  dget_path k lib m scales (vp start) (vp goal) = Ok (Some (Some p)) ->
  exists pts full, dpath p = map vp pts /\ refines start pts (map fst full) /\ thinned (map labelled full) (dlayers p).
Proof.
  intros Hpop HM HU HP32 G1 G2 HS HSt HSg H.
  destruct (future_traced lib m scales k p start goal ps pe Hpop HM HU HP32 G1 G2 HS HSt HSg H) as [[_ ->]|(_ & n0 & pts & full & _ & _ & _ & E1 & E2 & E3 & _)].
  - exists [goal], [(goal, id_layer pe)]. split; [reflexivity|]. split; [|constructor]. apply (refines_leg start goal [] [] []); [exact I|constructor].
  - exists pts, full. auto.
Qed.
(** C85: between different polygons, with factors of all scales between [k] and [K], the length is at most [K] times that of the path, and
    at least [k] times what is left of it when 0.02 is taken off for every point left out. *)
Theorem C85_length (lib : DLib RA) m scales from to blocked p start goal ps pe (k K : R) :
  dpop_perm (dpop lib) -> mesh_small m -> plane_mesh m -> u32_ids m -> (ps < 2 ^ 32)%N ->
  cpos from = vp start -> cpos to = vp goal -> located (dlib_lib lib) m from ps -> located (dlib_lib lib) m to pe ->
  (exists qs, corners m ps qs /\ inside qs start) -> steady m start -> steady_goal m start pe goal ->
  ps <> pe -> 0 <= k <= K -> scales_within k K scales ->
  dpath_on_layers lib m scales from to blocked = Ok (Some p) ->
  exists t pts full, dlength p = Some t /\ dpath p = map vp pts /\ refines start pts (map fst full) /\ thinned (map labelled full) (dlayers p) /\
    (length (dlayers p) <= length full)%nat /\ k * (total start pts - 1 / 50 * (INR (length full) - INR (length (dlayers p)))) <= t <= K * total start pts.
Proof.
  intros Hpop Hsm HM HU HP32 Es Eg G1 G2 HS HSt HSg Hne Hk HSc H.
  destruct (found_traced lib m scales from to blocked p start goal ps pe Hpop Hsm HM HU HP32 Es Eg G1 G2 HS HSt HSg H) as [[? _]|[_ HT]]; [contradiction|].
  exact (traced_length k K m scales blocked start goal ps pe p Hk HSc HT).
Qed.
(** C85: when all scales are one, the length is at most that without the feature, and at most 0.02 below it for every point left out. *)
Theorem C85_unit_scales (lib : Lib RA) (dlib : DLib RA) m scales from to blocked path p start goal ps pe :
  proper lib m blocked start goal ps pe -> dpop_perm (dpop dlib) -> lbvh lib = dbvh dlib -> pops_agree lib dlib -> unit_scales m scales -> verts_small m ->
  cpos from = vp start -> cpos to = vp goal -> located lib m from ps -> located lib m to pe -> ps <> pe ->
  path_on_layers lib m from to blocked = Ok (Some path) -> dpath_on_layers dlib m scales from to blocked = Ok (Some p) ->
  exists d t pts full, plength path = Some d /\ dlength p = Some t /\ dpath p = map vp pts /\ refines start pts (map fst full) /\ thinned (map labelled full) (dlayers p) /\
    (length (dlayers p) <= length full)%nat /\ d - 1 / 50 * (INR (length full) - INR (length (dlayers p))) <= t <= d.
Proof.
  intros HP Hpop EB HA HU1 HV Es Eg G1 G2 Hne H K.
  assert (LL : forall q id, located lib m q id -> located (dlib_lib dlib) m q id) by (intros q id Hq; unfold located in *; cbn [lbvh dlib_lib]; rewrite <- EB; exact Hq).
  destruct (C84_default_not_longer lib dlib m scales from to blocked path p start goal ps pe HP Hpop Es Eg G1 G2 (LL _ _ G1) (LL _ _ G2) H K) as (d & pts & D1 & D2 & D3).
  destruct (C65_shortest_in_the_area lib m from to blocked path start goal ps pe HP Es Eg G1 G2 H) as (pts0 & F1 & _ & F3 & _).
  destruct HP as [Hp Hsm HM HI HU HP32 HG HF HSe].
  assert (HS : exists qs, corners m ps qs /\ inside qs start).
  { destruct (ge_start _ _ _ _ _ HG) as (qs & Hqs & Hin). exists qs. split; [exact Hqs|]. intros s e He. apply Rlt_le. auto. }
  pose proof (generic_steady m start ps pe goal HG) as HSt. pose proof (generic_goal m start ps pe goal HG) as HSg.
  assert (HSc : scales_within 1 1 scales).
  { intros sc Hsc. exists 1, 1. split; [|lra]. destruct HU1 as [_ HU1]. rewrite Forall_forall in HU1. rewrite <- (HU1 sc Hsc). unfold vone. now rewrite fz_R. }
  destruct (C85_length dlib m scales from to blocked p start goal ps pe 1 1 Hpop Hsm HM HU HP32 Es Eg (LL _ _ G1) (LL _ _ G2) HS HSt HSg Hne ltac:(lra) HSc K)
    as (t & pts' & full & T1 & T2 & T3 & T4 & T5 & T6).
  assert (pts' = pts) as -> by (rewrite D2 in T2; symmetry in T2; revert T2; apply map_vp_inj).
  exists d, t, pts, full. split; [exact D1|]. split; [exact T1|]. split; [exact D2|]. split; [exact T3|]. split; [exact T4|]. split; [exact T5|]. split; [lra|].
  destruct (C61_unit_scales RA_lt_laws lib dlib m scales from to blocked (Some p) RA_one_law HU1 HV EB HA K) as (r0 & R1 & R2).
  rewrite H in R1. apply Ok_eq in R1. subst r0. destruct R2 as (d' & C1 & C2 & C3).
  destruct (candidate_traced dlib m scales from to blocked d' start goal ps pe Hpop Hsm HM HU HP32 Es Eg (LL _ _ G1) (LL _ _ G2) HS HSt HSg C1) as [[? _]|[_ HT]]; [contradiction|].
  destruct (traced_length 1 1 m scales blocked start goal ps pe d' ltac:(lra) HSc HT) as (t' & pts' & full' & U1 & U2 & _ & _ & _ & U3).
  assert (pts' = pts0) as -> by (rewrite C2, F1 in U2; symmetry in U2; revert U2; apply map_vp_inj).
  rewrite U1, T1 in C3. assert (total start pts0 = d) by congruence.
  assert (t <= t'); [|lra]. destruct (Rle_dec t t') as [|Q]; [assumption|]. exfalso.
  assert (Q' : t' < t) by lra. apply (proj2 (lt_R _ _)) in Q'. congruence.
Qed.

(** ** C86 *)
(** C86: every label of path_with_layers is the layer in which the path goes on from that point: the points that were noted (with those left
    out for being closer than 0.01 to the next one) cut the path into legs, and every leg lies in polygons of the layer of the point it
    starts at; the first one, in the layer of the start.  Unless a leg of the path runs along an edge between two layers. *)
Theorem C86_labels (lib : DLib RA) m scales from to blocked p start goal ps pe :
  dpop_perm (dpop lib) -> mesh_small m -> plane_mesh m -> u32_ids m -> (ps < 2 ^ 32)%N ->
  cpos from = vp start -> cpos to = vp goal -> located (dlib_lib lib) m from ps -> located (dlib_lib lib) m to pe ->
  (exists qs, corners m ps qs /\ inside qs start) -> steady m start -> steady_goal m start pe goal ->
  dpath_on_layers lib m scales from to blocked = Ok (Some p) ->
  exists pts full, dpath p = map vp pts /\ refines start pts (map fst full) /\ thinned (map labelled full) (dlayers p) /\
    (off_borders m start pts -> in_layers m (id_layer ps) start full).
Proof.
  intros Hpop Hsm HM HU HP32 Es Eg G1 G2 HS HSt HSg H.
  destruct (found_traced lib m scales from to blocked p start goal ps pe Hpop Hsm HM HU HP32 Es Eg G1 G2 HS HSt HSg H) as [[E ->]|(_ & n0 & pts & full & _ & _ & _ & E1 & E2 & E3 & E4 & _)].
  - exists [goal], [(goal, id_layer pe)]. split; [reflexivity|]. split; [apply (refines_leg start goal [] [] []); [exact I|constructor]|]. split; [constructor|].
    intros _. cbn [in_layers]. split; [|exact I]. destruct HS as (qs & Hqs & Hin). destruct (sg_in _ _ _ _ HSg) as (qs' & Hqs' & Hin'). rewrite <- E in Hqs'. rewrite (corners_fun _ _ _ _ Hqs' Hqs) in Hin'.
    intros t Ht. exists ps, qs. split; [reflexivity|]. split; [exact Hqs|]. apply inside_lerp; [exact Hin| |exact Ht]. intros s e He. now apply Rlt_le, Hin'.
  - exists pts, full. auto.
Qed.
(** C86: and so are the labels of the future, however many steps it takes. *)
Theorem C86_future_labels (lib : DLib RA) m scales k p start goal ps pe :
  dpop_perm (dpop lib) -> plane_mesh m -> u32_ids m -> (ps < 2 ^ 32)%N -> dfuture_at lib m start ps -> dfuture_at lib m goal pe ->
  (exists qs, corners m ps qs /\ inside qs start) -> steady m start -> steady_goal m start pe goal ->
  dget_path k lib m scales (vp start) (vp goal) = Ok (Some (Some p)) ->
  exists pts full, dpath p = map vp pts /\ refines start pts (map fst full) /\ thinned (map labelled full) (dlayers p) /\
    (off_borders m start pts -> in_layers m (id_layer ps) start full).
Proof.
  intros Hpop HM HU HP32 G1 G2 HS HSt HSg H.
  destruct (future_traced lib m scales k p start goal ps pe Hpop HM HU HP32 G1 G2 HS HSt HSg H) as [[E ->]|(_ & n0 & pts & full & _ & _ & _ & E1 & E2 & E3 & E4 & _)].
  - exists [goal], [(goal, id_layer pe)]. split; [reflexivity|]. split; [apply (refines_leg start goal [] [] []); [exact I|constructor]|]. split; [constructor|].
    intros _. cbn [in_layers]. split; [|exact I]. destruct HS as (qs & Hqs & Hin). destruct (sg_in _ _ _ _ HSg) as (qs' & Hqs' & Hin'). rewrite <- E in Hqs'. rewrite (corners_fun _ _ _ _ Hqs' Hqs) in Hin'.
    intros t Ht. exists ps, qs. split; [reflexivity|]. split; [exact Hqs|]. apply inside_lerp; [exact Hin| |exact Ht]. intros s e He. now apply Rlt_le, Hin'.
  - exists pts, full. auto.
Qed.

Lemma border_edge m s e : plane_mesh m -> layer_border m s e -> exists id qs, corners m id qs /\ In (s, e) (poly_edges qs) /\ s <> e.
Proof.
  intros HM (x & l & p & HV & _ & HP & Ha & Hb). destruct (plane_corners _ _ _ _ HM HP) as (qs & Hqs & HF & Hcx & Hsp). exists (cr_from x), qs. split; [exact Hqs|].
  destruct HV as (l2 & p2 & va & vb & G1 & G2 & _). assert (l2 = l /\ p2 = p) as [-> ->] by (destruct G1 as [G1 G1'], HP as [K1 K1']; split; congruence).
  pose proof (boundary_edge_plane l _ qs _ _ s e G2 HF Ha Hb (spaced_distinct _ Hsp)) as Hab. split; [exact Hab|].
  intros ->. destruct (proj2 Hcx e e Hab) as (z & _ & Hz). replace (orient e e z) with 0 in Hz by (clear; pts; ring). lra.
Qed.
Lemma few_turns_off m start ps pe goal pts : plane_mesh m -> generic m start ps pe goal -> (length pts <= 2)%nat -> last pts start = goal -> off_borders m start pts.
Proof.
  intros HM HG HL HE u w s e Huw _ HB (K1 & K2 & _). destruct (border_edge m s e HM HB) as (id & qs & Hqs & Hse & Hne). destruct (edge_In _ _ _ Hse) as [Is Ie].
  assert (Ps : place m start s) by (right; eauto). assert (Pe : place m start e) by (right; eauto).
  pose proof (dist_pos s e Hne) as HD.
  assert (N1 : orient s e start <> 0).
  { intro Z. pose proof (ge_places _ _ _ _ _ HG s e start Ps Pe (or_introl eq_refl) Hne) as Q. rewrite Z, Rabs_R0 in Q.
    specialize (Q ltac:(intros ->; exact (ge_corner _ _ _ _ _ HG id qs Hqs Is)) ltac:(intros ->; exact (ge_corner _ _ _ _ _ HG id qs Hqs Ie))). lra. }
  assert (N2 : orient s e goal <> 0).
  { intro Z. pose proof (ge_goal _ _ _ _ _ HG s e Ps Pe Hne) as Q. rewrite Z, Rabs_R0 in Q. lra. }
  destruct pts as [|a [|b [|c r]]]; cbn [length last pairs In] in *; [tauto| | |lia].
  - destruct Huw as [E|[]]. injection E as <- <-. contradiction.
  - destruct Huw as [E|[E|[]]]; injection E as <- <-; [contradiction|]. rewrite HE in K2. contradiction.
Qed.
(** C86: in general position, the labels of a path with at most one turn are right without exception. *)
Theorem C86_one_turn (lib : DLib RA) m scales from to blocked p start goal ps pe :
  dpop_perm (dpop lib) -> mesh_small m -> plane_mesh m -> u32_ids m -> (ps < 2 ^ 32)%N ->
  cpos from = vp start -> cpos to = vp goal -> located (dlib_lib lib) m from ps -> located (dlib_lib lib) m to pe ->
  generic m start ps pe goal -> (length (dpath p) <= 2)%nat ->
  dpath_on_layers lib m scales from to blocked = Ok (Some p) ->
  exists pts full, dpath p = map vp pts /\ refines start pts (map fst full) /\ thinned (map labelled full) (dlayers p) /\ in_layers m (id_layer ps) start full.
Proof.
  intros Hpop Hsm HM HU HP32 Es Eg G1 G2 HG HL H.
  assert (HS : exists qs, corners m ps qs /\ inside qs start).
  { destruct (ge_start _ _ _ _ _ HG) as (qs & Hqs & Hin). exists qs. split; [exact Hqs|]. intros s e He. apply Rlt_le. auto. }
  destruct (C86_labels lib m scales from to blocked p start goal ps pe Hpop Hsm HM HU HP32 Es Eg G1 G2 HS (generic_steady m start ps pe goal HG) (generic_goal m start ps pe goal HG) H)
    as (pts & full & E1 & E2 & E3 & E4).
  exists pts, full. split; [exact E1|]. split; [exact E2|]. split; [exact E3|]. apply E4. rewrite E1, map_length in HL. apply (few_turns_off m start ps pe goal pts HM HG HL).
  destruct (found_traced lib m scales from to blocked p start goal ps pe Hpop Hsm HM HU HP32 Es Eg G1 G2 HS
      (generic_steady m start ps pe goal HG) (generic_goal m start ps pe goal HG) H) as [[_ E]|[_ E]].
  - rewrite E in E1. cbn [dpath] in E1. destruct pts as [|q [|q' r]]; try discriminate. injection E1 as W1 W1'. cbn [last]. symmetry. apply vp_inj. unfold vp. congruence.
  - destruct (traced_ends _ _ _ _ _ _ _ _ E) as (pre & EP). rewrite EP in E1. destruct (exists_last (l := pts)) as (p0 & q & ->). { intros ->. destruct pre; discriminate. }
    rewrite map_app in E1. apply app_inj_tail in E1. destruct E1 as [_ W1]. rewrite last_last. symmetry. now apply vp_inj.
Qed.

Print Assumptions C84_walks_through_chain.
Print Assumptions C84_future_walks_through_chain.
Print Assumptions C84_keeps_distance.
Print Assumptions C84_default_not_longer.
Print Assumptions C85_follows_the_path.
Print Assumptions C85_future_follows_the_path.
Print Assumptions C85_length.
Print Assumptions C85_unit_scales.
Print Assumptions C86_labels.
Print Assumptions C86_future_labels.
Print Assumptions C86_one_turn.
