(** Theorems in exact arithmetic about the closest point queries: C07 (distance), C08 (what the rings cover), C09 (the ray). *)
From Coq Require Import List NArith ZArith Bool Reals Lra Psatz Lia.
From Verif Require Import Base Arith RealArith U32 Mesh Helpers Locate Bake Search StdLib Spec Locate_facts Closest_facts
  Geometry Search_cost Search_safe Properties_geometry Properties_locate Properties_contain Properties_safe.
Import ListNotations.
Open Scope R_scope.

(** the point at distance [r] of [x] in direction [angle], clockwise from north *)
Definition polar (x : P2) (r angle : R) : P2 := P (px x + r * sin angle) (py x + r * cos angle).
(** the angle of sample [i] of ring [step] *)
Definition sample_angle (step i : N) : R := IZR (Z.of_N i) * (2 * PI) / IZR (Z.of_N (10 * (step + 1))).

Lemma circle_sample_R x d step i :
  circle_sample (A:=RA) (vp x) (Some d) step i = vp (polar x (d * IZR (Z.of_N step)) (sample_angle step i)).
Proof.
  unfold circle_sample. rewrite !fz_R. cbn [ftau fmul fdiv RA lift2 rdiv].
  assert (IZR (Z.of_N (10 * (step + 1))) <> 0) as Hn by (apply not_0_IZR; lia).
  destruct (Req_EM_T _ 0) as [E|_]; [contradiction|]. cbn [fsin fcos RA lift1 option_map]. unfold sample_angle, polar, vp, RealArith.pt.
  unfold vadd, vscale. cbn. f_equal; f_equal; ring.
Qed.
Lemma dist_polar x r a : dist x (polar x r a) = Rabs r.
Proof.
  unfold dist, plen, polar, psub, pdot. cbn [px py].
  replace ((px x - (px x + r * sin a)) * (px x - (px x + r * sin a)) + (py x - (py x + r * cos a)) * (py x - (py x + r * cos a)))
    with (Rsqr r * (Rsqr (sin a) + Rsqr (cos a))) by (unfold Rsqr; ring).
  rewrite sin2_cos2, Rmult_1_r. apply sqrt_Rsqr_abs.
Qed.

Lemma dist_shift o x y : dist (psub x o) y = dist x (padd y o).
Proof. unfold dist, plen. f_equal. pts. ring. Qed.
Lemma psub_padd x o : padd (psub x o) o = x.
Proof. pts. apply P2_eq; cbn [px py]; ring. Qed.

(** ** C07 *)
(** The returned point is at distance search_delta * step of the query, for some step < search_steps; it is the query itself
    when the query is on the mesh (which is unbaked here). *)
Theorem C07_distance (bvh : list (vec2 RA * vec2 RA) -> vec2 RA -> list N) m c c' x d :
  mesh_small m -> real_mesh m -> search_delta m = Some d -> 0 <= d -> cpos c = vp x ->
  get_closest_point bvh m c = Ok (Some c') ->
  exists y step, cpos c' = vp y /\ (step < search_steps m)%N /\ dist x y = d * IZR (Z.of_N step) /\
    (unbaked m -> forall li l, queried m c li l -> in_layer l (vsub (cpos c) (offset l)) -> y = x).
Proof.
  intros Hs Hr Hd Hd0 Hx H.
  destruct (C07_closest_point_sound bvh m c c' Hs H) as (step & i & li & l & p & H1 & H2 & H3 & _ & _ & _ & _ & H4 & H5).
  destruct (Hr l (nthN_In _ _ _ (proj1 H3))) as [[o Ho] _]. rewrite Hx, Ho, Hd, vsub_vp, circle_sample_R, vadd_vp in H4.
  eexists _, step. split; [exact H4|]. split; [assumption|]. split.
  - rewrite <- dist_shift, dist_polar. apply Rabs_right. apply Rle_ge. apply Rmult_le_pos; [assumption|]. apply IZR_le. lia.
  - intros Hu li' l' Q Hin. destruct (N.eq_dec step 0) as [->|Hne].
    + unfold polar. rewrite <- (psub_padd x o) at 3. f_equal. apply P2_eq; cbn [px py]; cbn; ring.
    + exfalso. destruct (Hr l' (nthN_In _ _ _ (proj1 Q))) as [[o' Ho'] _].
      refine (H5 Hu 0%N 0%N li' l' _ _ Q _); [lia|lia|].
      replace (circle_sample (vsub (cpos c) (offset l')) (search_delta m) 0 0) with (vsub (cpos c) (offset l')); [assumption|].
      rewrite Hd, Hx, Ho', vsub_vp, circle_sample_R. f_equal. unfold polar. apply P2_eq; cbn [px py]; cbn; ring.
Qed.
(** in particular within search_delta * (search_steps - 1) *)
Corollary C07_within_radius (bvh : list (vec2 RA * vec2 RA) -> vec2 RA -> list N) m c c' x d :
  mesh_small m -> real_mesh m -> search_delta m = Some d -> 0 <= d -> cpos c = vp x ->
  get_closest_point bvh m c = Ok (Some c') ->
  exists y, cpos c' = vp y /\ dist x y <= d * (IZR (Z.of_N (search_steps m)) - 1).
Proof.
  intros Hs Hr Hd Hd0 Hx H. destruct (C07_distance bvh m c c' x d) as (y & step & H1 & H2 & H3 & _); try assumption.
  exists y. split; [assumption|]. rewrite H3. apply Rmult_le_compat_l; [assumption|]. rewrite <- minus_IZR. apply IZR_le. lia.
Qed.

(** ** C09 *)
(** The returned point is on the ray from the query towards the target, at distance search_delta * step. *)
Lemma line_sample_R x d t step : t <> x ->
  line_sample (A:=RA) (vp x) (Some d) (vneg (vnormalize (vsub (vp t) (vp x)))) step =
  vp (padd x (pscale (- (d * IZR (Z.of_N step) / dist t x)) (psub t x))).
Proof.
  intro H. assert (HD : 0 < dist t x).
  { destruct (dist_nonneg t x) as [|E]; [assumption|]. symmetry in E. apply dist_zero in E. contradiction. }
  unfold line_sample, vnormalize. rewrite vsub_vp. unfold vlen. rewrite vdot_vp, fz_R. cbn [fsqrt RA rsqrt].
  destruct (Rlt_dec _ 0) as [L|_]; [exfalso; pose proof (pdot_nonneg (psub t x)); lra|].
  change (sqrt (pdot (psub t x) (psub t x))) with (dist t x).
  unfold vneg, vscale, vadd, vp, RealArith.pt. rewrite ?fz_R. cbn.
  repeat (destruct (Req_EM_T _ 0) as [E|_]; [exfalso; lra|]). cbn.
  unfold padd, pscale, psub. cbn [px py]. f_equal; f_equal; field; lra.
Qed.
Theorem C09_on_the_ray (bvh : list (vec2 RA * vec2 RA) -> vec2 RA -> list N) m c c' x t d :
  mesh_small m -> real_mesh m -> search_delta m = Some d -> cpos c = vp x -> x <> t ->
  get_closest_point_towards bvh m c (vp t) = Ok (Some c') ->
  exists step, (step < search_steps m)%N /\
    cpos c' = vp (padd x (pscale (d * IZR (Z.of_N step) / dist x t) (psub t x))).
Proof.
  intros Hs Hr Hd Hx Hne H.
  destruct (C09_towards_sound bvh m c (vp t) c' Hs H) as (step & li & l & p & H1 & H3 & _ & _ & _ & _ & H4 & _).
  exists step. split; [assumption|]. destruct (Hr l (nthN_In _ _ _ (proj1 H3))) as [[o Ho] _].
  rewrite H4, Hx, Ho, Hd, vsub_vp. 
  assert (HD : 0 < dist x t).
  { destruct (dist_nonneg x t) as [|E]; [assumption|]. symmetry in E. apply dist_zero in E. contradiction. }
  unfold line_sample, vnormalize. rewrite vsub_vp. unfold vlen. rewrite vdot_vp, fz_R. cbn [fsqrt RA rsqrt].
  destruct (Rlt_dec _ 0) as [L|_]; [exfalso; pose proof (pdot_nonneg (psub x t)); lra|].
  change (sqrt (pdot (psub x t) (psub x t))) with (dist x t).
  unfold vneg, vscale, vadd, vp, RealArith.pt. rewrite ?fz_R. cbn.
  repeat (destruct (Req_EM_T _ 0) as [E|_]; [exfalso; lra|]). cbn.
  unfold padd, pscale, psub. cbn [px py]. f_equal; f_equal; field; lra.
Qed.

(** ** C08 *)
(** What ring [step] does cover: directions from north clockwise up to 360 * step / (step + 1) degrees.  If an arc of that
    part of the circle, of at least the sampling distance, is in one of the queried layers, a point is found. *)
Theorem C08_arc_found_partial (bvh : list (vec2 RA * vec2 RA) -> vec2 RA -> list N) m c li l x d o step alpha :
  bvh_ok bvh -> mesh_wf m -> mesh_small m -> unbaked m -> queried m c li l -> cpos c = vp x -> offset l = vp o -> search_delta m = Some d ->
  (step < search_steps m)%N -> (10 * search_steps m < 2^32)%N ->
  let width := 2 * PI / IZR (Z.of_N (10 * (step + 1))) in
  0 <= alpha -> alpha + width <= 2 * PI * IZR (Z.of_N step) / IZR (Z.of_N (step + 1)) ->
  (forall a, alpha <= a <= alpha + width -> in_layer l (vsub (vp (polar x (d * IZR (Z.of_N step)) a)) (offset l))) ->
  exists c', get_closest_point bvh m c = Ok (Some c').
Proof.
  intros Hb Hwf Hs Hu Hq Hx Ho Hd Hst Hov width Ha0 Ha1 Harc.
  assert (HT : exists r, get_closest_point bvh m c = Ok r).
  { pose proof (nf_get_closest_point bvh m c) as G0.
    destruct (C18_queries_never_fail (mkLib bvh std_pop) m c Hb Hwf) as (_ & _ & [G1 G2] & _).
    - intros l0 Hl0 boxes Hbx. rewrite (Hu l0 Hl0) in Hbx. discriminate.
    - assumption.
    - intros li0 Hli. rewrite (proj2 Hq li0 Hli). eapply nthN_Some_lt. apply Hq.
    - cbn [lbvh] in *. unfold nf in G0. destruct (get_closest_point bvh m c) as [r| | |]; try congruence. now exists r. }
  destruct HT as [[c'|] Hr]; [now exists c'|exfalso].
  set (n := IZR (Z.of_N (10 * (step + 1)))) in *.
  assert (Hn : 0 < n) by (apply (IZR_lt 0); lia). pose proof PI_RGT_0 as HPI.
  assert (Hw : 0 < width) by (unfold width; apply Rdiv_lt_0_compat; lra).
  (* the first sample after alpha *)
  set (k := up (alpha / width)). destruct (archimed (alpha / width)) as [K1 K2]. fold k in K1, K2.
  assert (G0 : 0 <= alpha / width) by (apply Rmult_le_pos; [assumption|]; apply Rlt_le, Rinv_0_lt_compat; assumption).
  assert (Hk : (0 < k)%Z) by (apply lt_IZR; lra).
  assert (E1 : alpha / width * width = alpha) by (field; lra).
  assert (L1 : alpha < IZR k * width) by (rewrite <- E1; apply Rmult_lt_compat_r; lra).
  assert (L2 : IZR k * width <= alpha + width).
  { rewrite <- E1 at 1. replace (alpha / width * width + width) with ((alpha / width + 1) * width) by ring. apply Rmult_le_compat_r; lra. }
  assert (Hi : (Z.to_N k <= 10 * step)%N).
  { assert (IZR k * width <= 2 * PI * IZR (Z.of_N step) / IZR (Z.of_N (step + 1))) as L3 by lra.
    assert (IZR k <= IZR (Z.of_N (10 * step))) as L4.
    { apply Rmult_le_reg_r with width; [assumption|].
      assert (IZR (Z.of_N (10 * step)) * width = 2 * PI * IZR (Z.of_N step) / IZR (Z.of_N (step + 1))) as ->; [|assumption].
      unfold width, n. rewrite !N2Z.inj_mul, !mult_IZR, !N2Z.inj_add, !plus_IZR.
      assert (0 <= IZR (Z.of_N step)) by (apply IZR_le; lia). cbn [Z.of_N]. field. lra. }
    apply le_IZR in L4. lia. }
  refine (C07_closest_point_none bvh m c Hs Hu Hr step (Z.to_N k) li l Hst Hi Hq _).
  rewrite Hx, Ho, Hd, vsub_vp, circle_sample_R. specialize (Harc (sample_angle step (Z.to_N k))).
  rewrite Ho, vsub_vp in Harc.
  assert (ES : sample_angle step (Z.to_N k) = IZR k * width).
  { unfold sample_angle, width. rewrite Z2N.id by lia. fold n. field. lra. }
  assert (EP : polar (psub x o) (d * IZR (Z.of_N step)) (sample_angle step (Z.to_N k)) =
               psub (polar x (d * IZR (Z.of_N step)) (sample_angle step (Z.to_N k))) o).
  { unfold polar, psub. apply P2_eq; cbn [px py]; ring. }
  rewrite EP. apply Harc. rewrite ES. lra.
Qed.

(** It does not cover the rest: the unit square and the query (1.05, 0.5), with search_delta = 0.1 and 2 steps.  Every point
    at distance 0.1 of the query in a direction within 45 degrees of west is in the square, but nothing is found: the first
    ring is only sampled in the eastern half. *)
Lemma sq_contains_x x : in_layer sq_layer (vp x) -> px x <= 1.
Proof.
  intros (p & [<-|[]] & H). change (mkPolygon [0; 1; 2; 3]%N true) with sq_poly in H. apply point_in_polygon_true in H.
  destruct (C06_inside_sound sq_layer sq_poly sq_corners x sq_corners_ok H) as [[_ G]|(a & b & G1 & [G2 _] & _)].
  - assert (Hi : In (P 1 0, P 1 1) (poly_edges sq_corners)) by (unfold sq_corners, poly_edges; simpl; auto).
    specialize (G _ _ Hi). unfold orient, cross, psub, eps in G. cbn [px py] in G. lra.
  - unfold sq_corners, poly_edges in G1. simpl in G1.
    repeat destruct G1 as [G1|G1]; try contradiction; injection G1 as <- <-; cbn [px py] in G2;
    unfold Rmin, Rmax in G2; repeat destruct (Rle_dec _ _); lra.
Qed.
Lemma sq_contains x : 1/1000 <= px x <= 999/1000 -> 1/1000 <= py x <= 999/1000 -> in_layer sq_layer (vp x).
Proof.
  intros Hx Hy. exists sq_poly. split; [now left|]. apply point_in_polygon_true.
  apply C06_inside_complete with sq_corners; [apply sq_corners_ok|discriminate|].
  unfold sq_corners, poly_edges. simpl. intros a b H. repeat destruct H as [H|H]; try contradiction; injection H as <- <-;
      unfold orient, cross, psub, eps; cbn [px py]; lra.
Qed.
Theorem C08_all_around_refuted : exists (m : Mesh RA) l x d,
  layers m = [l] /\ mesh_wf m /\ mesh_small m /\ unbaked m /\ search_delta m = Some d /\ search_steps m = 2%N /\
  (forall a, 5 / 4 * PI <= a <= 7 / 4 * PI -> in_layer l (vp (polar x d a))) /\
  get_closest_point std_bvh m (coords_on_mesh (vp x)) = Ok None.
Proof.
  exists sq_mesh, sq_layer, (P (105/100) (1/2)), (1/10).
  destruct C05_example as (_ & (Hr & Hs & Hne & Hu & _) & _).
  assert (Hwf : mesh_wf sq_mesh).
  { split.
    - intros l [<-|[]] p [<-|[]]. split; [discriminate|]. intros v Hv. cbn in Hv.
      repeat destruct Hv as [<-|Hv]; try contradiction; vm_compute; reflexivity.
    - intros l v id [<-|[]] Hv Hid Hm. cbn in Hv.
      assert (id = 0%N) as ->.
      { repeat destruct Hv as [<-|Hv]; try contradiction; cbn in Hid; repeat destruct Hid as [<-|Hid]; try contradiction; congruence. }
      exists sq_layer, sq_poly. split; reflexivity. }
  split; [reflexivity|]. split; [exact Hwf|]. split; [exact Hs|]. split; [exact Hu|]. split; [reflexivity|]. split; [reflexivity|].
  pose proof PI_RGT_0 as HPI. split.
  - intros a Ha. pose proof (SIN_bound a) as SB. pose proof (COS_bound a) as CB.
    assert (sin a <= - (70 / 100)) as Hsin.
    { assert (sin a = - cos (a - 3 * (PI / 2))) as ->.
      { replace (cos (a - 3 * (PI / 2))) with (- sin a); [ring|]. rewrite cos_minus. 
        rewrite cos_3PI2, sin_3PI2. ring. }
      assert (cos (PI / 4) <= cos (a - 3 * (PI / 2))) as Hc.
      { destruct (Rle_dec 0 (a - 3 * (PI / 2))) as [L|L].
        - apply cos_decr_1; lra.
        - rewrite <- (cos_neg (a - 3 * (PI / 2))). apply cos_decr_1; lra. }
      rewrite cos_PI4 in Hc. assert (7/10 <= 1 / sqrt 2); [|lra].
      assert (0 < sqrt 2) by (apply sqrt_lt_R0; lra). apply Rmult_le_reg_r with (sqrt 2); [assumption|].
      replace (1 / sqrt 2 * sqrt 2) with 1 by (field; lra).
      assert (sqrt 2 <= 142/100); [|lra]. apply Rsqr_incr_0_var; [|lra]. rewrite Rsqr_sqrt by lra. unfold Rsqr. lra. }
    apply sq_contains; unfold polar; cbn [px py]; lra.
  - pose proof (nf_get_closest_point std_bvh sq_mesh (coords_on_mesh (vp (P (105/100) (1/2))))) as G0.
    destruct (C18_queries_never_fail std_lib sq_mesh (coords_on_mesh (vp (P (105/100) (1/2)))) std_bvh_ok Hwf) as (_ & _ & [G1 G2] & _).
    { intros l [<-|[]] boxes Hbx. discriminate. }
    { vm_compute. reflexivity. }
    { discriminate. }
    cbn [lbvh std_lib] in *. unfold nf in G0. destruct (get_closest_point std_bvh sq_mesh _) as [[c'|]| | |] eqn:E; try congruence. exfalso.
    destruct (C07_closest_point_sound std_bvh sq_mesh _ c' Hs E) as (step & i & li & l & p & H1 & H2 & H3 & _ & H4 & _ & H5 & _).
    assert (In l (layers sq_mesh)) as [<-|[]] by (eapply nthN_In; apply H3).
    assert (in_layer sq_layer (circle_sample (vsub (cpos (coords_on_mesh (vp (P (105 / 100) (1 / 2))))) (offset sq_layer)) (search_delta sq_mesh) step i)) as Hin.
    { exists p. split; [|assumption]. eapply nthN_In. apply H4. }
    change (offset sq_layer) with (@vzero RA) in Hin. unfold vzero in Hin. rewrite fz_R in Hin.
    change (@V RA (Some 0) (Some 0)) with (vp (P 0 0)) in Hin. cbn [cpos coords_on_mesh] in Hin. rewrite vsub_vp in Hin.
    change (search_delta sq_mesh) with (Some (1/10)) in Hin. rewrite circle_sample_R in Hin. apply sq_contains_x in Hin.
    unfold polar, psub in Hin. cbn [px py] in Hin.
    assert (0 <= sin (sample_angle step i)) as HS.
    { change (search_steps sq_mesh) with 2%N in H1. assert (step = 0 \/ step = 1)%N as [->| ->] by lia.
      - assert (i = 0%N) as -> by lia. unfold sample_angle. cbn. rewrite Rmult_0_l. unfold Rdiv. rewrite Rmult_0_l, sin_0. lra.
      - apply sin_ge_0.
        + unfold sample_angle. cbn. assert (0 <= IZR (Z.of_N i)) by (apply IZR_le; lia).
          apply Rmult_le_pos; [apply Rmult_le_pos; lra|]. lra.
        + unfold sample_angle. cbn. assert (IZR (Z.of_N i) <= 10) by (apply IZR_le; lia). nra. }
    assert (0 <= 1 / 10 * IZR (Z.of_N step) * sin (sample_angle step i)).
    { apply Rmult_le_pos; [|assumption]. assert (0 <= IZR (Z.of_N step)) by (apply IZR_le; lia). lra. }
    lra.
Qed.

(** The hypotheses of C08_arc_found_partial are met: from (-0.05, 0.5), west of the square, a point is found. *)
Lemma sq_wf : mesh_wf sq_mesh.
Proof.
  split.
  - intros l [<-|[]] p [<-|[]]. split; [discriminate|]. intros v Hv. cbn in Hv.
    repeat destruct Hv as [<-|Hv]; try contradiction; vm_compute; reflexivity.
  - intros l v id [<-|[]] Hv Hid Hm. cbn in Hv.
    assert (id = 0%N) as ->.
    { repeat destruct Hv as [<-|Hv]; try contradiction; cbn in Hid; repeat destruct Hid as [<-|Hid]; try contradiction; congruence. }
    exists sq_layer, sq_poly. split; reflexivity.
Qed.
Example C08_example : exists c', get_closest_point std_bvh sq_mesh (coords_on_mesh (vp (P (-1/20) (1/2)))) = Ok (Some c').
Proof.
  destruct C05_example as (_ & (Hr & Hs & Hne & Hu & _) & _). pose proof PI_RGT_0 as HPI.
  refine (C08_arc_found_partial std_bvh sq_mesh (coords_on_mesh (vp (P (-1/20) (1/2)))) 0%N sq_layer (P (-1/20) (1/2)) (1/10) (P 0 0) 1%N (2 * PI / 5) std_bvh_ok sq_wf Hs Hu _ eq_refl _ eq_refl _ _ _ _ _).
  - split; [reflexivity|discriminate].
  - change (offset sq_layer) with (@vzero RA). unfold vzero. rewrite fz_R. reflexivity.
  - reflexivity.
  - reflexivity.
  - lra.
  - cbn. lra.
  - intros a Ha. cbn in Ha. change (offset sq_layer) with (@vzero RA). unfold vzero. rewrite fz_R.
    change (@V RA (Some 0) (Some 0)) with (vp (P 0 0)). rewrite vsub_vp.
    assert (sin (PI / 4) <= sin a) as Hs1 by (apply sin_incr_1; lra).
    rewrite sin_PI4 in Hs1. pose proof (SIN_bound a) as SB. pose proof (COS_bound a) as CB.
    assert (7/10 <= 1 / sqrt 2).
    { assert (0 < sqrt 2) by (apply sqrt_lt_R0; lra). apply Rmult_le_reg_r with (sqrt 2); [assumption|].
      replace (1 / sqrt 2 * sqrt 2) with 1 by (field; lra).
      assert (sqrt 2 <= 142/100); [|lra]. apply Rsqr_incr_0_var; [|lra]. rewrite Rsqr_sqrt by lra. unfold Rsqr. lra. }
    apply sq_contains; unfold polar, psub; cbn [px py Z.of_N]; lra.
Qed.
Print Assumptions C08_arc_found_partial.
Print Assumptions C08_all_around_refuted.
Print Assumptions C07_distance.
Print Assumptions C07_within_radius.
Print Assumptions C09_on_the_ray.
