(** C90 is not vacuous: builders made from the layer of the mesh of Examples_shortest.v. *)
From Coq Require Import List NArith ZArith Bool Lia Reals Lra Psatz.
From Verif Require Import Base Arith U32 Mesh Helpers Locate Search AsyncPath StdLib Spec Triangulation Spec_triangulation RealArith Geometry Search_props Checkers Islands_facts Locate_facts
  Inflate_facts Properties_triangulation Properties_inflate Spec_outline Enclose Capsule Properties_outline Properties_contain Examples_exact Spec_inside Examples_inside Spec_shortest
  Properties_shortest Zmesh Examples_shortest Spec_area Properties_area Properties_complete Zarea Examples_area Examples_complete Spec_free Properties_free Examples_free Spec_freespace Properties_freespace
  Spec_frommesh Properties_frommesh.
From Verif Require Import Spec_outline Properties_geometry.
Import ListNotations.
Open Scope R_scope.

Section Z.
Variables (vs : list (zpt * list N)) (ps : list (list N)).
Hypothesis HW : zwfb vs ps = true.
Lemma zm_laid p : In p ps -> laid (zlayer vs ps) (mkPolygon p false) (map zp (map (Zmesh.zat vs) p)).
Proof. intro Hp. unfold zwfb in HW. rewrite forallb_forall in HW. exact (zm_layer_corners vs ps p (HW p Hp)). Qed.
Lemma zm_wf_in p : In p ps -> forallb (fun i => (i <? lengthN vs)%N) p = true.
Proof. intro Hp. unfold zwfb in HW. rewrite forallb_forall in HW. exact (HW p Hp). Qed.
(** [z] is strictly inside or strictly outside of every polygon *)
Lemma zm_clear z : forallb (fun p => zinb vs z p || zoutb vs z p) ps = true -> clear_of (zlayer vs ps) (zp z).
Proof.
  intros H p qs Hp Hq. cbn [zlayer polygons] in Hp. apply in_map_iff in Hp. destruct Hp as (p' & <- & Hp). rewrite (laid_fun _ _ _ _ Hq (zm_laid p' Hp)). clear qs Hq.
  rewrite forallb_forall in H. specialize (H p' Hp). apply orb_prop in H. destruct H as [H|H]; [left|right].
  - unfold zinb in H. apply andb_prop in H. destruct H as [_ H]. intros a b He. destruct (poly_edges_z _ _ _ He) as (u & w & Hu & -> & ->).
    rewrite forallb_forall in H. specialize (H _ Hu). cbn [fst snd] in H. rewrite zor_R. apply Z.ltb_lt in H. assert (Q : (1 <= zor u w z)%Z) by lia. apply IZR_le in Q. unfold eps. lra.
  - unfold zoutb in H. apply andb_prop in H. destruct H as [H1 H2]. split.
    + apply existsb_exists in H1. destruct H1 as ([u w] & Hu & Q). cbn [fst snd] in Q. apply Z.ltb_lt, IZR_lt in Q. exists (zp u), (zp w). split; [rewrite zedges_map; apply in_map_iff; exists (u, w); auto|].
      rewrite zor_R. lra.
    + intros a b He _. destruct (poly_edges_z _ _ _ He) as (u & w & Hu & -> & ->). rewrite forallb_forall in H2. specialize (H2 _ Hu). cbn [fst snd] in H2. rewrite zor_R.
      apply negb_true_iff, Z.eqb_neq in H2. assert (Q : (zor u w z <= -1 \/ 1 <= zor u w z)%Z) by lia. unfold eps. unfold Rabs. destruct (Rcase_abs _), Q as [Q|Q]; apply IZR_le in Q; lra.
Qed.
Lemma at_zero (x : P2) : vadd (vp x) (V (fz (A := RA) 0) (fz 0)) = vp x.
Proof. rewrite fz_R. change (@V RA (Some (IZR 0)) (Some (IZR 0))) with (vp (P 0 0)). rewrite vadd_vp. f_equal. apply P2_eq; unfold padd; cbn [px py]; ring. Qed.
Lemma zm_layer_found bvh z id : (id < 2 ^ 24)%N -> zlocb vs ps z id = true -> layer_get_point_location bvh (zlayer vs ps) (vp (zp z)) (fz 0) = Ok (Some id).
Proof.
  intros H24 H. unfold zlocb in H. apply andb_prop in H. destruct H as [H1 H2]. destruct (nthN ps id) as [p|] eqn:EP; [|discriminate]. rewrite forallb_forall in H2.
  unfold layer_get_point_location, probes. cbn [probe_loop]. rewrite at_zero.
  unfold loc_any. cbn [baked zlayer]. unfold loc_unit. cbn [polygons zlayer].
  assert (EP' : nthN (map (fun p => mkPolygon p false) ps) id = Some (mkPolygon p false)) by (rewrite nthN_map, EP; reflexivity).
  destruct (enum_split _ _ _ EP') as (pre & post & E1 & E2). rewrite E1. rewrite (findM_at _ pre (id, mkPolygon p false) post).
  - cbn [bind fst]. destruct (N.eqb_spec id MAX) as [E|]; [|reflexivity]. exfalso. rewrite E in H24. vm_compute in H24. discriminate.
  - intros [j y] Hj. destruct (E2 j y Hj) as [Hlt Hn]. cbn [snd]. rewrite nthN_map in Hn. destruct (nthN ps j) as [p'|] eqn:EJ; [|discriminate]. cbn [option_map] in Hn.
    assert (y = mkPolygon p' false) by congruence. subst y. apply zm_pip_out; [apply zm_wf_in; now apply nthN_In in EJ|].
    specialize (H2 (j, p') (proj2 (enumerate_spec _ _ _) EJ)). cbn [fst snd] in H2. apply orb_prop in H2. destruct H2 as [H2|H2]; [apply N.leb_le in H2; lia|exact H2].
  - cbn [snd]. apply zm_pip_in; [apply zm_wf_in; now apply nthN_In in EP|exact H1].
Qed.
Lemma zm_layer_none bvh z : forallb (zoutb vs z) ps = true -> layer_get_point_location bvh (zlayer vs ps) (vp (zp z)) (fz 0) = Ok None.
Proof.
  intro H. rewrite forallb_forall in H.
  assert (HL : loc_any bvh (zlayer vs ps) (vp (zp z)) = Ok MAX).
  { unfold loc_any. cbn [baked zlayer]. unfold loc_unit. cbn [polygons zlayer].
    assert (E : findM (fun ip : N * Polygon => point_in_polygon (zlayer vs ps) (vp (zp z)) (snd ip)) (enumerate (map (fun p => mkPolygon p false) ps)) = Ok None); [|rewrite E; reflexivity].
    apply findM_None. intros [i y] Hi. apply enumerate_spec in Hi. apply nthN_In in Hi. apply in_map_iff in Hi. destruct Hi as (p & <- & Hp). cbn [snd]. apply zm_pip_out; [now apply zm_wf_in|now apply H]. }
  unfold layer_get_point_location.
  assert (HP : forall ds, (forall d, In d ds -> vadd (vp (zp z)) d = vp (zp z)) -> probe_loop bvh (zlayer vs ps) (vp (zp z)) ds = Ok None).
  { induction ds as [|d ds IH]; intro Hd; [reflexivity|]. cbn [probe_loop]. rewrite (Hd d (or_introl eq_refl)), HL. cbn [bind]. rewrite N.eqb_refl. apply IH. intros; apply Hd; now right. }
  apply HP. intros d Hd. unfold probes in Hd. rewrite fz_R in Hd. cbn [In] in Hd. unfold vp, pt, vadd. 
  repeat (destruct Hd as [<-|Hd]; [cbn [vx vy]; cbn; f_equal; f_equal; ring|]). destruct Hd.
Qed.
End Z.

(** ** The layer, as it is, and with an obstacle over its second triangle *)
Definition bent_l : Layer RA := zlayer bent_vs bent_ps.
Definition base : Triangulation RA := from_mesh_layer bent_l.
Example base_from_mesh : from_mesh bent 0 = Ok base. Proof. reflexivity. Qed.
Definition base_edges : list (zpt * zpt) := [((0, 0), (9, -4)); ((9, -4), (1, 9)); ((1, 9), (0, 0)); ((1, 9), (-8, -5)); ((-8, -5), (0, 0))]%Z.
Lemma base_lines : constraints bent_lib base = Ok (zlines base_edges).
Proof. reflexivity. Qed.
Lemma on_ground z : (exists id, (id < 2 ^ 24)%N /\ zlocb bent_vs bent_ps z id = true) -> forall g r gs, (forall x, enc [] x = false) -> (forall i, In i gs -> contains bent_lib (geo_new i []) (vp (zp z)) = false) ->
  accepted bent_lib (mkTri g None (Some bent_l) r) (mkGeo [] gs) (vp (zp z)) = Ok true.
Proof.
  intros (id & H1 & H2) g r gs HE HI. unfold accepted. cbn [prebuilt base_layer andb]. cbn [contains bent_lib free_lib exterior interiors]. rewrite HE. cbn [andb].
  fold (bent_lib). rewrite (zm_layer_found bent_vs bent_ps ltac:(vm_compute; reflexivity) _ z id H1 H2). cbn [bind]. f_equal. apply negb_true_iff. apply not_true_iff_false. intro K. apply existsb_exists in K.
  destruct K as (i & Hi & K). pose proof (HI i Hi) as K2. change (contains bent_lib (geo_new i []) (vp (zp z)) = true) in K. congruence.
Qed.
Lemma enc_nil x : enc [] x = false.
Proof.
  apply not_true_iff_false. intro H. unfold enc in H. rewrite dec_true in H. destruct H as (l & c & E & -> & H). destruct l; [|discriminate]. 
  exact (enclosed_nil c H).
Qed.
Lemma ground_known z g r gs : (exists id, (id < 2 ^ 24)%N /\ zlocb bent_vs bent_ps z id = true) ->
  accepted bent_lib (mkTri g None (Some bent_l) r) (mkGeo [] gs) (vp (zp z)) = Ok (negb (existsb (fun r => contains bent_lib (geo_new r []) (vp (zp z))) gs)).
Proof.
  intros (id & H1 & H2). unfold accepted. cbn [prebuilt base_layer andb].
  assert (HE : contains bent_lib (mkGeo [] gs) (vp (zp z)) = false) by (cbn [contains bent_lib free_lib exterior interiors]; rewrite enc_nil; reflexivity). rewrite HE.
  rewrite (zm_layer_found bent_vs bent_ps ltac:(vm_compute; reflexivity) _ z id H1 H2). reflexivity.
Qed.
Lemma off_ground z : forallb (zoutb bent_vs z) bent_ps = true -> forall g r gs, accepted bent_lib (mkTri g None (Some bent_l) r) (mkGeo [] gs) (vp (zp z)) = Ok false.
Proof.
  intros H g r gs. unfold accepted. cbn [prebuilt base_layer andb]. cbn [contains bent_lib free_lib exterior interiors]. rewrite enc_nil. cbn [andb].
  fold bent_lib. rewrite (zm_layer_none bent_vs bent_ps ltac:(vm_compute; reflexivity) _ z H). reflexivity.
Qed.
Lemma base_mesh : as_navmesh bent_lib base = Ok bent.
Proof.
  unfold as_navmesh, as_layer. rewrite base_lines. cbn [bind inflated agent_radius base from_mesh_layer inner geo_new close map interiors exterior]. cbn [cdt bent_lib free_lib].
  rewrite bent_layer.
  - cbn [bind]. unfold bent, zmesh, mesh_default. cbn [search_delta search_steps]. rewrite flit_R. reflexivity.
  - apply (on_ground (4, -1)%Z); [exists 0%N; split; vm_compute; reflexivity|exact enc_nil|intros i []].
  - apply (on_ground (-4, -2)%Z); [exists 1%N; split; vm_compute; reflexivity|exact enc_nil|intros i []].
  - apply (off_ground (0, -2)%Z). vm_compute. reflexivity.
Qed.
Lemma tri_faces es : zlistok es tri1 = true -> zlistok es tri2 = true -> zlistok es tri3 = true -> faces_ok bent_sub (zlines es).
Proof.
  intros H1 H2 H3.
  assert (T : forall f ids k s, zlistok es f = true -> Forall2 (fun i q => exists around, nthN (sites s) i = Some (vp q, around)) ids (map zp (fst f)) ->
    exists qs centre, Forall2 (fun i q => exists around, nthN (sites s) i = Some (vp q, around)) (fverts (mkFace k (vp (zp (snd f))) ids)) qs /\
      fcenter (mkFace k (vp (zp (snd f))) ids) = vp centre /\ strictly_inside qs centre /\ forall p q t, In (vp p, vp q) (zlines es) -> 0 <= t <= 1 -> ~ strictly_inside qs (lerp p q t)).
  { intros f ids k s H HF. exists (map zp (fst f)), (zp (snd f)). split; [exact HF|]. split; [reflexivity|]. split; [now apply (zlist_centre es)|now apply zlist_lines]. }
  intros f [<-|[<-|[<-|[]]]].
  - apply (T tri1 _ _ bent_sub H1). repeat (apply Forall2_cons; [eexists; reflexivity|]). apply Forall2_nil.
  - apply (T tri2 _ _ bent_sub H2). repeat (apply Forall2_cons; [eexists; reflexivity|]). apply Forall2_nil.
  - apply (T tri3 _ _ bent_sub H3). repeat (apply Forall2_cons; [eexists; reflexivity|]). apply Forall2_nil.
Qed.
Lemma base_built : built bent_lib base [] base (zlines base_edges) bent.
Proof.
  split.
  - apply free_nan.
  - apply free_holes.
  - split; [reflexivity|]. split; reflexivity.
  - intros o [].
  - left. cbn. lia.
  - reflexivity.
  - exact base_lines.
  - apply subdivision_okb_ok. vm_compute. reflexivity.
  - vm_compute. reflexivity.
  - apply tri_faces; vm_compute; reflexivity.
  - exact base_mesh.
Qed.
Lemma bent_polygons p qs : In p (polygons bent_l) -> laid bent_l p qs -> (p = mkPolygon [0; 1; 2]%N false /\ qs = map zp (fst tri1)) \/ (p = mkPolygon [0; 2; 3]%N false /\ qs = map zp (fst tri2)).
Proof.
  intros [<-|[<-|[]]] Hq; [left|right]; (split; [reflexivity|]); apply (laid_fun _ _ _ _ Hq); repeat (apply Forall2_cons; [eexists; split; reflexivity|]); apply Forall2_nil.
Qed.
Lemma bent_ground_ok : ground_ok bent_l.
Proof.
  intros p Hp. pose proof (pr_plane _ _ _ _ _ _ _ bent_proper) as [HP _]. apply In_nthN in Hp. destruct Hp as [k Hk]. pose proof (nthN_Some_lt _ _ _ Hk) as Hlt. change (lengthN (polygons bent_l)) with 2%N in Hlt.
  destruct (HP (id_make 0 k) bent_l p) as (qs & Q1 & Q2 & _).
  - split; [rewrite id_layer_make by lia; reflexivity|]. rewrite id_polygon_make by lia. exact Hk.
  - assert (HA : forall i q, at_world bent_l i q -> exists v, nthN (vertices bent_l) i = Some v /\ coords v = vp q).
    { intros i q (v & V1 & V2). exists v. split; [exact V1|]. rewrite <- V2. unfold world. cbn [bent_l zlayer offset]. cbn [vertices bent_l zlayer] in V1. apply nthN_In, in_map_iff in V1. destruct V1 as ([z nb] & <- & _).
      change (vp (zp z) = vadd (vp (zp z)) (vp (P 0 0))). rewrite vadd_vp. f_equal. apply P2_eq; unfold padd; cbn [px py]; ring. }
    exists qs. split; [unfold laid; revert Q1; apply Properties_freespace.Forall2_imp; exact HA|]. split; [|exact Q2].
    intros ->. apply nthN_In in Hk. destruct Hk as [<-|[<-|[]]]; inversion Q1.
Qed.
Lemma bent_clear centre : In centre [bent_start; bent_goal; zp (0, -2)%Z] -> clear_of bent_l centre.
Proof. intros [<-|[<-|[<-|[]]]]; (apply (zm_clear bent_vs bent_ps); [vm_compute; reflexivity|vm_compute; reflexivity]). Qed.
Lemma bent_cover : faces_cover_ground bent_sub bent_l.
Proof.
  intros x (p & qs & Hp & Hq & Hx). destruct (bent_polygons p qs Hp Hq) as [[-> ->]|[-> ->]].
  - exists (mkFace 1 (vp bent_start) [0; 1; 2]%N), (map zp (fst tri1)). split; [now left|]. split; [|exact Hx]. repeat (apply Forall2_cons; [eexists; reflexivity|]). apply Forall2_nil.
  - exists (mkFace 2 (vp bent_goal) [0; 2; 3]%N), (map zp (fst tri2)). split; [right; now left|]. split; [|exact Hx]. repeat (apply Forall2_cons; [eexists; reflexivity|]). apply Forall2_nil.
Qed.
Lemma bent_laid cs t c m : built bent_lib base cs t c m -> mesh_small m -> (forall o r, In o (added cs) -> close o = r -> exists r', r = map vp r') -> laid_on bent_lib bent_l base cs m.
Proof.
  intros HB HS HN. split.
  - exists t, c. split; [exact HB|]. split; [exact bent_cover|]. intros f centre Hf Ef. cbn [cdt bent_lib free_lib bent_sub inner_faces In] in Hf. apply bent_clear.
    destruct Hf as [<-|[<-|[<-|[]]]]; cbn [fcenter] in Ef; apply vp_inj in Ef; rewrite <- Ef; cbn [In]; auto.
  - reflexivity.
  - reflexivity.
  - exact I.
  - exact bent_ground_ok.
  - vm_compute. discriminate.
  - intros boxes k p qs x E. discriminate.
  - apply free_only.
  - intros o r Ho Hr. cbn [base from_mesh_layer agent_radius outline] in Hr. destruct (HN o r Ho (eq_sym Hr)) as (r' & ->). exists r'. split; [reflexivity|]. apply free_finds.
  - exact HS.
Qed.
(** Without obstacles the mesh of the builder is the mesh the layer is from. *)
Lemma base_laid : laid_on bent_lib bent_l base [] bent.
Proof. apply (bent_laid [] base (zlines base_edges) bent base_built bent_small). intros o r []. Qed.
Example ex_C90 : forall x, covered bent x <-> ground bent_l x.
Proof. exact (C90_same_area_without_obstacles bent_lib bent_l base [] bent base_laid eq_refl). Qed.
Example ex_C90_shortest : exists path pts,
  path_on_layers std_lib bent (in_polygon bent_start 0) (in_polygon bent_goal 1) [] = Ok (Some path) /\ ppath path = map vp pts /\ plength path = Some (total bent_start pts) /\ polyline_in (ground bent_l) bent_start pts.
Proof.
  destruct bent_path as (p & H1 & H2).
  destruct (C90_shortest_on_the_ground bent_lib bent_l base [] bent base_laid std_lib (in_polygon bent_start 0) (in_polygon bent_goal 1) p bent_start bent_goal 0 1 bent_proper eq_refl eq_refl
    ltac:(now apply at_polygon) ltac:(now apply at_polygon) H1) as (pts & A1 & A2 & A3 & A4 & A5).
  exists p, pts. auto.
Qed.

(** With an obstacle over the second triangle, the first is left. *)
Definition lid : list P2 := map zp [(0, 0); (-8, -5); (1, 9)]%Z.
Definition half_vs : list (zpt * list N) := [((0, 0)%Z, [0; MAX]%N); ((9, -4)%Z, [0; MAX]%N); ((1, 9)%Z, [0; MAX]%N); ((-8, -5)%Z, [MAX]%N)].
Definition half : Mesh RA := zmesh half_vs [[0; 1; 2]%N].
Definition lidded : Triangulation RA := mkTri (mkGeo [] [map vp (lid ++ [zp (0, 0)%Z])]) None (Some bent_l) RNone.
Lemma close_lid : close (map vp lid) = map vp (lid ++ [zp (0, 0)%Z]).
Proof. apply (close_open (zp (0, 0)%Z) (map zp [(-8, -5); (1, 9)]%Z)). cbn [map last]. apply zp_ne. discriminate. Qed.
Lemma lid_run : run_calls bent_lib base [AddObstacle (map vp lid)] = Ok lidded.
Proof.
  unfold run_calls. cbn [foldM apply_call bind]. f_equal. unfold base, from_mesh_layer, add_obstacle, with_inner, interiors_push, geo_new, lidded. cbn [inner prebuilt base_layer agent_radius exterior interiors map app].
  rewrite close_lid. reflexivity.
Qed.
Definition lid_edges : list (zpt * zpt) := (base_edges ++ [((0, 0), (-8, -5)); ((-8, -5), (1, 9)); ((1, 9), (0, 0))])%Z.
Lemma lid_lines : constraints bent_lib lidded = Ok (zlines lid_edges).
Proof. reflexivity. Qed.
Lemma geo_lid : geo_new (map vp (lid ++ [zp (0, 0)%Z])) [] = mkGeo (map vp (lid ++ [zp (0, 0)%Z])) ([] : list (ring RA)).
Proof. unfold geo_new. cbn [map]. f_equal. apply close_closed. apply closed_snoc. Qed.
Lemma lid_start : ~ enclosed (lid ++ [zp (0, 0)%Z]) bent_start.
Proof.
  apply (beyond _ _ (P 9 (-1)) 0).
  - unfold lid. intros p Hp. cbn [map app In] in Hp. destruct Hp as [<-|[<-|[<-|[<-|[]]]]]; unfold zp, pdot; cbn [px py fst snd]; lra.
  - unfold bent_start, zp, pdot. cbn [px py fst snd]. lra.
Qed.
Lemma lid_goal : enclosed (lid ++ [zp (0, 0)%Z]) bent_goal.
Proof. unfold lid, bent_goal. cbn [map app]. sides. Qed.
Lemma half_layer (acc : vec2 RA -> res bool) : acc (vp bent_start) = Ok true -> acc (vp bent_goal) = Ok false -> acc (vp (zp (0, -2)%Z)) = Ok false ->
  layer_of_subdivision acc bent_sub = Ok (zlayer half_vs [[0; 1; 2]%N]).
Proof.
  intros H1 H2 H3. unfold layer_of_subdivision, bent_sub. cbn [inner_faces sites foldM list_face fcenter]. rewrite H1. cbn.
  rewrite H2. cbn. rewrite H3. cbn. rewrite vzero_vp. reflexivity.
Qed.
Lemma lid_mesh : as_navmesh bent_lib lidded = Ok half.
Proof.
  unfold as_navmesh, as_layer. rewrite lid_lines. cbn [bind inflated agent_radius lidded]. cbn [cdt bent_lib free_lib].
  rewrite half_layer.
  - cbn [bind]. unfold half, zmesh, mesh_default. cbn [search_delta search_steps]. rewrite flit_R. reflexivity.
  - apply (on_ground (4, -1)%Z); [exists 0%N; split; vm_compute; reflexivity|exact enc_nil|]. intros i [<-|[]]. rewrite geo_lid. cbn [contains bent_lib free_lib exterior interiors existsb negb]. rewrite andb_true_r.
    apply not_true_iff_false. intro K. apply enc_vp in K. exact (lid_start K).
  - refine (eq_trans (ground_known (-4, -2)%Z _ _ _ _) _); [exists 1%N; split; vm_compute; reflexivity|]. f_equal. cbn [existsb]. change (zp (-4, -2)%Z) with bent_goal. rewrite geo_lid.
    apply negb_false_iff, orb_true_iff. left. cbn [contains bent_lib free_lib exterior interiors existsb negb]. rewrite andb_true_r. apply enc_vp. exact lid_goal.
  - apply (off_ground (0, -2)%Z). vm_compute. reflexivity.
Qed.
Lemma lid_built : built bent_lib base [AddObstacle (map vp lid)] lidded (zlines lid_edges) half.
Proof.
  split.
  - apply free_nan.
  - apply free_holes.
  - split; [reflexivity|]. split; reflexivity.
  - intros o [<-|[]] a r E. cbn [lid map] in E. injection E as <- _. now apply veq_vp.
  - left. cbn. lia.
  - exact lid_run.
  - exact lid_lines.
  - apply subdivision_okb_ok. vm_compute. reflexivity.
  - vm_compute. reflexivity.
  - apply tri_faces; vm_compute; reflexivity.
  - exact lid_mesh.
Qed.
Lemma half_small : mesh_small half.
Proof. split; [vm_compute; discriminate|]. intros l [<-|[]]. vm_compute. discriminate. Qed.
Lemma lid_laid : laid_on bent_lib bent_l base [AddObstacle (map vp lid)] half.
Proof. apply (bent_laid _ lidded (zlines lid_edges) half lid_built half_small). intros o r [<-|[]] <-. rewrite close_lid. eauto. Qed.
Lemma coordinates_near x y : Rabs (px y - px x) <= dist x y /\ Rabs (py y - py x) <= dist x y.
Proof.
  unfold dist, plen. split; rewrite <- sqrt_Rsqr_abs; apply sqrt_le_1_alt; unfold pdot, psub, Rsqr; cbn [px py];
    pose proof (Rle_0_sqr (px y - px x)); pose proof (Rle_0_sqr (py y - py x)); unfold Rsqr in *; lra.
Qed.
Example ex_C90_obstacle : covered half bent_start /\ ~ covered half bent_goal.
Proof.
  split.
  - apply (C90_area_is_the_ground_left bent_lib bent_l base _ half lid_laid). intros rad Hrad. exists bent_start. split.
    + assert (dist bent_start bent_start = 0) as ->; [|exact Hrad]. unfold dist, plen, pdot. cbn [psub px py]. replace (_ + _) with 0 by ring. exact sqrt_0.
    + split.
      * exists (mkPolygon [0; 1; 2]%N false), (map zp (fst tri1)). split; [now left|]. split; [repeat (apply Forall2_cons; [eexists; split; reflexivity|]); apply Forall2_nil|].
        intros a b Hab. apply Rlt_le. exact (zlist_centre base_edges tri1 ltac:(vm_compute; reflexivity) a b Hab).
      * intros o r [<-|[]] Hr. cbn [base from_mesh_layer agent_radius outline] in Hr. rewrite close_lid in Hr. apply map_vp_inj in Hr. rewrite Hr. exact lid_start.
  - intro H. destruct (proj1 (C90_area_is_the_ground_left bent_lib bent_l base _ half lid_laid bent_goal) H (1 / 20) ltac:(lra)) as (y & Hy & _ & Hf).
    apply (Hf (map vp lid) (lid ++ [zp (0, 0)%Z])); [now left|cbn [base from_mesh_layer agent_radius outline]; symmetry; exact close_lid|].
    pose proof (coordinates_near bent_goal y) as [K1 K2]. assert (A1 := Rle_lt_trans _ _ _ K1 Hy). assert (A2 := Rle_lt_trans _ _ _ K2 Hy). apply Rabs_def2 in A1, A2.
    destruct y as [y1 y2]. unfold bent_goal, zp in A1, A2. cbn [px py fst snd] in A1, A2. clear - A1 A2.
    unfold lid. cbn [map app]. apply triangle_encloses; unfold orient, cross, psub, zp; cbn [px py fst snd]; lra.
Qed.
