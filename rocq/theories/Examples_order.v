(** C89 is not vacuous: the triangle of Examples_free.v with and without the obstacle. *)
From Coq Require Import List NArith ZArith Bool Lia Reals Lra Psatz.
From Verif Require Import Base Arith U32 Mesh Helpers Locate Search AsyncPath StdLib Spec Triangulation Spec_triangulation RealArith Geometry Search_props Checkers
  Inflate_facts Properties_triangulation Properties_inflate Spec_outline Enclose Capsule Properties_outline Examples_exact Spec_inside Examples_inside Spec_shortest
  Properties_shortest Zmesh Examples_shortest Spec_area Properties_area Properties_complete Zarea Examples_area Examples_complete Spec_free Properties_free Examples_free Spec_freespace Properties_freespace
  Examples_freespace Properties_order.
From Verif Require Import Spec_outline Properties_geometry.
Import ListNotations.
Open Scope R_scope.

Definition tight_vs : list (zpt * list N) := [((0, 0)%Z, [0; 1; 2; MAX]%N); ((9, -4)%Z, [0; MAX]%N); ((1, 9)%Z, [0; 1; MAX]%N); ((-8, -5)%Z, [2; MAX]%N); ((-3, 1)%Z, [1; 2; MAX]%N)].
Definition tight_ps : list (list N) := [[0; 1; 2]%N; [0; 2; 4]%N; [0; 4; 3]%N].
Definition tight : Mesh RA := zmesh tight_vs tight_ps.

(** The triangulator answers with [bent_sub] if there is one obstacle and with [tight_sub] if there are two. *)
Definition tight_sub : Subdivision RA :=
  mkSub [mkFace 1 (vp bent_start) [0; 1; 2]%N; mkFace 2 (vp (zp (-1, 3)%Z)) [0; 2; 4]%N; mkFace 3 (vp bent_goal) [0; 4; 3]%N; mkFace 4 (vp (zp (0, -2)%Z)) [0; 3; 1]%N; mkFace 5 (vp (zp (-4, 0)%Z)) [2; 3; 4]%N]
        [(vp (zp (0, 0)%Z), [1; 2; 3; 4]%N); (vp (zp (9, -4)%Z), [1; 0; 4]%N); (vp (zp (1, 9)%Z), [1; 2; 5; 0]%N); (vp (zp (-8, -5)%Z), [3; 4; 0; 5]%N); (vp (zp (-3, 1)%Z), [2; 3; 5]%N)].
Definition second_hole : list P2 := map zp [(1, 9); (-3, 1); (-8, -5)]%Z.
Definition two_lib : TriLib RA :=
  mkTriLib (fun _ r => r) (fun a b => [(map vp (box (a ++ b)), [])]) (fun g x => enc (exterior g) x && negb (existsb (fun r => enc r x) (interiors g)))
    (fun p => match vx p, vy p with Some _, Some _ => true | _, _ => false end) (fun c => if Nat.eqb (length c) 6 then bent_sub else tight_sub)
    (atan2 real_lib) (hypot real_lib) (sign_negative real_lib) (finder real_lib).
Definition one_call : list (@call RA) := [AddObstacle (map vp bent_hole)].
Definition two_calls : list (@call RA) := [AddObstacle (map vp second_hole); AddObstacle (map vp bent_hole)].

Lemma close_second : close (map vp second_hole) = map vp (second_hole ++ [zp (1, 9)%Z]).
Proof. apply (close_open (zp (1, 9)%Z) (map zp [(-3, 1); (-8, -5)]%Z)). cbn [map last]. apply zp_ne. discriminate. Qed.
Definition two_done : Triangulation RA := mkTri (mkGeo (map vp (bent_outer ++ [zp (9, -4)%Z])) (map (map vp) [second_hole ++ [zp (1, 9)%Z]; bent_hole ++ [zp (0, 0)%Z]])) None None RNone.
Lemma two_run : run_calls two_lib cut two_calls = Ok two_done.
Proof.
  unfold run_calls, two_calls. cbn [foldM apply_call bind]. f_equal. unfold cut, from_outer_edges, add_obstacle, with_inner, interiors_push, geo_new, two_done. cbn [inner prebuilt base_layer agent_radius exterior interiors map app].
  rewrite close_outer, close_hole, close_second. reflexivity.
Qed.
Definition two_edges : list (zpt * zpt) := [((9, -4), (-8, -5)); ((-8, -5), (1, 9)); ((1, 9), (9, -4)); ((1, 9), (-3, 1)); ((-3, 1), (-8, -5)); ((-8, -5), (1, 9)); ((0, 0), (9, -4)); ((9, -4), (-8, -5)); ((-8, -5), (0, 0))]%Z.
Lemma two_constraints : constraints two_lib two_done = Ok (zlines two_edges).
Proof. reflexivity. Qed.

Ltac corners_of H := unfold edge_of_bent, bent_outer, bent_hole, second_hole in H; cbn [map app In] in H; destruct H as [<-|[<-|[<-|[<-|[]]]]]; unfold zp, pdot; cbn [px py fst snd]; lra.
Ltac off u c := apply (beyond _ _ u c); [intros p Hp; corners_of Hp|unfold bent_start, bent_goal, zp, pdot; cbn [px py fst snd]; lra].
Definition closed_hole := bent_hole ++ [zp (0, 0)%Z].
Definition closed_second := second_hole ++ [zp (1, 9)%Z].
Definition between : P2 := zp (-1, 3)%Z.
Lemma second_start : ~ enclosed closed_second bent_start. Proof. off (P 8 (-4)) (-28 / 3). Qed.
Lemma second_between : ~ enclosed closed_second between. Proof. unfold between. off (P 8 (-4)) (-28 / 3). Qed.
Lemma second_goal : ~ enclosed closed_second bent_goal. Proof. off (P 6 (-5)) (-23 / 3). Qed.
Lemma hole_between : ~ enclosed closed_hole between. Proof. unfold between. off (P 4 9) 0. Qed.
Lemma second_middle : enclosed closed_second (zp (-4, 0)%Z).
Proof. unfold closed_second, second_hole. cbn [map app]. sides. Qed.
Lemma outer_between : enclosed edge_of_bent between.
Proof. unfold edge_of_bent, bent_outer, between. cbn [map app]. sides. Qed.

Lemma tight_layer (acc : vec2 RA -> res bool) : acc (vp bent_start) = Ok true -> acc (vp between) = Ok true -> acc (vp bent_goal) = Ok true -> acc (vp (zp (0, -2)%Z)) = Ok false -> acc (vp (zp (-4, 0)%Z)) = Ok false ->
  layer_of_subdivision acc tight_sub = Ok (zlayer tight_vs tight_ps).
Proof.
  intros H1 H2 H3 H4 H5. unfold layer_of_subdivision, tight_sub. cbn [inner_faces sites foldM list_face fcenter]. rewrite H1. cbn.
  fold between. rewrite H2. cbn. rewrite H3. cbn. rewrite H4. cbn. rewrite H5. cbn. rewrite vzero_vp. reflexivity.
Qed.
Lemma two_mesh : as_navmesh two_lib two_done = Ok tight.
Proof.
  assert (HA : forall x, enclosed edge_of_bent x -> ~ enclosed closed_second x -> ~ enclosed closed_hole x ->
    accepted two_lib two_done (mkGeo (map vp edge_of_bent) (map (map vp) [closed_second; closed_hole])) (vp x) = Ok true).
  { intros x H1 H2 H3. refine (eq_trans (free_accepted tight_sub (inner two_done) RNone _ _) _). f_equal. apply (free_contains tight_sub _ [closed_second; closed_hole] x H1). intros h [<-|[<-|[]]]; assumption. }
  assert (HR : forall x h, enclosed h x -> In h [closed_second; closed_hole] ->
    accepted two_lib two_done (mkGeo (map vp edge_of_bent) (map (map vp) [closed_second; closed_hole])) (vp x) = Ok false).
  { intros x h H1 H2. refine (eq_trans (free_accepted tight_sub (inner two_done) RNone _ _) _). f_equal. apply (free_rejects tight_sub _ h [closed_second; closed_hole] x H1 H2). }
  unfold as_navmesh, as_layer. rewrite two_constraints. cbn [bind inflated agent_radius two_done]. cbn [cdt two_lib]. cbn [zlines two_edges map length Nat.eqb].
  rewrite tight_layer.
  - cbn [bind]. unfold tight, zmesh, mesh_default. cbn [search_delta search_steps]. rewrite flit_R. reflexivity.
  - exact (HA bent_start outer_start second_start hole_start).
  - exact (HA between outer_between second_between hole_between).
  - exact (HA bent_goal outer_goal second_goal hole_goal).
  - exact (HR (zp (0, -2)%Z) closed_hole hole_middle (or_intror (or_introl eq_refl))).
  - exact (HR (zp (-4, 0)%Z) closed_second second_middle (or_introl eq_refl)).
Qed.

Definition t2 : list zpt * zpt := ([(0, 0); (1, 9); (-3, 1)], (-1, 3))%Z.
Definition t3 : list zpt * zpt := ([(0, 0); (-3, 1); (-8, -5)], (-4, -2))%Z.
Definition t5 : list zpt * zpt := ([(1, 9); (-8, -5); (-3, 1)], (-4, 0))%Z.
Definition rest_edges : list (zpt * zpt) := [((9, -4), (-8, -5)); ((-8, -5), (1, 9)); ((1, 9), (-3, 1)); ((-3, 1), (-8, -5)); ((-8, -5), (1, 9)); ((0, 0), (9, -4)); ((9, -4), (-8, -5)); ((-8, -5), (0, 0))]%Z.
Lemma two_faces : faces_ok tight_sub (zlines two_edges).
Proof.
  assert (T : forall f ids k s, zlistok two_edges f = true -> Forall2 (fun i q => exists around, nthN (sites s) i = Some (vp q, around)) ids (map zp (fst f)) ->
    exists qs centre, Forall2 (fun i q => exists around, nthN (sites s) i = Some (vp q, around)) (fverts (mkFace k (vp (zp (snd f))) ids)) qs /\
      fcenter (mkFace k (vp (zp (snd f))) ids) = vp centre /\ strictly_inside qs centre /\ forall p q t, In (vp p, vp q) (zlines two_edges) -> 0 <= t <= 1 -> ~ strictly_inside qs (lerp p q t)).
  { intros f ids k s H HF. exists (map zp (fst f)), (zp (snd f)). split; [exact HF|]. split; [reflexivity|]. split; [now apply (zlist_centre two_edges)|now apply zlist_lines]. }
  intros f [<-|[<-|[<-|[<-|[<-|[]]]]]].
  - apply (T tri1); [vm_compute; reflexivity|]. repeat (apply Forall2_cons; [eexists; reflexivity|]). apply Forall2_nil.
  - apply (T t2); [vm_compute; reflexivity|]. repeat (apply Forall2_cons; [eexists; reflexivity|]). apply Forall2_nil.
  - exists (map zp (fst t3)), bent_goal. split; [repeat (apply Forall2_cons; [eexists; reflexivity|]); apply Forall2_nil|]. split; [reflexivity|].
    split; [apply (zlist_centre rest_edges t3); vm_compute; reflexivity|]. intros p q t Hpq Ht HS.
    assert (In (vp p, vp q) (zlines rest_edges) \/ (vp p, vp q) = (vp (zp (1, 9)%Z), vp (zp (9, -4)%Z))) as [H|E].
    { unfold zlines, two_edges, rest_edges in *. cbn [map fst snd In] in *. destruct Hpq as [K|[K|[K|K]]]; auto 10. }
    + exact (zlist_lines rest_edges t3 ltac:(vm_compute; reflexivity) p q t H Ht HS).
    + assert (p = zp (1, 9)%Z) as -> by (apply vp_inj; congruence). assert (q = zp (9, -4)%Z) as -> by (apply vp_inj; congruence). clear Hpq E.
      assert (HI : forall u w, In (u, w) (zedges (fst t3)) -> 0 < orient (zp u) (zp w) (lerp (zp (1, 9)%Z) (zp (9, -4)%Z) t)).
      { intros u w Hu. apply HS. rewrite zedges_map. apply in_map_iff. exists (u, w). auto. }
      pose proof (HI (0, 0)%Z (-3, 1)%Z ltac:(vm_compute; auto)) as K1. pose proof (HI (-8, -5)%Z (0, 0)%Z ltac:(vm_compute; auto)) as K2.
      unfold orient, cross, lerp, padd, pscale, psub, zp in K1, K2. cbn [px py fst snd] in K1, K2. lra.
  - apply (T tri3); [vm_compute; reflexivity|]. repeat (apply Forall2_cons; [eexists; reflexivity|]). apply Forall2_nil.
  - apply (T t5); [vm_compute; reflexivity|]. repeat (apply Forall2_cons; [eexists; reflexivity|]). apply Forall2_nil.
Qed.
Lemma cut_closed : close (exterior (inner cut)) = exterior (inner cut).
Proof. unfold cut, from_outer_edges, geo_new. cbn [inner exterior]. rewrite close_outer. apply close_closed. apply closed_snoc. Qed.
Lemma two_built : built two_lib cut two_calls two_done (zlines two_edges) tight.
Proof.
  split.
  - exact (free_nan tight_sub).
  - exact (free_holes tight_sub).
  - split; [reflexivity|]. split; [reflexivity|]. exact cut_closed.
  - intros o [<-|[<-|[]]] a r E; cbn [bent_hole second_hole map] in E; injection E as <- _; now apply veq_vp.
  - left. cbn. lia.
  - exact two_run.
  - exact two_constraints.
  - apply subdivision_okb_ok. vm_compute. reflexivity.
  - vm_compute. reflexivity.
  - exact two_faces.
  - exact two_mesh.
Qed.
Lemma one_mesh : as_navmesh two_lib cut_done = Ok bent.
Proof.
  unfold as_navmesh, as_layer. change (constraints two_lib cut_done) with (constraints bent_lib cut_done). rewrite cut_constraints. cbn [bind inflated agent_radius cut_done]. cbn [cdt two_lib].
  cbn [zlines cut_edges map length Nat.eqb]. rewrite bent_layer.
  - cbn [bind]. unfold bent, zmesh, mesh_default. cbn [search_delta search_steps]. rewrite flit_R. reflexivity.
  - refine (eq_trans (free_accepted bent_sub (inner cut_done) RNone _ _) _). f_equal. apply (free_contains bent_sub _ [bent_hole ++ [zp (0, 0)%Z]] bent_start outer_start). intros h [<-|[]]. exact hole_start.
  - refine (eq_trans (free_accepted bent_sub (inner cut_done) RNone _ _) _). f_equal. apply (free_contains bent_sub _ [bent_hole ++ [zp (0, 0)%Z]] bent_goal outer_goal). intros h [<-|[]]. exact hole_goal.
  - refine (eq_trans (free_accepted bent_sub (inner cut_done) RNone _ _) _). f_equal. apply (free_rejects bent_sub _ (bent_hole ++ [zp (0, 0)%Z]) [bent_hole ++ [zp (0, 0)%Z]] (zp (0, -2)%Z) hole_middle). now left.
Qed.
Lemma one_built : built two_lib cut one_call cut_done (zlines cut_edges) bent.
Proof.
  split.
  - exact (free_nan bent_sub).
  - exact (free_holes bent_sub).
  - split; [reflexivity|]. split; [reflexivity|]. exact cut_closed.
  - intros o [<-|[]] a r E; cbn [bent_hole map] in E; injection E as <- _; now apply veq_vp.
  - left. cbn. lia.
  - exact cut_run.
  - exact cut_constraints.
  - apply subdivision_okb_ok. vm_compute. reflexivity.
  - vm_compute. reflexivity.
  - exact cut_faces.
  - exact one_mesh.
Qed.
Lemma tight_faces_cover : faces_cover tight_sub edge_of_bent.
Proof.
  intros x Hx. destruct (edge_sides x Hx) as (A1 & A2 & A3). destruct x as [x1 x2]. unfold orient, cross, psub, zp in A1, A2, A3. cbn [px py fst snd] in *.
  assert (T : forall f k l, In (mkFace k (vp (zp (snd f))) l) (inner_faces tight_sub) -> Forall2 (fun i q => exists around, nthN (sites tight_sub) i = Some (vp q, around)) l (map zp (fst f)) ->
    inside (map zp (fst f)) (P x1 x2) -> exists f qs, In f (inner_faces tight_sub) /\ Forall2 (fun i q => exists around, nthN (sites tight_sub) i = Some (vp q, around)) (fverts f) qs /\ inside qs (P x1 x2)).
  { intros f k l H1 H2 H3. eexists. exists (map zp (fst f)). split; [exact H1|]. split; [exact H2|exact H3]. }
  Ltac in_face := intros a b Hab; rewrite zedges_map in Hab; apply in_map_iff in Hab; destruct Hab as ([u w] & E & Hu); cbn [fst snd] in E; injection E as <- <-; vm_compute in Hu;
    destruct Hu as [K|[K|[K|[]]]]; injection K as <- <-; unfold orient, cross, psub, zp; cbn [px py fst snd]; lra.
  Ltac put T f k l := apply (T f k l); [unfold tight_sub; cbn [inner_faces In]; auto 10|repeat (apply Forall2_cons; [eexists; reflexivity|]); apply Forall2_nil|in_face].
  destruct (Rle_lt_dec 0 (9 * x2 + 4 * x1)) as [HA|HA], (Rle_lt_dec 0 (9 * x1 - x2)) as [HBx|HBx], (Rle_lt_dec 0 (8 * x2 - 5 * x1)) as [HC|HC];
    first [exfalso; lra|put T tri1 1%N [0; 1; 2]%N|put T tri3 4%N [0; 3; 1]%N|
      destruct (Rle_lt_dec 0 (- 3 * x2 - x1)) as [HX|HX]; [destruct (Rle_lt_dec 0 (6 * x1 - 5 * x2 + 23 / 3)); [put T t3 3%N [0; 4; 3]%N|put T t5 5%N [2; 3; 4]%N]|
        destruct (Rle_lt_dec 0 (8 * x1 - 4 * x2 + 28 / 3)); [put T t2 2%N [0; 2; 4]%N|put T t5 5%N [2; 3; 4]%N]]].
Qed.
Lemma one_cut_out : cut_out two_lib edge_of_bent cut one_call bent.
Proof.
  split.
  - exists cut_done, (zlines cut_edges). split; [exact one_built|]. exact bent_faces_cover.
  - reflexivity.
  - unfold cut, from_outer_edges, geo_new. cbn [inner exterior agent_radius edge_used]. symmetry. exact close_outer.
  - intros holes x _ H1 H2. exact (free_contains bent_sub edge_of_bent holes x H1 H2).
  - exact (free_only bent_sub).
  - intros o r [<-|[]] Hr. cbn [cut from_outer_edges agent_radius outline] in Hr. rewrite close_hole in Hr. exists closed_hole. split; [exact Hr|exact (free_finds bent_sub closed_hole)].
  - exact bent_small.
Qed.
Lemma tight_small : mesh_small tight.
Proof. apply mesh_smallb_ok. reflexivity. Qed.
Lemma two_cut_out : cut_out two_lib edge_of_bent cut two_calls tight.
Proof.
  split.
  - exists two_done, (zlines two_edges). split; [exact two_built|]. exact tight_faces_cover.
  - reflexivity.
  - unfold cut, from_outer_edges, geo_new. cbn [inner exterior agent_radius edge_used]. symmetry. exact close_outer.
  - intros holes x _ H1 H2. exact (free_contains bent_sub edge_of_bent holes x H1 H2).
  - exact (free_only bent_sub).
  - intros o r [<-|[<-|[]]] Hr; cbn [cut from_outer_edges agent_radius outline] in Hr.
    + rewrite close_second in Hr. exists closed_second. split; [exact Hr|exact (free_finds bent_sub closed_second)].
    + rewrite close_hole in Hr. exists closed_hole. split; [exact Hr|exact (free_finds bent_sub closed_hole)].
  - exact tight_small.
Qed.
Lemma bent_asked : asked std_lib bent bent_start bent_goal 0 1.
Proof.
  destruct ex_C64 as (H1 & H2 & H3 & H4 & H5 & H6 & H7 & H8 & H9 & _ & H11 & H12 & H13 & L & HL).
  split; auto; [exact bent_proper|reflexivity|split; [exact H7|discriminate]|split; [exact H8|discriminate]].
Qed.
Lemma tight_asked : asked std_lib tight bent_start bent_goal 0 2.
Proof.
  split.
  - apply zm_proper; [apply tight_small|vm_compute; reflexivity..].
  - apply (zm_wf tight_vs tight_ps); vm_compute; reflexivity.
  - apply zm_real.
  - apply (zm_border tight_vs tight_ps 3); vm_compute; reflexivity.
  - reflexivity.
  - split; [apply (zm_location tight_vs tight_ps); vm_compute; reflexivity|discriminate].
  - split; [apply (zm_location tight_vs tight_ps); vm_compute; reflexivity|discriminate].
  - reflexivity.
Qed.
Lemma one_in_two : incl (added one_call) (added two_calls).
Proof. intros o [<-|[]]. right. now left. Qed.

Example ex_C89 : (forall x, covered tight x -> covered bent x) /\ (exists x, covered bent x /\ ~ covered tight x).
Proof.
  split; [exact (C89_more_obstacles_less_area two_lib cut cut one_call two_calls bent tight edge_of_bent one_cut_out two_cut_out eq_refl one_in_two)|].
  exists (zp (-4, 0)%Z). split.
  - apply (C89_area_is_the_free_space two_lib cut one_call bent edge_of_bent one_cut_out). intros rad Hrad. exists (zp (-4, 0)%Z). split; [rewrite dist_refl; exact Hrad|].
    apply free_here; unfold orient, cross, psub, zp; cbn [px py fst snd]; lra.
  - intros (id & qs & HC & HI). apply zm_corners in HC. destruct HC as (_ & HC & ->). change (lengthN tight_ps) with 3%N in HC.
    assert (id_polygon id = 0 \/ id_polygon id = 1 \/ id_polygon id = 2)%N as E by lia.
    assert (G : forallb (fun e => (0 <=? zor (fst e) (snd e) (-4, 0))%Z) (zedges (zs_at tight_vs tight_ps id)) = true).
    { apply forallb_forall. intros e He. apply Z.leb_le, le_IZR. specialize (HI (zp (fst e)) (zp (snd e))). rewrite zor_R in HI. unfold zor.
      cut (0 <= IZR (zor (fst e) (snd e) (-4, 0)%Z) / 9); [intro; unfold zor in *; lra|]. apply HI. rewrite zedges_map. apply in_map_iff. exists e. auto. }
    unfold zs_at in G. destruct E as [E|[E|E]]; rewrite E in G; vm_compute in G; discriminate G.
Qed.
Lemma detour_free_too : polyline_in (in_free_space two_lib (agent_radius cut) edge_of_bent (added two_calls)) bent_start detour.
Proof.
  assert (HA : forall x, 8 * px x - 4 * py x + 28 / 3 > 0 -> in_free_space bent_lib (agent_radius cut) edge_of_bent (added one_call) x -> in_free_space two_lib (agent_radius cut) edge_of_bent (added two_calls) x).
  { intros x Hx (H1 & H2 & H3). split; [exact H1|]. split; [exact H2|]. intros o r [<-|[<-|[]]] Hr; cbn [cut from_outer_edges agent_radius outline] in Hr.
    - rewrite close_second in Hr. apply map_vp_inj in Hr. rewrite Hr. apply (beyond _ _ (P 8 (-4)) (-28 / 3)); [|unfold pdot; cbn [px py]; lra]. intros p Hp. corners_of Hp.
    - apply (H3 (map vp bent_hole) r); [now left|]. exact Hr. }
  pose proof detour_free as HD. unfold detour in *. cbn [polyline_in] in *. destruct HD as (D1 & D2 & D3).
  split; [intros t Ht; apply HA; [|now apply D1]|split; [intros t Ht; apply HA; [|now apply D2]|apply HA; [|exact D3]]];
    unfold lerp, padd, pscale, psub, bent_start, bent_goal, zp; cbn [px py fst snd]; lra.
Qed.
Example ex_C89_future : exists k log path d k' log' path' d',
  poll_times k std_lib (get_path bent (vp bent_start) (vp bent_goal)) = Ok (Some (Some path), log) /\ plength path = Some d /\
  poll_times k' std_lib (get_path tight (vp bent_start) (vp bent_goal)) = Ok (Some (Some path'), log') /\ plength path' = Some d' /\ d <= d'.
Proof.
  destruct (C89_fewer_obstacles_still_reachable two_lib cut cut one_call two_calls bent tight edge_of_bent std_lib bent_start bent_goal 0 1 0 2 one_cut_out two_cut_out eq_refl one_in_two bent_asked tight_asked)
    as (k & log & r & k' & log' & r' & E & E' & H).
  destruct (co_built _ _ _ _ _ two_cut_out) as (t & c & HBu & HV). pose proof tight_asked as [HP Hwf HR Hbd Hpe [L1 N1] [L2 N2] Hisl].
  destruct (C88_way_is_found two_lib cut two_calls t c tight edge_of_bent std_lib bent_start bent_goal 0 2 detour HBu eq_refl (co_outer _ _ _ _ _ two_cut_out) HV (co_finds _ _ _ _ _ two_cut_out))
    as (k1 & log1 & path1 & d1 & F1 & F2 & F3); auto; [|exact detour_free_too|].
  { intros o r0 H1 H2. destruct (co_numbers _ _ _ _ _ two_cut_out o r0 H1 H2) as (r1 & -> & _). now exists r1. }
  pose proof (polls_agree std_lib _ k' k1 r' (Some path1) log' log1 E' F1) as ER. destruct (H path1 ER) as (path & d & d' & G1 & G2 & G3 & G4).
  exists k, log, path, d, k', log', path1, d'. rewrite G1 in E. rewrite ER in E'. auto.
Qed.
