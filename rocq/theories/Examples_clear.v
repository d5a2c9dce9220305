(** C94 is not vacuous: a library that meets the contracts, an agent radius on the outer edge, and a mesh that keeps away from it.  (The union of this library
    is coarse: a box around the two polygons.  Once three sides are drawn, the triangle [edge_of_bent] is the hole, if it is clear of both polygons.) *)
From Coq Require Import List NArith ZArith Bool Lia Reals Lra Psatz Classical.
From Verif Require Import Base Arith U32 Mesh Helpers Locate Search AsyncPath StdLib Spec Triangulation Spec_triangulation RealArith Geometry Search_props Checkers
  Inflate_facts Properties_triangulation Properties_inflate Spec_outline Enclose Capsule Properties_outline Examples_exact Spec_inside Examples_inside Spec_shortest
  Properties_shortest Zmesh Examples_shortest Spec_area Properties_area Properties_complete Zarea Examples_area Examples_complete Spec_free Properties_free Examples_free Spec_freespace Properties_freespace
  Examples_freespace Properties_order Examples_order Spec_outer Properties_outer.
From Verif Require Import Spec_outline Properties_geometry F32_facts Shortest_nodes.
Import ListNotations.
Open Scope R_scope.

Definition lone_vs : list (zpt * list N) := [((9, -4)%Z, [0; MAX]%N); ((1, 9)%Z, [0; MAX]%N); ((-8, -5)%Z, [0; MAX]%N)].
Definition lone_ps : list (list N) := [[0; 1; 2]%N].
Definition lone : Mesh RA := zmesh lone_vs lone_ps.
Definition lone_sub : Subdivision RA :=
  mkSub [mkFace 1 (vp (zp (0, 0)%Z)) [0; 1; 2]%N] [(vp (zp (9, -4)%Z), [1; 0]%N); (vp (zp (1, 9)%Z), [1; 0]%N); (vp (zp (-8, -5)%Z), [1; 0]%N)].
Definition lone_clear (a b : ring RA) : Prop :=
  length a = 5%nat /\ forall a' b', a = map vp a' -> b = map vp b' -> forall x rad, 0 < rad -> (forall y, dist x y < rad -> enclosed a' y \/ enclosed b' y) -> ~ enclosed edge_of_bent x.
Definition lone_holes (a b : ring RA) : list (ring RA) := if dec (lone_clear a b) then [map vp edge_of_bent] else [].
Definition lone_lib : TriLib RA :=
  mkTriLib (fun _ r => r) (fun a b => [(map vp (box (a ++ b)), lone_holes a b)]) (fun g x => enc (exterior g) x && negb (existsb (fun r => enc r x) (interiors g)))
    (fun p => match vx p, vy p with Some _, Some _ => true | _, _ => false end) (fun _ => lone_sub)
    (atan2 real_lib) (hypot real_lib) (sign_negative real_lib) (finder real_lib).

Lemma lone_trig : real_trig lone_lib.
Proof. exact real_lib_trig. Qed.
Lemma lone_union : union_ok lone_lib.
Proof.
  intros a b y rad Ha Hb Hrad H. destruct (box_union a b y rad Ha Hb Hrad H) as (ext & holes & others & E & C & K).
  exists ext, (lone_holes (map vp a) (map vp b)), []. split; [|split; [exact C|exact K]].
  cbn [union box_lib] in E. cbn [union lone_lib]. do 2 f_equal. congruence.
Qed.
Lemma lone_holes_ok : holes_ok lone_lib.
Proof.
  intros a b ext holes others Ha Hb E h Hh. cbn [union lone_lib] in E. assert (holes = lone_holes (map vp a) (map vp b)) as -> by congruence.
  unfold lone_holes in Hh. destruct (dec (lone_clear (map vp a) (map vp b))) eqn:D; [|destruct Hh]. destruct Hh as [<-|[]]. apply (proj1 (dec_true _)) in D. destruct D as [_ D].
  exists edge_of_bent. split; [reflexivity|]. split; [apply closed_snoc|]. exact (D a b eq_refl eq_refl).
Qed.

(** what the user writes: the outer edge is a triangle with sides of 5, 4 and 3 *)
Definition lone0 : Triangulation RA := agent_radius_on_outer_edge (set_agent_radius (from_outer_edges (map vp far_hole)) (rr (1 / 2))) true.
Lemma lone_ext : exterior (inner lone0) = map vp Examples_free.far_ring.
Proof. unfold lone0, agent_radius_on_outer_edge, set_agent_radius, from_outer_edges, with_radius, geo_new. cbn [inner exterior]. exact far_close. Qed.
Lemma lone_radius : agent_radius lone0 = REverything (rr (1 / 2)) 5 (rr 0).
Proof. unfold lone0, agent_radius_on_outer_edge, set_agent_radius, from_outer_edges, with_radius. cbn [agent_radius]. rewrite fz_R. reflexivity. Qed.

Lemma lone_side b acc x y : (exists r, fst acc = map vp r /\ r <> [] /\ right_of b r) -> x <> y -> b <= px x - 1 / 2 -> b <= px y - 1 / 2 ->
  exists r ra rb, union_with lone_lib acc (vp x, vp y) (rr (1 / 2)) 5 = Ok (map vp r, snd acc ++ lone_holes (map vp ra) (map vp rb)) /\
    close (fst acc) = map vp ra /\ right_of b ra /\ right_of b rb /\ r <> [] /\ closed r /\ right_of (b - 1) r /\ length r = 5%nat.
Proof.
  intros (r & Er & Nr & Hr) Hxy Hx Hy. destruct (capsule_right lone_lib x y (1 / 2) 5 (b + 1 / 2) lone_trig Hxy) as (ps & E & Np & Hp); [lra|lia|lra|lra|].
  destruct (close_right b r Hr) as (r1 & C1 & R1 & N1). destruct (close_right b ps) as (r2 & C2 & R2 & N2); [intros q Hq; specialize (Hp q Hq); lra|].
  destruct acc as [ra ha]. cbn [fst snd] in Er |- *. unfold union_with. rewrite E. cbn [bind fst snd]. rewrite Er, C1, C2. cbn [union lone_lib].
  exists (box (map vp (r1 ++ r2))), r1, r2. rewrite map_app. split; [reflexivity|]. split; [reflexivity|]. split; [exact R1|]. split; [exact R2|].
  split; [discriminate|]. split; [unfold box; eexists; eexists; split; reflexivity|]. split; [|reflexivity]. rewrite <- map_app. apply box_right.
  - intro K. apply app_eq_nil in K. now apply N1.
  - intros q Hq. apply in_app_or in Hq. destruct Hq as [Hq|Hq]; [now apply R1|now apply R2].
Qed.
Lemma enclosed_right r b y : right_of b r -> enclosed r y -> b <= px y.
Proof.
  intros H E. apply enclosed_hull in E. specialize (E (P (-1) 0) (- b)). unfold pdot in E. cbn [px py] in E. enough (-1 * px y + 0 * py y <= - b) by lra. apply E.
  intros q Hq. specialize (H q Hq). lra.
Qed.
Lemma edge_left y : enclosed edge_of_bent y -> px y <= 9.
Proof.
  intro E. apply enclosed_hull in E. specialize (E (P 1 0) 9). unfold pdot in E. cbn [px py] in E. enough (1 * px y + 0 * py y <= 9) by lra. apply E.
  intros q Hq. unfold edge_of_bent, bent_outer in Hq. cbn [map app In] in Hq. destruct Hq as [<-|[<-|[<-|[<-|[]]]]]; unfold zp; cbn [px py fst snd]; lra.
Qed.
Lemma lone_hole ra rb : right_of 90 ra -> right_of 90 rb -> length ra = 5%nat -> lone_holes (map vp ra) (map vp rb) = [map vp edge_of_bent].
Proof.
  intros H1 H2 L. unfold lone_holes. assert (dec (lone_clear (map vp ra) (map vp rb)) = true) as ->; [|reflexivity]. apply dec_true. split; [now rewrite map_length|].
  intros a' b' E1 E2 x rad Hrad HE K. apply map_vp_inj in E1. apply map_vp_inj in E2. subst a' b'. apply edge_left in K. specialize (HE x). rewrite dist_refl in HE.
  destruct (HE Hrad) as [HE'|HE']; [apply (enclosed_right _ _ _ H1) in HE'|apply (enclosed_right _ _ _ H2) in HE']; lra.
Qed.
Lemma lone_first s e ps : s <> e -> round_line lone_lib (vp s, vp e) (rr (1 / 2)) 5 = Ok ps -> forall b, lone_holes (close ps) b = [].
Proof.
  intros Hse E b. destruct (C53_clearance lone_lib s e (1 / 2) 5 lone_trig Hse) as (qs & E' & L & _); [lra|lia|]. rewrite E' in E. inversion E. subst ps. clear E E'.
  unfold lone_holes. destruct (dec _) eqn:D; [|reflexivity]. apply (proj1 (dec_true _)) in D. destruct D as [D _]. exfalso. revert D.
  assert (length qs = 12%nat) as K by (rewrite L; reflexivity). unfold close. destruct qs as [|q qs]; [discriminate K|]. cbn [map]. destruct (is_closed _); [|rewrite app_length]; cbn [length] in *; rewrite ?map_length; lia.
Qed.
Lemma far_ne a b c e : a <> c \/ b <> e -> P a b <> P c e.
Proof. intros H E. injection E as E1 E2. destruct H; auto. Qed.
Lemma lone_early e hs : drawn lone_lib (1 / 2) 5 (pairs [P 100 0; P 103 4; P 103 0]) e hs -> hs = [].
Proof.
  cbn [pairs drawn map fst snd foldM]. intros (first & E1 & E2).
  destruct (union_with lone_lib (first, []) (vp (P 103 4), vp (P 103 0)) (rr (1 / 2)) 5) as [o| | |] eqn:E; try discriminate E2. cbn [bind] in E2. inversion E2; subst o. clear E2.
  unfold union_with in E. cbn [fst snd] in E. destruct (round_line lone_lib (vp (P 103 4), vp (P 103 0)) (rr (1 / 2)) 5) as [c| | |] eqn:Ec; try discriminate E. cbn [bind union lone_lib] in E.
  rewrite (lone_first _ _ _ (far_ne 100 0 103 4 ltac:(left; lra)) E1) in E. inversion E. reflexivity.
Qed.
Lemma lone_inflate : exists r, inflate_ring lone_lib (map vp Examples_free.far_ring) (rr (1 / 2)) 5 = Ok (map vp r, [map vp edge_of_bent]).
Proof.
  destruct (capsule_right lone_lib (P 100 0) (P 103 4) (1 / 2) 5 100 lone_trig) as (r1 & E1 & N1 & R1); [apply far_ne; left; lra|lra|lia|cbn [px]; lra|cbn [px]; lra|].
  destruct (lone_side 99 (map vp r1, []) (P 103 4) (P 103 0)) as (r2 & ra & rb & E2 & C2 & Ra & Rb & N2 & Cl2 & R2 & L2); [|apply far_ne; right; lra|cbn [px]; lra|cbn [px]; lra|].
  { exists r1. split; [reflexivity|]. split; [exact N1|]. intros q Hq. specialize (R1 q Hq). lra. }
  assert (lone_holes (map vp ra) (map vp rb) = []) as K by (rewrite <- C2; cbn [fst]; exact (lone_first _ _ _ (far_ne 100 0 103 4 ltac:(left; lra)) E1 _)).
  rewrite K in E2. cbn [snd app] in E2.
  destruct (lone_side 98 (map vp r2, []) (P 103 0) (P 100 0)) as (r3 & rc & rd & E3 & C3 & Rc & Rd & N3 & Cl3 & R3 & L3); [|apply far_ne; left; lra|cbn [px]; lra|cbn [px]; lra|].
  { exists r2. split; [reflexivity|]. split; [exact N2|]. intros q Hq. specialize (R2 q Hq). lra. }
  assert (length rc = 5%nat) as Lc. { cbn [fst] in C3. rewrite (close_closed r2 Cl2) in C3. apply map_vp_inj in C3. congruence. }
  assert (lone_holes (map vp rc) (map vp rd) = [map vp edge_of_bent]) as K3. { apply lone_hole; [intros q Hq; specialize (Rc q Hq); lra|intros q Hq; specialize (Rd q Hq); lra|exact Lc]. }
  rewrite K3 in E3. cbn [snd app] in E3. exists r3.
  unfold inflate_ring. cbn [Examples_free.far_ring far_hole app map ring_lines]. rewrite E1. cbn [bind].
  match goal with |- context [foldM ?f ?a ?l] => assert (foldM f a l = Ok (map vp r3, [map vp edge_of_bent])) as K2 end.
  { cbn [foldM]. refine (eq_trans (f_equal (fun z => bind z _) E2) _). cbn [bind]. refine (eq_trans (f_equal (fun z => bind z _) E3) _). reflexivity. }
  rewrite K2. cbn [bind].
  assert (is_closed (map vp Examples_free.far_ring) = true) as KC. { unfold is_closed. cbn [Examples_free.far_ring far_hole app map last]. now apply veq_vp. }
  cbn [Examples_free.far_ring far_hole app map] in KC. rewrite KC. reflexivity.
Qed.
Lemma lone_grown p : inflate lone_lib (inner lone0) (rr (1 / 2)) 5 p = Ok (mkGeo (map vp edge_of_bent) []).
Proof.
  destruct lone_inflate as (r & E). unfold inflate. rewrite lone_ext, E. cbn [bind snd map]. change (interiors (inner lone0)) with (@nil (ring RA)).
  unfold inflate_obstacles. change (interiors (inner lone0)) with (@nil (ring RA)). cbn [mapM bind].
  assert (close (map vp edge_of_bent) = map vp edge_of_bent) as C by (apply close_closed, closed_snoc). rewrite C.
  change (index [map vp edge_of_bent] 0) with (Ok (map vp edge_of_bent)). cbn [bind interiors geo_new map]. rewrite C. reflexivity.
Qed.
Definition lone_edges : list (zpt * zpt) := [((9, -4), (-8, -5)); ((-8, -5), (1, 9)); ((1, 9), (9, -4))]%Z.
Lemma lone_inflated : inflated lone_lib lone0 = Ok (mkGeo (map vp edge_of_bent) []).
Proof. unfold inflated. rewrite lone_radius, far_enough. apply lone_grown. Qed.
Lemma lone_constraints : constraints lone_lib lone0 = Ok (zlines lone_edges).
Proof.
  unfold constraints, initial_constraints. rewrite lone_inflated. change (prebuilt lone0) with (@None (GeoPolygon RA * list (vec2 RA * vec2 RA))). rewrite lone_radius, far_enough, lone_grown. cbn [bind exterior]. reflexivity.
Qed.
Definition whole : list zpt * zpt := ([(9, -4); (1, 9); (-8, -5)], (0, 0))%Z.
Lemma outer_middle : enclosed edge_of_bent (zp (0, 0)%Z).
Proof. unfold edge_of_bent, bent_outer. cbn [map app]. sides. Qed.
Lemma lone_layer (acc : vec2 RA -> res bool) : acc (vp (zp (0, 0)%Z)) = Ok true -> layer_of_subdivision acc lone_sub = Ok (zlayer lone_vs lone_ps).
Proof. intros H. unfold layer_of_subdivision, lone_sub. cbn [inner_faces sites foldM list_face fcenter]. rewrite H. cbn. rewrite vzero_vp. reflexivity. Qed.
Lemma lone_mesh : as_navmesh lone_lib lone0 = Ok lone.
Proof.
  unfold as_navmesh, as_layer. rewrite lone_constraints. cbn [bind]. rewrite lone_inflated. cbn [bind]. cbn [cdt lone_lib]. rewrite lone_layer.
  - cbn [bind]. unfold lone, zmesh, mesh_default. cbn [search_delta search_steps]. rewrite flit_R. reflexivity.
  - refine (eq_trans (free_accepted lone_sub (inner lone0) RNone (mkGeo (map vp edge_of_bent) []) _) _). f_equal. apply (free_contains lone_sub _ [] (zp (0, 0)%Z) outer_middle). intros h [].
Qed.
Lemma lone_built : built lone_lib lone0 [] lone0 (zlines lone_edges) lone.
Proof.
  split.
  - exact (free_nan lone_sub).
  - exact (free_holes lone_sub).
  - split; [reflexivity|]. split; [reflexivity|]. rewrite lone_ext. apply close_closed. apply closed_snoc.
  - intros o [].
  - left. cbn. lia.
  - reflexivity.
  - exact lone_constraints.
  - apply subdivision_okb_ok. vm_compute. reflexivity.
  - vm_compute. reflexivity.
  - intros f [<-|[]]. exists (map zp (fst whole)), (zp (snd whole)). split; [repeat (apply Forall2_cons; [eexists; reflexivity|]); apply Forall2_nil|]. split; [reflexivity|].
    split; [now apply (zlist_centre lone_edges)|]. apply (zlist_lines lone_edges). vm_compute. reflexivity.
  - exact lone_mesh.
Qed.
Example ex_C94 : (exists x, covered lone x) /\ forall x, covered lone x -> forall a b k, In (a, b) (pairs Examples_free.far_ring) -> 0 <= k <= 1 ->
  1 / 2 * cos (PI / (2 * 5)) <= dist x (lerp a b k).
Proof.
  split.
  - exists (zp (0, 0)%Z). exists 0%N, (map zp (fst whole)). split.
    + exact (zm_corners_at lone_vs lone_ps 0 ltac:(vm_compute; reflexivity) eq_refl ltac:(vm_compute; reflexivity)).
    + apply strictly_is_inside. apply (zlist_centre lone_edges whole). vm_compute. reflexivity.
  - exact (C94_area_keeps_distance_from_outer_edge lone_lib lone0 [] lone0 _ lone (1 / 2) 0 5 (P 100 0) (P 103 4) [P 103 0] lone_built eq_refl lone_radius ltac:(lra) ltac:(lia)
      lone_trig lone_union lone_holes_ok (free_only lone_sub) lone_ext lone_early).
Qed.
(** a query on that mesh, with what C94 says about its path *)
Definition lone_start : P2 := zp (1, 1)%Z.
Definition lone_goal : P2 := zp (-2, -3)%Z.
Lemma lone_ids_b : zidsb lone_vs lone_ps = true. Proof. vm_compute. reflexivity. Qed.
Lemma lone_plane_b : zplaneb lone_vs lone_ps = true. Proof. vm_compute. reflexivity. Qed.
Lemma lone_generic : generic lone lone_start 0 0 lone_goal.
Proof. apply (zm_generic lone_vs lone_ps (1, 1)%Z (-2, -3)%Z 0 0); vm_compute; reflexivity. Qed.
Example ex_C94_path : exists path pts, path_on_layers std_lib lone (in_polygon lone_start 0) (in_polygon lone_goal 0) [] = Ok (Some path) /\ ppath path = map vp pts /\ pts = [lone_goal] /\
  polyline_in (fun x => forall a b k, In (a, b) (pairs Examples_free.far_ring) -> 0 <= k <= 1 -> 1 / 2 * cos (PI / (2 * 5)) <= dist x (lerp a b k)) lone_start pts.
Proof.
  assert (exists p, path_on_layers std_lib lone (in_polygon lone_start 0) (in_polygon lone_goal 0) [] = Ok (Some p) /\ ppath p = [vp lone_goal]) as (p & H1 & H2) by (eexists; split; reflexivity).
  destruct (C94_path_keeps_distance_from_outer_edge lone_lib lone0 [] lone0 (zlines lone_edges) lone (1 / 2) 0 5 (P 100 0) (P 103 4) [P 103 0] std_lib (in_polygon lone_start 0) (in_polygon lone_goal 0) [] p
    lone_start lone_goal 0 0 lone_built eq_refl lone_radius) as (pts & E & HP).
  - lra.
  - lia.
  - exact lone_trig.
  - exact lone_union.
  - exact lone_holes_ok.
  - exact (free_only lone_sub).
  - exact lone_ext.
  - exact lone_early.
  - apply pop_ok_perm. apply std_pop_ok, RA_total_ok.
  - apply mesh_smallb_ok. reflexivity.
  - exact (zm_plane _ _ lone_plane_b).
  - exact (zm_u32 _ _ lone_ids_b).
  - reflexivity.
  - reflexivity.
  - reflexivity.
  - now apply at_polygon.
  - now apply at_polygon.
  - destruct (ge_start _ _ _ _ _ lone_generic) as (qs & Q1 & Q2). exists qs. split; [exact Q1|]. intros a b Hab. apply Rlt_le. now apply Q2.
  - exact (generic_steady _ _ _ _ _ lone_generic).
  - exact (generic_goal _ _ _ _ _ lone_generic).
  - exact H1.
  - exists p, pts. split; [exact H1|]. split; [exact E|]. split; [|exact HP]. apply map_vp_inj. rewrite <- E. exact H2.
Qed.
