(** C76, C88 and C89 are not vacuous with the agent radius on the outer edge: a wide triangle whose edge and whose obstacle are drawn thick.
    The union of this library is a stub, its answer is [bent_hole] with the hole [edge_of_bent], so that the mesh is again [bent]. *)
From Coq Require Import List NArith ZArith Bool Lia Reals Lra Psatz.
From Verif Require Import Base Arith U32 Mesh Helpers Locate Search AsyncPath StdLib Spec Triangulation Spec_triangulation RealArith Geometry Search_props Checkers
  Inflate_facts Properties_triangulation Properties_inflate Spec_outline Enclose Capsule Properties_outline Examples_exact Spec_inside Examples_inside Spec_shortest
  Properties_shortest Zmesh Examples_shortest Spec_area Properties_area Properties_complete Zarea Examples_area Examples_complete Spec_free Properties_free Examples_free Spec_freespace Properties_freespace
  Examples_freespace Properties_order Examples_order.
From Verif Require Import Spec_outline Properties_geometry.
Import ListNotations.
Open Scope R_scope.

Definition thick_lib : TriLib RA :=
  mkTriLib (fun _ r => r) (fun _ _ => [(map vp closed_hole, [map vp edge_of_bent])]) (fun g x => enc (exterior g) x && negb (existsb (fun r => enc r x) (interiors g)))
    (fun p => match vx p, vy p with Some _, Some _ => true | _, _ => false end) (fun _ => bent_sub)
    (atan2 real_lib) (hypot real_lib) (sign_negative real_lib) (finder real_lib).
Definition wide : list P2 := map zp [(30, -20); (-30, -20); (1, 40)]%Z.
Definition wide_ring : list P2 := wide ++ [zp (30, -20)%Z].
Definition thin_hole : list P2 := map zp [(0, -2); (1, -3); (-1, -3)]%Z.
Definition thin_ring : list P2 := thin_hole ++ [zp (0, -2)%Z].
(** what the user writes *)
Definition thick0 : Triangulation RA := agent_radius_on_outer_edge (set_agent_radius (from_outer_edges (map vp wide)) (rr (1 / 2))) true.
Definition thick_calls : list (@call RA) := [AddObstacle (map vp thin_hole)].

Lemma close_wide : close (map vp wide) = map vp wide_ring.
Proof. apply (close_open (zp (30, -20)%Z) (map zp [(-30, -20); (1, 40)]%Z)). cbn [map last]. apply zp_ne. discriminate. Qed.
Lemma close_thin : close (map vp thin_hole) = map vp thin_ring.
Proof. apply (close_open (zp (0, -2)%Z) (map zp [(1, -3); (-1, -3)]%Z)). cbn [map last]. apply zp_ne. discriminate. Qed.
Lemma thick_radius : agent_radius thick0 = REverything (rr (1 / 2)) 5 (rr 0).
Proof. unfold thick0, agent_radius_on_outer_edge, set_agent_radius, from_outer_edges, with_radius. cbn [agent_radius]. rewrite fz_R. reflexivity. Qed.
Lemma thick_ext : exterior (inner thick0) = map vp wide_ring.
Proof. unfold thick0, agent_radius_on_outer_edge, set_agent_radius, from_outer_edges, with_radius, geo_new. cbn [inner exterior]. exact close_wide. Qed.
Definition thick_done : Triangulation RA := mkTri (mkGeo (map vp wide_ring) [map vp thin_ring]) None None (REverything (rr (1 / 2)) 5 (rr 0)).
Lemma thick_run : run_calls thick_lib thick0 thick_calls = Ok thick_done.
Proof.
  unfold run_calls, thick_calls. cbn [foldM apply_call bind]. f_equal. unfold add_obstacle, with_inner, thick_done. rewrite thick_radius. f_equal.
  unfold interiors_push. rewrite thick_ext, close_thin. reflexivity.
Qed.
Lemma thick_trig : real_trig thick_lib.
Proof. exact real_lib_trig. Qed.
Lemma thick_union acc x y : x <> y -> union_with thick_lib acc (vp x, vp y) (rr (1 / 2)) 5 = Ok (map vp closed_hole, snd acc ++ [map vp edge_of_bent]).
Proof.
  intro H. destruct (C53_clearance thick_lib x y (1 / 2) 5 thick_trig H) as (ps & E & _); [lra|lia|]. unfold union_with. rewrite E. reflexivity.
Qed.
(** the line around a triangle, drawn thick *)
Lemma thick_inflate a b c : a <> b -> b <> c -> c <> a ->
  inflate_ring thick_lib (map vp [a; b; c; a]) (rr (1 / 2)) 5 = Ok (map vp closed_hole, [map vp edge_of_bent; map vp edge_of_bent]).
Proof.
  intros H1 H2 H3. destruct (C53_clearance thick_lib a b (1 / 2) 5 thick_trig H1) as (ps & E & _); [lra|lia|].
  unfold inflate_ring. cbn [map ring_lines]. rewrite E. cbn [bind].
  match goal with |- context [foldM ?f ?s ?l] => assert (foldM f s l = Ok (map vp closed_hole, [map vp edge_of_bent; map vp edge_of_bent])) as K end.
  { cbn [foldM]. rewrite thick_union by exact H2. cbn [bind snd app]. rewrite thick_union by exact H3. reflexivity. }
  rewrite K. cbn [bind].
  assert (is_closed (map vp [a; b; c; a]) = true) as C. { unfold is_closed. cbn [map last]. now apply veq_vp. }
  cbn [map] in C. rewrite C. reflexivity.
Qed.
Lemma thick_wide : inflate_ring thick_lib (map vp wide_ring) (rr (1 / 2)) 5 = Ok (map vp closed_hole, [map vp edge_of_bent; map vp edge_of_bent]).
Proof. apply thick_inflate; apply zp_ne; discriminate. Qed.
Lemma thick_thin : inflate_ring thick_lib (map vp thin_ring) (rr (1 / 2)) 5 = Ok (map vp closed_hole, [map vp edge_of_bent; map vp edge_of_bent]).
Proof. apply thick_inflate; apply zp_ne; discriminate. Qed.
Lemma close_edge : close (map vp edge_of_bent) = map vp edge_of_bent.
Proof. apply close_closed. apply closed_snoc. Qed.
Lemma close_closed_hole : close (map vp closed_hole) = map vp closed_hole.
Proof. apply close_closed. apply closed_snoc. Qed.
Lemma thick_edge : edge_used thick_lib (agent_radius thick0) (exterior (inner thick0)) (map vp edge_of_bent).
Proof.
  rewrite thick_radius, thick_ext. cbn [edge_used]. rewrite far_enough. eexists. exists (map vp edge_of_bent). split; [exact thick_wide|]. split; [reflexivity|]. symmetry. exact close_edge.
Qed.
Lemma thick_outline o r : In o (added thick_calls) -> outline thick_lib (agent_radius thick0) o r -> r = map vp closed_hole.
Proof.
  intros [<-|[]] H. rewrite thick_radius in H. cbn [outline] in H. rewrite far_enough, close_thin in H. destruct H as (i & E & ->). rewrite thick_thin in E. injection E as <-.
  cbn [fst simplify_vw thick_lib]. exact close_closed_hole.
Qed.
Lemma thick_obstacles g : interiors g = [map vp thin_ring] -> exterior g = map vp wide_ring -> forall p, inflate_obstacles thick_lib g (rr (1 / 2)) 5 p = Ok (mkGeo (map vp wide_ring) [map vp closed_hole]).
Proof.
  intros H1 H2 p. unfold inflate_obstacles. rewrite H1, H2. cbn [mapM]. rewrite thick_thin. cbn [bind fst simplify_vw thick_lib]. unfold geo_new. cbn [map]. rewrite close_closed_hole.
  rewrite (close_closed wide_ring) by apply closed_snoc. reflexivity.
Qed.
Lemma thick_grown g : interiors g = [map vp thin_ring] -> exterior g = map vp wide_ring -> forall p, inflate thick_lib g (rr (1 / 2)) 5 p = Ok (mkGeo (map vp edge_of_bent) [map vp closed_hole]).
Proof.
  intros H1 H2 p. unfold inflate. rewrite H2, thick_wide. cbn [bind]. rewrite (thick_obstacles g H1 H2 p). cbn [bind snd map].
  rewrite close_edge. change (index [map vp edge_of_bent; map vp edge_of_bent] 0) with (Ok (map vp edge_of_bent)). cbn [bind interiors]. rewrite close_edge. reflexivity.
Qed.
Lemma thick_inflated : inflated thick_lib thick_done = Ok (mkGeo (map vp edge_of_bent) [map vp closed_hole]).
Proof. unfold inflated, thick_done. cbn [agent_radius]. rewrite far_enough. apply thick_grown; reflexivity. Qed.
Lemma thick_constraints : constraints thick_lib thick_done = Ok (zlines cut_edges).
Proof.
  unfold constraints, initial_constraints. rewrite thick_inflated. unfold thick_done. cbn [prebuilt agent_radius base_layer inner]. rewrite far_enough. rewrite thick_grown by reflexivity. cbn [bind exterior].
  reflexivity.
Qed.
Lemma thick_mesh : as_navmesh thick_lib thick_done = Ok bent.
Proof.
  unfold as_navmesh, as_layer. rewrite thick_constraints. cbn [bind]. rewrite thick_inflated. cbn [bind]. cbn [cdt thick_lib].
  rewrite bent_layer.
  - cbn [bind]. unfold bent, zmesh, mesh_default. cbn [search_delta search_steps]. rewrite flit_R. reflexivity.
  - refine (eq_trans (free_accepted bent_sub (inner cut_done) RNone (mkGeo (map vp edge_of_bent) [map vp closed_hole]) _) _). f_equal. apply (free_contains bent_sub _ [closed_hole] bent_start outer_start). intros h [<-|[]]. exact hole_start.
  - refine (eq_trans (free_accepted bent_sub (inner cut_done) RNone (mkGeo (map vp edge_of_bent) [map vp closed_hole]) _) _). f_equal. apply (free_contains bent_sub _ [closed_hole] bent_goal outer_goal). intros h [<-|[]]. exact hole_goal.
  - refine (eq_trans (free_accepted bent_sub (inner cut_done) RNone (mkGeo (map vp edge_of_bent) [map vp closed_hole]) _) _). f_equal. apply (free_rejects bent_sub _ closed_hole [closed_hole] (zp (0, -2)%Z) hole_middle). now left.
Qed.
Lemma thick_built : built thick_lib thick0 thick_calls thick_done (zlines cut_edges) bent.
Proof.
  split.
  - exact (free_nan bent_sub).
  - exact (free_holes bent_sub).
  - split; [reflexivity|]. split; [reflexivity|]. rewrite thick_ext. apply close_closed. apply closed_snoc.
  - intros o [<-|[]] a r E. cbn [thin_hole map] in E. injection E as <- _. now apply veq_vp.
  - left. cbn. lia.
  - exact thick_run.
  - exact thick_constraints.
  - apply subdivision_okb_ok. vm_compute. reflexivity.
  - vm_compute. reflexivity.
  - exact cut_faces.
  - exact thick_mesh.
Qed.
Lemma thick_cut_out : cut_out thick_lib edge_of_bent thick0 thick_calls bent.
Proof.
  split.
  - exists thick_done, (zlines cut_edges). split; [exact thick_built|]. exact bent_faces_cover.
  - reflexivity.
  - exact thick_edge.
  - intros holes x _ H1 H2. exact (free_contains bent_sub edge_of_bent holes x H1 H2).
  - exact (free_only bent_sub).
  - intros o r Ho Hr. exists closed_hole. split; [exact (thick_outline o r Ho Hr)|exact (free_finds bent_sub closed_hole)].
  - exact bent_small.
Qed.
(** the walkable area is the free space inside of the smaller edge, and not that inside of the edge the user gave *)
Example ex_outer_radius :
  (forall x, covered bent x <-> near (in_free_space thick_lib (agent_radius thick0) edge_of_bent (added thick_calls)) x) /\
  (forall x, covered bent x -> enclosed edge_of_bent x) /\ (exists x, enclosed wide_ring x /\ ~ covered bent x).
Proof.
  split; [exact (C89_area_is_the_free_space thick_lib thick0 thick_calls bent edge_of_bent thick_cut_out)|].
  assert (H : forall x, covered bent x -> enclosed edge_of_bent x).
  { exact (C76_area_inside_outer_edge thick_lib thick0 thick_calls thick_done _ bent edge_of_bent thick_built eq_refl thick_edge (free_only bent_sub)). }
  split; [exact H|]. exists (zp (0, -15)%Z). split.
  - unfold wide_ring, wide. cbn [map app]. sides.
  - intro K. apply H in K. revert K. apply (beyond _ _ (P 1 (-17)) (77 / 3)).
    + intros p Hp. unfold edge_of_bent, bent_outer in Hp. cbn [map app In] in Hp. destruct Hp as [<-|[<-|[<-|[<-|[]]]]]; unfold zp, pdot; cbn [px py fst snd]; lra.
    + unfold zp, pdot. cbn [px py fst snd]. lra.
Qed.
