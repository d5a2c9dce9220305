(** C88 is not vacuous: the triangle with an obstacle cut out of it, from Examples_free.v. *)
From Coq Require Import List NArith ZArith Bool Lia Reals Lra Psatz.
From Verif Require Import Base Arith U32 Mesh Helpers Locate Search AsyncPath StdLib Spec Triangulation Spec_triangulation RealArith Geometry Search_props Checkers
  Inflate_facts Properties_triangulation Properties_inflate Spec_outline Enclose Capsule Properties_outline Examples_exact Spec_inside Examples_inside Spec_shortest
  Properties_shortest Zmesh Examples_shortest Spec_area Properties_area Properties_complete Zarea Examples_area Examples_complete Spec_free Properties_free Examples_free Spec_freespace Properties_freespace.
From Verif Require Import Spec_outline Properties_geometry.
Import ListNotations.
Open Scope R_scope.

Definition edge_of_bent : list P2 := bent_outer ++ [zp (9, -4)%Z].
Lemma hull_side r a b x : in_hull r x -> (forall p, In p r -> orient a b p <= 0) -> orient a b x <= 0.
Proof.
  intros H K. specialize (H (P (- (py b - py a)) (px b - px a)) ((px b - px a) * py a - (py b - py a) * px a)).
  destruct a as [a1 a2], b as [b1 b2], x as [x1 x2]. unfold orient, cross, psub, pdot in *. cbn [px py] in *.
  enough (- (b2 - a2) * x1 + (b1 - a1) * x2 <= (b1 - a1) * a2 - (b2 - a2) * a1) by lra.
  apply H. intros [p1 p2] Hp. specialize (K _ Hp). cbn [px py] in *. lra.
Qed.
Lemma edge_sides x : enclosed edge_of_bent x -> 
  orient (zp (9, -4)%Z) (zp (-8, -5)%Z) x <= 0 /\ orient (zp (-8, -5)%Z) (zp (1, 9)%Z) x <= 0 /\ orient (zp (1, 9)%Z) (zp (9, -4)%Z) x <= 0.
Proof.
  intros H. apply enclosed_hull in H. repeat split; apply (hull_side _ _ _ _ H); intros p Hp; unfold edge_of_bent, bent_outer in Hp; cbn [map app In] in Hp;
    destruct Hp as [<-|[<-|[<-|[<-|[]]]]]; unfold orient, cross, psub, zp; cbn [px py fst snd]; lra.
Qed.
Lemma bent_faces_cover : faces_cover bent_sub edge_of_bent.
Proof.
  intros x Hx. destruct (edge_sides x Hx) as (A1 & A2 & A3). destruct x as [x1 x2]. unfold orient, cross, psub, zp in A1, A2, A3. cbn [px py fst snd] in *.
  assert (T : forall f k l, In (mkFace k (vp (zp (snd f))) l) (inner_faces bent_sub) -> Forall2 (fun i q => exists around, nthN (sites bent_sub) i = Some (vp q, around)) l (map zp (fst f)) ->
    inside (map zp (fst f)) (P x1 x2) -> exists f qs, In f (inner_faces bent_sub) /\ Forall2 (fun i q => exists around, nthN (sites bent_sub) i = Some (vp q, around)) (fverts f) qs /\ inside qs (P x1 x2)).
  { intros f k l H1 H2 H3. eexists. exists (map zp (fst f)). split; [exact H1|]. split; [exact H2|exact H3]. }
  destruct (Rle_lt_dec 0 (9 * x2 + 4 * x1)) as [HA|HA], (Rle_lt_dec 0 (9 * x1 - x2)) as [HB|HB], (Rle_lt_dec 0 (8 * x2 - 5 * x1)) as [HC|HC];
  match goal with
  | _ : 0 <= 9 * x2 + 4 * x1, _ : 0 <= 9 * x1 - x2 |- _ => apply (T tri1 1%N [0; 1; 2]%N)
  | _ : 9 * x1 - x2 < 0, _ : 0 <= 8 * x2 - 5 * x1 |- _ => apply (T tri2 2%N [0; 2; 3]%N)
  | _ : 9 * x2 + 4 * x1 < 0, _ : 8 * x2 - 5 * x1 < 0 |- _ => apply (T tri3 3%N [0; 3; 1]%N)
  | _ => exfalso; lra
  end.
  all: try (unfold bent_sub; cbn [inner_faces In]; auto; fail).
  all: try (repeat (apply Forall2_cons; [eexists; reflexivity|]); apply Forall2_nil; fail).
  all: intros a b Hab; rewrite zedges_map in Hab; apply in_map_iff in Hab; destruct Hab as ([u w] & E & Hu); cbn [fst snd] in E; injection E as <- <-; vm_compute in Hu;
    destruct Hu as [K|[K|[K|[]]]]; injection K as <- <-; unfold orient, cross, psub, zp; cbn [px py fst snd]; lra.
Qed.
Lemma bent_finds_free : finds_free bent_lib edge_of_bent.
Proof. intros holes x _ H1 H2. exact (free_contains bent_sub edge_of_bent holes x H1 H2). Qed.
Lemma bent_outlines (o r : ring RA) : In o (added [AddObstacle (map vp bent_hole)]) -> outline bent_lib (agent_radius cut) o r -> r = map vp (bent_hole ++ [zp (0, 0)%Z]).
Proof. intros [<-|[]] H. unfold cut, from_outer_edges in H. cbn [agent_radius outline] in H. now rewrite H, close_hole. Qed.

(** a polyline in the free space, that stays away from the obstacle *)
Definition detour : list P2 := [zp (0, 1)%Z; bent_goal].
Lemma off_outline x : orient (zp (9, -4)%Z) (zp (-8, -5)%Z) x < 0 -> orient (zp (-8, -5)%Z) (zp (1, 9)%Z) x < 0 -> orient (zp (1, 9)%Z) (zp (9, -4)%Z) x < 0 -> ~ on_outline edge_of_bent x.
Proof.
  intros H1 H2 H3 (a & b & t & Hab & Ht & E). assert (Z : orient a b x = 0) by (rewrite E; destruct a as [a1 a2], b as [b1 b2]; unfold orient, cross, lerp, psub, padd, pscale, psub; cbn [px py]; ring).
  unfold edge_of_bent, bent_outer in Hab. cbn [map app pairs In] in Hab. destruct Hab as [K|[K|[K|[]]]]; injection K as Ka Kb; rewrite <- Ka, <- Kb in Z; lra.
Qed.
Lemma free_here x : orient (zp (9, -4)%Z) (zp (-8, -5)%Z) x < 0 -> orient (zp (-8, -5)%Z) (zp (1, 9)%Z) x < 0 -> orient (zp (1, 9)%Z) (zp (9, -4)%Z) x < 0 ->
  (0 < 9 * py x + 4 * px x \/ 0 < 8 * py x - 5 * px x) -> in_free_space bent_lib (agent_radius cut) edge_of_bent (added [AddObstacle (map vp bent_hole)]) x.
Proof.
  intros H1 H2 H3 H. split; [|split; [now apply off_outline|]].
  - unfold edge_of_bent, bent_outer. cbn [map app]. apply triangle_encloses; auto. unfold orient, cross, psub, zp; cbn [px py fst snd]; lra.
  - intros o r Ho Hr. pose proof (bent_outlines o _ Ho Hr) as E. apply map_vp_inj in E. rewrite E. destruct H as [H|H].
    + apply (beyond _ _ (P 4 9) 0); [|unfold pdot; cbn [px py]; lra]. intros p Hp. unfold bent_hole in Hp. cbn [map app In] in Hp.
      destruct Hp as [<-|[<-|[<-|[<-|[]]]]]; unfold zp, pdot; cbn [px py fst snd]; lra.
    + apply (beyond _ _ (P (-5) 8) 0); [|unfold pdot; cbn [px py]; lra]. intros p Hp. unfold bent_hole in Hp. cbn [map app In] in Hp.
      destruct Hp as [<-|[<-|[<-|[<-|[]]]]]; unfold zp, pdot; cbn [px py fst snd]; lra.
Qed.
Lemma detour_free : polyline_in (in_free_space bent_lib (agent_radius cut) edge_of_bent (added [AddObstacle (map vp bent_hole)])) bent_start detour.
Proof.
  unfold detour. cbn [polyline_in]. split; [|split]; [intros t Ht|intros t Ht|]; apply free_here; unfold orient, cross, psub, lerp, padd, pscale, psub, bent_start, bent_goal, zp; cbn [px py fst snd]; first [lra | left; lra | right; lra].
Qed.

Example ex_C88 : forall x, in_free_space bent_lib (agent_radius cut) edge_of_bent (added [AddObstacle (map vp bent_hole)]) x -> covered bent x.
Proof.
  apply (C88_free_space_is_covered bent_lib cut _ cut_done _ bent edge_of_bent cut_built bent_small eq_refl).
  - unfold cut, from_outer_edges, geo_new. cbn [inner exterior agent_radius edge_used]. symmetry. exact close_outer.
  - exact bent_faces_cover.
  - exact bent_finds_free.
  - intros o r H1 H2. eexists. now apply bent_outlines with (o := o).
Qed.
(** the path over the corner of the obstacle is not longer than the detour, and the future finds it *)
Example ex_C88_shortest : exists path pts,
  path_on_layers std_lib bent (in_polygon bent_start 0) (in_polygon bent_goal 1) [] = Ok (Some path) /\ ppath path = map vp pts /\
  plength path = Some (total bent_start pts) /\ total bent_start pts <= total bent_start detour.
Proof.
  destruct bent_path as (p & H1 & H2).
  destruct (C88_shortest_in_free_space bent_lib cut _ cut_done _ bent edge_of_bent std_lib (in_polygon bent_start 0) (in_polygon bent_goal 1) p bent_start bent_goal 0 1 cut_built eq_refl) as (pts & A1 & A2 & A3 & A4 & A5).
  - unfold cut, from_outer_edges, geo_new. cbn [inner exterior agent_radius edge_used]. symmetry. exact close_outer.
  - exact bent_faces_cover.
  - exact bent_finds_free.
  - intros o r K1 K2. eexists. now apply bent_outlines with (o := o).
  - exact bent_proper.
  - reflexivity.
  - reflexivity.
  - now apply at_polygon.
  - now apply at_polygon.
  - exact H1.
  - exists p, pts. split; [exact H1|]. split; [exact A1|]. split; [exact A3|]. apply A5; [exact detour_free|reflexivity].
Qed.
Example ex_C88_future : exists k log path d, poll_times k std_lib (get_path bent (vp bent_start) (vp bent_goal)) = Ok (Some (Some path), log) /\
  plength path = Some d /\ d <= total bent_start detour.
Proof.
  destruct ex_C64 as (H1 & H2 & H3 & H4 & H5 & H6 & H7 & H8 & H9 & _ & H11 & H12 & H13 & L & HL).
  apply (C88_way_is_found bent_lib cut _ cut_done _ bent edge_of_bent std_lib bent_start bent_goal 0 1 detour cut_built eq_refl).
  - unfold cut, from_outer_edges, geo_new. cbn [inner exterior agent_radius edge_used]. symmetry. exact close_outer.
  - exact bent_faces_cover.
  - exact bent_finds_free.
  - intros o r K1 K2. eexists. now apply bent_outlines with (o := o).
  - exact bent_proper.
  - exact H3.
  - exact H4.
  - exact H13.
  - reflexivity.
  - exact H7.
  - discriminate.
  - exact H8.
  - discriminate.
  - exact H9.
  - exact detour_free.
  - reflexivity.
Qed.
