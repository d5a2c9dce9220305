(** C76 is not vacuous. *)
From Coq Require Import List NArith ZArith Bool Lia Reals Lra Psatz Classical ClassicalDedekindReals.
From Verif Require Import Base Arith U32 Mesh Helpers Locate Search StdLib Spec Triangulation Spec_triangulation RealArith Geometry Heuristic F32_facts Search_props Checkers
  Inflate_facts Properties_triangulation Properties_inflate Spec_outline Enclose Capsule Properties_outline Examples_exact Spec_inside Examples_inside Spec_shortest Shortest_nodes
  Properties_shortest Zmesh Examples_shortest Spec_area Properties_area Zarea Examples_area Spec_free Properties_free.
From Verif Require Import Spec_outline.
Import ListNotations.
Open Scope R_scope.

(** ** A library that meets the contracts: its point in polygon test decides enclosure, its union is a box, and it always answers with the triangulation [s] *)
Definition dec (Q : Prop) : bool := if sig_not_dec Q then true else false.
Lemma dec_true Q : dec Q = true <-> Q.
Proof. unfold dec. destruct (sig_not_dec Q) as [H|H]; split; intro K; try discriminate; [now apply NNPP|reflexivity|contradiction]. Qed.
Definition enc (r : ring RA) (x : vec2 RA) : bool := dec (exists l c, r = map vp l /\ x = vp c /\ enclosed l c).
Lemma map_vp_inj : forall l l', map vp l = map vp l' -> l = l'.
Proof. induction l as [|a l IH]; intros [|b l'] H; try discriminate; [reflexivity|]. cbn [map] in H. assert (vp a = vp b) as E by congruence. apply vp_inj in E. f_equal; [exact E|]. apply IH. congruence. Qed.
Lemma enc_vp l c : enc (map vp l) (vp c) = true <-> enclosed l c.
Proof.
  unfold enc. rewrite dec_true. split; [|intro H; exists l, c; auto]. intros (l' & c' & E1 & E2 & H). apply map_vp_inj in E1. apply vp_inj in E2. rewrite E1, E2. exact H.
Qed.
Definition free_lib (s : Subdivision RA) : TriLib RA :=
  mkTriLib (fun _ r => r) (fun a b => [(map vp (box (a ++ b)), [])]) (fun g x => enc (exterior g) x && negb (existsb (fun r => enc r x) (interiors g)))
    (fun p => match vx p, vy p with Some _, Some _ => true | _, _ => false end) (fun _ => s) (atan2 real_lib) (hypot real_lib) (sign_negative real_lib) (finder real_lib).
Section Free_lib.
Variable s : Subdivision RA.
Lemma free_trig : real_trig (free_lib s).
Proof. exact real_lib_trig. Qed.
Lemma free_union : union_ok (free_lib s).
Proof. exact box_union. Qed.
Lemma free_simplify p : simplify_keeps (free_lib s) p.
Proof. intros r Hr. exists r. split; [reflexivity|]. split; [exact Hr|auto]. Qed.
Lemma free_nan : no_nan_inserted (free_lib s).
Proof. intros [[x|] [y|]] H; try discriminate. exact (proj2 (veq_vp (P x y) (P x y)) eq_refl). Qed.
Lemma free_holes : holes_excluded (free_lib s).
Proof.
  intros g x r H Hr. cbn [contains free_lib exterior interiors] in *. apply andb_true_iff in H. destruct H as [_ H]. rewrite negb_true_iff in H.
  cbn [existsb negb]. rewrite andb_true_r. destruct (enc r x) eqn:E; [|reflexivity]. exfalso. rewrite <- not_true_iff_false in H. apply H. apply existsb_exists. exists r. auto.
Qed.
Lemma free_finds r : finds_enclosed (free_lib s) r.
Proof. intros x _ H. cbn [contains free_lib exterior interiors existsb negb]. rewrite andb_true_r. now apply enc_vp. Qed.
Lemma free_only : finds_only_enclosed (free_lib s).
Proof. intros r holes x H. cbn [contains free_lib exterior interiors] in H. apply andb_true_iff in H. now apply enc_vp. Qed.
Lemma free_contains ext holes x : enclosed ext x -> (forall h, In h holes -> ~ enclosed h x) -> contains (free_lib s) (mkGeo (map vp ext) (map (map vp) holes)) (vp x) = true.
Proof.
  intros H1 H2. cbn [contains free_lib exterior interiors]. apply andb_true_iff. split; [now apply enc_vp|]. apply negb_true_iff. apply not_true_iff_false. intro K. apply existsb_exists in K.
  destruct K as (h & Hh & K). apply in_map_iff in Hh. destruct Hh as (h' & <- & Hh). apply enc_vp in K. now apply (H2 h').
Qed.
Lemma free_rejects ext hole holes x : enclosed hole x -> In hole holes -> contains (free_lib s) (mkGeo (map vp ext) (map (map vp) holes)) (vp x) = false.
Proof.
  intros H1 H2. cbn [contains free_lib exterior interiors]. apply andb_false_iff. right. apply negb_false_iff. apply existsb_exists. exists (map vp hole). split; [now apply in_map|now apply enc_vp].
Qed.
Lemma free_accepted g r g' x : accepted (free_lib s) (mkTri g None None r) g' x = Ok (contains (free_lib s) g' x).
Proof. unfold accepted. cbn [prebuilt base_layer]. cbn [andb]. destruct (contains _ _ _); reflexivity. Qed.
End Free_lib.

Lemma triangle_encloses a b c x : orient a b c < 0 -> orient a b x < 0 -> orient b c x < 0 -> orient c a x < 0 -> enclosed [a; b; c; a] x.
Proof.
  intros H H1 H2 H3. change (enclosed ((a :: [b; c]) ++ [a]) x). destruct a as [a1 a2], b as [b1 b2], c as [c1 c2]. unfold orient, cross, psub in *. cbn [px py] in *.
  assert (NE : forall x1 x2 y1 y2, P x1 x2 = P y1 y2 -> x1 = y1 /\ x2 = y2) by (intros x1 x2 y1 y2 E; injection E; auto).
  apply convex_encloses.
  - intros u v Huv. unfold poly_edges in Huv. cbn in Huv. destruct Huv as [E|[E|[E|[]]]]; injection E as <- <-; (split; [intro E; apply NE in E; destruct E; subst; lra|]); split.
    + exists (P c1 c2). split; [unfold poly_edges; cbn; auto|]. unfold orient, cross, psub; cbn [px py]; lra.
    + exists (P c1 c2). split; [unfold poly_edges; cbn; auto|]. unfold orient, cross, psub; cbn [px py]; lra.
    + exists (P a1 a2). split; [unfold poly_edges; cbn; auto|]. unfold orient, cross, psub; cbn [px py]; lra.
    + exists (P a1 a2). split; [unfold poly_edges; cbn; auto|]. unfold orient, cross, psub; cbn [px py]; lra.
    + exists (P b1 b2). split; [unfold poly_edges; cbn; auto|]. unfold orient, cross, psub; cbn [px py]; lra.
    + exists (P b1 b2). split; [unfold poly_edges; cbn; auto|]. unfold orient, cross, psub; cbn [px py]; lra.
  - intros u v Huv. unfold poly_edges in Huv. cbn in Huv. destruct Huv as [E|[E|[E|[]]]]; injection E as <- <-; unfold orient, cross, psub; cbn [px py]; lra.
Qed.
(** what is on the other side of a line than all of the ring is not enclosed *)
Lemma beyond r x u c : (forall p, In p r -> pdot u p <= c) -> c < pdot u x -> ~ enclosed r x.
Proof. intros H K E. apply enclosed_hull in E. specialize (E u c H). lra. Qed.

(** ** Without an agent radius: the mesh [bent] of C63 is what is left of a triangle when an obstacle is cut out at its long side *)
Definition bent_sub : Subdivision RA :=
  mkSub [mkFace 1 (vp bent_start) [0; 1; 2]%N; mkFace 2 (vp bent_goal) [0; 2; 3]%N; mkFace 3 (vp (zp (0, -2)%Z)) [0; 3; 1]%N]
        [(vp (zp (0, 0)%Z), [1; 2; 3]%N); (vp (zp (9, -4)%Z), [1; 0; 3]%N); (vp (zp (1, 9)%Z), [1; 2; 0]%N); (vp (zp (-8, -5)%Z), [2; 3; 0]%N)].
Definition bent_outer : list P2 := map zp [(9, -4); (-8, -5); (1, 9)]%Z.
Definition bent_hole : list P2 := map zp [(0, 0); (9, -4); (-8, -5)]%Z.
Definition cut : Triangulation RA := from_outer_edges (map vp bent_outer).
Definition bent_lib : TriLib RA := free_lib bent_sub.

Lemma zp_ne a b : a <> b -> zp a <> zp b.
Proof. intros H E. apply H. destruct a as [a1 a2], b as [b1 b2]. unfold zp in E. cbn [fst snd] in E. injection E as E1 E2. f_equal; apply eq_IZR; lra. Qed.
Lemma close_outer : close (map vp bent_outer) = map vp (bent_outer ++ [zp (9, -4)%Z]).
Proof. apply (close_open (zp (9, -4)%Z) (map zp [(-8, -5); (1, 9)]%Z)). cbn [map last]. apply zp_ne. discriminate. Qed.
Lemma close_hole : close (map vp bent_hole) = map vp (bent_hole ++ [zp (0, 0)%Z]).
Proof. apply (close_open (zp (0, 0)%Z) (map zp [(9, -4); (-8, -5)]%Z)). cbn [map last]. apply zp_ne. discriminate. Qed.
Definition cut_done : Triangulation RA := mkTri (mkGeo (map vp (bent_outer ++ [zp (9, -4)%Z])) (map (map vp) [bent_hole ++ [zp (0, 0)%Z]])) None None RNone.
Lemma cut_run : run_calls bent_lib cut [AddObstacle (map vp bent_hole)] = Ok cut_done.
Proof.
  unfold run_calls. cbn [foldM apply_call bind]. f_equal. unfold cut, from_outer_edges, add_obstacle, with_inner, interiors_push, geo_new, cut_done. cbn [inner prebuilt base_layer agent_radius exterior interiors map app].
  rewrite close_outer, close_hole. reflexivity.
Qed.
Definition cut_edges : list (zpt * zpt) := [((9, -4), (-8, -5)); ((-8, -5), (1, 9)); ((1, 9), (9, -4)); ((0, 0), (9, -4)); ((9, -4), (-8, -5)); ((-8, -5), (0, 0))]%Z.
Definition zlines (es : list (zpt * zpt)) : list (vec2 RA * vec2 RA) := map (fun e => (vp (zp (fst e)), vp (zp (snd e)))) es.
Lemma cut_constraints : constraints bent_lib cut_done = Ok (zlines cut_edges).
Proof. reflexivity. Qed.

Ltac sides := apply triangle_encloses; rewrite zor_R; match goal with |- context [zor ?a ?b ?c] => let v := eval vm_compute in (zor a b c) in change (zor a b c) with v end; lra.
Lemma outer_start : enclosed (bent_outer ++ [zp (9, -4)%Z]) bent_start.
Proof. unfold bent_outer, bent_start. cbn [map app]. sides. Qed.
Lemma outer_goal : enclosed (bent_outer ++ [zp (9, -4)%Z]) bent_goal.
Proof. unfold bent_outer, bent_goal. cbn [map app]. sides. Qed.
Lemma hole_middle : enclosed (bent_hole ++ [zp (0, 0)%Z]) (zp (0, -2)%Z).
Proof. unfold bent_hole. cbn [map app]. sides. Qed.
Lemma hole_start : ~ enclosed (bent_hole ++ [zp (0, 0)%Z]) bent_start.
Proof.
  apply (beyond _ _ (P 4 9) 0).
  - unfold bent_hole. intros p Hp. cbn [map app In] in Hp. destruct Hp as [<-|[<-|[<-|[<-|[]]]]]; unfold zp, pdot; cbn [px py fst snd]; lra.
  - unfold bent_start, zp, pdot. cbn [px py fst snd]. lra.
Qed.
Lemma hole_goal : ~ enclosed (bent_hole ++ [zp (0, 0)%Z]) bent_goal.
Proof.
  apply (beyond _ _ (P (-5) 8) 0).
  - unfold bent_hole. intros p Hp. cbn [map app In] in Hp. destruct Hp as [<-|[<-|[<-|[<-|[]]]]]; unfold zp, pdot; cbn [px py fst snd]; lra.
  - unfold bent_goal, zp, pdot. cbn [px py fst snd]. lra.
Qed.
Lemma vzero_vp : (vzero : vec2 RA) = vp (P 0 0).
Proof. unfold vzero. rewrite fz_R. reflexivity. Qed.
Lemma bent_layer (acc : vec2 RA -> res bool) : acc (vp bent_start) = Ok true -> acc (vp bent_goal) = Ok true -> acc (vp (zp (0, -2)%Z)) = Ok false ->
  layer_of_subdivision acc bent_sub = Ok (zlayer bent_vs bent_ps).
Proof.
  intros H1 H2 H3. unfold layer_of_subdivision, bent_sub. cbn [inner_faces sites foldM list_face fcenter]. rewrite H1. cbn [bind]. 
  change (index (repeat MAX (S (length [1; 2; 3]%N))) 1) with (Ok MAX). cbn.
  rewrite H2. cbn. rewrite H3. cbn. rewrite vzero_vp. reflexivity.
Qed.
Lemma cut_mesh : as_navmesh bent_lib cut_done = Ok bent.
Proof.
  unfold as_navmesh, as_layer. rewrite cut_constraints. cbn [bind inflated agent_radius cut_done]. cbn [cdt bent_lib free_lib].
  rewrite bent_layer.
  - cbn [bind]. unfold bent, zmesh, mesh_default. cbn [search_delta search_steps]. rewrite flit_R. reflexivity.
  - refine (eq_trans (free_accepted bent_sub _ _ _ _) _). f_equal. apply (free_contains bent_sub _ [bent_hole ++ [zp (0, 0)%Z]] bent_start outer_start). intros h [<-|[]]. exact hole_start.
  - refine (eq_trans (free_accepted bent_sub _ _ _ _) _). f_equal. apply (free_contains bent_sub _ [bent_hole ++ [zp (0, 0)%Z]] bent_goal outer_goal). intros h [<-|[]]. exact hole_goal.
  - refine (eq_trans (free_accepted bent_sub _ _ _ _) _). f_equal. apply (free_rejects bent_sub _ (bent_hole ++ [zp (0, 0)%Z]) [bent_hole ++ [zp (0, 0)%Z]] (zp (0, -2)%Z) hole_middle). now left.
Qed.
(** the contract of the triangulator, by computation *)
Definition zlistok (es : list (zpt * zpt)) (f : list zpt * zpt) : bool :=
  forallb (fun e => (0 <? zor (fst e) (snd e) (snd f))%Z) (zedges (fst f)) &&
  forallb (fun c => existsb (fun e => (zor (fst e) (snd e) (fst c) <=? 0)%Z && (zor (fst e) (snd e) (snd c) <=? 0)%Z) (zedges (fst f))) es.
Lemma zlist_centre es f : zlistok es f = true -> strictly_inside (map zp (fst f)) (zp (snd f)).
Proof.
  unfold zlistok. rewrite andb_true_iff. intros [H _] a b Hab. rewrite zedges_map in Hab. apply in_map_iff in Hab. destruct Hab as ([u w] & E & Hu). cbn [fst snd] in E. injection E as <- <-.
  rewrite forallb_forall in H. specialize (H _ Hu). cbn [fst snd] in H. rewrite zor_R. apply Z.ltb_lt, IZR_lt in H. lra.
Qed.
Lemma zlist_lines es f : zlistok es f = true -> forall p q t, In (vp p, vp q) (zlines es) -> 0 <= t <= 1 -> ~ strictly_inside (map zp (fst f)) (lerp p q t).
Proof.
  unfold zlistok. rewrite andb_true_iff. intros [_ H] p q t Hpq Ht HS. unfold zlines in Hpq. apply in_map_iff in Hpq. destruct Hpq as ([c1 c2] & E & Hc). cbn [fst snd] in E.
  assert (zp c1 = p) as <- by (apply vp_inj; congruence). assert (zp c2 = q) as <- by (apply vp_inj; congruence). clear E.
  rewrite forallb_forall in H. specialize (H _ Hc). apply existsb_exists in H. destruct H as ([u w] & Hu & H). cbn [fst snd] in H. apply andb_true_iff in H. destruct H as [K1 K2].
  assert (In (zp u, zp w) (poly_edges (map zp (fst f)))) as HE by (rewrite zedges_map; apply in_map_iff; exists (u, w); auto).
  specialize (HS _ _ HE). rewrite orient_lerp_lin, !zor_R in HS. apply Z.leb_le, IZR_le in K1. apply Z.leb_le, IZR_le in K2. nra.
Qed.
Definition tri1 : list zpt * zpt := ([(0, 0); (9, -4); (1, 9)], (4, -1))%Z.
Definition tri2 : list zpt * zpt := ([(0, 0); (1, 9); (-8, -5)], (-4, -2))%Z.
Definition tri3 : list zpt * zpt := ([(0, 0); (-8, -5); (9, -4)], (0, -2))%Z.
Lemma cut_faces : faces_ok bent_sub (zlines cut_edges).
Proof.
  assert (T : forall f ids k s, zlistok cut_edges f = true -> Forall2 (fun i q => exists around, nthN (sites s) i = Some (vp q, around)) ids (map zp (fst f)) ->
    exists qs centre, Forall2 (fun i q => exists around, nthN (sites s) i = Some (vp q, around)) (fverts (mkFace k (vp (zp (snd f))) ids)) qs /\
      fcenter (mkFace k (vp (zp (snd f))) ids) = vp centre /\ strictly_inside qs centre /\ forall p q t, In (vp p, vp q) (zlines cut_edges) -> 0 <= t <= 1 -> ~ strictly_inside qs (lerp p q t)).
  { intros f ids k s H HF. exists (map zp (fst f)), (zp (snd f)). split; [exact HF|]. split; [reflexivity|]. split; [now apply (zlist_centre cut_edges)|now apply zlist_lines]. }
  intros f [<-|[<-|[<-|[]]]].
  - apply (T tri1); [vm_compute; reflexivity|]. repeat (apply Forall2_cons; [eexists; reflexivity|]). apply Forall2_nil.
  - apply (T tri2); [vm_compute; reflexivity|]. repeat (apply Forall2_cons; [eexists; reflexivity|]). apply Forall2_nil.
  - apply (T tri3); [vm_compute; reflexivity|]. repeat (apply Forall2_cons; [eexists; reflexivity|]). apply Forall2_nil.
Qed.
Lemma cut_built : built bent_lib cut [AddObstacle (map vp bent_hole)] cut_done (zlines cut_edges) bent.
Proof.
  split.
  - apply free_nan.
  - apply free_holes.
  - split; [reflexivity|]. split; [reflexivity|]. unfold cut, from_outer_edges, geo_new. cbn [inner exterior]. rewrite close_outer. apply close_closed. apply closed_snoc.
  - intros o [<-|[]] a r E. cbn [bent_hole map] in E. injection E as <- _. now apply veq_vp.
  - left. cbn. lia.
  - exact cut_run.
  - exact cut_constraints.
  - apply subdivision_okb_ok. vm_compute. reflexivity.
  - vm_compute. reflexivity.
  - exact cut_faces.
  - exact cut_mesh.
Qed.
(** the path around the corner of the obstacle, with all that C76 says about it *)
Example ex_C76_outside : exists path pts,
  path_on_layers std_lib bent (in_polygon bent_start 0) (in_polygon bent_goal 1) [] = Ok (Some path) /\ ppath path = map vp pts /\ pts = [zp (0, 0)%Z; bent_goal] /\
  polyline_in (fun x => enclosed (bent_outer ++ [zp (9, -4)%Z]) x /\ forall rad, 0 < rad -> exists y, dist x y < rad /\ ~ enclosed (bent_hole ++ [zp (0, 0)%Z]) y) bent_start pts.
Proof.
  destruct bent_path as (p & H1 & H2).
  destruct (C76_path_outside_obstacles bent_lib cut _ cut_done _ bent (bent_outer ++ [zp (9, -4)%Z]) bent_hole (bent_hole ++ [zp (0, 0)%Z]) std_lib (in_polygon bent_start 0) (in_polygon bent_goal 1) [] p
    bent_start bent_goal 0 1 cut_built eq_refl eq_refl) as (pts & E & HP).
  - unfold cut, from_outer_edges, geo_new. cbn [inner exterior]. exact close_outer.
  - apply free_only.
  - now left.
  - right. split; [|exists (zp (0, 0)%Z), (map zp [(9, -4); (-8, -5)]%Z); auto]. intros (a & r' & E & L). cbn [bent_hole map] in E. injection E as <- <-. cbn [bent_hole map last] in L.
    revert L. apply zp_ne. discriminate.
  - apply free_finds.
  - apply pop_ok_perm. exact (pr_pop _ _ _ _ _ _ _ bent_proper).
  - exact bent_small.
  - exact (pr_plane _ _ _ _ _ _ _ bent_proper).
  - exact (pr_u32 _ _ _ _ _ _ _ bent_proper).
  - reflexivity.
  - reflexivity.
  - reflexivity.
  - now apply at_polygon.
  - now apply at_polygon.
  - destruct (ge_start _ _ _ _ _ bent_generic) as (qs & Q1 & Q2). exists qs. split; [exact Q1|]. intros a b Hab. apply Rlt_le. now apply Q2.
  - exact (generic_steady _ _ _ _ _ bent_generic).
  - exact (generic_goal _ _ _ _ _ bent_generic).
  - exact H1.
  - exists p, pts. split; [exact H1|]. split; [exact E|]. split; [|exact HP]. apply map_vp_inj. rewrite <- E. exact H2.
Qed.


(** ** With an agent radius: a square, an obstacle in it, and the two triangles of [bent] among the faces *)
Definition far_sub : Subdivision RA :=
  mkSub [mkFace 1 (vp bent_start) [0; 1; 2]%N; mkFace 2 (vp bent_goal) [0; 2; 3]%N]
        [(vp (zp (0, 0)%Z), [1; 2; 0]%N); (vp (zp (9, -4)%Z), [1; 0]%N); (vp (zp (1, 9)%Z), [1; 2; 0]%N); (vp (zp (-8, -5)%Z), [2; 0]%N)].
Definition far_lib : TriLib RA := free_lib far_sub.
Definition square : list P2 := [P (-200) (-200); P (-200) 200; P 200 200; P 200 (-200)].
Definition far_hole : list P2 := [P 100 0; P 103 4; P 103 0].
Definition far0 : Triangulation RA := set_agent_radius (from_outer_edges (map vp square)) (rr (1 / 2)).

Definition right_of (b : R) (r : list P2) : Prop := forall p, In p r -> b <= px p.
Lemma capsule_right lib s e d n b : real_trig lib -> s <> e -> 0 < d -> (1 <= n)%N -> b <= px s -> b <= px e ->
  exists ps, round_line lib (vp s, vp e) (rr d) n = Ok (map vp ps) /\ ps <> [] /\ right_of (b - d) ps.
Proof.
  intros HT Hse Hd Hn Hs He. destruct (C53_clearance lib s e d n HT Hse Hd Hn) as (ps & E & L & HP & _). exists ps. split; [exact E|].
  split; [intros ->; cbn [length] in L; lia|]. intros p Hp.
  assert (G : forall c, dist p c = d -> px c - d <= px p).
  { intros c Hc. unfold dist, plen in Hc. assert (pdot (psub p c) (psub p c) = d * d) as K by (rewrite <- Hc; symmetry; apply sqrt_sqrt; unfold pdot; apply Rplus_le_le_0_compat; apply Rle_0_sqr). unfold pdot, psub in K. cbn [px py] in K.
    destruct (Rle_lt_dec (px c - d) (px p)) as [|L']; [assumption|]. exfalso. pose proof (Rle_0_sqr (py p - py c)) as S. unfold Rsqr in S. assert (d * d < (px p - px c) * (px p - px c)) by nra. lra. }
  destruct (HP p Hp) as [K|K]; apply G in K; lra.
Qed.
Lemma least_right b r : r <> [] -> right_of b r -> b <= least vx (map vp r).
Proof.
  destruct r as [|q r]; [congruence|]. intros _ H. cbn [map least]. assert (b <= num (vx (vp q))) as K by (apply H; now left).
  assert (right_of b r) as H' by (intros p Hp; apply H; now right). clear H. induction r as [|p r IH]; cbn [map fold_right]; [exact K|].
  apply Rmin_glb; [apply H'; now left|]. apply IH. intros z Hz. apply H'. now right.
Qed.
Lemma box_right b r : r <> [] -> right_of b r -> right_of (b - 1) (box (map vp r)).
Proof.
  intros Hn H p Hp. pose proof (least_right b r Hn H). assert (least vx (map vp r) <= greatest vx (map vp r)).
  { destruct r as [|q r]; [congruence|]. pose proof (least_le vx (map vp (q :: r)) (vp q) ltac:(now left)). pose proof (greatest_ge vx (map vp (q :: r)) (vp q) ltac:(now left)). lra. }
  unfold box in Hp. cbn [In] in Hp. destruct Hp as [<-|[<-|[<-|[<-|[<-|[]]]]]]; cbn [px]; lra.
Qed.
Lemma close_right b r : right_of b r -> exists r', close (map vp r) = map vp r' /\ right_of b r' /\ (r <> [] -> r' <> []).
Proof.
  intro H. destruct r as [|q r]; [exists []; auto|]. destruct (P2_dec q (last r q)) as [E|E].
  - exists (q :: r). split; [|auto]. apply close_closed. exists q, r. split; [reflexivity|]. destruct r; [reflexivity|]. symmetry. exact E.
  - exists ((q :: r) ++ [q]). split; [now apply close_open|]. split; [|discriminate]. intros p Hp. apply in_app_or in Hp. destruct Hp as [Hp|[<-|[]]]; apply H; [exact Hp|now left].
Qed.
Lemma union_right s b acc x y d n : (exists r, fst acc = map vp r /\ r <> [] /\ right_of b r) -> x <> y -> 0 < d -> (1 <= n)%N ->
  b <= px x - d -> b <= px y - d -> exists r, union_with (free_lib s) acc (vp x, vp y) (rr d) n = Ok (map vp r, snd acc ++ []) /\ r <> [] /\ closed r /\ right_of (b - 1) r.
Proof.
  intros (r & Er & Nr & Hr) Hxy Hd Hn Hx Hy. destruct (capsule_right (free_lib s) x y d n (b + d) (free_trig s) Hxy Hd Hn) as (ps & E & Np & Hp); [lra|lra|].
  destruct (close_right b r Hr) as (r1 & C1 & R1 & N1). destruct (close_right b ps) as (r2 & C2 & R2 & N2); [intros p Hq; specialize (Hp p Hq); lra|].
  destruct acc as [ra ha]. cbn [fst snd] in Er |- *. unfold union_with. rewrite E. cbn [bind fst snd]. rewrite Er, C1, C2. cbn [union free_lib]. exists (box (map vp (r1 ++ r2))). rewrite map_app. split; [reflexivity|].
  split; [discriminate|]. split; [unfold box; eexists; eexists; split; reflexivity|]. rewrite <- map_app. apply box_right.
  - intro K. apply app_eq_nil in K. now apply N1.
  - intros p Hq. apply in_app_or in Hq. destruct Hq as [Hq|Hq]; [now apply R1|now apply R2].
Qed.
Definition far_ring : list P2 := far_hole ++ [P 100 0].
Lemma far_close : close (map vp far_hole) = map vp far_ring.
Proof. apply (close_open (P 100 0) [P 103 4; P 103 0]). cbn [last]. intro E. injection E. lra. Qed.
Lemma far_inflated : exists r, inflate_ring far_lib (map vp far_ring) (rr (1 / 2)) 5 = Ok (map vp r, []) /\ closed r /\ right_of 90 r.
Proof.
  assert (NE : forall a b c d : R, P a b = P c d -> a = c /\ b = d) by (intros a b c d E; injection E; auto).
  destruct (capsule_right far_lib (P 100 0) (P 103 4) (1 / 2) 5 100 (free_trig far_sub)) as (r1 & E1 & N1 & R1); [intro E; apply NE in E; lra|lra|lia|cbn [px]; lra|cbn [px]; lra|].
  destruct (union_right far_sub 99 (map vp r1, []) (P 103 4) (P 103 0) (1 / 2) 5) as (r2 & E2 & N2 & C2 & R2); [|intro E; apply NE in E; lra|lra|lia|cbn [px]; lra|cbn [px]; lra|].
  { exists r1. split; [reflexivity|]. split; [exact N1|]. intros p Hp. specialize (R1 p Hp). lra. }
  destruct (union_right far_sub 98 (map vp r2, []) (P 103 0) (P 100 0) (1 / 2) 5) as (r3 & E3 & N3 & C3 & R3); [|intro E; apply NE in E; lra|lra|lia|cbn [px]; lra|cbn [px]; lra|].
  { exists r2. split; [reflexivity|]. split; [exact N2|]. intros p Hp. specialize (R2 p Hp). lra. }
  exists r3. split; [|split; [exact C3|intros p Hp; specialize (R3 p Hp); lra]].
  unfold inflate_ring. cbn [far_ring far_hole app map ring_lines]. rewrite E1. cbn [bind]. cbn [snd app] in E2, E3. 
  match goal with |- context [foldM ?f ?a ?l] => assert (foldM f a l = Ok (map vp r3, [])) as K2 end.
  { cbn [foldM]. refine (eq_trans (f_equal (fun z => bind z _) E2) _). cbn [bind]. refine (eq_trans (f_equal (fun z => bind z _) E3) _). reflexivity. }
  rewrite K2. cbn [bind].
  assert (is_closed (map vp far_ring) = true) as K. { unfold is_closed. cbn [far_ring far_hole app map last]. now apply veq_vp. }
  cbn [far_ring far_hole app map] in K. rewrite K. reflexivity.
Qed.
Definition square_ring : list P2 := square ++ [P (-200) (-200)].
Lemma square_close : close (map vp square) = map vp square_ring.
Proof. apply (close_open (P (-200) (-200)) [P (-200) 200; P 200 200; P 200 (-200)]). cbn [last]. intro E. injection E. lra. Qed.
Definition far_t : Triangulation RA := mkTri (mkGeo (map vp square_ring) [map vp far_ring]) None None (RObstacles (rr (1 / 2)) 5 (rr 0)).
Lemma far_radius : agent_radius far0 = RObstacles (rr (1 / 2)) 5 (rr 0).
Proof. unfold far0, set_agent_radius, from_outer_edges, with_radius. cbn [agent_radius]. rewrite fz_R. reflexivity. Qed.
Lemma far_run : run_calls far_lib far0 [AddObstacles [map vp far_hole]] = Ok far_t.
Proof.
  unfold run_calls. cbn [foldM apply_call bind]. f_equal. unfold add_obstacles, with_inner, far_t. rewrite far_radius. unfold far0, set_agent_radius, with_radius, from_outer_edges, geo_new.
  cbn [inner prebuilt base_layer exterior interiors map app]. rewrite square_close, far_close. rewrite (close_closed square_ring) by apply closed_snoc. reflexivity.
Qed.
Lemma far_enough : enough (A := RA) (rr (1 / 2)) = true.
Proof. unfold enough, fgt. cbn. unfold rltb. destruct (Rlt_dec _ _) as [|N]; [reflexivity|]. exfalso. apply N. lra. Qed.
Lemma far_geo r : inflate_ring far_lib (map vp far_ring) (rr (1 / 2)) 5 = Ok (map vp r, []) -> closed r -> inflated far_lib far_t = Ok (mkGeo (map vp square_ring) [map vp r]).
Proof.
  intros E C. unfold inflated, far_t. cbn [agent_radius]. rewrite far_enough. unfold inflate_obstacles. cbn [inner interiors mapM exterior]. rewrite E. cbn [bind fst simplify_vw far_lib free_lib].
  unfold geo_new. cbn [map]. rewrite (close_closed r C), (close_closed square_ring) by apply closed_snoc. reflexivity.
Qed.
Definition vlines (es : list (P2 * P2)) : list (vec2 RA * vec2 RA) := map (fun e => (vp (fst e), vp (snd e))) es.
Lemma insert_all s r : forall c, add_constraint_edges (free_lib s) c (map vp r) = Ok (c ++ vlines (pairs r)).
Proof.
  intro c. unfold add_constraint_edges. rewrite lines_pairs. unfold vlines. revert c. induction (pairs r) as [|e es IH]; intro c; [cbn [map foldM]; rewrite app_nil_r; reflexivity|].
  cbn [map foldM]. refine (eq_trans (IH (c ++ [(vp (fst e), vp (snd e))])) _). now rewrite <- app_assoc.
Qed.
Lemma far_constraints r : inflate_ring far_lib (map vp far_ring) (rr (1 / 2)) 5 = Ok (map vp r, []) -> closed r ->
  constraints far_lib far_t = Ok (vlines (pairs square_ring) ++ vlines (pairs r)).
Proof.
  intros E C. unfold constraints. rewrite (far_geo r E C). unfold initial_constraints. cbn [far_t prebuilt agent_radius base_layer inner exterior].
  unfold far_lib. rewrite insert_all. cbn [bind app interiors foldM]. rewrite insert_all. reflexivity.
Qed.
Lemma far_layer (acc : vec2 RA -> res bool) : acc (vp bent_start) = Ok true -> acc (vp bent_goal) = Ok true -> layer_of_subdivision acc far_sub = Ok (zlayer bent_vs bent_ps).
Proof.
  intros H1 H2. unfold layer_of_subdivision, far_sub. cbn [inner_faces sites foldM list_face fcenter]. rewrite H1. cbn. rewrite H2. cbn. rewrite vzero_vp. reflexivity.
Qed.
Lemma square_encloses x : Rabs (px x) < 200 -> Rabs (py x) < 200 -> enclosed square_ring x.
Proof.
  intros HX HY. apply Rabs_def2 in HX, HY. change (enclosed ((P (-200) (-200) :: [P (-200) 200; P 200 200; P 200 (-200)]) ++ [P (-200) (-200)]) x).
  assert (NE : forall a b c d : R, P a b = P c d -> a = c /\ b = d) by (intros a b c d E; injection E; auto).
  apply convex_encloses.
  - intros a b Hab. unfold poly_edges in Hab. cbn in Hab. destruct Hab as [H|[H|[H|[H|[]]]]]; injection H as <- <-; (split; [intro H; apply NE in H; lra|]); split.
    + exists (P 200 (-200)). split; [unfold poly_edges; cbn; auto 10|]. unfold orient, cross, psub. cbn [px py]. lra.
    + exists (P 200 200). split; [unfold poly_edges; cbn; auto 10|]. unfold orient, cross, psub. cbn [px py]. lra.
    + exists (P (-200) (-200)). split; [unfold poly_edges; cbn; auto 10|]. unfold orient, cross, psub. cbn [px py]. lra.
    + exists (P 200 (-200)). split; [unfold poly_edges; cbn; auto 10|]. unfold orient, cross, psub. cbn [px py]. lra.
    + exists (P (-200) 200). split; [unfold poly_edges; cbn; auto 10|]. unfold orient, cross, psub. cbn [px py]. lra.
    + exists (P (-200) (-200)). split; [unfold poly_edges; cbn; auto 10|]. unfold orient, cross, psub. cbn [px py]. lra.
    + exists (P 200 200). split; [unfold poly_edges; cbn; auto 10|]. unfold orient, cross, psub. cbn [px py]. lra.
    + exists (P (-200) 200). split; [unfold poly_edges; cbn; auto 10|]. unfold orient, cross, psub. cbn [px py]. lra.
  - intros a b Hab. unfold poly_edges in Hab. cbn in Hab. destruct Hab as [H|[H|[H|[H|[]]]]]; injection H as <- <-; unfold orient, cross, psub; cbn [px py]; lra.
Qed.
Lemma far_mesh : as_navmesh far_lib far_t = Ok bent.
Proof.
  destruct far_inflated as (r & E & C & HR).
  assert (G : forall x, Rabs (px x) < 5 -> Rabs (py x) < 5 -> accepted far_lib far_t (mkGeo (map vp square_ring) [map vp r]) (vp x) = Ok true).
  { intros x HX HY. refine (eq_trans (free_accepted far_sub _ _ _ _) _). f_equal. apply (free_contains far_sub _ [r] x); [apply square_encloses; lra|]. intros h [<-|[]].
    apply (beyond _ _ (P (-1) 0) (-90)); unfold pdot; cbn [px py]; [intros p Hp; specialize (HR p Hp); lra|]. apply Rabs_def2 in HX. lra. }
  unfold as_navmesh, as_layer. rewrite (far_constraints r E C), (far_geo r E C). cbn [bind]. cbn [cdt far_lib free_lib]. rewrite far_layer.
  - cbn [bind]. unfold bent, zmesh, mesh_default. cbn [search_delta search_steps]. rewrite flit_R. reflexivity.
  - apply G; unfold bent_start, zp; cbn [px py fst snd]; apply Rabs_def1; lra.
  - apply G; unfold bent_goal, zp; cbn [px py fst snd]; apply Rabs_def1; lra.
Qed.
(** the faces are far from the lines *)
Lemma far_faces r : right_of 90 r -> faces_ok far_sub (vlines (pairs square_ring) ++ vlines (pairs r)).
Proof.
  intro HR.
  assert (HC : forall p q t, In (vp p, vp q) (vlines (pairs square_ring) ++ vlines (pairs r)) -> 0 <= t <= 1 ->
    5 <= px (lerp p q t) \/ px (lerp p q t) <= -5 \/ 5 <= py (lerp p q t) \/ py (lerp p q t) <= -5).
  { intros p q t H Ht. apply in_app_or in H. unfold lerp. cbn [padd pscale psub px py]. destruct H as [H|H]; unfold vlines in H; apply in_map_iff in H; destruct H as ([u v] & E & H); cbn [fst snd] in E;
      assert (u = p) as -> by (apply vp_inj; congruence); assert (v = q) as -> by (apply vp_inj; congruence); clear E.
    - unfold square_ring, square in H. cbn [app pairs In] in H. destruct H as [H|[H|[H|[H|[]]]]]; injection H as <- <-; cbn [px py]; lra.
    - left. assert (In p r /\ In q r) as [Ip Iq].
      { clear - H. induction r as [|y r IH]; [destruct H|]. destruct r as [|y' r]; [destruct H|]. cbn [pairs In] in H. destruct H as [E|H]; [injection E as <- <-; split; [now left|right; now left]|].
        destruct (IH H). split; now right. }
      pose proof (HR p Ip). pose proof (HR q Iq). nra. }
  assert (T : forall f ids k, zlistok [] f = true -> (forall x, strictly_inside (map zp (fst f)) x -> Rabs (px x) < 5 /\ Rabs (py x) < 5) ->
    Forall2 (fun i q => exists around, nthN (sites far_sub) i = Some (vp q, around)) ids (map zp (fst f)) ->
    exists qs centre, Forall2 (fun i q => exists around, nthN (sites far_sub) i = Some (vp q, around)) (fverts (mkFace k (vp (zp (snd f))) ids)) qs /\
      fcenter (mkFace k (vp (zp (snd f))) ids) = vp centre /\ strictly_inside qs centre /\
      forall p q t, In (vp p, vp q) (vlines (pairs square_ring) ++ vlines (pairs r)) -> 0 <= t <= 1 -> ~ strictly_inside qs (lerp p q t)).
  { intros f ids k H HB HF. exists (map zp (fst f)), (zp (snd f)). split; [exact HF|]. split; [reflexivity|]. split; [now apply (zlist_centre [])|].
    intros p q t Hpq Ht HS. destruct (HB _ HS) as [B1 B2]. apply Rabs_def2 in B1, B2. specialize (HC p q t Hpq Ht). lra. }
  intros f [<-|[<-|[]]].
  - apply (T tri1); [vm_compute; reflexivity| |].
    + intros [x y] Hx. unfold tri1, strictly_inside in Hx. cbn [fst map] in Hx.
      pose proof (Hx (zp (0, 0)%Z) (zp (9, -4)%Z) ltac:(unfold poly_edges; cbn; auto)) as A1. pose proof (Hx (zp (9, -4)%Z) (zp (1, 9)%Z) ltac:(unfold poly_edges; cbn; auto)) as A2.
      pose proof (Hx (zp (1, 9)%Z) (zp (0, 0)%Z) ltac:(unfold poly_edges; cbn; auto)) as A3.
      unfold orient, cross, psub, zp in A1, A2, A3. cbn [px py fst snd] in *. split; apply Rabs_def1; lra.
    + repeat (apply Forall2_cons; [eexists; reflexivity|]). apply Forall2_nil.
  - apply (T tri2); [vm_compute; reflexivity| |].
    + intros [x y] Hx. unfold tri2, strictly_inside in Hx. cbn [fst map] in Hx.
      pose proof (Hx (zp (0, 0)%Z) (zp (1, 9)%Z) ltac:(unfold poly_edges; cbn; auto)) as A1. pose proof (Hx (zp (1, 9)%Z) (zp (-8, -5)%Z) ltac:(unfold poly_edges; cbn; auto)) as A2.
      pose proof (Hx (zp (-8, -5)%Z) (zp (0, 0)%Z) ltac:(unfold poly_edges; cbn; auto)) as A3.
      unfold orient, cross, psub, zp in A1, A2, A3. cbn [px py fst snd] in *. split; apply Rabs_def1; lra.
    + repeat (apply Forall2_cons; [eexists; reflexivity|]). apply Forall2_nil.
Qed.
Lemma far_built : exists c, built far_lib far0 [AddObstacles [map vp far_hole]] far_t c bent.
Proof.
  destruct far_inflated as (r & E & C & HR). exists (vlines (pairs square_ring) ++ vlines (pairs r)). split.
  - apply free_nan.
  - apply free_holes.
  - split; [reflexivity|]. split; [reflexivity|]. unfold far0, set_agent_radius, with_radius, from_outer_edges, geo_new. cbn [inner exterior]. rewrite square_close. apply close_closed. apply closed_snoc.
  - intros o [<-|[]] a q K. cbn [far_hole map] in K. injection K as <- _. now apply veq_vp.
  - left. cbn. lia.
  - exact far_run.
  - exact (far_constraints r E C).
  - apply subdivision_okb_ok. vm_compute. reflexivity.
  - vm_compute. reflexivity.
  - exact (far_faces r HR).
  - exact far_mesh.
Qed.
Example ex_C76_distance : exists path pts,
  path_on_layers std_lib bent (in_polygon bent_start 0) (in_polygon bent_goal 1) [] = Ok (Some path) /\ ppath path = map vp pts /\ pts = [zp (0, 0)%Z; bent_goal] /\
  polyline_in (fun x => forall a b k, In (a, b) (pairs far_ring) -> 0 <= k <= 1 -> 1 / 2 * cos (PI / (2 * IZR (Z.of_N (arc_count 5)))) <= dist x (lerp a b k)) bent_start pts.
Proof.
  destruct bent_path as (p & H1 & H2). destruct far_built as [c HB].
  destruct (C76_path_keeps_distance far_lib far0 _ far_t c bent (1 / 2) 0 5 (P 100 0) (P 103 4) [P 103 0] std_lib (in_polygon bent_start 0) (in_polygon bent_goal 1) [] p
    bent_start bent_goal 0 1 HB (or_introl far_radius)) as (pts & E & HP).
  - lra.
  - lia.
  - apply free_trig.
  - apply free_union.
  - apply free_simplify.
  - now left.
  - discriminate.
  - intros r _. apply free_finds.
  - apply pop_ok_perm. exact (pr_pop _ _ _ _ _ _ _ bent_proper).
  - exact bent_small.
  - exact (pr_plane _ _ _ _ _ _ _ bent_proper).
  - exact (pr_u32 _ _ _ _ _ _ _ bent_proper).
  - reflexivity.
  - reflexivity.
  - reflexivity.
  - now apply at_polygon.
  - now apply at_polygon.
  - destruct (ge_start _ _ _ _ _ bent_generic) as (qs & Q1 & Q2). exists qs. split; [exact Q1|]. intros a b Hab. apply Rlt_le. now apply Q2.
  - exact (generic_steady _ _ _ _ _ bent_generic).
  - exact (generic_goal _ _ _ _ _ bent_generic).
  - exact H1.
  - exists p, pts. split; [exact H1|]. split; [exact E|]. split; [|exact HP]. apply map_vp_inj. rewrite <- E. exact H2.
Qed.
