(** C76: paths on triangulated meshes keep away from the obstacles. *)
From Coq Require Import List NArith ZArith Bool Reals Lra Lia Psatz Classical.
From Verif Require Import Base Arith U32 Mesh Helpers Locate Search Spec Triangulation Spec_triangulation RealArith Geometry Inflate_facts Properties_triangulation Properties_inflate Spec_outline Enclose Capsule Properties_outline
  Spec_inside Spec_shortest Spec_area Search_props StdLib Spec_free Properties_inside Area Properties_area.
Import ListNotations.
Open Scope R_scope.

(** A mesh built from an outer edge (or another mesh) and obstacles, by any history of calls with at most one prebuild. *)
Record built (lib : TriLib RA) (t0 : Triangulation RA) (cs : list (@call RA)) (t : Triangulation RA) (c : list (vec2 RA * vec2 RA)) (m : Mesh RA) : Prop := {
  bu_nan : no_nan_inserted lib;
  bu_holes : holes_excluded lib;
  bu_fresh : fresh t0;
  bu_compare : forall o, In o (added cs) -> comparable o;
  bu_once : (prebuilds cs <= 1)%nat \/ base_layer t0 <> None;
  bu_run : run_calls lib t0 cs = Ok t;
  bu_constraints : constraints lib t = Ok c;
  bu_subdivision : subdivision_ok (cdt lib c);
  bu_small : (lengthN (inner_faces (cdt lib c)) < 2 ^ 32 - 1)%N;
  bu_faces : faces_ok (cdt lib c) c;
  bu_mesh : as_navmesh lib t = Ok m
}.

(** moving inside of a face does not change what encloses a point *)
Lemma enclosed_along r x y : (forall t, 0 <= t <= 1 -> ~ on_outline r (lerp y x t)) -> enclosed r x -> enclosed r y.
Proof.
  intros Hoff H stops z Hz. destruct (H stops z Hz) as (u & v & a & b & Huv & Hab & Hm).
  destruct (classic (exists u v a b, In (u, v) (pairs (y :: stops ++ [z])) /\ In (a, b) (pairs r) /\ meet u v a b)) as [|N]; [assumption|].
  exfalso. clear u v a b Huv Hab Hm.
  destruct (H (y :: stops) z Hz) as (u & v & a & b & Huv & Hab & Hm). cbn [app pairs] in Huv. destruct Huv as [Huv|Huv].
  - injection Huv as <- <-. destruct Hm as (s & t & Hs & Ht & E). apply (Hoff (1 - s)); [lra|]. exists a, b, t. split; [exact Hab|]. split; [exact Ht|].
    rewrite <- E. unfold lerp. apply P2_eq; cbn [padd pscale psub px py]; ring.
  - apply N. exists u, v, a, b. auto.
Qed.
Lemma strictly_lerp qs x y t : strictly_inside qs x -> inside qs y -> 0 <= t < 1 -> strictly_inside qs (lerp x y t).
Proof.
  intros Hx Hy Ht a b Hab. rewrite orient_lerp_lin. specialize (Hx a b Hab). specialize (Hy a b Hab). nra.
Qed.
Lemma strictly_is_inside qs x : strictly_inside qs x -> inside qs x.
Proof. intros H a b Hab. apply Rlt_le. now apply H. Qed.

Lemma sites_world (s : Subdivision RA) (l : Layer RA) (is : list N) : offset l = vzero ->
  (forall i pos around, nthN (sites s) i = Some (pos, around) -> exists v, nthN (vertices l) i = Some v /\ coords v = pos) ->
  forall qs qs', Forall2 (at_world l) is qs -> Forall2 (fun i q => exists around, nthN (sites s) i = Some (vp q, around)) is qs' -> qs = qs'.
Proof.
  intros HO HV. induction is as [|i is IH]; intros qs qs' H1 H2; inversion_clear H1; inversion_clear H2; [reflexivity|]. f_equal; [|now apply IH].
  destruct H as (v & Ev & Ew). destruct H1 as (around & Ea). destruct (HV _ _ _ Ea) as (v' & Ev' & Ec). assert (v' = v) by congruence. subst v'.
  unfold world in Ew. rewrite Ec, HO in Ew. unfold vzero in Ew. apply vp_inj. rewrite <- Ew. destruct y0 as [a b]. unfold vadd, vp, pt. cbn [vx vy px py]. rewrite fz_R. unfold rr. cbn.
  f_equal; f_equal; ring.
Qed.

Section Built.
Context (lib : TriLib RA) (t0 : Triangulation RA) (cs : list (@call RA)) (t : Triangulation RA) (c : list (vec2 RA * vec2 RA)) (m : Mesh RA).
Context (HB : built lib t0 cs t c m).

(** a polygon is a face that was kept *)
Lemma polygon_face id qs : corners m id qs -> exists f g centre, inflated lib t = Ok g /\ In f (inner_faces (cdt lib c)) /\ fcenter f = vp centre /\ strictly_inside qs centre /\
  accepted lib t g (vp centre) = Ok true /\ forall p q k, In (vp p, vp q) c -> 0 <= k <= 1 -> ~ strictly_inside qs (lerp p q k).
Proof using HB.
  intros (l & p & [Hl Hp] & HF). destruct HB as [B1 B2 B3 B4 B5 B6 B7 B8 B9 B10 B11].
  unfold as_navmesh in B11. inv_bind B11. inversion B11 as [Em]; clear B11. rename a into l0.
  assert (exists g, inflated lib t = Ok g) as [g EG]. { pose proof E as E'. unfold as_layer in E'. inv_bind E'. inv_bind E'. eauto. }
  destruct (C41_as_layer lib t c g l0 B7 EG B8 B9 E) as (kept & K1 & K2 & K3 & K4).
  rewrite <- Em in Hl. cbn [layers] in Hl. assert (l = l0) as -> by (apply nthN_In in Hl; destruct Hl as [<-|[]]; reflexivity).
  assert (HO : offset l0 = vzero).
  { unfold as_layer in E. rewrite B7, EG in E. cbn [bind] in E. unfold layer_of_subdivision in E. inv_bind E. inv_bind E. inversion E. reflexivity. }
  apply nthN_In in Hp. rewrite K2 in Hp. apply in_map_iff in Hp. destruct Hp as (f & <- & Hf). apply filter_In in Hf. destruct Hf as [Hf Hk].
  destruct (B10 f Hf) as (qs' & centre & F1 & F2 & F3 & F4). cbn [polygon_of_face pverts] in HF.
  assert (qs = qs') as <-. { refine (sites_world (cdt lib c) l0 (fverts f) HO _ qs qs' HF F1). intros i pos around Hi. destruct (K4 i pos around Hi) as (v & V1 & V2 & _). eauto. }
  exists f, g, centre. split; [exact EG|]. split; [exact Hf|]. split; [exact F2|]. split; [exact F3|]. split; [|exact F4].
  rewrite <- F2, (K1 f Hf), Hk. reflexivity.
Qed.

(** the outline of an obstacle does not enclose a point inside of a polygon *)
Lemma polygon_not_enclosed id qs x o r : corners m id qs -> strictly_inside qs x -> In o (added cs) -> outline lib (agent_radius t0) o (map vp r) -> finds_enclosed lib r -> ~ enclosed r x.
Proof using HB.
  intros Hc Hx Ho Hr HJ HE. destruct (polygon_face id qs Hc) as (f & g & centre & EG & Hf & Ef & Hin & HA & Hoff). destruct HB as [B1 B2 B3 B4 B5 B6 B7 B8 B9 B10 B11].
  assert (OU : forall r1 r2, outline lib (agent_radius t0) o r1 -> outline lib (agent_radius t0) o r2 -> r1 = r2).
  { unfold outline. intros r1 r2. destruct (agent_radius t0) as [|rd n p|rd n p]; [congruence| |]; (destruct (enough rd); [|congruence]); intros (i1 & I1 & ->) (i2 & I2 & ->); congruence. }
  destruct (C43_no_face_in_an_obstacle lib t0 cs t c g (vp centre) B1 B2 B3 B4 B6 B7 EG HA o Ho) as (r1 & O1 & C1). rewrite (OU _ _ O1 Hr) in C1.
  destruct (C43_every_obstacle_constrains lib t0 cs t c B1 B3 B4 B5 B6 B7 o Ho) as (r2 & O2 & C2). rewrite (OU _ _ O2 Hr) in C2. rewrite lines_pairs in C2.
  assert (Hno : forall y, strictly_inside qs y -> ~ on_outline r y).
  { intros y Hy (a & b & k & Hab & Hk & E). rewrite E in Hy. apply (Hoff a b k); [|exact Hk|exact Hy]. apply C2. apply in_map_iff. exists (a, b). auto. }
  assert (HE' : enclosed r centre).
  { apply (enclosed_along r x centre); [|exact HE]. intros k Hk. apply Hno. destruct (Req_dec k 1) as [-> |Nk]; [rewrite lerp_1; exact Hx|].
    apply strictly_lerp; [exact Hin|now apply strictly_is_inside|lra]. }
  rewrite (HJ centre (Hno centre Hin) HE') in C1. discriminate.
Qed.
Lemma near_point id qs x rad : corners m id qs -> inside qs x -> 0 < rad -> exists y, strictly_inside qs y /\ dist x y < rad.
Proof using HB.
  intros Hc Hx Hr. destruct (polygon_face id qs Hc) as (f & g & centre & _ & _ & _ & Hin & _).
  set (D := dist centre x). assert (0 <= D) by apply dist_nonneg. set (k := rad / (2 * (D + rad))). 
  assert (Hk : k * (2 * (D + rad)) = rad) by (unfold k; field; lra). assert (0 < k) by (apply Rdiv_lt_0_compat; lra). assert (k <= 1 / 2) by nra.
  exists (lerp centre x (1 - k)). split; [apply strictly_lerp; [exact Hin|exact Hx|lra]|].
  assert (dist x (lerp centre x (1 - k)) = k * D) as ->; [|nra].
  unfold D, dist. replace (psub x (lerp centre x (1 - k))) with (pscale (- k) (psub centre x)) by (unfold lerp; apply P2_eq; cbn [padd pscale psub px py]; ring).
  rewrite plen_scale, Rabs_Ropp, Rabs_right by lra. reflexivity.
Qed.
End Built.

Lemma closing_close l r : closing l r -> close (map vp l) = map vp r /\ closed r.
Proof.
  intros [[H ->]|[H (a & l' & -> & ->)]]; [split; [now apply close_closed|exact H]|]. split; [|apply closed_snoc]. apply close_open. intro E. apply H. exists a, l'. split; [reflexivity|].
  destruct l'; [reflexivity|]. symmetry. exact E.
Qed.

(** C76: without an agent radius, the area of the mesh is outside of the obstacles: arbitrarily close to any of its points there are points of it that the obstacle does not
    enclose (points of the obstacle's outline itself may be in the area). *)
Theorem C76_area_outside_obstacles (lib : TriLib RA) t0 cs t c m (l r : list P2) :
  built lib t0 cs t c m -> agent_radius t0 = RNone -> In (map vp l) (added cs) -> closing l r -> finds_enclosed lib r ->
  forall x rad, covered m x -> 0 < rad -> exists y, dist x y < rad /\ covered m y /\ ~ enclosed r y.
Proof.
  intros HB HN Ho Hr HJ x rad (id & qs & Hc & Hx) Hrad. destruct (near_point lib t0 cs t c m HB id qs x rad Hc Hx Hrad) as (y & Hy & Hd). exists y. split; [exact Hd|].
  split; [exists id, qs; split; [exact Hc|now apply strictly_is_inside]|].
  apply (polygon_not_enclosed lib t0 cs t c m HB id qs y _ r Hc Hy Ho); [|exact HJ]. rewrite HN. cbn [outline]. symmetry. exact (proj1 (closing_close l r Hr)).
Qed.

(** C76: with an agent radius, no point of the area is closer to a side of an obstacle than the radius times cos (pi / 2m).  The line put around the obstacle is judged right by geo's
    point in polygon test, and its simplification uncovers nothing. *)
Theorem C76_area_keeps_distance (lib : TriLib RA) t0 cs t c m (d p : R) (n : N) (a0 a1 : P2) (rest : list P2) :
  built lib t0 cs t c m -> agent_radius t0 = RObstacles (rr d) n (rr p) \/ agent_radius t0 = REverything (rr d) n (rr p) ->
  1 / 100000 < d -> (3 <= n)%N -> real_trig lib -> union_ok lib -> simplify_keeps lib p ->
  In (map vp (a0 :: a1 :: rest)) (added cs) -> (rest = [] -> a0 <> a1) ->
  (forall r, outline lib (agent_radius t0) (map vp (a0 :: a1 :: rest)) (map vp r) -> finds_enclosed lib r) ->
  forall x, covered m x -> forall a b k, In (a, b) (pairs (a0 :: a1 :: rest ++ [a0])) -> 0 <= k <= 1 ->
    d * cos (PI / (2 * IZR (Z.of_N (arc_count n)))) <= dist x (lerp a b k).
Proof.
  intros HB HA Hd Hn HT HU HS Ho HD HJ x (id & qs & Hc & Hx) a b k Hab Hk.
  assert (Hen : enough (A := RA) (rr d) = true).
  { unfold enough, fgt. cbn. unfold rltb. destruct (Rlt_dec _ _) as [|N]; [reflexivity|]. exfalso. apply N. lra. }
  (* the closed ring that is inflated *)
  set (l := a0 :: a1 :: rest) in *. 
  assert (exists l', (closing l (a0 :: a1 :: l') /\ (l' = [] -> a0 <> a1) /\ In (a, b) (pairs (a0 :: a1 :: l' ++ [a0])))) as (l' & Hcl & HD' & Hab').
  { destruct (classic (closed l)) as [HC|HC].
    - exists rest. split; [left; auto|]. auto.
    - exists (rest ++ [a0]). split; [right; split; [exact HC|]; exists a0, (a1 :: rest); auto|]. split.
      + intro E. destruct rest; discriminate E.
      + rewrite <- app_assoc. clear - Hab. cbn [app] in *. destruct Hab as [H|H]; [now left|]. right.
        revert H. generalize a1 as w. induction rest as [|e q IH]; intros w H; [cbn in H |- *; destruct H as [H|[]]; now left|].
        cbn [app pairs] in H |- *. destruct H as [H|H]; [now left|right; now apply IH]. }
  destruct (closing_close _ _ Hcl) as [Ecl _].
  destruct (C53_obstacle_kept_away lib d n a0 a1 l' HT HU ltac:(lra) Hn HD') as (ext & holes & EI & Hce & HE).
  destruct (HS ext Hce) as (r & Er & Hcr & HK).
  assert (HO : outline lib (agent_radius t0) (map vp l) (map vp r)).
  { destruct HA as [-> | ->]; cbn [outline]; rewrite Hen; exists (map vp ext, holes); rewrite Ecl; (split; [exact EI|]); cbn [fst]; unfold rr; rewrite Er; symmetry; now apply close_closed. }
  apply Rnot_lt_le. intro Hlt. set (reach := d * cos (PI / (2 * IZR (Z.of_N (arc_count n))))) in *.
  destruct (near_point lib t0 cs t c m HB id qs x (reach - dist x (lerp a b k)) Hc Hx ltac:(lra)) as (y & Hy & Hdy).
  apply (polygon_not_enclosed lib t0 cs t c m HB id qs y _ r Hc Hy Ho HO (HJ r HO)). apply HK. apply (HE a b k y Hab' Hk). fold reach.
  pose proof (dist_triangle y x (lerp a b k)) as T. rewrite (dist_sym y x) in T. lra.
Qed.

(** ** The outer edge *)
Lemma segment_away (x a b : P2) : (forall t, 0 <= t <= 1 -> x <> lerp a b t) -> exists delta, 0 < delta /\ forall t, 0 <= t <= 1 -> delta <= dist x (lerp a b t).
Proof.
  intro H. set (f := fun t => (px x - (px a + t * (px b - px a))) * (px x - (px a + t * (px b - px a))) + (py x - (py a + t * (py b - py a))) * (py x - (py a + t * (py b - py a)))).
  assert (Hf : forall t, f t = pdot (psub x (lerp a b t)) (psub x (lerp a b t))) by (intro t; unfold f, pdot, lerp; cbn [padd pscale psub px py]; reflexivity).
  destruct (continuity_ab_min f 0 1) as (t0 & Hmin & Ht0); [lra|intros c _; unfold f; reg|].
  exists (dist x (lerp a b t0)). split; [apply dist_pos; now apply H|]. intros t Ht. unfold dist, plen. apply sqrt_le_1_alt. rewrite <- !Hf. now apply Hmin.
Qed.
Lemma outline_away r x : ~ on_outline r x -> exists delta, 0 < delta /\ forall y, on_outline r y -> delta <= dist x y.
Proof.
  unfold on_outline. induction (pairs r) as [|[a b] es IH]; intro H.
  - exists 1. split; [lra|]. intros y (u & v & t & [] & _).
  - destruct (segment_away x a b) as (d1 & D1 & E1). { intros t Ht E. apply H. exists a, b, t. split; [now left|auto]. }
    destruct IH as (d2 & D2 & E2). { intros (u & v & t & Hin & Ht & E). apply H. exists u, v, t. split; [now right|auto]. }
    exists (Rmin d1 d2). split; [now apply Rmin_pos|]. intros y (u & v & t & [Hin|Hin] & Ht & ->).
    + injection Hin as <- <-. eapply Rle_trans; [apply Rmin_l|now apply E1].
    + eapply Rle_trans; [apply Rmin_r|]. apply E2. exists u, v, t. auto.
Qed.
Lemma enclosed_limit r x : (forall rad, 0 < rad -> exists y, dist x y < rad /\ enclosed r y) -> enclosed r x.
Proof.
  intros H stops z Hz. destruct (classic (on_outline r x)) as [(a & b & t & Hab & Ht & E)|Hoff].
  - assert (exists v, In (x, v) (pairs (x :: stops ++ [z]))) as [v Hv] by (destruct stops as [|v s]; [exists z|exists v]; now left).
    exists x, v, a, b. split; [exact Hv|]. split; [exact Hab|]. exists 0, t. split; [lra|]. split; [exact Ht|]. rewrite lerp_0. exact E.
  - destruct (outline_away r x Hoff) as (delta & HD & HA). destruct (H delta HD) as (y & Hy & HE).
    destruct (HE (x :: stops) z Hz) as (u & v & a & b & Huv & Hab & Hm). cbn [app pairs] in Huv. destruct Huv as [Huv|Huv]; [|exists u, v, a, b; auto].
    exfalso. injection Huv as <- <-. destruct Hm as (s & t & Hs & Ht & E).
    assert (delta <= dist x (lerp a b t)) as K by (apply HA; exists a, b, t; auto). rewrite <- E in K.
    assert (dist x (lerp y x s) <= dist x y); [|lra]. pose proof (dist_between y x s Hs) as B. rewrite (dist_sym x (lerp y x s)). pose proof (dist_nonneg y (lerp y x s)). rewrite (dist_sym x y). lra.
Qed.

Definition outer_only (a : AgentRadius RA) : Prop := match a with REverything _ _ _ => False | _ => True end.
Definition outer_inv (ext e : ring RA) (a : AgentRadius RA) (t : Triangulation RA) : Prop :=
  exterior (inner t) = ext /\ base_layer t = None /\ agent_radius t = a /\ forall used cc, prebuilt t = Some (used, cc) -> incl (ring_lines e) cc.
Lemma only_edge_used lib a ext e : outer_only a -> ext = e -> edge_used lib a ext e.
Proof. intros HO ->. destruct a; [reflexivity|reflexivity|destruct HO]. Qed.
Lemma edge_closed lib a ext r : close ext = ext -> edge_used lib a ext (map vp r) -> close (map vp r) = map vp r.
Proof.
  intros HX HO. assert (G : forall hole, map vp r = close hole -> close (map vp r) = map vp r).
  { intros hole E. rewrite E. apply close_comparable. intros v y Ev. subst hole. destruct r as [|w r']; [unfold close in E; destruct (is_closed (v :: y)); discriminate E|].
    assert (v = vp w) as -> by (unfold close in E; destruct (is_closed (v :: y)); cbn [map app] in E; congruence). now apply veq_vp. }
  destruct a as [|d n p|d n p]; cbn [edge_used] in HO; [congruence|congruence|]. destruct (enough d); [|congruence]. destruct HO as (i & hole & _ & _ & E). exact (G hole E).
Qed.
Lemma inflate_edge (lib : TriLib RA) g d n p g' e : close e = e -> inflate lib g d n p = Ok g' -> (exists i hole, inflate_ring lib (exterior g) d n = Ok i /\ nthN (snd i) 0 = Some hole /\ e = close hole) -> exterior g' = e.
Proof.
  intros HE H (i & hole & E1 & E2 & Ee). unfold inflate in H. rewrite E1 in H. cbn [bind] in H. inv_bind H. inv_bind H. inversion H. cbn [exterior].
  apply index_Ok in E0. destruct (snd i) as [|h r]; [discriminate E2|]. cbn in E0, E2. assert (h = hole) by congruence. subst h.
  assert (a0 = close hole) by congruence. subst a0. congruence.
Qed.
Lemma inflated_exterior lib ext e a t g : close ext = ext -> close e = e -> edge_used lib a ext e -> outer_inv ext e a t -> inflated lib t = Ok g -> exterior g = e.
Proof.
  intros HX HY HO (H1 & H2 & H3 & H4) H. unfold inflated in H. rewrite H3 in H. destruct a as [|d n p|d n p]; cbn [edge_used] in HO; [inversion H; congruence| |].
  - destruct (enough d); [|inversion H; congruence]. rewrite (proj2 (obstacles_outlined _ _ _ _ _ _ H)). congruence.
  - destruct (enough d); [|inversion H; congruence]. apply (inflate_edge _ _ _ _ _ _ _ HY H). now rewrite H1.
Qed.
Lemma outer_run lib ext e a : close ext = ext -> close e = e -> edge_used lib a ext e -> forall cs t t', outer_inv ext e a t -> run_calls lib t cs = Ok t' -> outer_inv ext e a t'.
Proof.
  intros HX HY HO. induction cs as [|k cs IH]; intros t t' HI H; [cbn in H; inversion H; subst; exact HI|].
  unfold run_calls in H. cbn [foldM] in H. inv_bind H. rename a0 into t1. refine (IH t1 t' _ H). pose proof HI as (H1 & H2 & H3 & H4). destruct k as [o|os|]; cbn [apply_call] in E.
  - inversion E. split; [exact H1|]. split; [exact H2|]. split; [exact H3|]. exact H4.
  - inversion E. split; [cbn [add_obstacles with_inner inner geo_new exterior]; rewrite H1; exact HX|]. split; [exact H2|]. split; [exact H3|]. exact H4.
  - unfold prebuild in E. rewrite H2 in E. inv_bind E. inv_bind E. inv_bind E. inversion E. clear E.
    pose proof (inflated_exterior lib ext e a t _ HX HY HO HI E0) as EX. destruct (add_edges_Ok lib _ _ _ E1) as [-> _]. destruct (add_rings_Ok lib _ _ _ E2) as [-> _].
    split; [cbn [inner geo_new exterior]; rewrite H1; exact HX|]. split; [reflexivity|]. split; [exact H3|]. cbn [prebuilt]. intros used cc Eu. inversion Eu. rewrite EX.
    cbn [app]. apply incl_appl, incl_refl.
Qed.
(** the edge that is used is among the constraints *)
Lemma edge_constrains (lib : TriLib RA) ext e a t c : close e = e -> edge_used lib a ext e -> outer_inv ext e a t -> constraints lib t = Ok c -> incl (ring_lines e) c.
Proof.
  intros HY HO (I1 & I2 & I3 & I4) B7. unfold constraints in B7. inv_bind B7. rewrite I2 in B7. cbn [bind] in B7. inv_bind B7. destruct (add_rings_Ok lib _ _ _ B7) as [-> _].
  apply incl_appl. unfold initial_constraints in E. destruct (prebuilt t) as [[used cc]|] eqn:EP; [inversion E; subst; now apply (I4 used)|].
  rewrite I3 in E. destruct a as [|d n p|d n p]; cbn [edge_used] in HO; [| |destruct (enough d)].
  1,2,4: destruct (add_edges_Ok lib _ _ _ E) as [-> _]; rewrite I1, HO; apply incl_refl.
  inv_bind E. destruct (add_edges_Ok lib _ _ _ E) as [-> _]. cbn [app]. match goal with H : inflate _ _ _ _ _ = Ok ?x |- _ => rewrite (inflate_edge _ _ _ _ _ x e HY H); [apply incl_refl|] end. now rewrite I1.
Qed.

(** C76: the area is enclosed by the outer edge, shrunk if the agent radius is to be kept from it (builder not made from a mesh). *)
Theorem C76_area_inside_outer_edge (lib : TriLib RA) t0 cs t c m (r : list P2) :
  built lib t0 cs t c m -> base_layer t0 = None -> edge_used lib (agent_radius t0) (exterior (inner t0)) (map vp r) -> finds_only_enclosed lib ->
  forall x, covered m x -> enclosed r x.
Proof.
  intros HB HL HO HF x (id & qs & Hc & Hx). apply enclosed_limit. intros rad Hrad.
  destruct (near_point lib t0 cs t c m HB id qs x rad Hc Hx Hrad) as (y & Hy & Hd). exists y. split; [exact Hd|].
  destruct (polygon_face lib t0 cs t c m HB id qs Hc) as (f & g & centre & EG & _ & _ & Hin & HA & Hoff).
  destruct HB as [B1 B2 (B3 & _ & B3') B4 B5 B6 B7 B8 B9 B10 B11].
  assert (HI0 : outer_inv (exterior (inner t0)) (map vp r) (agent_radius t0) t0) by (split; [reflexivity|]; split; [exact HL|]; split; [reflexivity|]; intros used cc Eu; congruence).
  pose proof (edge_closed lib _ _ r B3' HO) as HY. pose proof (outer_run lib _ _ _ B3' HY HO cs t0 t HI0 B6) as HI. pose proof (inflated_exterior lib _ _ _ t g B3' HY HO HI EG) as EX.
  pose proof (edge_constrains lib _ _ _ t c HY HO HI B7) as HC. destruct HI as (I1 & I2 & I3 & I4).
  assert (Hno : forall w, strictly_inside qs w -> ~ on_outline r w).
  { intros w Hw (a & b & k & Hab & Hk & E). rewrite E in Hw. apply (Hoff a b k); [|exact Hk|exact Hw]. apply HC. rewrite lines_pairs. apply in_map_iff. exists (a, b). auto. }
  apply (enclosed_along r centre y).
  - intros k Hk. apply Hno. destruct (Req_dec k 1) as [-> |Nk]; [rewrite lerp_1; exact Hin|]. apply strictly_lerp; [exact Hy|now apply strictly_is_inside|lra].
  - unfold accepted in HA. rewrite I2 in HA. destruct (_ && _) eqn:EB in HA; [|discriminate]. apply andb_true_iff in EB. destruct EB as [_ EB].
    destruct g as [ge gi]. cbn [exterior] in EX. rewrite EX in EB. exact (HF r gi centre EB).
Qed.

(** ** Paths *)
Lemma walks_covered m start ps pts ids : (exists qs, corners m ps qs /\ inside qs start) -> walks m start pts ids -> polyline_in (covered m) start pts.
Proof.
  intros H10 HW. assert (HC : covered m start) by (destruct H10 as (qs & Q1 & Q2); exists ps, qs; auto). clear H10.
  induction HW as [a|a q pts ids ids' HG HW IH]; cbn [polyline_in]; [exact HC|].
  assert (HS : segment_in (covered m) a q). { intros t Ht. destruct (goes_everywhere m a q ids HG t Ht) as (id & qs & _ & G2 & G3). exists id, qs. auto. }
  split; [exact HS|]. apply IH. exact (proj2 (segment_ends _ _ _ HS)).
Qed.
Lemma path_covered (plib : Lib RA) m from to blocked path start goal ps pe :
  pop_perm (lpop plib) -> mesh_small m -> plane_mesh m -> u32_ids m -> (ps < 2 ^ 32)%N ->
  cpos from = vp start -> cpos to = vp goal -> located plib m from ps -> located plib m to pe ->
  (exists qs, corners m ps qs /\ inside qs start) -> steady m start -> steady_goal m start pe goal ->
  path_on_layers plib m from to blocked = Ok (Some path) ->
  exists pts, ppath path = map vp pts /\ polyline_in (covered m) start pts.
Proof.
  intros H1 H2 H3 H4 H5 H6 H7 H8 H9 H10 H11 H12 H. destruct (C62_general_position plib m from to blocked path start goal ps pe H1 H2 H3 H4 H5 H6 H7 H8 H9 H10 H11 H12 H) as (pts & xs & E & _ & HW & _).
  exists pts. split; [exact E|]. exact (walks_covered m start ps pts _ H10 HW).
Qed.
Lemma polyline_weaken (W W' : P2 -> Prop) : (forall x, W x -> W' x) -> forall pts a, polyline_in W a pts -> polyline_in W' a pts.
Proof. intros H. induction pts as [|q pts IH]; intros a HP; cbn [polyline_in] in *; [now apply H|]. destruct HP as [P1 P2]. split; [intros t Ht; apply H; now apply P1|now apply IH]. Qed.

(** C76: an agent with a radius.  No point of a path returned on the mesh is closer to a side of an obstacle than the radius times cos (pi / 2m). *)
Theorem C76_path_keeps_distance (lib : TriLib RA) t0 cs t c m (d p : R) (n : N) (a0 a1 : P2) (rest : list P2) (plib : Lib RA) from to blocked path start goal ps pe :
  built lib t0 cs t c m -> agent_radius t0 = RObstacles (rr d) n (rr p) \/ agent_radius t0 = REverything (rr d) n (rr p) ->
  1 / 100000 < d -> (3 <= n)%N -> real_trig lib -> union_ok lib -> simplify_keeps lib p ->
  In (map vp (a0 :: a1 :: rest)) (added cs) -> (rest = [] -> a0 <> a1) ->
  (forall r, outline lib (agent_radius t0) (map vp (a0 :: a1 :: rest)) (map vp r) -> finds_enclosed lib r) ->
  pop_perm (lpop plib) -> mesh_small m -> plane_mesh m -> u32_ids m -> (ps < 2 ^ 32)%N ->
  cpos from = vp start -> cpos to = vp goal -> located plib m from ps -> located plib m to pe ->
  (exists qs, corners m ps qs /\ inside qs start) -> steady m start -> steady_goal m start pe goal ->
  path_on_layers plib m from to blocked = Ok (Some path) ->
  exists pts, ppath path = map vp pts /\
    polyline_in (fun x => forall a b k, In (a, b) (pairs (a0 :: a1 :: rest ++ [a0])) -> 0 <= k <= 1 -> d * cos (PI / (2 * IZR (Z.of_N (arc_count n)))) <= dist x (lerp a b k)) start pts.
Proof.
  intros HB HA Hd Hn HT HU HS Ho HD HJ H1 H2 H3 H4 H5 H6 H7 H8 H9 H10 H11 H12 H.
  destruct (path_covered plib m from to blocked path start goal ps pe H1 H2 H3 H4 H5 H6 H7 H8 H9 H10 H11 H12 H) as (pts & E & HP). exists pts. split; [exact E|].
  revert HP. apply polyline_weaken. exact (C76_area_keeps_distance lib t0 cs t c m d p n a0 a1 rest HB HA Hd Hn HT HU HS Ho HD HJ).
Qed.
(** C76: without an agent radius, a path stays inside of the outer edge and does not enter an obstacle. *)
Theorem C76_path_outside_obstacles (lib : TriLib RA) t0 cs t c m (outer l r : list P2) (plib : Lib RA) from to blocked path start goal ps pe :
  built lib t0 cs t c m -> agent_radius t0 = RNone -> base_layer t0 = None -> exterior (inner t0) = map vp outer -> finds_only_enclosed lib ->
  In (map vp l) (added cs) -> closing l r -> finds_enclosed lib r ->
  pop_perm (lpop plib) -> mesh_small m -> plane_mesh m -> u32_ids m -> (ps < 2 ^ 32)%N ->
  cpos from = vp start -> cpos to = vp goal -> located plib m from ps -> located plib m to pe ->
  (exists qs, corners m ps qs /\ inside qs start) -> steady m start -> steady_goal m start pe goal ->
  path_on_layers plib m from to blocked = Ok (Some path) ->
  exists pts, ppath path = map vp pts /\
    polyline_in (fun x => enclosed outer x /\ forall rad, 0 < rad -> exists y, dist x y < rad /\ ~ enclosed r y) start pts.
Proof.
  intros HB HA HL HE HF Ho Hr HJ H1 H2 H3 H4 H5 H6 H7 H8 H9 H10 H11 H12 H.
  destruct (path_covered plib m from to blocked path start goal ps pe H1 H2 H3 H4 H5 H6 H7 H8 H9 H10 H11 H12 H) as (pts & E & HP). exists pts. split; [exact E|].
  revert HP. apply polyline_weaken. intros x Hx. split.
  - apply (C76_area_inside_outer_edge lib t0 cs t c m outer HB HL); [rewrite HA; symmetry; exact HE|exact HF|exact Hx].
  - intros rad Hrad. destruct (C76_area_outside_obstacles lib t0 cs t c m l r HB HA Ho Hr HJ x rad Hx Hrad) as (y & Y1 & _ & Y2). eauto.
Qed.

Print Assumptions C76_area_outside_obstacles.
Print Assumptions C76_area_keeps_distance.
Print Assumptions C76_area_inside_outer_edge.
Print Assumptions C76_path_keeps_distance.
Print Assumptions C76_path_outside_obstacles.
