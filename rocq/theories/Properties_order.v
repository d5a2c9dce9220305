(** C89: the area of a triangulated mesh is the closure of the free space, so it depends neither on the order in which the obstacles are added nor on the
    triangulation; and more obstacles never make a path shorter. *)
From Coq Require Import List NArith ZArith Bool Reals Lra Lia Psatz Classical.
From Verif Require Import Base Cleanup_facts Arith U32 Mesh Helpers Locate Search AsyncPath Spec Triangulation Spec_triangulation RealArith Geometry Inflate_facts Properties_triangulation Properties_inflate Spec_outline Enclose Capsule Properties_outline
  Spec_inside Spec_shortest Spec_area Search_props Search_safe StdLib Spec_free Properties_inside Area Properties_geometry Properties_complete Properties_area Properties_free Spec_freespace Properties_freespace.
Import ListNotations.
Open Scope R_scope.

(** ** The area of a mesh is closed *)
Lemma orient_moves a b x y : orient a b y - orient a b x <= plen (psub b a) * dist x y.
Proof.
  rewrite (dist_sym x y). unfold dist. set (u := P (- (py b - py a)) (px b - px a)).
  replace (orient a b y - orient a b x) with (pdot u (psub y x)) by (unfold u, orient, cross, psub, pdot; cbn [px py]; ring).
  replace (plen (psub b a)) with (plen u); [apply Cauchy|]. unfold plen. f_equal. unfold u, psub, pdot. cbn [px py]. ring.
Qed.
Lemma far_ring qs x : ~ inside qs x -> exists rad, 0 < rad /\ forall y, dist x y < rad -> ~ inside qs y.
Proof.
  intro H. assert (exists a b, In (a, b) (poly_edges qs) /\ orient a b x < 0) as (a & b & Hab & Ho).
  { apply NNPP. intro N. apply H. intros a b Hab. apply Rnot_lt_le. intro K. apply N. exists a, b. auto. }
  pose proof (plen_nonneg (psub b a)) as HP. exists (- orient a b x / (plen (psub b a) + 1)). split; [apply Rdiv_lt_0_compat; lra|].
  intros y Hy Hin. specialize (Hin a b Hab). pose proof (orient_moves a b x y) as HM. pose proof (dist_nonneg x y) as HD.
  assert (dist x y * (plen (psub b a) + 1) < - orient a b x) as K.
  { replace (- orient a b x) with (- orient a b x / (plen (psub b a) + 1) * (plen (psub b a) + 1)) by (field; lra). apply Rmult_lt_compat_r; lra. }
  nra.
Qed.
Lemma far_polygon (l : Layer RA) (p : Polygon) x : exists rad, 0 < rad /\ forall qs y, Forall2 (at_world l) (pverts p) qs -> inside qs y -> dist x y < rad -> inside qs x.
Proof.
  destruct (classic (exists qs, Forall2 (at_world l) (pverts p) qs /\ ~ inside qs x)) as [(qs & H1 & H2)|N].
  - destruct (far_ring qs x H2) as (rad & R1 & R2). exists rad. split; [exact R1|]. intros qs' y H3 H4 H5. exfalso. apply (R2 y H5).
    assert (qs' = qs) as <-; [|exact H4]. clear -H1 H3. revert qs' H3. generalize dependent qs. generalize (pverts p).
    intros is. induction is as [|i is IH]; intros qs H1 qs' H3; inversion_clear H1; inversion_clear H3; [reflexivity|]. f_equal; [|now apply IH].
    destruct H as (v & V1 & V2), H1 as (w & W1 & W2). apply vp_inj. congruence.
  - exists 1. split; [lra|]. intros qs y H1 _ _. apply NNPP. intro K. apply N. exists qs. auto.
Qed.
Lemma far_list x : forall L : list (Layer RA * Polygon), exists rad, 0 < rad /\
  forall l p, In (l, p) L -> forall qs y, Forall2 (at_world l) (pverts p) qs -> inside qs y -> dist x y < rad -> inside qs x.
Proof.
  induction L as [|[l p] L (r1 & A1 & A2)]; [exists 1; split; [lra|intros l p []]|].
  destruct (far_polygon l p x) as (r2 & B1 & B2). exists (Rmin r1 r2). split; [now apply Rmin_pos|].
  intros l' p' [E|H] qs y H1 H2 H3.
  - assert (l = l' /\ p = p') as [-> ->] by (split; congruence). apply (B2 qs y); auto. pose proof (Rmin_r r1 r2). lra.
  - apply (A2 l' p' H qs y); auto. pose proof (Rmin_l r1 r2). lra.
Qed.
Lemma covered_closed (m : Mesh RA) x : near (covered m) x -> covered m x.
Proof.
  intro H. destruct (far_list x (flat_map (fun l => map (fun p => (l, p)) (polygons l)) (layers m))) as (rad & R1 & R2).
  destruct (H rad R1) as (y & Hy & id & qs & (l & p & [P1 P2] & HF) & Hin). exists id, qs. split; [exists l, p; split; [split|]; assumption|].
  apply (R2 l p) with (y := y); auto. apply in_flat_map. exists l. split; [exact (nthN_In _ _ _ P1)|]. apply in_map. exact (nthN_In _ _ _ P2).
Qed.
Lemma covered_area (m : Mesh RA) ps x : mesh_small m -> covered m x -> area m [] ps x.
Proof.
  intros [S1 S2] (id & qs & (l & p & [P1 P2] & HF) & Hin).
  assert (K1 : (id_layer id < 256)%N) by (unfold id_layer; apply N.mod_lt; discriminate).
  assert (K2 : (id_polygon id < 2 ^ 24)%N) by (rewrite id_polygon_eq; apply N.mod_lt; discriminate).
  exists (id_make (id_layer id) (id_polygon id)), qs. split; [split; [now apply id_make_lt|right; intros []]|]. split; [|exact Hin].
  exists l, p. split; [|exact HF]. split; [rewrite id_layer_make by assumption; exact P1|rewrite id_polygon_make by assumption; exact P2].
Qed.

(** What C88 and C89 ask of a builder (it was not made from a mesh), of the triangulator and of geo. *)
Record cut_out (lib : TriLib RA) (outer : list P2) (t0 : Triangulation RA) (cs : list (@call RA)) (m : Mesh RA) : Prop := {
  co_built : exists t c, built lib t0 cs t c m /\ faces_cover (cdt lib c) outer;
  co_base : base_layer t0 = None;
  co_outer : edge_used lib (agent_radius t0) (exterior (inner t0)) (map vp outer);
  co_finds : finds_free lib outer;
  co_only : finds_only_enclosed lib;
  co_numbers : forall o r, In o (added cs) -> outline lib (agent_radius t0) o r -> exists r', r = map vp r' /\ finds_enclosed lib r';
  co_small : mesh_small m
}.

Section Interior.
Context (lib : TriLib RA) (t0 : Triangulation RA) (cs : list (@call RA)) (m : Mesh RA) (outer : list P2).
Hypothesis HB : cut_out lib outer t0 cs m.
(** the interior of a polygon is free *)
Lemma interior_free id qs x : corners m id qs -> strictly_inside qs x -> in_free_space lib (agent_radius t0) outer (added cs) x.
Proof using HB.
  intros Hc Hx. destruct HB as [(t & c & HBu & _) HL HO _ HF HN Hsm].
  split; [|split].
  - apply (C76_area_inside_outer_edge lib t0 cs t c m outer HBu HL HO HF). exists id, qs. split; [exact Hc|now apply strictly_is_inside].
  - destruct (polygon_face lib t0 cs t c m HBu id qs Hc) as (f & g & centre & EG & _ & _ & Hin & HA & Hoff).
    destruct HBu as [B1 B2 (B3 & _ & B3') B4 B5 B6 B7 B8 B9 B10 B11].
    assert (HI0 : outer_inv (exterior (inner t0)) (map vp outer) (agent_radius t0) t0) by (split; [reflexivity|]; split; [exact HL|]; split; [reflexivity|]; intros used cc Eu; congruence).
    pose proof (edge_closed lib _ _ outer B3' HO) as HY. pose proof (edge_constrains lib _ _ _ t c HY HO (outer_run lib _ _ _ B3' HY HO cs t0 t HI0 B6) B7) as HC.
    intros (a & b & k & Hab & Hk & E). rewrite E in Hx. apply (Hoff a b k); [|exact Hk|exact Hx]. apply HC. rewrite lines_pairs. apply in_map_iff. exists (a, b). auto.
  - intros o r Ho Hr. destruct (HN o _ Ho Hr) as (r' & E & HJ). assert (r' = r) as ->.
    { clear -E. revert r' E. induction r as [|a r IH]; intros [|b r'] E; try discriminate; [reflexivity|]. cbn [map] in E. f_equal; [apply vp_inj; congruence|apply IH; congruence]. }
    exact (polygon_not_enclosed lib t0 cs t c m HBu id qs x o r Hc Hx Ho Hr HJ).
Qed.
Lemma free_covered x : in_free_space lib (agent_radius t0) outer (added cs) x -> covered m x.
Proof using HB.
  destruct HB as [(t & c & HBu & HV) HL HO HFi HF HN Hsm].
  apply (C88_free_space_is_covered lib t0 cs t c m outer HBu Hsm HL HO HV HFi). intros o r H1 H2. destruct (HN o r H1 H2) as (r' & E & _). now exists r'.
Qed.
End Interior.

(** C89: the area of the mesh is the free space with its border: a point is covered exactly if there are free points as close to it as one likes. *)
Theorem C89_area_is_the_free_space (lib : TriLib RA) t0 cs m (outer : list P2) : cut_out lib outer t0 cs m ->
  forall x, covered m x <-> near (in_free_space lib (agent_radius t0) outer (added cs)) x.
Proof.
  intros HB x. split.
  - intros (id & qs & Hc & Hx) rad Hrad. destruct (co_built _ _ _ _ _ HB) as (t & c & HBu & _).
    destruct (near_point lib t0 cs t c m HBu id qs x rad Hc Hx Hrad) as (y & Hy & Hd). exists y. split; [exact Hd|]. exact (interior_free lib t0 cs m outer HB id qs y Hc Hy).
  - intro H. apply covered_closed. intros rad Hrad. destruct (H rad Hrad) as (y & Hd & Hy). exists y. split; [exact Hd|]. exact (free_covered lib t0 cs m outer HB y Hy).
Qed.

Lemma fewer_obstacles (lib : TriLib RA) a outer O O' x : incl O O' -> in_free_space lib a outer O' x -> in_free_space lib a outer O x.
Proof. intros HI (H1 & H2 & H3). split; [exact H1|]. split; [exact H2|]. intros o r Ho. apply H3. now apply HI. Qed.

(** C89: adding obstacles never enlarges the area. *)
Theorem C89_more_obstacles_less_area (lib : TriLib RA) t0 t0' cs cs' m m' (outer : list P2) :
  cut_out lib outer t0 cs m -> cut_out lib outer t0' cs' m' -> agent_radius t0' = agent_radius t0 -> incl (added cs) (added cs') ->
  forall x, covered m' x -> covered m x.
Proof.
  intros HB HB' Ea HI x Hx. apply (C89_area_is_the_free_space lib t0 cs m outer HB). intros rad Hrad.
  destruct (proj1 (C89_area_is_the_free_space lib t0' cs' m' outer HB' x) Hx rad Hrad) as (y & Hd & Hy). exists y. split; [exact Hd|].
  rewrite Ea in Hy. exact (fewer_obstacles lib _ outer _ _ y HI Hy).
Qed.
(** C89: the order in which obstacles are added does not matter, nor how often, in how many calls, or what is prebuilt: the area is the same. *)
Theorem C89_order_does_not_matter (lib : TriLib RA) t0 t0' cs cs' m m' (outer : list P2) :
  cut_out lib outer t0 cs m -> cut_out lib outer t0' cs' m' -> agent_radius t0' = agent_radius t0 -> (forall o, In o (added cs) <-> In o (added cs')) ->
  forall x, covered m x <-> covered m' x.
Proof.
  intros HB HB' Ea HI x. split.
  - apply (C89_more_obstacles_less_area lib t0' t0 cs' cs m' m outer HB' HB (eq_sym Ea)). intros o Ho. now apply HI.
  - apply (C89_more_obstacles_less_area lib t0 t0' cs cs' m m' outer HB HB' Ea). intros o Ho. now apply HI.
Qed.

(** C89: with more obstacles, a path between two points is not shorter. *)
Theorem C89_more_obstacles_longer_path (lib : TriLib RA) t0 t0' cs cs' m m' (outer : list P2) (plib : Lib RA) from to from' to' path path' start goal ps pe ps' pe' :
  cut_out lib outer t0 cs m -> cut_out lib outer t0' cs' m' -> agent_radius t0' = agent_radius t0 -> incl (added cs) (added cs') ->
  proper plib m [] start goal ps pe -> proper plib m' [] start goal ps' pe' ->
  cpos from = vp start -> cpos to = vp goal -> located plib m from ps -> located plib m to pe ->
  cpos from' = vp start -> cpos to' = vp goal -> located plib m' from' ps' -> located plib m' to' pe' ->
  path_on_layers plib m from to [] = Ok (Some path) -> path_on_layers plib m' from' to' [] = Ok (Some path') ->
  exists d d', plength path = Some d /\ plength path' = Some d' /\ d <= d'.
Proof.
  intros HB HB' Ea HI HP HP' Es Eg L1 L2 Es' Eg' L1' L2' H H'.
  destruct (C65_shortest_in_the_area plib m from to [] path start goal ps pe HP Es Eg L1 L2 H) as (pts & A1 & A2 & A3 & A4 & A5).
  destruct (C65_shortest_in_the_area plib m' from' to' [] path' start goal ps' pe' HP' Es' Eg' L1' L2' H') as (pts' & B1 & B2 & B3 & B4 & B5).
  exists (total start pts), (total start pts'). split; [exact A3|]. split; [exact B3|]. apply A5; [|exact B2]. revert B4. apply polyline_weaken.
  intros x (id & qs & _ & Q1 & Q2). apply covered_area; [exact (pr_small _ _ _ _ _ _ _ HP)|].
  apply (C89_more_obstacles_less_area lib t0 t0' cs cs' m m' outer HB HB' Ea HI). exists id, qs. auto.
Qed.
(** C89: and the order in which they are added does not change the length of the path. *)
Theorem C89_same_length (lib : TriLib RA) t0 t0' cs cs' m m' (outer : list P2) (plib : Lib RA) from to from' to' path path' start goal ps pe ps' pe' :
  cut_out lib outer t0 cs m -> cut_out lib outer t0' cs' m' -> agent_radius t0' = agent_radius t0 -> (forall o, In o (added cs) <-> In o (added cs')) ->
  proper plib m [] start goal ps pe -> proper plib m' [] start goal ps' pe' ->
  cpos from = vp start -> cpos to = vp goal -> located plib m from ps -> located plib m to pe ->
  cpos from' = vp start -> cpos to' = vp goal -> located plib m' from' ps' -> located plib m' to' pe' ->
  path_on_layers plib m from to [] = Ok (Some path) -> path_on_layers plib m' from' to' [] = Ok (Some path') ->
  exists d, plength path = Some d /\ plength path' = Some d.
Proof.
  intros HB HB' Ea HI HP HP' Es Eg L1 L2 Es' Eg' L1' L2' H H'.
  destruct (C89_more_obstacles_longer_path lib t0 t0' cs cs' m m' outer plib from to from' to' path path' start goal ps pe ps' pe') as (d & d' & D1 & D2 & D3); auto.
  { intros o Ho. now apply HI. }
  destruct (C89_more_obstacles_longer_path lib t0' t0 cs' cs m' m outer plib from' to' from to path' path start goal ps' pe' ps pe) as (e & e' & E1 & E2 & E3); auto.
  { intros o Ho. now apply HI. }
  exists d. split; [exact D1|]. rewrite D2. f_equal. assert (e' = d) by congruence. assert (e = d') by congruence. lra.
Qed.
(** A query whose ends are located, under the hypotheses of C65. *)
Record asked (plib : Lib RA) (m : Mesh RA) (start goal : P2) (ps pe : N) : Prop := {
  as_proper : proper plib m [] start goal ps pe;
  as_wf : mesh_wf m;
  as_real : real_mesh m;
  as_border : at_border m [];
  as_u32 : (pe < 2 ^ 32)%N;
  as_start : get_point_location (lbvh plib) m (coords_on_mesh (vp start)) = Ok ps /\ ps <> MAX;
  as_goal : get_point_location (lbvh plib) m (coords_on_mesh (vp goal)) = Ok pe /\ pe <> MAX;
  as_islands : async_islands_reject m ps pe = Ok false
}.
(** C89: both futures answer; if the one with more obstacles finds a path, the other one does, too, and that is not longer. *)
Theorem C89_fewer_obstacles_still_reachable (lib : TriLib RA) t0 t0' cs cs' m m' (outer : list P2) (plib : Lib RA) start goal ps pe ps' pe' :
  cut_out lib outer t0 cs m -> cut_out lib outer t0' cs' m' -> agent_radius t0' = agent_radius t0 -> incl (added cs) (added cs') ->
  asked plib m start goal ps pe -> asked plib m' start goal ps' pe' ->
  exists k log r k' log' r',
    poll_times k plib (get_path m (vp start) (vp goal)) = Ok (Some r, log) /\ poll_times k' plib (get_path m' (vp start) (vp goal)) = Ok (Some r', log') /\
    forall path', r' = Some path' -> exists path d d', r = Some path /\ plength path = Some d /\ plength path' = Some d' /\ d <= d'.
Proof.
  intros HB HB' Ea HI [HP Hwf HR Hbd Hpe [L1 N1] [L2 N2] Hisl] [HP' Hwf' HR' Hbd' Hpe' [L1' N1'] [L2' N2'] Hisl'].
  destruct (C65_future_decides plib m start goal ps pe HP Hwf HR Hbd Hpe L1 N1 L2 N2 Hisl) as (k & log & HF).
  destruct (C65_future_decides plib m' start goal ps' pe' HP' Hwf' HR' Hbd' Hpe' L1' N1' L2' N2' Hisl') as (k' & log' & [(path' & pts' & F1' & F2' & F3' & F4' & F5')|[F1' _]]).
  - assert (HA : polyline_in (area m [] ps) start pts').
    { revert F3'. apply polyline_weaken. intros x (id & qs & _ & Q1 & Q2). apply covered_area; [exact (pr_small _ _ _ _ _ _ _ HP)|].
      apply (C89_more_obstacles_less_area lib t0 t0' cs cs' m m' outer HB HB' Ea HI). exists id, qs. auto. }
    destruct HF as [(path & pts & F1 & F2 & F3 & F4 & F5)|[F1 F2]]; [|exfalso; exact (F2 pts' HA F4')].
    exists k, log, (Some path), k', log', (Some path'). split; [exact F1|]. split; [exact F1'|]. intros q E. assert (q = path') as -> by congruence.
    exists path, (total start pts), (total start pts'). split; [reflexivity|]. split; [exact F2|]. split; [exact F2'|]. now apply F5.
  - destruct HF as [(path & pts & F1 & _)|[F1 _]].
    + exists k, log, (Some path), k', log', None. split; [exact F1|]. split; [exact F1'|]. discriminate.
    + exists k, log, None, k', log', None. split; [exact F1|]. split; [exact F1'|]. discriminate.
Qed.
(** C89: whatever the order in which the obstacles were added, the future finds a path or not, and the length is the same. *)
Theorem C89_order_same_answer (lib : TriLib RA) t0 t0' cs cs' m m' (outer : list P2) (plib : Lib RA) start goal ps pe ps' pe' :
  cut_out lib outer t0 cs m -> cut_out lib outer t0' cs' m' -> agent_radius t0' = agent_radius t0 -> (forall o, In o (added cs) <-> In o (added cs')) ->
  asked plib m start goal ps pe -> asked plib m' start goal ps' pe' ->
  exists k log r k' log' r',
    poll_times k plib (get_path m (vp start) (vp goal)) = Ok (Some r, log) /\ poll_times k' plib (get_path m' (vp start) (vp goal)) = Ok (Some r', log') /\
    option_map plength r = option_map plength r'.
Proof.
  intros HB HB' Ea HI [HP Hwf HR Hbd Hpe [L1 N1] [L2 N2] Hisl] [HP' Hwf' HR' Hbd' Hpe' [L1' N1'] [L2' N2'] Hisl'].
  destruct (C66_futures_agree plib plib m m' start goal ps pe ps' pe') as (k & log & k' & log' & r & r' & E1 & E2 & E3); auto; [|exists k, log, r, k', log', r'; auto].
  intro x. pose proof (pr_small _ _ _ _ _ _ _ HP) as S1. pose proof (pr_small _ _ _ _ _ _ _ HP') as S2. split; intros (id & qs & _ & Q1 & Q2); (apply covered_area; [assumption|]);
    apply (C89_order_does_not_matter lib t0 t0' cs cs' m m' outer HB HB' Ea HI); exists id, qs; auto.
Qed.

Print Assumptions C89_area_is_the_free_space.
Print Assumptions C89_more_obstacles_longer_path.
Print Assumptions C89_order_same_answer.
