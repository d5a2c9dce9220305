(** C88: on a triangulated mesh the whole free space can be walked on, and the path is the shortest one in it. *)
From Coq Require Import List NArith ZArith Bool Reals Lra Lia Psatz Classical.
From Verif Require Import Base Cleanup_facts Arith U32 Mesh Helpers Locate Search AsyncPath Spec Triangulation Spec_triangulation RealArith Geometry Inflate_facts Properties_triangulation Properties_inflate Spec_outline Enclose Capsule Properties_outline
  Spec_inside Spec_shortest Spec_area Search_props Search_safe StdLib Spec_free Properties_inside Area Properties_geometry Properties_complete Properties_area Properties_free Spec_freespace.
Import ListNotations.
Open Scope R_scope.

Lemma on_enclosed r x : on_outline r x -> enclosed r x.
Proof.
  intros (a & b & t & Hab & Ht & E) stops z Hz.
  assert (exists v, In (x, v) (pairs (x :: stops ++ [z]))) as [v Hv] by (destruct stops as [|v s]; [exists z|exists v]; now left).
  exists x, v, a, b. split; [exact Hv|]. split; [exact Hab|]. exists 0, t. split; [lra|]. split; [exact Ht|]. rewrite lerp_0. exact E.
Qed.

(** ** What the builder holds: the outer edge, and outlines of added obstacles only *)
Section Held.
Context (lib : TriLib RA) (ext e : ring RA) (a : AgentRadius RA) (O : list (ring RA)).
Hypothesis HX : close ext = ext.
Hypothesis HY : close e = e.
Hypothesis HO : edge_used lib a ext e.
Hypothesis Hcmp : forall o, In o O -> comparable o.
(** the outlines are made of numbers *)
Hypothesis Hnum : forall o r, In o O -> outline lib a o r -> exists r', r = map vp r'.

Definition from_added (r : ring RA) : Prop := exists o, In o O /\ outline lib a o r.
Definition held (t : Triangulation RA) : Prop :=
  exterior (inner t) = ext /\ base_layer t = None /\ agent_radius t = a /\
  (forall i, In i (interiors (inner t)) -> exists o, In o O /\ i = close o) /\
  forall used cc, prebuilt t = Some (used, cc) -> exterior used = e /\ forall r, In r (interiors used) -> from_added r.

Lemma held_inflated t g : held t -> inflated lib t = Ok g -> exterior g = e /\ forall r, In r (interiors g) -> from_added r.
Proof using HX HY HO Hnum.
  intros (H1 & H2 & H3 & H4 & H5) H. split.
  - unfold inflated in H. rewrite H3 in H. destruct a as [|d n p|d n p]; cbn [edge_used] in HO; [inversion H; congruence| |].
    + destruct (enough d); [|inversion H; congruence]. rewrite (proj2 (obstacles_outlined _ _ _ _ _ _ H)). congruence.
    + destruct (enough d); [|inversion H; congruence]. apply (inflate_edge _ _ _ _ _ _ e HY H). now rewrite H1.
  - intros r Hr. pose proof (inflated_interiors lib t g H) as HF. rewrite H3 in HF. apply In_nthN in Hr. destruct Hr as [k Hk].
    destruct (Forall2_nthN_r _ _ _ HF _ _ Hk) as (i & I1 & I2). apply nthN_In in I1. destruct (H4 i I1) as (o & Ho & ->). exists o. split; [exact Ho|exact I2].
Qed.
Lemma added_closed r : from_added r -> close r = r.
Proof using Hnum.
  intros (o & Ho & Hr). destruct (Hnum o r Ho Hr) as (r' & E). destruct (outlined_close lib a o r Hr) as (y & Ey).
  rewrite Ey in E |- *. destruct y as [|v y]; [reflexivity|]. unfold close in *. destruct (is_closed (v :: y)) eqn:EC; [now rewrite EC|].
  destruct r' as [|w r'']; [discriminate E|]. cbn [app map] in E. assert (Ev : v = vp w) by congruence. cbn [app]. unfold is_closed.
  change (v :: y ++ [v]) with ((v :: y) ++ [v]). rewrite last_snoc. rewrite Ev, (proj2 (veq_vp w w) eq_refl). reflexivity.
Qed.
Lemma pushes l : forall g : GeoPolygon RA, interiors (fold_left interiors_push l g) = interiors g ++ map close l /\ exterior (fold_left interiors_push l g) = exterior g.
Proof using.
  induction l as [|r l IH]; intro g0; [cbn; now rewrite app_nil_r|]. cbn [fold_left]. destruct (IH (interiors_push g0 r)) as [-> ->].
  cbn. rewrite <- app_assoc. auto.
Qed.

Lemma held_run cs : forall t t', incl (added cs) O -> held t -> run_calls lib t cs = Ok t' -> held t'.
Proof using HX HY HO Hcmp Hnum.
  induction cs as [|k cs IH]; intros t t' HI HT H; [cbn in H; inversion H; subst; exact HT|].
  unfold run_calls in H. cbn [foldM] in H. inv_bind H. rename a0 into t1.
  assert (HI' : incl (added cs) O) by (destruct k; cbn [added] in HI; [intros x Hx; apply HI; now right|intros x Hx; apply HI, in_or_app; now right|exact HI]).
  refine (IH t1 t' HI' _ H). pose proof HT as (H1 & H2 & H3 & H4 & H5). destruct k as [o|os|]; cbn [apply_call] in E.
  - inversion E. split; [exact H1|]. split; [exact H2|]. split; [exact H3|]. split; [|exact H5].
    intros i Hi. cbn [add_obstacle with_inner inner interiors_push interiors] in Hi. apply in_app_or in Hi. destruct Hi as [Hi|[<-|[]]]; [now apply H4|].
    exists o. split; [apply HI; now left|reflexivity].
  - inversion E. split; [cbn [add_obstacles with_inner inner geo_new exterior]; rewrite H1; exact HX|]. split; [exact H2|]. split; [exact H3|]. split; [|exact H5].
    intros i Hi. cbn [add_obstacles with_inner inner geo_new interiors] in Hi. rewrite map_app in Hi. apply in_app_or in Hi. destruct Hi as [Hi|Hi].
    + apply in_map_iff in Hi. destruct Hi as (i' & <- & Hi). destruct (H4 i' Hi) as (o & Ho & ->). exists o. split; [exact Ho|]. now apply close_comparable, Hcmp.
    + apply in_map_iff in Hi. destruct Hi as (o & <- & Ho). exists o. split; [|reflexivity]. apply HI. cbn [added]. apply in_or_app. now left.
  - unfold prebuild in E. rewrite H2 in E. inv_bind E. inv_bind E. inv_bind E. inversion E. clear E.
    destruct (held_inflated t _ HT E0) as [G1 G2]. split; [cbn [inner geo_new exterior]; rewrite H1; exact HX|]. split; [reflexivity|]. split; [exact H3|].
    split; [intros i []|]. cbn [prebuilt]. intros used cc Eu. inversion Eu as [[Eu1 Eu2]]. clear Eu. destruct (prebuilt t) as [[prev cp]|] eqn:EP.
    + destruct (H5 prev cp eq_refl) as [P1 P2]. destruct (pushes (interiors prev) a0) as [Q1 Q2]. rewrite Q1, Q2. split; [exact G1|].
      intros r Hr. apply in_app_or in Hr. destruct Hr as [Hr|Hr]; [now apply G2|]. apply in_map_iff in Hr. destruct Hr as (r0 & <- & Hr). rewrite (added_closed r0 (P2 _ Hr)). now apply P2.
    + split; [exact G1|exact G2].
Qed.
End Held.

Lemma Forall2_imp {S T} (P Q : S -> T -> Prop) : (forall x y, P x y -> Q x y) -> forall l l', Forall2 P l l' -> Forall2 Q l l'.
Proof. intros H l l' HF. induction HF; constructor; auto. Qed.
Lemma all_numbers (rs : list (ring RA)) : (forall r, In r rs -> exists r', r = map vp r') -> exists rs', rs = map (map vp) rs'.
Proof.
  induction rs as [|r rs IH]; intro H; [now exists []|]. destruct (H r (or_introl eq_refl)) as (r' & ->).
  destruct IH as (rs' & ->); [intros x Hx; apply H; now right|]. now exists (r' :: rs').
Qed.

(** ** The whole free space is covered *)
Section Free.
Context (lib : TriLib RA) (t0 : Triangulation RA) (cs : list (@call RA)) (t : Triangulation RA) (c : list (vec2 RA * vec2 RA)) (m : Mesh RA) (outer : list P2).
Hypothesis HB : built lib t0 cs t c m.
Hypothesis HL : base_layer t0 = None.
Hypothesis HOut : edge_used lib (agent_radius t0) (exterior (inner t0)) (map vp outer).
Hypothesis Hcov : faces_cover (cdt lib c) outer.
Hypothesis Hfind : finds_free lib outer.
Hypothesis Hnum : forall o r, In o (added cs) -> outline lib (agent_radius t0) o r -> exists r', r = map vp r'.

Lemma numbers_accepted g (x : P2) : exterior g = map vp outer -> (forall r, In r (interiors g) -> from_added lib (agent_radius t0) (added cs) r) ->
  in_free_space lib (agent_radius t0) outer (added cs) x -> contains lib g (vp x) = true.
Proof using Hfind Hnum.
  intros G1 G2 (F1 & F2 & F3). destruct g as [ge gi]. cbn [exterior interiors] in *.
  destruct (all_numbers gi) as (holes & Eh); [intros r Hr; destruct (G2 r Hr) as (o & Ho & Hr'); exact (Hnum o r Ho Hr')|].
  rewrite G1, Eh. apply Hfind; [exact F2|exact F1|]. intros h Hh.
  destruct (G2 (map vp h)) as (o & Ho & Hr); [rewrite Eh; now apply in_map|]. exact (F3 o h Ho Hr).
Qed.

Theorem free_is_covered x : mesh_small m -> in_free_space lib (agent_radius t0) outer (added cs) x ->
  exists id qs, (id < 2 ^ 32)%N /\ corners m id qs /\ inside qs x.
Proof using HB HL HOut Hcov Hfind Hnum.
  intros Hsm HF. pose proof HF as (F1 & F2 & F3). destruct (Hcov x F1) as (f & qs & Hf & HV & Hin).
  pose proof HB as [B1 B2 (B3 & B3i & B3') B4 B5 B6 B7 B8 B9 B10 B11].
  destruct (B10 f Hf) as (qs' & centre & C1 & C2 & C3 & C4).
  assert (qs' = qs) as ->.
  { clear -HV C1. revert qs HV C1. generalize (fverts f). intros is qs HV. revert qs'. induction HV as [|i q is qs [ar Hi] HV IH]; intros qs' H; inversion_clear H; [reflexivity|].
    destruct H0 as (ar' & Hi'). f_equal; [|now apply IH]. apply vp_inj. congruence. }
  assert (exists g, inflated lib t = Ok g) as [g EG]. { unfold as_navmesh in B11. inv_bind B11. unfold as_layer in E. inv_bind E. inv_bind E. eauto. }
  pose proof (edge_closed lib _ _ outer B3' HOut) as HX.
  (* no line of a constraint lies between [x] and the centre *)
  assert (HI0 : outer_inv (exterior (inner t0)) (map vp outer) (agent_radius t0) t0) by (split; [reflexivity|]; split; [exact HL|]; split; [reflexivity|]; intros used cc Eu; congruence).
  pose proof (outer_run lib _ _ _ B3' HX HOut cs t0 t HI0 B6) as HI. pose proof (edge_constrains lib _ _ _ t c HX HOut HI B7) as HC. destruct HI as (I1 & I2 & I3 & I4).
  assert (Hway : forall r, incl (ring_lines (map vp r)) c -> ~ on_outline r x -> forall k, 0 <= k <= 1 -> ~ on_outline r (lerp x centre k)).
  { intros r Hr Hx k Hk. destruct (Req_dec k 0) as [-> |Nk]; [rewrite lerp_0; exact Hx|]. intros (u & v & w & Huv & Hw & E).
    assert (HS : strictly_inside qs (lerp x centre k)).
    { destruct (Req_dec k 1) as [-> |N1]; [rewrite lerp_1; exact C3|]. replace (lerp x centre k) with (lerp centre x (1 - k)) by (unfold lerp; apply P2_eq; cbn [padd pscale psub px py]; ring).
      apply strictly_lerp; [exact C3|exact Hin|lra]. }
    rewrite E in HS. apply (C4 u v w); [|exact Hw|exact HS]. apply Hr. rewrite lines_pairs. apply in_map_iff. exists (u, v). auto. }
  assert (Hback : forall r, (forall k, 0 <= k <= 1 -> ~ on_outline r (lerp x centre k)) -> forall k, 0 <= k <= 1 -> ~ on_outline r (lerp centre x k)).
  { intros r H k Hk. replace (lerp centre x k) with (lerp x centre (1 - k)) by (unfold lerp; apply P2_eq; cbn [padd pscale psub px py]; ring). apply H. lra. }
  (* so the centre is free, too *)
  assert (HFc : in_free_space lib (agent_radius t0) outer (added cs) centre).
  { pose proof (Hway outer HC F2) as W. split; [|split].
    - apply (enclosed_along outer x centre); [exact (Hback _ W)|exact F1].
    - specialize (W 1 ltac:(lra)). rewrite lerp_1 in W. exact W.
    - intros o r Ho Hr Hen. destruct (C43_every_obstacle_constrains lib t0 cs t c B1 (conj B3 (conj B3i B3')) B4 B5 B6 B7 o Ho) as (r2 & O2 & L2).
      assert (r2 = map vp r) as ->.
      { revert O2 Hr. unfold outline. destruct (agent_radius t0) as [|rd n p|rd n p]; [congruence| |]; (destruct (enough rd); [|congruence]); intros (i1 & J1 & ->) (i2 & J2 & ->); congruence. }
      apply (F3 o r Ho Hr). apply (enclosed_along r centre x); [|exact Hen]. apply Hway; [exact L2|]. intro K. exact (F3 o r Ho Hr (on_enclosed r x K)). }
  (* so the face is kept *)
  assert (HH : held lib (exterior (inner t0)) (map vp outer) (agent_radius t0) (added cs) t).
  { apply (held_run lib (exterior (inner t0)) (map vp outer) (agent_radius t0) (added cs) B3' HX HOut B4 Hnum cs t0 t (incl_refl _)); [|exact B6].
    split; [reflexivity|]. split; [exact HL|]. split; [reflexivity|]. split; [rewrite B3i; intros i []|intros used cc Eu; congruence]. }
  destruct (held_inflated lib (exterior (inner t0)) (map vp outer) (agent_radius t0) (added cs) B3' HX HOut Hnum t g HH EG) as [G1 G2].
  assert (HA : accepted lib t g (vp centre) = Ok true).
  { unfold accepted. assert (contains lib g (vp centre) = true) as -> by exact (numbers_accepted g centre G1 G2 HFc).
    destruct (prebuilt t) as [[used cc]|] eqn:EP; [|reflexivity]. destruct HH as (_ & _ & _ & _ & K). destruct (K used cc EP) as [K1 K2].
    assert (contains lib used (vp centre) = true) as -> by exact (numbers_accepted used centre K1 K2 HFc). reflexivity. }
  (* and becomes a polygon *)
  unfold as_navmesh in B11. inv_bind B11. inversion B11 as [Em]; clear B11. rename a into l0.
  destruct (C41_as_layer lib t c g l0 B7 EG B8 B9 E) as (kept & K1 & K2 & K3 & K4).
  assert (HO : offset l0 = vzero).
  { unfold as_layer in E. rewrite B7, EG in E. cbn [bind] in E. unfold layer_of_subdivision in E. inv_bind E. inv_bind E. inversion E. reflexivity. }
  assert (Hk : kept f = true) by (specialize (K1 f Hf); rewrite C2, HA in K1; congruence).
  assert (Hp : In (polygon_of_face f) (polygons l0)) by (rewrite K2; apply in_map; apply filter_In; auto).
  apply In_nthN in Hp. destruct Hp as [k Hnk]. pose proof (nthN_Some_lt _ _ _ Hnk) as Hlt.
  assert (Hk24 : (k < 2 ^ 24)%N).
  { destruct Hsm as [_ Hs]. specialize (Hs l0). rewrite <- Em in Hs. cbn [layers] in Hs. specialize (Hs (or_introl eq_refl)).
    change (2 ^ 24)%N with 16777216%N in *. change (2 ^ 24 - 1)%N with 16777215%N in Hs. lia. }
  exists (id_make 0 k), qs. split; [apply id_make_lt; [reflexivity|exact Hk24]|]. split; [|exact Hin].
  exists l0, (polygon_of_face f). split.
  - split; [rewrite id_layer_make by (try exact Hk24; reflexivity)|rewrite id_polygon_make by exact Hk24; exact Hnk]. reflexivity.
  - cbn [polygon_of_face pverts]. revert HV. apply Forall2_imp. intros i q (ar & Hi). destruct (K4 i (vp q) ar Hi) as (v & V1 & V2 & _). exists v. split; [exact V1|].
    unfold world. rewrite V2, HO. unfold vzero. rewrite fz_R. destruct q as [q1 q2]. unfold vadd, vp, pt. cbn [vx vy px py]. f_equal; cbn; f_equal; ring.
Qed.
End Free.

(** C88: every point of the free space is on the mesh. *)
Theorem C88_free_space_is_covered (lib : TriLib RA) t0 cs t c m (outer : list P2) :
  built lib t0 cs t c m -> mesh_small m -> base_layer t0 = None -> edge_used lib (agent_radius t0) (exterior (inner t0)) (map vp outer) ->
  faces_cover (cdt lib c) outer -> finds_free lib outer ->
  (forall o r, In o (added cs) -> outline lib (agent_radius t0) o r -> exists r', r = map vp r') ->
  forall x, in_free_space lib (agent_radius t0) outer (added cs) x -> covered m x.
Proof.
  intros HB Hsm HL HOut Hcov Hfind Hnum x Hx. destruct (free_is_covered lib t0 cs t c m outer HB HL HOut Hcov Hfind Hnum x Hsm Hx) as (id & qs & _ & H1 & H2).
  exists id, qs. auto.
Qed.

Lemma free_in_area (lib : TriLib RA) t0 cs t c m (outer : list P2) ps :
  built lib t0 cs t c m -> mesh_small m -> base_layer t0 = None -> edge_used lib (agent_radius t0) (exterior (inner t0)) (map vp outer) ->
  faces_cover (cdt lib c) outer -> finds_free lib outer ->
  (forall o r, In o (added cs) -> outline lib (agent_radius t0) o r -> exists r', r = map vp r') ->
  forall x, in_free_space lib (agent_radius t0) outer (added cs) x -> area m [] ps x.
Proof.
  intros HB Hsm HL HOut Hcov Hfind Hnum x Hx. destruct (free_is_covered lib t0 cs t c m outer HB HL HOut Hcov Hfind Hnum x Hsm Hx) as (id & qs & H0 & H1 & H2).
  exists id, qs. split; [split; [exact H0|right; intros []]|]. auto.
Qed.

(** C88: the path lies in the covered area, and nobody who stays in the free space has a shorter way. *)
Theorem C88_shortest_in_free_space (lib : TriLib RA) t0 cs t c m (outer : list P2) (plib : Lib RA) from to path start goal ps pe :
  built lib t0 cs t c m -> base_layer t0 = None -> edge_used lib (agent_radius t0) (exterior (inner t0)) (map vp outer) ->
  faces_cover (cdt lib c) outer -> finds_free lib outer ->
  (forall o r, In o (added cs) -> outline lib (agent_radius t0) o r -> exists r', r = map vp r') ->
  proper plib m [] start goal ps pe ->
  cpos from = vp start -> cpos to = vp goal -> located plib m from ps -> located plib m to pe ->
  path_on_layers plib m from to [] = Ok (Some path) ->
  exists pts, ppath path = map vp pts /\ last pts start = goal /\ plength path = Some (total start pts) /\
    polyline_in (covered m) start pts /\
    forall others, polyline_in (in_free_space lib (agent_radius t0) outer (added cs)) start others -> last others start = goal -> total start pts <= total start others.
Proof.
  intros HB HL HOut Hcov Hfind Hnum HP Es Eg L1 L2 H.
  destruct (C65_shortest_in_the_area plib m from to [] path start goal ps pe HP Es Eg L1 L2 H) as (pts & A1 & A2 & A3 & A4 & A5).
  exists pts. split; [exact A1|]. split; [exact A2|]. split; [exact A3|]. split.
  - revert A4. apply polyline_weaken. intros x (id & qs & _ & Q1 & Q2). exists id, qs. auto.
  - intros others HO E. apply A5; [|exact E]. revert HO. apply polyline_weaken.
    apply (free_in_area lib t0 cs t c m outer ps HB (pr_small _ _ _ _ _ _ _ HP) HL HOut Hcov Hfind Hnum).
Qed.

(** C88: and if there is a way through the free space, the future of get_path finds a path no longer than it. *)
Theorem C88_way_is_found (lib : TriLib RA) t0 cs t c m (outer : list P2) (plib : Lib RA) start goal ps pe others :
  built lib t0 cs t c m -> base_layer t0 = None -> edge_used lib (agent_radius t0) (exterior (inner t0)) (map vp outer) ->
  faces_cover (cdt lib c) outer -> finds_free lib outer ->
  (forall o r, In o (added cs) -> outline lib (agent_radius t0) o r -> exists r', r = map vp r') ->
  proper plib m [] start goal ps pe -> mesh_wf m -> real_mesh m -> at_border m [] -> (pe < 2 ^ 32)%N ->
  get_point_location (lbvh plib) m (coords_on_mesh (vp start)) = Ok ps -> ps <> MAX ->
  get_point_location (lbvh plib) m (coords_on_mesh (vp goal)) = Ok pe -> pe <> MAX -> async_islands_reject m ps pe = Ok false ->
  polyline_in (in_free_space lib (agent_radius t0) outer (added cs)) start others -> last others start = goal ->
  exists k log path d, poll_times k plib (get_path m (vp start) (vp goal)) = Ok (Some (Some path), log) /\
    plength path = Some d /\ d <= total start others.
Proof.
  intros HB HL HOut Hcov Hfind Hnum HP Hwf HR Hbd Hpe L1 N1 L2 N2 Hisl HO Eo.
  assert (HA : polyline_in (area m [] ps) start others).
  { revert HO. apply polyline_weaken. apply (free_in_area lib t0 cs t c m outer ps HB (pr_small _ _ _ _ _ _ _ HP) HL HOut Hcov Hfind Hnum). }
  destruct (C65_future_decides plib m start goal ps pe HP Hwf HR Hbd Hpe L1 N1 L2 N2 Hisl) as (k & log & [(path & pts & F1 & F2 & F3 & F4 & F5)|[F1 F2]]).
  - exists k, log, path, (total start pts). split; [exact F1|]. split; [exact F2|]. now apply F5.
  - exfalso. exact (F2 others HA Eo).
Qed.

Print Assumptions C88_free_space_is_covered.
Print Assumptions C88_shortest_in_free_space.
Print Assumptions C88_way_is_found.
