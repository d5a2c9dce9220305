(** C90: a builder made from a layer of a mesh: its area is the area of the layer, without the obstacles. *)
From Coq Require Import List NArith ZArith Bool Reals Lra Lia Psatz Classical.
From Verif Require Import Base Cleanup_facts Arith U32 Mesh Helpers Locate Search AsyncPath Spec Locate_facts Triangulation Spec_triangulation RealArith Geometry Inflate_facts Properties_triangulation Properties_inflate Properties_builder Spec_outline Enclose Capsule Properties_outline
  Spec_inside Spec_shortest Spec_area Search_props Search_safe StdLib Spec_free Properties_inside Area Properties_geometry Properties_complete Properties_area Sight_search Zarea Merge_cover Properties_free Spec_freespace Properties_freespace
  Properties_order Spec_frommesh.
From Verif Require Properties_contain Properties_f32 Search_facts.
Import ListNotations.
Open Scope R_scope.

(** ** The border of a convex polygon is made of its edges *)
Lemma greatest_of (P : P2 -> Prop) (f : P2 -> R) (l : list P2) : (exists q, In q l /\ P q) -> exists p, In p l /\ P p /\ forall q, In q l -> P q -> f q <= f p.
Proof.
  induction l as [|a l IH]; intros (q & Hq & HP); [destruct Hq|]. destruct (classic (exists q, In q l /\ P q)) as [H|H].
  - destruct (IH H) as (p & H1 & H2 & H3). destruct (classic (P a /\ f p < f a)) as [[A1 A2]|N].
    + exists a. split; [now left|]. split; [exact A1|]. intros z [<-|Hz] Pz; [lra|]. specialize (H3 z Hz Pz). lra.
    + exists p. split; [now right|]. split; [exact H2|]. intros z [<-|Hz] Pz; [|now apply H3]. apply Rnot_lt_le. intro K. apply N. auto.
  - exists a. destruct Hq as [->|Hq]; [|exfalso; apply H; eauto]. split; [now left|]. split; [exact HP|]. intros z [<-|Hz] Pz; [lra|]. exfalso. apply H. eauto.
Qed.
Lemma line_shift a b p y : a <> b -> orient a b p = 0 -> orient a b y = 0 -> exists k, y = padd p (pscale k (psub b a)).
Proof.
  intros H H1 H2. destruct (on_line a b p H H1) as (s & ->). destruct (on_line a b y H H2) as (t & ->). exists (t - s).
  unfold lerp. apply P2_eq; cbn [padd pscale psub px py]; ring.
Qed.
Lemma shift_along a b p k : pdot (psub b a) (padd p (pscale k (psub b a))) = pdot (psub b a) p + k * pdot (psub b a) (psub b a).
Proof. unfold pdot. cbn [padd pscale psub px py]. ring. Qed.
Lemma pdot_pos a b : a <> b -> 0 < pdot (psub b a) (psub b a).
Proof.
  intro H. destruct a as [a1 a2], b as [b1 b2]. unfold pdot, psub. cbn [px py]. destruct (Req_dec a1 b1) as [E|E].
  - assert (a2 <> b2) by congruence. assert (0 < (b2 - a2) * (b2 - a2)) by nra. pose proof (Rle_0_sqr (b1 - a1)). unfold Rsqr in *. lra.
  - assert (0 < (b1 - a1) * (b1 - a1)) by nra. pose proof (Rle_0_sqr (b2 - a2)). unfold Rsqr in *. lra.
Qed.
Lemma out_edge (qs : list P2) p : In p qs -> exists n, In (p, n) (poly_edges qs).
Proof.
  intro H. apply In_nth_error in H. destruct H as (i & Hi). assert (L : (i < length qs)%nat) by (apply nth_error_Some; congruence).
  destruct (nth_error qs (S i mod length qs)) as [n|] eqn:En; [exists n; apply Properties_f32.poly_edges_nth; eauto|].
  exfalso. apply nth_error_None in En. pose proof (Nat.mod_upper_bound (S i) (length qs) ltac:(lia)). lia.
Qed.
Lemma in_edge (qs : list P2) p : In p qs -> exists z, In (z, p) (poly_edges qs).
Proof. intro H. destruct (out_edge qs p H) as (n & Hn). exact (Properties_f32.edge_before qs p n Hn). Qed.

(** [y] on the line of an edge of the polygon and inside of the polygon is on some edge *)
Lemma on_some_edge qs a b y : convex qs -> In (a, b) (poly_edges qs) -> inside qs y -> orient a b y = 0 ->
  exists p n t, In (p, n) (poly_edges qs) /\ 0 <= t <= 1 /\ y = lerp p n t.
Proof.
  intros HC Hab Hy H0. pose proof (edge_ne qs a b HC Hab) as Nab. pose proof (pdot_pos a b Nab) as Hu.
  destruct (Properties_f32.poly_edges_In qs a b Hab) as [Ia Ib].
  assert (HQ : forall q, In q qs -> 0 <= orient a b q) by (intros q Hq; exact (convex_corner qs q HC Hq a b Hab)).
  (* no edge goes back along the line *)
  assert (HF : forall p k, ~ (k < 0 /\ In (p, padd p (pscale k (psub b a))) (poly_edges qs) /\ orient a b p = 0)).
  { intros p k (Hk & He & Hp). destruct (proj2 HC _ _ He) as (c & Hc & Ho). specialize (HQ c Hc).
    assert (orient p (padd p (pscale k (psub b a))) c = k * (orient a b c - orient a b p)) as E by (unfold orient, cross; cbn [padd pscale psub px py]; ring).
    rewrite E, Hp in Ho. nra. }
  set (f := pdot (psub b a)).
  (* a corner on the line, not after [y] *)
  assert (exists q, In q qs /\ (orient a b q = 0 /\ f q <= f y)) as HE.
  { apply NNPP. intro N. destruct (greatest_of (fun q => orient a b q = 0) (fun q => - f q) qs) as (m & M1 & M2 & M3).
    - exists a. split; [exact Ia|]. unfold orient, cross; cbn [psub px py]; ring.
    - assert (f y < f m) as Hm by (apply Rnot_le_lt; intro K; apply N; exists m; auto).
      destruct (line_shift a b m y Nab M2 H0) as (k & Ek). assert (k < 0) as Hk.
      { unfold f in Hm. rewrite Ek, shift_along in Hm. nra. }
      destruct (in_edge qs m M1) as (z & Hz). pose proof (Hy z m Hz) as Oz. destruct (Properties_f32.poly_edges_In qs z m Hz) as [Iz _].
      pose proof (HQ z Iz) as Qz. assert (orient z m y = k * (orient a b z - orient a b m)) as E by (rewrite Ek; unfold orient, cross; cbn [padd pscale psub px py]; ring).
      rewrite E, M2 in Oz. assert (orient a b z = 0) as Z0 by nra. pose proof (M3 z Iz Z0) as Mz.
      destruct (line_shift a b z m Nab Z0 M2) as (j & Ej). assert (f m = f z + j * pdot (psub b a) (psub b a)) as F by (rewrite Ej; apply shift_along).
      assert (j <> 0) as Nj. { intros ->. apply (edge_ne qs z m HC Hz). rewrite Ej. apply P2_eq; cbn [padd pscale psub px py]; ring. }
      apply (HF z j). split; [|split; [rewrite <- Ej; exact Hz|exact Z0]]. nra. }
  destruct (greatest_of (fun q => orient a b q = 0 /\ f q <= f y) f qs HE) as (p & P1 & [P2 P3] & P4).
  destruct (out_edge qs p P1) as (n & Hn). destruct (line_shift a b p y Nab P2 H0) as (k & Ek).
  assert (f y = f p + k * pdot (psub b a) (psub b a)) as Fy by (rewrite Ek; apply shift_along).
  assert (0 <= k) as Hk by nra. destruct (Req_dec k 0) as [-> |Nk].
  - exists p, n, 0. split; [exact Hn|]. split; [lra|]. rewrite Ek. unfold lerp. apply P2_eq; cbn [padd pscale psub px py]; ring.
  - destruct (Properties_f32.poly_edges_In qs p n Hn) as [_ In_]. pose proof (HQ n In_) as Qn. pose proof (Hy p n Hn) as On.
    assert (orient p n y = - k * (orient a b n - orient a b p)) as E by (rewrite Ek; unfold orient, cross; cbn [padd pscale psub px py]; ring).
    rewrite E, P2 in On. assert (orient a b n = 0) as N0 by nra. destruct (line_shift a b p n Nab P2 N0) as (j & Ej).
    assert (f n = f p + j * pdot (psub b a) (psub b a)) as F by (rewrite Ej; apply shift_along).
    assert (j <> 0) as Nj. { intros ->. apply (edge_ne qs p n HC Hn). rewrite Ej. apply P2_eq; cbn [padd pscale psub px py]; ring. }
    assert (0 < j) as Hj. { apply Rnot_le_lt. intro K. apply (HF p j). split; [lra|]. split; [rewrite <- Ej; exact Hn|exact P2]. }
    assert (k < j) as Hkj. { apply Rnot_le_lt. intro K. assert (f n <= f y) as Q by nra. specialize (P4 n In_ (conj N0 Q)). nra. }
    exists p, n, (k / j). split; [exact Hn|]. assert (EQ : k / j * j = k) by (field; lra). split; [split; nra|].
    rewrite Ek, Ej. unfold lerp. apply P2_eq; cbn [padd pscale psub px py]; field; lra.
Qed.
(** Who does not cross an edge stays inside. *)
Lemma stays_inside qs x y : convex qs -> strictly_inside qs x ->
  (forall k, 0 <= k <= 1 -> forall p n t, In (p, n) (poly_edges qs) -> 0 <= t <= 1 -> lerp x y k <> lerp p n t) -> strictly_inside qs y.
Proof.
  intros HC Hx Hoff a b Hab.
  destruct (first_zero (fun e => - orient (fst e) (snd e) x) (fun e => - orient (fst e) (snd e) y) (poly_edges qs)) as [H|(t & [u w] & Ht & Huw & H0 & Hall)].
  - intros [u w] Huw. specialize (Hx u w Huw). cbn [fst snd]. lra.
  - specialize (H (a, b) Hab). cbn [fst snd] in H. lra.
  - exfalso. cbn [fst snd] in *.
    destruct (on_some_edge qs u w (lerp x y t) HC Huw) as (p & n & k & K1 & K2 & K3).
    + intros u' w' H'. specialize (Hall (u', w') H'). cbn [fst snd] in Hall. rewrite orient_lerp_lin. lra.
    + rewrite orient_lerp_lin. lra.
    + exact (Hoff t Ht p n k K1 K2 K3).
Qed.

(** ** What the builder holds *)
Lemma run_based (lib : TriLib RA) l (O : list (ring RA)) cs : forall t t', base_layer t = Some l -> prebuilt t = None -> exterior (inner t) = [] ->
  (forall o, In o O -> comparable o) -> incl (added cs) O -> (forall i, In i (interiors (inner t)) -> exists o, In o O /\ i = close o) -> run_calls lib t cs = Ok t' ->
  base_layer t' = Some l /\ prebuilt t' = None /\ exterior (inner t') = [] /\ agent_radius t' = agent_radius t /\ forall i, In i (interiors (inner t')) -> exists o, In o O /\ i = close o.
Proof.
  induction cs as [|k cs IH]; intros t t' H1 H2 H3 HO HI H4 H; [cbn in H; inversion H; subst; auto|].
  unfold run_calls in H. cbn [foldM] in H. inv_bind H. rename a into t1.
  assert (HI' : incl (added cs) O) by (destruct k; cbn [added] in HI; [intros x Hx; apply HI; now right|intros x Hx; apply HI, in_or_app; now right|exact HI]).
  assert (HT : base_layer t1 = Some l /\ prebuilt t1 = None /\ exterior (inner t1) = [] /\ agent_radius t1 = agent_radius t /\ forall i, In i (interiors (inner t1)) -> exists o, In o O /\ i = close o).
  { destruct k as [o|os|]; cbn [apply_call] in E.
    - inversion E. split; [exact H1|]. split; [exact H2|]. split; [exact H3|]. split; [reflexivity|].
      intros i Hi. cbn [add_obstacle with_inner inner interiors_push interiors] in Hi. apply in_app_or in Hi. destruct Hi as [Hi|[<-|[]]]; [now apply H4|].
      exists o. split; [apply HI; now left|reflexivity].
    - inversion E. split; [exact H1|]. split; [exact H2|]. split; [cbn [add_obstacles with_inner inner geo_new exterior]; rewrite H3; reflexivity|]. split; [reflexivity|].
      intros i Hi. cbn [add_obstacles with_inner inner geo_new interiors] in Hi. rewrite map_app in Hi. apply in_app_or in Hi. destruct Hi as [Hi|Hi].
      + apply in_map_iff in Hi. destruct Hi as (i' & <- & Hi). destruct (H4 i' Hi) as (o & Ho & ->). exists o. split; [exact Ho|]. now apply close_comparable, HO.
      + apply in_map_iff in Hi. destruct Hi as (o & <- & Ho). exists o. split; [|reflexivity]. apply HI. cbn [added]. apply in_or_app. now left.
    - unfold prebuild in E. rewrite H1 in E. inversion E; subst. auto. }
  destruct HT as (T1 & T2 & T3 & T4 & T5). destruct (IH t1 t' T1 T2 T3 HO HI' T5 H) as (R1 & R2 & R3 & R4 & R5). rewrite R4, T4. auto 10.
Qed.

(** What C90 asks of a builder made from the layer [l], of that layer, the triangulator and geo. *)
Record laid_on (lib : TriLib RA) (l : Layer RA) (t0 : Triangulation RA) (cs : list (@call RA)) (m : Mesh RA) : Prop := {
  lo_built : exists t c, built lib t0 cs t c m /\ faces_cover_ground (cdt lib c) l /\ forall f centre, In f (inner_faces (cdt lib c)) -> fcenter f = vp centre -> clear_of l centre;
  lo_base : base_layer t0 = Some l;
  lo_empty : exterior (inner t0) = [];
  lo_outer : outer_only (agent_radius t0);
  lo_ground : ground_ok l;
  lo_layer : small_layer l;
  lo_finder : finder_ok lib l;
  lo_only : finds_only_enclosed lib;
  lo_numbers : forall o r, In o (added cs) -> outline lib (agent_radius t0) o r -> exists r', r = map vp r' /\ finds_enclosed lib r';
  lo_small : mesh_small m
}.

Section Laid.
Context (lib : TriLib RA) (l : Layer RA) (t0 : Triangulation RA) (cs : list (@call RA)) (m : Mesh RA).
Hypothesis HL : laid_on lib l t0 cs m.

Lemma laid_corners p qs : laid l p qs <-> Properties_contain.corners l p qs.
Proof using. reflexivity. Qed.
Lemma laid_fun p qs qs' : laid l p qs -> laid l p qs' -> qs = qs'.
Proof using.
  unfold laid. intro H. revert qs'. induction H as [|i q is qs (v & V1 & V2) H IH]; intros qs' H'; inversion_clear H'; [reflexivity|].
  destruct H0 as (v' & V1' & V2'). f_equal; [|now apply IH]. apply vp_inj. congruence.
Qed.

(** the point found in the layer *)
Lemma found_inside x : clear_of l x -> forall o, layer_get_point_location (finder lib) l (vp x) (fz 0) = Ok o ->
  (o <> None <-> exists p qs, In p (polygons l) /\ laid l p qs /\ strictly_inside qs x).
Proof using HL.
  intros Hcl o HX. destruct HL as [_ _ _ _ HG HS HF _ _ _]. unfold layer_get_point_location in HX.
  assert (HZ : forall ds, (forall d, In d ds -> vadd (vp x) d = vp x) -> ds <> [] -> probe_loop (finder lib) l (vp x) ds = Ok o ->
    exists k, loc_any (finder lib) l (vp x) = Ok k /\ (o <> None <-> k <> MAX)).
  { induction ds as [|d ds IH]; intros Hd Hne H; [congruence|]. cbn [probe_loop] in H. rewrite (Hd d (or_introl eq_refl)) in H. inv_bind H. exists a. split; [exact E|].
    destruct (N.eqb_spec a MAX) as [Ea|Ea]; [|inversion H; split; [tauto|discriminate]].
    destruct ds as [|d' ds]; [cbn in H; inversion H; tauto|]. destruct (IH (fun d H => Hd d (or_intror H)) ltac:(discriminate) H) as (k & K1 & K2). rewrite E in K1. inversion K1; subst. exact K2. }
  assert (NP : probes (fz (A := RA) 0) <> []) by (unfold probes; discriminate).
  assert (HP : forall d, In d (probes (fz (A := RA) 0)) -> vadd (vp x) d = vp x).
  { intros d Hd. unfold probes in Hd. rewrite fz_R in Hd. cbn [In] in Hd. unfold vp, pt, vadd. 
    repeat (destruct Hd as [<-|Hd]; [cbn [vx vy]; cbn; f_equal; f_equal; ring|]). destruct Hd. }
  destruct (HZ _ HP NP HX) as (k & Hk & Ho).
  rewrite Ho. clear Ho HX HZ HP NP. split.
  - intro Nk. destruct (loc_any_found (finder lib) l (vp x) k Hk Nk) as (p & Hp & Hc). apply nthN_In in Hp. destruct (HG p Hp) as (qs & Q1 & Q2 & Q3). exists p, qs. split; [exact Hp|]. split; [exact Q1|].
    assert (HT : point_in_polygon l (vp x) p = Ok true) by (apply point_in_polygon_true; exact Hc).
    destruct (Hcl p qs Hp Q1) as [K|[(a & b & K1 & K2) K3]]; [intros a b Hab; specialize (K a b Hab); pose proof eps_pos; lra|]. exfalso.
    destruct (Properties_contain.C06_inside_sound l p qs x Q1 HT) as [[_ G]|(a' & b' & G1 & G2 & G3)].
    + specialize (G a b K1). pose proof eps_pos. lra.
    + specialize (K3 a' b' G1 G2). unfold Rabs in K3. destruct (Rcase_abs _) in K3; lra.
  - intros (p & qs & Hp & Hq & Hs) ->. 
    assert (HT : point_in_polygon l (vp x) p = Ok true).
    { destruct (HG p Hp) as (qs' & Q1 & Q2 & Q3). rewrite (laid_fun p qs qs' Hq Q1) in *. apply (Properties_contain.C06_inside_complete l p qs' x Q1 Q2).
      destruct (Hcl p qs' Hp Q1) as [K|[(a & b & K1 & K2) K3]]; [exact K|]. specialize (Hs a b K1). lra. }
    pose proof Hp as Hn. apply In_nthN in Hn. destruct Hn as [i Hi].
    destruct (baked l) as [boxes|] eqn:EB.
    + pose proof (HF boxes i p qs x EB Hi Hq (strictly_is_inside qs x Hs)) as Hin. unfold loc_any in Hk. rewrite EB in Hk. unfold loc_unit_baked in Hk. inv_bind Hk. destruct a as [j|].
      * inversion Hk; subst j. apply findM_Some in E. destruct E as (l1 & l2 & _ & E & _). inv_bind E. apply index_Ok, nthN_Some_lt in E0.
        unfold small_layer in HS. unfold MAX in E0. lia.
      * pose proof (proj1 (findM_None _ _) E i Hin) as K. cbv beta in K. unfold index in K. rewrite Hi in K. cbn [unwrap bind] in K. congruence.
    + exact (loc_any_none (finder lib) l (vp x) EB HS Hk i p Hi (proj1 (point_in_polygon_true l (vp x) p) HT)).
Qed.

(** the lines of the polygons of the layer are constraints *)
Lemma ground_lines t c : built lib t0 cs t c m -> forall p qs, In p (polygons l) -> laid l p qs -> convex qs -> forall a b, In (a, b) (poly_edges qs) -> In (vp a, vp b) c \/ In (vp b, vp a) c.
Proof using HL.
  intros [B1 B2 (B3 & B3i & B3') B4 B5 B6 B7 B8 B9 B10 B11] p qs Hp Hq HC a b Hab. destruct HL as [_ L2 L3 L4 _ _ _ _ _ _].
  destruct (run_based lib l (added cs) cs t0 t L2 B3 L3 B4 (incl_refl _)) as (R1 & R2 & R3 & R4 & R5); [rewrite B3i; intros i []|exact B6|].
  unfold constraints in B7. inv_bind B7. rewrite R1 in B7. inv_bind B7. inv_bind B7. destruct (add_rings_Ok lib _ _ _ B7) as [-> _].
  destruct (base_constraints_spec lib l _ _ E0) as (S1 & _ & _).
  destruct (Properties_contain.Forall2_In_r _ _ _ _ (Properties_contain.edges_corners l p qs Hq) Hab) as ([i j] & He & (va & Va & Ea) & (vb & Vb & Eb)). cbn [fst snd] in *.
  assert (Nij : i <> j). { intros ->. apply (edge_ne qs a b HC Hab). apply vp_inj. congruence. }
  assert (HBd : boundary_edge (pverts p) i j).
  { assert (pverts p <> []) as Np by (intro K; rewrite K in He; destruct He). exact (proj1 (proj2 (Search_facts.edges_index_spec p _ (edges_index_edge_list p Np)) i j) He). }
  destruct (S1 p i j Hp HBd Nij) as (va' & vb' & V1 & V2 & V3). assert (va' = va) by congruence. assert (vb' = vb) by congruence. subst va' vb'. rewrite Ea, Eb in V3. cbn [snd] in V3.
  destruct V3 as [V3|V3]; [left|right]; apply in_or_app; now left.
Qed.

(** moving inside of a face does not change the polygon of the ground *)
Lemma same_polygon t c qf : built lib t0 cs t c m -> (forall p q k, In (vp p, vp q) c -> 0 <= k <= 1 -> ~ strictly_inside qf (lerp p q k)) ->
  forall p qs, In p (polygons l) -> laid l p qs -> convex qs -> forall x y, strictly_inside qs x -> inside qf x -> strictly_inside qf y -> strictly_inside qs y.
Proof using HL.
  intros HB Hoff p qs Hp Hq HC x y Hx Ix Sy. apply (stays_inside qs x y HC Hx). intros k Hk u w t' Huw Ht' E.
  destruct (Req_dec k 0) as [-> |Nk].
  - rewrite lerp_0 in E. specialize (Hx u w Huw). rewrite E in Hx. unfold orient, cross, lerp in Hx. cbn [padd pscale psub px py] in Hx. lra.
  - assert (HS : strictly_inside qf (lerp x y k)).
    { replace (lerp x y k) with (lerp y x (1 - k)) by (unfold lerp; apply P2_eq; cbn [padd pscale psub px py]; ring). apply strictly_lerp; [exact Sy|exact Ix|lra]. }
    destruct (ground_lines t c HB p qs Hp Hq HC u w Huw) as [H|H].
    + apply (Hoff u w t' H Ht'). rewrite <- E. exact HS.
    + apply (Hoff w u (1 - t') H); [lra|]. replace (lerp w u (1 - t')) with (lerp u w t') by (unfold lerp; apply P2_eq; cbn [padd pscale psub px py]; ring). rewrite <- E. exact HS.
Qed.
(** no point exists that is enclosed by nothing *)
Lemma enclosed_nil x : ~ enclosed [] x.
Proof using.
  intro H. apply enclosed_hull in H. specialize (H (P 0 0) (-1)). assert (pdot (P 0 0) x <= -1) by (apply H; intros q []). unfold pdot in *. cbn [px py] in *. lra.
Qed.

(** the interior of a polygon of the new mesh is on the ground and outside of the obstacles *)
Lemma interior_left_over id qf x : Spec_inside.corners m id qf -> strictly_inside qf x -> left_over lib (agent_radius t0) l (added cs) x.
Proof using HL.
  intros Hc Hx. pose proof HL as [(t & c & HB & _ & Hcl) L2 L3 L4 HG HS HF HO HN Hsm].
  destruct (polygon_face lib t0 cs t c m HB id qf Hc) as (f & g & centre & EG & Hf & Ef & Hin & HA & Hoff). split.
  - pose proof HB as [B1 B2 (B3 & B3i & B3') B4 B5 B6 B7 B8 B9 B10 B11].
    destruct (run_based lib l (added cs) cs t0 t L2 B3 L3 B4 (incl_refl _)) as (R1 & R2 & R3 & R4 & R5); [rewrite B3i; intros i []|exact B6|].
    pose proof (Hcl f centre Hf Ef) as Hcc. unfold accepted in HA. rewrite R2, R1 in HA. cbn [andb] in HA.
    assert (HE : contains lib g (vp centre) = false).
    { destruct (contains lib g (vp centre)) eqn:EC; [|reflexivity]. exfalso. assert (EX : exterior g = []).
      { assert (HX : close ([] : ring RA) = []) by reflexivity. unfold inflated in EG. rewrite R4 in EG. destruct (agent_radius t0) as [|d n p|d n p]; [inversion EG; congruence| |destruct L4].
        destruct (enough d); [|inversion EG; congruence]. rewrite (proj2 (obstacles_outlined _ _ _ _ _ _ EG)), R3. reflexivity. }
      destruct g as [ge gi]. cbn [exterior] in EX. rewrite EX in EC. exact (enclosed_nil centre (HO [] gi centre EC)). }
    rewrite HE in HA. inv_bind HA. destruct a as [k|]; [|discriminate HA].
    destruct (proj1 (found_inside centre Hcc _ E)) as (p & qs & Hp & Hq & Hs); [discriminate|].
    destruct (HG p Hp) as (qs' & Q1 & Q2 & Q3). rewrite (laid_fun p qs qs' Hq Q1) in *.
    exists p, qs'. split; [exact Hp|]. split; [exact Q1|]. apply strictly_is_inside.
    exact (same_polygon t c qf HB Hoff p qs' Hp Q1 Q3 centre x Hs (strictly_is_inside _ _ Hin) Hx).
  - intros o r Ho Hr. destruct (HN o _ Ho Hr) as (r' & E & HJ). assert (r' = r) as ->.
    { clear -E. revert r' E. induction r as [|a r IH]; intros [|b r'] E; try discriminate; [reflexivity|]. cbn [map] in E. f_equal; [apply vp_inj; congruence|apply IH; congruence]. }
    exact (polygon_not_enclosed lib t0 cs t c m HB id qf x o r Hc Hx Ho Hr HJ).
Qed.

(** the interior of a polygon of the ground, outside of the obstacles, is on the new mesh *)
Lemma left_over_covered p qs x : In p (polygons l) -> laid l p qs -> strictly_inside qs x -> left_over lib (agent_radius t0) l (added cs) x -> covered m x.
Proof using HL.
  intros Hp Hq Hx [Hg Hfree]. pose proof HL as [(t & c & HB & Hcov & Hcl) L2 L3 L4 HG HS HF HO HN Hsm].
  destruct (HG p Hp) as (qs' & Q1 & Q2 & Q3). rewrite <- (laid_fun p qs qs' Hq Q1) in *. clear qs' Q1.
  destruct (Hcov x Hg) as (f & qf & Hf & HV & Hin).
  pose proof HB as [B1 B2 (B3 & B3i & B3') B4 B5 B6 B7 B8 B9 B10 B11].
  destruct (B10 f Hf) as (qf' & centre & C1 & C2 & C3 & C4).
  assert (qf' = qf) as ->.
  { clear -HV C1. revert qf HV C1. generalize (fverts f). intros is qs HV. revert qf'. induction HV as [|i q is qs [ar Hi] HV IH]; intros qs' H; inversion_clear H; [reflexivity|].
    destruct H0 as (ar' & Hi'). f_equal; [|now apply IH]. apply vp_inj. congruence. }
  destruct (run_based lib l (added cs) cs t0 t L2 B3 L3 B4 (incl_refl _)) as (R1 & R2 & R3 & R4 & R5); [rewrite B3i; intros i []|exact B6|].
  assert (exists g, inflated lib t = Ok g) as [g EG]. { unfold as_navmesh in B11. inv_bind B11. unfold as_layer in E. inv_bind E. inv_bind E. eauto. }
  pose proof (same_polygon t c qf HB C4 p qs Hp Hq Q3 x centre Hx Hin C3) as Hsc. pose proof (Hcl f centre Hf C2) as Hcc.
  unfold as_navmesh in B11. inv_bind B11. inversion B11 as [Em]; clear B11. rename a into l0.
  destruct (C41_as_layer lib t c g l0 B7 EG B8 B9 E) as (kept & K1 & K2 & K3 & K4).
  (* the centre is free *)
  assert (HFc : forall o r, In o (added cs) -> outline lib (agent_radius t0) o (map vp r) -> ~ enclosed r centre).
  { intros o r Ho Hr Hen. destruct (C43_every_obstacle_constrains lib t0 cs t c B1 (conj B3 (conj B3i B3')) B4 B5 B6 B7 o Ho) as (r2 & O2 & L2').
    assert (r2 = map vp r) as ->.
    { revert O2 Hr. unfold outline. destruct (agent_radius t0) as [|rd n q|rd n q]; [congruence| |]; (destruct (enough rd); [|congruence]); intros (i1 & J1 & ->) (i2 & J2 & ->); congruence. }
    apply (Hfree o r Ho Hr). apply (enclosed_along r centre x); [|exact Hen]. intros k Hk.
    destruct (Req_dec k 0) as [-> |Nk]; [rewrite lerp_0; intro K; exact (Hfree o r Ho Hr (on_enclosed r x K))|]. intros (u & v & w & Huv & Hw & E').
    assert (HSl : strictly_inside qf (lerp x centre k)).
    { destruct (Req_dec k 1) as [-> |N1]; [rewrite lerp_1; exact C3|]. replace (lerp x centre k) with (lerp centre x (1 - k)) by (unfold lerp; apply P2_eq; cbn [padd pscale psub px py]; ring).
      apply strictly_lerp; [exact C3|exact Hin|lra]. }
    rewrite E' in HSl. apply (C4 u v w); [|exact Hw|exact HSl]. apply L2'. rewrite lines_pairs. apply in_map_iff. exists (u, v). auto. }
  (* so the face is kept *)
  assert (Hk : kept f = true).
  { specialize (K1 f Hf). rewrite C2 in K1. unfold accepted in K1. rewrite R2, R1 in K1. cbn [andb] in K1. destruct (contains lib g (vp centre)); [congruence|].
    inv_bind K1. destruct a as [k|].
    - assert (Kb : negb (existsb (fun r => contains lib (geo_new r []) (vp centre)) (interiors g)) = kept f) by congruence. rewrite <- Kb. apply negb_true_iff. apply not_true_iff_false. intro K. apply existsb_exists in K. destruct K as (r & Hr & K).
      pose proof (inflated_interiors lib t g EG) as HFi. rewrite R4 in HFi. apply In_nthN in Hr. destruct Hr as [j Hj].
      destruct (Forall2_nthN_r _ _ _ HFi _ _ Hj) as (i & I1 & I2). apply nthN_In in I1. destruct (R5 i I1) as (o & Ho & ->).
      assert (Hr : outline lib (agent_radius t0) o r) by exact I2. destruct (HN o r Ho Hr) as (r' & -> & _).
      assert (HA : from_added lib (agent_radius t0) (added cs) (map vp r')) by (exists o; auto).
      assert (close (map vp r') = map vp r') as Ec.
      { apply (added_closed lib (agent_radius t0) (added cs)); [|exact HA]. intros o' r'' H1 H2. destruct (HN o' r'' H1 H2) as (q & Eq & _). now exists q. }
      unfold geo_new in K. rewrite Ec in K. cbn [map] in K. exact (HFc o r' Ho Hr (HO r' [] centre K)).
    - exfalso. apply (proj2 (found_inside centre Hcc None E0)); [|reflexivity]. exists p, qs. auto. }
  assert (HOf : offset l0 = vzero).
  { unfold as_layer in E. rewrite B7, EG in E. cbn [bind] in E. unfold layer_of_subdivision in E. inv_bind E. inv_bind E. inversion E. reflexivity. }
  assert (Hpf : In (polygon_of_face f) (polygons l0)) by (rewrite K2; apply in_map; apply filter_In; auto).
  apply In_nthN in Hpf. destruct Hpf as [k Hnk]. pose proof (nthN_Some_lt _ _ _ Hnk) as Hlt.
  assert (Hk24 : (k < 2 ^ 24)%N).
  { destruct Hsm as [_ Hs]. specialize (Hs l0). rewrite <- Em in Hs. cbn [layers] in Hs. specialize (Hs (or_introl eq_refl)).
    change (2 ^ 24)%N with 16777216%N in *. change (2 ^ 24 - 1)%N with 16777215%N in Hs. lia. }
  exists (id_make 0 k), qf. split; [|exact Hin].
  exists l0, (polygon_of_face f). split.
  - split; [rewrite id_layer_make by (try exact Hk24; reflexivity)|rewrite id_polygon_make by exact Hk24; exact Hnk]. reflexivity.
  - cbn [polygon_of_face pverts]. revert HV. apply Forall2_imp. intros i q (ar & Hi). destruct (K4 i (vp q) ar Hi) as (v & V1 & V2 & _). exists v. split; [exact V1|].
    unfold world. rewrite V2, HOf. unfold vzero. rewrite fz_R. destruct q as [q1 q2]. unfold vadd, vp, pt. cbn [vx vy px py]. f_equal; cbn; f_equal; ring.
Qed.
End Laid.

(** ** C90 *)
Section C90.
Context (lib : TriLib RA) (l : Layer RA) (t0 : Triangulation RA) (cs : list (@call RA)) (m : Mesh RA).
Hypothesis HL : laid_on lib l t0 cs m.

(** the ground is closed *)
Lemma ground_closed x : near (ground l) x -> ground l x.
Proof using.
  intro H. set (l' := mkLayer (vertices l) (polygons l) vzero (baked l) (islands l)).
  assert (HZ : forall v : vec2 RA, vadd v (@V RA (Some 0) (Some 0)) = v).
  { intros [[a|] [b|]]; unfold vadd; cbn [vx vy]; f_equal; cbn; try reflexivity; f_equal; ring. }
  assert (HW : forall p qs, laid l p qs <-> Forall2 (at_world l') (pverts p) qs).
  { intros p qs. unfold laid, at_world. split; apply Forall2_imp; intros i q (v & V1 & V2); exists v; (split; [exact V1|]); unfold world, l' in *; cbn [offset] in *; unfold vzero in *; rewrite fz_R in *.
    - rewrite V2. destruct q as [q1 q2]. unfold vadd, vp, pt. cbn [vx vy px py]. f_equal; cbn; f_equal; ring.
    - rewrite <- V2. symmetry. apply HZ. }
  destruct (far_list x (map (fun p => (l', p)) (polygons l))) as (rad & R1 & R2).
  destruct (H rad R1) as (y & Hy & p & qs & Hp & Hq & Hin). exists p, qs. split; [exact Hp|]. split; [exact Hq|].
  apply (R2 l' p) with (y := y); auto; [|now apply HW]. apply in_map_iff. exists p. auto.
Qed.
(** around a point that no obstacle encloses there is room *)
Lemma room x : (forall o r, In o (added cs) -> outline lib (agent_radius t0) o (map vp r) -> ~ enclosed r x) ->
  exists rad, 0 < rad /\ forall y, dist x y < rad -> forall o r, In o (added cs) -> outline lib (agent_radius t0) o (map vp r) -> ~ enclosed r y.
Proof using.
  induction (added cs) as [|o os IH]; intro H; [exists 1; split; [lra|intros y _ o r []]|].
  destruct IH as (r1 & A1 & A2); [intros o' r Ho; apply H; now right|].
  assert (exists r2, 0 < r2 /\ forall y, dist x y < r2 -> forall r, outline lib (agent_radius t0) o (map vp r) -> ~ enclosed r y) as (r2 & B1 & B2).
  { destruct (classic (exists r, outline lib (agent_radius t0) o (map vp r))) as [(r & Hr)|N]; [|exists 1; split; [lra|intros y _ r Hr; exfalso; eauto]].
    assert (U : forall r', outline lib (agent_radius t0) o (map vp r') -> r' = r).
    { intros r' Hr'. assert (E : map vp r' = map vp r).
      { revert Hr Hr'. unfold outline. destruct (agent_radius t0) as [|rd n q|rd n q]; [congruence| |]; (destruct (enough rd); [|congruence]); intros (i1 & J1 & E1) (i2 & J2 & E2); congruence. }
      clear -E. revert r' E. induction r as [|a r IH]; intros [|b r'] E; try discriminate; [reflexivity|]. cbn [map] in E. f_equal; [apply vp_inj; congruence|apply IH; congruence]. }
    apply NNPP. intro N. apply (H o r (or_introl eq_refl) Hr). apply enclosed_limit. intros rad Hrad. apply NNPP. intro K. apply N. exists rad. split; [exact Hrad|].
    intros y Hy r' Hr' He. rewrite (U r' Hr') in He. apply K. eauto. }
  exists (Rmin r1 r2). split; [now apply Rmin_pos|]. intros y Hy o' r [<-|Ho] Hr.
  - apply B2; [|exact Hr]. pose proof (Rmin_r r1 r2). lra.
  - apply (A2 y) with (o := o'); auto. pose proof (Rmin_l r1 r2). lra.
Qed.

(** C90: the area of the mesh is what is left of the layer, with its border. *)
Theorem C90_area_is_the_ground_left x : covered m x <-> near (left_over lib (agent_radius t0) l (added cs)) x.
Proof using HL.
  split.
  - intros (id & qs & Hc & Hx) rad Hrad. destruct (lo_built _ _ _ _ _ HL) as (t & c & HB & _).
    destruct (near_point lib t0 cs t c m HB id qs x rad Hc Hx Hrad) as (y & Hy & Hd). exists y. split; [exact Hd|]. exact (interior_left_over lib l t0 cs m HL id qs y Hc Hy).
  - intro H. apply covered_closed. intros rad Hrad. destruct (H (rad / 2) ltac:(lra)) as (y & Hd & (p & qs & Hp & Hq & Hy) & Hfree).
    destruct (room y Hfree) as (rad' & R1 & R2). destruct (lo_ground _ _ _ _ _ HL p Hp) as (qs' & Q1 & Q2 & Q3). rewrite (laid_fun l p qs qs' Hq Q1) in *. clear qs Hq.
    destruct (strict_point qs' Q2 Q3 (poly_edges qs') (fun e K => K)) as (s & S1 & S2).
    set (g := Rmin rad' (rad / 2)). assert (G : 0 < g) by (apply Rmin_pos; lra). set (D := dist s y). assert (0 <= D) by apply dist_nonneg. set (k := g / (2 * (D + g))).
    assert (Hk : k * (2 * (D + g)) = g) by (unfold k; field; lra). assert (0 < k) by (apply Rdiv_lt_0_compat; lra). assert (k <= 1 / 2) by nra.
    set (z := lerp s y (1 - k)). assert (HZ : strictly_inside qs' z) by (apply strictly_lerp; [exact S2|exact Hy|lra]).
    assert (HD : dist y z < g).
    { assert (dist y z = k * D) as ->; [|nra]. unfold z, D, dist. replace (psub y (lerp s y (1 - k))) with (pscale (- k) (psub s y)) by (unfold lerp; apply P2_eq; cbn [padd pscale psub px py]; ring).
      rewrite plen_scale, Rabs_Ropp, Rabs_right by lra. reflexivity. }
    exists z. split.
    + pose proof (dist_triangle x y z) as T. pose proof (Rmin_r rad' (rad / 2)). fold g in H3. lra.
    + apply (left_over_covered lib l t0 cs m HL p qs' z Hp Q1 HZ). split; [exists p, qs'; split; [exact Hp|]; split; [exact Q1|now apply strictly_is_inside]|].
      apply R2. pose proof (Rmin_l rad' (rad / 2)). fold g in H3. lra.
Qed.
(** C90: it never leaves the layer, *)
Theorem C90_never_leaves_the_ground x : covered m x -> ground l x.
Proof using HL.
  intro H. apply ground_closed. intros rad Hrad. destruct (proj1 (C90_area_is_the_ground_left x) H rad Hrad) as (y & Hy & Hg & _). eauto.
Qed.
(** and without obstacles it is the same. *)
Theorem C90_same_area_without_obstacles : added cs = [] -> forall x, covered m x <-> ground l x.
Proof using HL.
  intros E x. split; [apply C90_never_leaves_the_ground|]. intro H. apply C90_area_is_the_ground_left. intros rad Hrad. exists x. split.
  - assert (dist x x = 0) as ->; [|exact Hrad]. unfold dist, plen, pdot. cbn [psub px py]. replace (_ + _) with 0 by ring. exact sqrt_0.
  - split; [exact H|]. rewrite E. intros o r [].
Qed.
Lemma left_over_area ps x : left_over lib (agent_radius t0) l (added cs) x -> area m [] ps x.
Proof using HL.
  intro H. apply covered_area; [exact (lo_small _ _ _ _ _ HL)|]. apply C90_area_is_the_ground_left. intros rad Hrad. exists x. split; [|exact H].
  assert (dist x x = 0) as ->; [|exact Hrad]. unfold dist, plen, pdot. cbn [psub px py]. replace (_ + _) with 0 by ring. exact sqrt_0.
Qed.
(** C90: a path stays on the layer and is the shortest way over what is left of it. *)
Theorem C90_shortest_on_the_ground (plib : Lib RA) from to path start goal ps pe :
  proper plib m [] start goal ps pe -> cpos from = vp start -> cpos to = vp goal -> located plib m from ps -> located plib m to pe ->
  path_on_layers plib m from to [] = Ok (Some path) ->
  exists pts, ppath path = map vp pts /\ last pts start = goal /\ plength path = Some (total start pts) /\ polyline_in (ground l) start pts /\
    forall others, polyline_in (left_over lib (agent_radius t0) l (added cs)) start others -> last others start = goal -> total start pts <= total start others.
Proof using HL.
  intros HP Es Eg L1 L2 H.
  destruct (C65_shortest_in_the_area plib m from to [] path start goal ps pe HP Es Eg L1 L2 H) as (pts & A1 & A2 & A3 & A4 & A5).
  exists pts. split; [exact A1|]. split; [exact A2|]. split; [exact A3|]. split.
  - revert A4. apply polyline_weaken. intros x (id & qs & _ & Q1 & Q2). apply C90_never_leaves_the_ground. exists id, qs. auto.
  - intros others HO E. apply A5; [|exact E]. revert HO. apply polyline_weaken. apply left_over_area.
Qed.
(** C90: and if there is a way over what is left of the layer, the future of get_path finds a path no longer than it. *)
Theorem C90_way_is_found (plib : Lib RA) start goal ps pe others :
  proper plib m [] start goal ps pe -> mesh_wf m -> real_mesh m -> at_border m [] -> (pe < 2 ^ 32)%N ->
  get_point_location (lbvh plib) m (coords_on_mesh (vp start)) = Ok ps -> ps <> MAX ->
  get_point_location (lbvh plib) m (coords_on_mesh (vp goal)) = Ok pe -> pe <> MAX -> async_islands_reject m ps pe = Ok false ->
  polyline_in (left_over lib (agent_radius t0) l (added cs)) start others -> last others start = goal ->
  exists k log path d, poll_times k plib (get_path m (vp start) (vp goal)) = Ok (Some (Some path), log) /\
    plength path = Some d /\ d <= total start others.
Proof using HL.
  intros HP Hwf HR Hbd Hpe L1 N1 L2 N2 Hisl HO Eo.
  assert (HA : polyline_in (area m [] ps) start others) by (revert HO; apply polyline_weaken; apply left_over_area).
  destruct (C65_future_decides plib m start goal ps pe HP Hwf HR Hbd Hpe L1 N1 L2 N2 Hisl) as (k & log & [(path & pts & F1 & F2 & F3 & F4 & F5)|[F1 F2]]).
  - exists k, log, path, (total start pts). split; [exact F1|]. split; [exact F2|]. now apply F5.
  - exfalso. exact (F2 others HA Eo).
Qed.
End C90.

(** The points of the ground are those of the mesh that has this layer only. *)
Lemma ground_is_covered m0 l : layers m0 = [l] -> offset l = vzero -> mesh_small m0 -> forall x, ground l x -> covered m0 x.
Proof.
  intros HL HO Hsm x (p & qs & Hp & Hq & Hin). apply In_nthN in Hp. destruct Hp as [k Hnk]. pose proof (nthN_Some_lt _ _ _ Hnk) as Hlt.
  assert (Hk24 : (k < 2 ^ 24)%N).
  { destruct Hsm as [_ Hs]. specialize (Hs l). rewrite HL in Hs. specialize (Hs (or_introl eq_refl)).
    change (2 ^ 24)%N with 16777216%N in *. change (2 ^ 24 - 1)%N with 16777215%N in Hs. lia. }
  exists (id_make 0 k), qs. split; [|exact Hin].
  exists l, p. split.
  - split; [rewrite id_layer_make by (try exact Hk24; reflexivity)|rewrite id_polygon_make by exact Hk24; exact Hnk]. rewrite HL. reflexivity.
  - revert Hq. apply Forall2_imp. intros i q (v & V1 & V2). exists v. split; [exact V1|].
    unfold world. rewrite V2, HO. unfold vzero. rewrite fz_R. destruct q as [q1 q2]. unfold vadd, vp, pt. cbn [vx vy px py]. f_equal; cbn; f_equal; ring.
Qed.
(** C90: on the mesh of the builder a path is never shorter than on the mesh that has only this layer. *)
Theorem C90_never_shorter (lib : TriLib RA) (l : Layer RA) (t0 : Triangulation RA) (cs : list (@call RA)) (m m0 : Mesh RA) (plib : Lib RA)
  from to from' to' path path' start goal ps pe ps' pe' :
  laid_on lib l t0 cs m -> layers m0 = [l] -> offset l = vzero ->
  proper plib m0 [] start goal ps pe -> proper plib m [] start goal ps' pe' ->
  cpos from = vp start -> cpos to = vp goal -> cpos from' = vp start -> cpos to' = vp goal ->
  located plib m0 from ps -> located plib m0 to pe -> located plib m from' ps' -> located plib m to' pe' ->
  path_on_layers plib m0 from to [] = Ok (Some path) -> path_on_layers plib m from' to' [] = Ok (Some path') ->
  exists d d', plength path = Some d /\ plength path' = Some d' /\ d <= d'.
Proof.
  intros HL E0 EO P1 P2 A1 A2 A3 A4 L1 L2 L3 L4 H1 H2.
  destruct (C65_shortest_in_the_area plib m0 from to [] path start goal ps pe P1 A1 A2 L1 L2 H1) as (pts & B1 & B2 & B3 & B4 & B5).
  destruct (C90_shortest_on_the_ground lib l t0 cs m HL plib from' to' path' start goal ps' pe' P2 A3 A4 L3 L4 H2) as (pts' & D1 & D2 & D3 & D4 & D5).
  exists (total start pts), (total start pts'). split; [exact B3|]. split; [exact D3|]. apply B5; [|exact D2].
  revert D4. apply polyline_weaken. intros x Hx. apply covered_area; [exact (pr_small _ _ _ _ _ _ _ P1)|].
  apply (ground_is_covered m0 l E0 EO (pr_small _ _ _ _ _ _ _ P1) x Hx).
Qed.
Print Assumptions C90_area_is_the_ground_left.
Print Assumptions C90_way_is_found.
Print Assumptions C90_never_shorter.
