(** Meshes of several layers with integer coordinates (in thirds), for examples in exact arithmetic with blocked layers: the hypotheses of C63, C64
    and C80 by computation.  As Zmesh, which has one layer. *)
From Coq Require Import List NArith ZArith Bool Lia Reals Lra Psatz.
From Verif Require Import Base Arith U32 Mesh Helpers Locate Search StdLib Spec RealArith Geometry Heuristic Search_props Search_safe Checkers Islands_facts
  Properties_geometry Examples_exact Rings Spec_inside Sight Sight_search Sight_static Examples_inside Spec_shortest Shortest_cover Zmesh.
Import ListNotations.
Open Scope R_scope.

(** A layer: its offset, its vertices (position, neighbours), its polygons. *)
Record zl := mkZl { zoff : zpt; zvs : list (zpt * list N); zps : list (list N) }.
Definition zlay (l : zl) : Layer RA := mkLayer (map zv (zvs l)) (map (fun p => mkPolygon p false) (zps l)) (vp (zp (zoff l))) None None.
Definition zlayers (L : list zl) : Mesh RA := mkMesh (map zlay L) (Some (1 / 10)) 2.
Definition zplus (a b : zpt) : zpt := (fst a + fst b, snd a + snd b)%Z.
Lemma zplus_R a b : padd (zp a) (zp b) = zp (zplus a b).
Proof. apply P2_eq; unfold padd, zp, zplus; cbn [px py fst snd]; rewrite plus_IZR; field. Qed.

Section Zlayers.
Variable L : list zl.
Let m : Mesh RA := zlayers L.

(** the place of vertex [i] of a layer *)
Definition lat (l : zl) (i : N) : zpt := match nthN (zvs l) i with Some v => zplus (fst v) (zoff l) | None => (0, 0)%Z end.
Definition lnb (l : zl) (i : N) : list N := match nthN (zvs l) i with Some v => snd v | None => [] end.
(** all polygons: identifier, layer, vertices *)
Definition lall : list (N * (zl * list N)) :=
  flat_map (fun kl => map (fun jp => (id_make (fst kl) (fst jp), (snd kl, snd jp))) (enumerate (zps (snd kl)))) (enumerate L).
Definition lget (id : N) : option (zl * list N) :=
  match nthN L (id_layer id) with Some l => match nthN (zps l) (id_polygon id) with Some p => Some (l, p) | None => None end | None => None end.
Definition ls_at (id : N) : list zpt := match lget id with Some (l, p) => map (lat l) p | None => [] end.

Definition lsmallb : bool := (lengthN L <=? 256)%N && forallb (fun l => (lengthN (zps l) <? 2 ^ 24)%N) L.
Lemma lm_polygon id l p : polygon_at m id l p -> exists z p', lget id = Some (z, p') /\ l = zlay z /\ p = mkPolygon p' false.
Proof.
  intros [H1 H2]. unfold lget. cbn [layers m zlayers] in H1. rewrite nthN_map in H1. destruct (nthN L (id_layer id)) as [z|]; [|discriminate]. cbn [option_map] in H1.
  assert (l = zlay z) by congruence. subst l. cbn [polygons zlay] in H2. rewrite nthN_map in H2. destruct (nthN (zps z) (id_polygon id)) as [p'|]; [|discriminate]. cbn [option_map] in H2.
  exists z, p'. split; [reflexivity|]. split; [reflexivity|congruence].
Qed.
Lemma lm_polygon_at id z p : lget id = Some (z, p) -> polygon_at m id (zlay z) (mkPolygon p false).
Proof.
  unfold lget. destruct (nthN L (id_layer id)) as [z'|] eqn:E1; [|discriminate]. destruct (nthN (zps z') (id_polygon id)) as [p'|] eqn:E2; [|discriminate].
  intro H. assert (z' = z) by congruence. assert (p' = p) by congruence. subst z' p'. split; cbn [layers m zlayers polygons zlay]; rewrite nthN_map; [rewrite E1|rewrite E2]; reflexivity.
Qed.
Lemma lall_all id z p : lget id = Some (z, p) -> In (id_make (id_layer id) (id_polygon id), (z, p)) lall.
Proof.
  intros H. unfold lget in H. destruct (nthN L (id_layer id)) as [z'|] eqn:E1; [|discriminate]. destruct (nthN (zps z') (id_polygon id)) as [p'|] eqn:E2; [|discriminate].
  assert (z' = z) by congruence. assert (p' = p) by congruence. subst z' p'. unfold lall. apply in_flat_map. exists (id_layer id, z). split; [now apply enumerate_spec|]. cbn [fst snd].
  apply in_map_iff. exists (id_polygon id, p). split; [|now apply enumerate_spec]. reflexivity.
Qed.
Lemma lall_ok id z p : (id < 2 ^ 32)%N -> lget id = Some (z, p) -> In (id, (z, p)) lall.
Proof. intros H32 H. apply lall_all in H. rewrite (id_make_layer_polygon _ H32) in H. exact H. Qed.
Lemma lall_inv id z p : lsmallb = true -> In (id, (z, p)) lall -> lget id = Some (z, p) /\ (id < 2 ^ 32)%N.
Proof.
  intros HS H. unfold lsmallb in HS. apply andb_prop in HS. destruct HS as [HS1 HS2]. apply N.leb_le in HS1. rewrite forallb_forall in HS2.
  unfold lall in H. apply in_flat_map in H. destruct H as ([k z'] & Hk & H). cbn [fst snd] in H. apply in_map_iff in H. destruct H as ([j p'] & E & Hj). cbn [fst snd] in E.
  apply enumerate_spec in Hk, Hj. assert (z' = z) by congruence. assert (p' = p) by congruence. assert (E' : id = id_make k j) by congruence. subst z' p'. rewrite E'.
  pose proof (nthN_Some_lt _ _ _ Hk) as K1. pose proof (nthN_Some_lt _ _ _ Hj) as K2. specialize (HS2 z (nthN_In _ _ _ Hk)). apply N.ltb_lt in HS2.
  split; [|apply id_make_lt; lia]. unfold lget. rewrite id_layer_make by lia. rewrite Hk. rewrite id_polygon_make by lia. rewrite Hj. reflexivity.
Qed.
Lemma lm_at z i q : at_world (zlay z) i q -> (i < lengthN (zvs z))%N /\ q = zp (lat z i).
Proof.
  intros (v & Hv & E). cbn [vertices zlay] in Hv. rewrite nthN_map in Hv. unfold lat. destruct (nthN (zvs z) i) as [[a nb]|] eqn:EN; [|discriminate].
  split; [now apply nthN_Some_lt in EN|]. cbn [option_map] in Hv. assert (Ev : v = zv (a, nb)) by congruence. subst v. unfold world, zv in E. cbn [coords vertex_new offset zlay fst snd] in E.
  rewrite vadd_vp in E. apply vp_inj in E. rewrite <- E. cbn [fst]. apply zplus_R.
Qed.
Lemma lm_at_self z i : (i < lengthN (zvs z))%N -> at_world (zlay z) i (zp (lat z i)).
Proof.
  intro H. destruct (nthN_lt_Some (zvs z) i H) as ([a nb] & E). exists (zv (a, nb)). cbn [vertices zlay]. rewrite nthN_map, E. split; [reflexivity|].
  unfold world, zv, lat. rewrite E. cbn [coords vertex_new offset zlay fst snd]. rewrite vadd_vp. f_equal. apply zplus_R.
Qed.
Lemma lm_corners id qs : corners m id qs -> (exists z p, lget id = Some (z, p)) /\ qs = map zp (ls_at id).
Proof.
  intros (l & p & HP & HF). destruct (lm_polygon id l p HP) as (z & p' & E & -> & ->). split; [eauto|]. unfold ls_at. rewrite E.
  cbn [pverts] in HF. clear E HP. induction HF as [|i q l k Hi HF IH]; [reflexivity|]. cbn [map]. f_equal; [now apply lm_at|exact IH].
Qed.

(** the polygons only use existing vertices *)
Definition lwfb : bool := lsmallb && forallb (fun l => forallb (fun p => forallb (fun i => (i <? lengthN (zvs l))%N) p) (zps l)) L.
Lemma lwf_small : lwfb = true -> lsmallb = true. Proof. unfold lwfb. intro H. now apply andb_prop in H. Qed.
Lemma lget_In id z p : lget id = Some (z, p) -> In z L /\ In p (zps z).
Proof.
  unfold lget. destruct (nthN L (id_layer id)) as [z'|] eqn:E1; [|discriminate]. destruct (nthN (zps z') (id_polygon id)) as [p'|] eqn:E2; [|discriminate].
  intro H. assert (z' = z) by congruence. assert (p' = p) by congruence. subst z' p'. split; [exact (nthN_In _ _ _ E1)|exact (nthN_In _ _ _ E2)].
Qed.
Lemma lwf_lt id z p : lwfb = true -> lget id = Some (z, p) -> forallb (fun i => (i <? lengthN (zvs z))%N) p = true.
Proof.
  unfold lwfb. intros H E. apply andb_prop in H. destruct H as [_ H]. apply lget_In in E. destruct E as [E1 E2]. rewrite forallb_forall in H. specialize (H z E1). rewrite forallb_forall in H. exact (H p E2).
Qed.
Lemma lm_corners_at id z p : lwfb = true -> lget id = Some (z, p) -> corners m id (map zp (ls_at id)).
Proof.
  intros HW E. exists (zlay z), (mkPolygon p false). split; [exact (lm_polygon_at id z p E)|]. pose proof (lwf_lt id z p HW E) as Q. unfold ls_at. rewrite E. clear E. cbn [pverts].
  induction p as [|i p IH]; [constructor|]. cbn [forallb] in Q. apply andb_prop in Q. destruct Q as [H1 H2]. cbn [map]. constructor; [|now apply IH]. apply lm_at_self. now apply N.ltb_lt.
Qed.

(** all crossings *)
Definition lcross : list Crossing :=
  flat_map (fun kp => flat_map (fun e => flat_map (fun t =>
    if memN t (lnb (fst (snd kp)) (snd e)) && negb (t =? MAX)%N && negb (t =? fst kp)%N then [mkCross (fst kp) (fst e) (snd e) t] else []) (lnb (fst (snd kp)) (fst e)))
    (edge_list (snd (snd kp)))) lall.
Lemma lm_crossing x : u32_crossing m x -> In x lcross.
Proof.
  intros [(l & p & va & vb & HP & HB & Hva & Hvb & Ia & Ib & HM & HN) H32]. destruct (lm_polygon _ l p HP) as (z & p' & E & -> & ->).
  cbn [vertices zlay] in Hva, Hvb. rewrite nthN_map in Hva, Hvb. cbn [pverts] in HB. apply boundary_edge_list in HB.
  unfold lcross. apply in_flat_map. exists (cr_from x, (z, p')). split; [now apply lall_ok|]. cbn [fst snd]. apply in_flat_map. exists (cr_a x, cr_b x).
  split; [exact HB|]. cbn [fst snd]. apply in_flat_map. exists (cr_to x). unfold lnb.
  destruct (nthN (zvs z) (cr_a x)) as [[za na]|]; [|discriminate]. destruct (nthN (zvs z) (cr_b x)) as [[zb nb]|]; [|discriminate]. cbn [option_map] in Hva, Hvb. cbn [snd].
  assert (Ea : va = zv (za, na)) by congruence. assert (Eb : vb = zv (zb, nb)) by congruence. subst va vb. cbn [vpolys zv vertex_new snd] in Ia, Ib.
  split; [exact Ia|]. rewrite (proj2 (memN_In _ _) Ib), (proj2 (N.eqb_neq _ _) HM), (proj2 (N.eqb_neq _ _) HN). cbn [negb andb]. left. destruct x; reflexivity.
Qed.
(** the ends of a crossing *)
Definition lend (x : Crossing) (i : N) : zpt := match lget (cr_from x) with Some (z, _) => lat z i | None => (0, 0)%Z end.
Lemma lm_ends x a b : ends m x a b -> a = zp (lend x (cr_a x)) /\ b = zp (lend x (cr_b x)).
Proof. intros (l & p & HP & Ha & Hb). destruct (lm_polygon _ l p HP) as (z & p' & E & -> & ->). unfold lend. rewrite E. split; [now apply lm_at in Ha|now apply lm_at in Hb]. Qed.

Definition lgluedb : bool := forallb (fun x => existsb (fun e => zeqb (fst e) (lend x (cr_b x)) && zeqb (snd e) (lend x (cr_a x))) (zedges (ls_at (cr_to x)))) lcross.
Definition lplaneb : bool := lwfb && forallb (fun kp => convexb (map (lat (fst (snd kp))) (snd (snd kp))) && all_apart (map (lat (fst (snd kp))) (snd (snd kp)))) lall && lgluedb.
Lemma lm_plane : lplaneb = true -> plane_mesh m.
Proof.
  unfold lplaneb. intro H. apply andb_prop in H. destruct H as [H H3]. apply andb_prop in H. destruct H as [H1 H2]. split.
  - intros id l p HP. destruct (lm_polygon id l p HP) as (z & p' & E & -> & ->). destruct (lm_corners_at id z p' H1 E) as (l1 & p1 & HP1 & HF). exists (map zp (ls_at id)).
    destruct (lm_polygon id l1 p1 HP1) as (z2 & p2 & E2 & -> & ->). assert (z2 = z) by congruence. assert (p2 = p') by congruence. subst z2 p2.
    split; [exact HF|]. rewrite forallb_forall in H2. specialize (H2 _ (lall_all id z p' E)). cbn [fst snd] in H2. unfold ls_at. rewrite E.
    apply andb_prop in H2. destruct H2 as [Q1 Q2]. split; [now apply convexb_ok|now apply all_apart_spaced].
  - intros x l p a b qs HX HP Ha Hb Hqs. destruct (lm_corners _ _ Hqs) as (_ & ->). destruct (lm_polygon _ l p HP) as (z & p' & E & -> & ->).
    apply lm_at in Ha. apply lm_at in Hb. destruct Ha as [_ ->], Hb as [_ ->]. unfold lgluedb in H3. rewrite forallb_forall in H3. specialize (H3 x (lm_crossing x HX)).
    apply existsb_exists in H3. destruct H3 as ([u w] & He & Q). cbn [fst snd] in Q. apply andb_prop in Q. destruct Q as [Q1 Q2]. apply zeqb_eq in Q1, Q2. unfold lend in Q1, Q2. rewrite E in Q1, Q2. subst u w.
    rewrite zedges_map. apply in_map_iff. eexists. split; [|exact He]. reflexivity.
Qed.

Definition lidsb : bool := forallb (fun l => forallb (fun v => forallb (fun t => (t =? MAX)%N || ((t <? 2 ^ 32)%N && match lget t with Some _ => true | None => false end)) (snd v)) (zvs l)) L.
Lemma lids l v id : lidsb = true -> In l (layers m) -> In v (vertices l) -> In id (vpolys v) -> id = MAX \/ (id < 2 ^ 32)%N /\ exists z p, lget id = Some (z, p).
Proof.
  unfold lidsb. intros H Hl Hv Hid. cbn [layers m zlayers] in Hl. apply in_map_iff in Hl. destruct Hl as (z & <- & Hz). cbn [vertices zlay] in Hv. apply in_map_iff in Hv. destruct Hv as (v' & <- & Hv).
  rewrite forallb_forall in H. specialize (H z Hz). rewrite forallb_forall in H. specialize (H v' Hv). rewrite forallb_forall in H. specialize (H id Hid). apply orb_prop in H.
  destruct H as [H|H]; [left; now apply N.eqb_eq|right]. apply andb_prop in H. destruct H as [H0 H]. apply N.ltb_lt in H0. split; [exact H0|]. destruct (lget id) as [[z' p']|]; [|discriminate]. eauto.
Qed.
Lemma lm_u32 : lidsb = true -> u32_ids m.
Proof. intros H l v id Hl Hv Hid. destruct (lids l v id H Hl Hv Hid) as [->|(Q & _)]; [reflexivity|exact Q]. Qed.
Lemma lm_ids : lidsb = true -> ids_wf m.
Proof. intros H l v id Hl Hv Hid HM. destruct (lids l v id H Hl Hv Hid) as [->|(_ & z & p & Q)]; [congruence|]. exists (zlay z), (mkPolygon p false). exact (lm_polygon_at id z p Q). Qed.
Lemma lm_real : real_mesh m.
Proof.
  intros l Hl. cbn [layers m zlayers] in Hl. apply in_map_iff in Hl. destruct Hl as (z & <- & _). split; [eexists; reflexivity|]. intros v Hv. cbn [vertices zlay] in Hv. apply in_map_iff in Hv. destruct Hv as (a & <- & _). eexists. reflexivity.
Qed.
Lemma lm_wf : lwfb = true -> lidsb = true -> forallb (fun l => forallb (fun p => negb (N.eqb (lengthN p) 0)) (zps l)) L = true -> mesh_wf m.
Proof.
  intros HW HS HN. split; [|exact (lm_ids HS)]. intros l Hl p Hp. cbn [layers m zlayers] in Hl. apply in_map_iff in Hl. destruct Hl as (z & <- & Hz). cbn [polygons zlay] in Hp. apply in_map_iff in Hp. destruct Hp as (p' & <- & Hp).
  unfold lwfb in HW. apply andb_prop in HW. destruct HW as [_ HW]. rewrite forallb_forall in HW, HN. specialize (HW z Hz). specialize (HN z Hz). rewrite forallb_forall in HW, HN. specialize (HW p' Hp). specialize (HN p' Hp). cbn [pverts]. split.
  - intros ->. discriminate HN.
  - intros i Hi. rewrite forallb_forall in HW. specialize (HW i Hi). apply N.ltb_lt in HW. cbn [vertices zlay]. unfold lengthN in *. now rewrite map_length.
Qed.

Lemma lm_crossing_inv x : lwfb = true -> In x lcross -> u32_crossing m x.
Proof.
  intros HW H. unfold lcross in H. apply in_flat_map in H. destruct H as ([k [z p]] & Hk & H). apply in_flat_map in H. destruct H as ([a b] & He & H).
  apply in_flat_map in H. destruct H as (t & Ht & H). cbn [fst snd] in *.
  destruct (memN t (lnb z b)) eqn:E1; [|destruct H]. destruct (N.eqb_spec t MAX) as [|E2]; [destruct H|]. destruct (N.eqb_spec t k) as [|E3]; [destruct H|].
  destruct H as [<-|[]]. apply (lall_inv k z p (lwf_small HW)) in Hk. destruct Hk as [Hk K32]. split; [|exact K32].
  pose proof (lwf_lt k z p HW Hk) as HL. rewrite forallb_forall in HL.
  apply edge_list_boundary in He. destruct (boundary_In _ _ _ He) as [Ia Ib]. pose proof (HL a Ia) as La. pose proof (HL b Ib) as Lb. apply N.ltb_lt in La, Lb.
  destruct (nthN_lt_Some (zvs z) a La) as (va & Va). destruct (nthN_lt_Some (zvs z) b Lb) as (vb & Vb). unfold lnb in Ht, E1. rewrite Va in Ht. rewrite Vb in E1. apply memN_In in E1.
  exists (zlay z), (mkPolygon p false), (zv va), (zv vb). cbn [cr_from cr_a cr_b cr_to]. cbn [vertices zlay]. rewrite !nthN_map, Va, Vb.
  split; [exact (lm_polygon_at k z p Hk)|]. repeat (split; [reflexivity || assumption|]). exact E3.
Qed.
Lemma lm_ends_at x : lwfb = true -> In x lcross -> ends m x (zp (lend x (cr_a x))) (zp (lend x (cr_b x))).
Proof.
  intros HW H. destruct (lm_crossing_inv x HW H) as [(l & p & va & vb & HP & HB & Hva & Hvb & _) _]. exists l, p. split; [exact HP|].
  destruct (lm_polygon _ l p HP) as (z & p' & E & -> & ->). unfold lend. rewrite E. apply nthN_Some_lt in Hva, Hvb. cbn [vertices zlay] in Hva, Hvb.
  assert (EL : lengthN (map zv (zvs z)) = lengthN (zvs z)) by (unfold lengthN; now rewrite map_length). rewrite EL in Hva, Hvb. split; now apply lm_at_self.
Qed.

(** ** Faultless, with blocked layers: every vertex is a corner *)
Section Blocked.
Variable b : list N.
Definition lopen : list Crossing := filter (fun x => negb (memN (id_layer (cr_to x)) b)) lcross.
Lemma lm_open x : open_crossing m b x -> In x lopen.
Proof. intros [H1 H2]. apply filter_In. split; [now apply lm_crossing|]. apply negb_true_iff. now apply memN_false. Qed.
Lemma lm_open_inv x : lwfb = true -> In x lopen -> open_crossing m b x.
Proof. intros HW H. apply filter_In in H. destruct H as [H1 H2]. split; [now apply lm_crossing_inv|]. apply negb_true_iff in H2. now apply memN_false. Qed.
Definition lcornersb : bool := forallb (fun l => forallb (fun v => memN MAX (snd v)) (zvs l)) L.
Definition lsideb : bool := forallb (fun x => forallb (fun y =>
  negb ((cr_from x =? cr_from y) && (cr_a x =? cr_a y) && (cr_b x =? cr_b y))%N || (cr_to x =? cr_to y)%N) lcross) lcross.
Definition lbackb : bool := forallb (fun x => forallb (fun y =>
  negb ((cr_from y =? cr_to x)%N && zeqb (lend x (cr_a x)) (lend y (cr_b y)) && zeqb (lend x (cr_b x)) (lend y (cr_a y))) || (cr_to y =? cr_from x)%N) lcross) lcross.
(** from polygon [id] to polygon [id'] around the point [z], with at most [n] open crossings *)
Fixpoint lround (n : nat) (z : zpt) (id id' : N) : bool :=
  (id =? id')%N || match n with
                   | O => false
                   | S n => existsb (fun x => (cr_from x =? id)%N && (zeqb z (lend x (cr_a x)) || zeqb z (lend x (cr_b x))) && lround n z (cr_to x) id') lopen
                   end.
Definition lmay (ps id : N) : bool := (id =? ps)%N || negb (memN (id_layer id) b).
Definition lfanb (n : nat) (ps : N) : bool := forallb (fun k => negb (lmay ps (fst k)) || forallb (fun k' => negb (lmay ps (fst k')) || forallb (fun z =>
  negb (existsb (zeqb z) (ls_at (fst k'))) || lround n z (fst k) (fst k')) (ls_at (fst k))) lall) lall.
Lemma lround_way n : lwfb = true -> forall z id id' P x W, lround n z id id' = true -> way m b P x id (zp z) W -> way m b P x id' (zp z) W.
Proof.
  intros HW. induction n as [|n IH]; intros z id id' P x W H HWy; cbn [lround] in H; apply orb_prop in H; destruct H as [H|H];
    try (apply N.eqb_eq in H; now subst id'); [discriminate|].
  apply existsb_exists in H. destruct H as (c & Hc & H). apply andb_prop in H. destruct H as [H H3]. apply andb_prop in H. destruct H as [H1 H2]. apply N.eqb_eq in H1. subst id.
  apply (IH z (cr_to c) id' P x W H3). apply way_cross; [exact HWy|now apply lm_open_inv|].
  apply filter_In in Hc. destruct Hc as [Hc _]. apply orb_prop in H2. pose proof (lm_ends_at c HW Hc) as HE. destruct H2 as [H2|H2]; apply zeqb_eq in H2; rewrite H2.
  + exists (zp (lend c (cr_a c))), (zp (lend c (cr_b c))), 0. split; [exact HE|]. split; [lra|]. now rewrite lerp_0.
  + exists (zp (lend c (cr_a c))), (zp (lend c (cr_b c))), 1. split; [exact HE|]. split; [lra|]. now rewrite lerp_1.
Qed.
Lemma lm_turnable id v q : lcornersb = true -> vertex_of m id v q -> turnable b v.
Proof.
  intros H (l & p & i & HP & Hi & Hv & Hw). destruct (lm_polygon _ l p HP) as (z & p' & E & -> & ->). cbn [vertices zlay] in Hv. rewrite nthN_map in Hv.
  destruct (nthN (zvs z) i) as [v'|] eqn:EV; [|discriminate]. cbn [option_map] in Hv. assert (Ev : v = zv v') by congruence. subst v. left. apply lget_In in E. destruct E as [E _].
  unfold lcornersb in H. rewrite forallb_forall in H. specialize (H z E). rewrite forallb_forall in H. exact (H v' (nthN_In _ _ _ EV)).
Qed.
Lemma lm_may ps id : (id = ps \/ ~ In (id_layer id) b) -> lmay ps id = true.
Proof. unfold lmay. intros [->|H]; [rewrite N.eqb_refl; reflexivity|]. apply memN_false in H. rewrite H. apply orb_true_r. Qed.
Lemma lm_faultless n ps : lplaneb = true -> lcornersb = true -> lsideb = true -> lbackb = true -> lfanb n ps = true -> faultless m b ps.
Proof.
  intros HPl HC H1 H2 H3. assert (HW : lwfb = true) by (unfold lplaneb in HPl; apply andb_prop in HPl; destruct HPl as [HPl _]; now apply andb_prop in HPl).
  split.
  - intros x y Hx Hy E1 E2 E3. unfold lsideb in H1. rewrite forallb_forall in H1. specialize (H1 x (lm_crossing x Hx)). rewrite forallb_forall in H1. specialize (H1 y (lm_crossing y Hy)).
    rewrite E1, E2, E3, !N.eqb_refl in H1. now apply N.eqb_eq in H1.
  - intros x y u w Hx Hy E X1 X2. unfold lbackb in H2. rewrite forallb_forall in H2. specialize (H2 x (lm_crossing x Hx)). rewrite forallb_forall in H2. specialize (H2 y (lm_crossing y Hy)).
    apply lm_ends in X1, X2. destruct X1 as [X1 X3], X2 as [X2 X4]. assert (Q1 : lend x (cr_a x) = lend y (cr_b y)) by (apply zp_inj; congruence).
    assert (Q2 : lend x (cr_b x) = lend y (cr_a y)) by (apply zp_inj; congruence). rewrite E, Q1, Q2, N.eqb_refl in H2.
    rewrite (proj2 (zeqb_eq _ _) eq_refl), (proj2 (zeqb_eq _ _) eq_refl) in H2. now apply N.eqb_eq in H2.
  - intros l p x y HP Hone. destruct (lm_polygon _ l p HP) as (z & p' & _ & _ & ->). discriminate Hone.
  - intros id id' v v' q _ Hv' _. exact (lm_turnable id' v' q HC Hv').
  - intros id v q Hv id1 id2 qs qs' x y L1 L2 M1 M2 C1 I1 C2 I2 J1 J2 D1 D2.
    assert (q = x) by (apply dist_zero; pose proof (dist_nonneg q x); lra). assert (q = y) by (apply dist_zero; pose proof (dist_nonneg q y); lra). subst x y. rewrite dist_refl.
    destruct (lm_corners id1 qs C1) as ((z1 & p1 & E1) & ->). destruct (lm_corners id2 qs' C2) as ((z2 & p2 & E2) & ->).
    apply in_map_iff in I1. destruct I1 as (z & <- & Hz). apply in_map_iff in I2. destruct I2 as (z' & Ez & Hz'). apply zp_inj in Ez. subst z'.
    unfold lfanb in H3. rewrite forallb_forall in H3. specialize (H3 _ (lall_ok id1 z1 p1 L1 E1)). cbn [fst] in H3. rewrite (lm_may ps id1 M1) in H3. cbn [negb orb] in H3. rewrite forallb_forall in H3.
    specialize (H3 _ (lall_ok id2 z2 p2 L2 E2)). cbn [fst] in H3. rewrite (lm_may ps id2 M2) in H3. cbn [negb orb] in H3. rewrite forallb_forall in H3. specialize (H3 z Hz).
    apply orb_prop in H3. destruct H3 as [H3|H3].
    + exfalso. apply negb_true_iff in H3. assert (existsb (zeqb z) (ls_at id2) = true) by (apply existsb_exists; exists z; split; [exact Hz'|now apply zeqb_eq]). congruence.
    + apply (lround_way n HW z id1 id2 id1 (zp z) 0 H3). exact (way_here m b id1 _ _ C1 J1).
  - intros id v q Hv Hn. exfalso. apply Hn. exact (lm_turnable id v q HC Hv).
Qed.

(** ** At the border *)
Definition lhand (right : bool) (z : zpt) (x : Crossing) : bool := zeqb z (lend x (if right then cr_a x else cr_b x)).
Fixpoint lturns (n : nat) (right : bool) (z : zpt) (id : N) : bool :=
  match n with
  | O => true
  | S n => existsb (fun x => (cr_from x =? id)%N && lhand right z x && lturns n right z (cr_to x)) lopen
  end.
Definition lborderb (n : nat) : bool := forallb (fun x => forallb (fun right => negb (lturns n right (lend x (if right : bool then cr_a x else cr_b x)) (cr_from x))) [true; false]) lopen.
Lemma lturning_app q right P xs Q ys T : turning m b q right P xs Q -> turning m b q right Q ys T -> turning m b q right P (xs ++ ys) T.
Proof. intros H H2. induction H; cbn [app]; constructor; auto. Qed.
Lemma lturning_first q right P xs Q : turning m b q right P xs Q ->
  exists x, open_crossing m b x /\ cr_from x = P /\ exists o, if right then ends m x q o else ends m x o q.
Proof. destruct 1; exists x; auto. Qed.
Lemma turning_lturns right z : forall xs P Q, turning m b (zp z) right P xs Q -> forall n, (n <= length xs)%nat -> lturns n right z P = true.
Proof.
  assert (HE : forall x, open_crossing m b x -> (exists o, if right then ends m x (zp z) o else ends m x o (zp z)) -> In x lopen /\ lhand right z x = true).
  { intros x HO (o & Ho). split; [now apply lm_open|]. unfold lhand. apply zeqb_eq. destruct right.
    - apply lm_ends in Ho. destruct Ho as [Ho _]. now apply zp_inj.
    - apply lm_ends in Ho. destruct Ho as [_ Ho]. now apply zp_inj. }
  intros xs P Q H. remember (zp z) as q eqn:Eq. induction H as [right x HO Hx|right x xs Q HO Hx H IH]; intros [|n] Hn; cbn [lturns length] in *; try reflexivity;
    destruct (HE x HO Hx) as [H1 H2]; apply existsb_exists; exists x; (split; [exact H1|]); rewrite N.eqb_refl, H2; cbn [andb].
  - assert (n = 0%nat) by lia. now subst n.
  - apply IH; auto. lia.
Qed.
Lemma lm_border n : lborderb n = true -> at_border m b.
Proof.
  intros HB id v q right P xs Hv _ H.
  assert (HL : forall k, exists ys, turning m b q right P ys P /\ (k <= length ys)%nat).
  { assert (1 <= length xs)%nat by (destruct H; cbn [length]; lia).
    induction k as [|k (ys & Y1 & Y2)]; [exists xs; split; [exact H|lia]|]. exists (xs ++ ys). split; [now apply (lturning_app _ _ P xs P ys P)|]. rewrite app_length. lia. }
  destruct (HL n) as (ys & Y1 & Y2).
  destruct (lturning_first _ _ _ _ _ H) as (x & HO & Ex & o & Ho). pose proof (lm_open x HO) as Hin.
  unfold lborderb in HB. rewrite forallb_forall in HB. specialize (HB x Hin). rewrite forallb_forall in HB. specialize (HB right). rewrite Ex in HB.
  assert (Hq : q = zp (lend x (if right then cr_a x else cr_b x))) by (destruct right; apply lm_ends in Ho; now destruct Ho). rewrite Hq in Y1.
  rewrite (turning_lturns right _ ys P P Y1 n Y2) in HB. assert (HR : In right [true; false]) by (destruct right; cbn; auto). specialize (HB HR). discriminate.
Qed.
End Blocked.

(** ** General position *)
Section General.
Variables (zstart zgoal : zpt) (s e : N).
Definition llist : list (list zpt) := map (fun kp => map (lat (fst (snd kp))) (snd (snd kp))) lall.
Lemma lm_list : forall id qs, corners m id qs -> exists zs, In zs llist /\ qs = map zp zs.
Proof.
  intros id qs H. destruct (lm_corners id qs H) as ((z & p & E) & ->). exists (ls_at id). split; [|reflexivity]. unfold ls_at, llist. rewrite E.
  apply in_map_iff. exists (id_make (id_layer id) (id_polygon id), (z, p)). split; [reflexivity|now apply lall_all].
Qed.
Notation zplaces := (zplaces llist zstart).
Definition lplacesb : bool := forallb (fun u => forallb (fun w => zeqb u w || (forallb (fun x => zeqb u x || zeqb w x || farb u w x) zplaces && farb u w zgoal)) zplaces) zplaces.
Definition lallcutsb : bool := forallb (fun zs => forallb (fun e => let cs := cutsz llist zstart (fst e) (snd e) in
  forallb (fun p => forallb (gapb (fst e) (snd e) p) cs) cs) (zedges zs)) llist.
Definition linsideb (id : N) (z : zpt) : bool := match lget id with Some _ => true | None => false end && forallb (fun e => (0 <? zor (fst e) (snd e) z)%Z) (zedges (ls_at id)).
Definition lfreeb : bool := forallb (fun zs => negb (existsb (zeqb zstart) zs)) llist.
Lemma linside_ok id z : lwfb = true -> linsideb id z = true -> exists qs, corners m id qs /\ forall s e, In (s, e) (poly_edges qs) -> 0 < orient s e (zp z).
Proof.
  intros HW H. unfold linsideb in H. apply andb_prop in H. destruct H as [H1 H3]. destruct (lget id) as [[z' p]|] eqn:E; [|discriminate]. exists (map zp (ls_at id)).
  split; [exact (lm_corners_at id z' p HW E)|]. intros a w He.
  destruct (poly_edges_z _ _ _ He) as (u & v & Hu & -> & ->). rewrite forallb_forall in H3. specialize (H3 _ Hu). cbn [fst snd] in H3. rewrite zor_R. apply Z.ltb_lt, IZR_lt in H3. lra.
Qed.
Lemma lm_generic : lplaneb = true -> lplacesb = true -> apartb llist zstart = true -> lallcutsb = true -> shortb llist = true -> lfreeb = true ->
  linsideb s zstart = true -> linsideb e zgoal = true -> generic m (zp zstart) s e (zp zgoal).
Proof.
  intros HPl H1 H2 H3 H4 H5 H6 H7. assert (HW : lwfb = true) by (unfold lplaneb in HPl; apply andb_prop in HPl; destruct HPl as [HPl _]; now apply andb_prop in HPl).
  pose proof lm_list as zm_list.
  unfold lplacesb in H1. rewrite forallb_forall in H1.
  assert (HP : forall u w, In u zplaces -> In w zplaces -> zp u <> zp w -> farb u w zgoal = true /\ forall x, In x zplaces -> zp u <> zp x -> zp w <> zp x -> farb u w x = true).
  { intros u w Hu Hw Huw. specialize (H1 u Hu). rewrite forallb_forall in H1. specialize (H1 w Hw). apply orb_prop in H1. destruct H1 as [H1|H1]; [apply zeqb_eq in H1; congruence|].
    apply andb_prop in H1. destruct H1 as [Q1 Q2]. split; [exact Q2|]. intros x Hx N1 N2. rewrite forallb_forall in Q1. specialize (Q1 x Hx).
    apply orb_prop in Q1. destruct Q1 as [Q1|Q1]; [|exact Q1]. apply orb_prop in Q1. destruct Q1 as [Q1|Q1]; apply zeqb_eq in Q1; congruence. }
  assert (PZ := place_z m llist zstart zm_list).
  split.
  - intros u w x Pu Pw Px N1 N2 N3. destruct (PZ u Pu) as (u' & Hu & ->), (PZ w Pw) as (w' & Hw & ->), (PZ x Px) as (x' & Hx & ->). apply farb_ok. destruct (HP u' w' Hu Hw N1) as [_ Q]. auto.
  - intros u w Pu Pw N1. destruct (PZ u Pu) as (u' & Hu & ->), (PZ w Pw) as (w' & Hw & ->). apply farb_ok. now destruct (HP u' w' Hu Hw N1).
  - intros u w Pu Pw N1. destruct (PZ u Pu) as (u' & Hu & ->), (PZ w Pw) as (w' & Hw & ->). unfold apartb in H2. rewrite forallb_forall in H2. specialize (H2 u' Hu).
    rewrite forallb_forall in H2. specialize (H2 w' Hw). rewrite orb_true_iff, zeqb_eq, Z.leb_le in H2.
    destruct H2 as [->|H2]; [congruence|]. apply IZR_le in H2. rewrite mult_IZR in H2. apply zdist_ge; lra.
  - intros id qs a w i j Hqs He Hi Hj Nij. destruct (zm_list id qs Hqs) as (zs & Hz & ->). destruct (poly_edges_z zs a w He) as (u & v & Huw & -> & ->).
    unfold lallcutsb in H3. rewrite forallb_forall in H3. specialize (H3 zs Hz). rewrite forallb_forall in H3. specialize (H3 _ Huw). cbn [fst snd] in H3. cbv zeta in H3. rewrite forallb_forall in H3.
    destruct (cut_point_z m llist zstart zm_list u v i Hi) as (n & d & I1 & I2 & ->), (cut_point_z m llist zstart zm_list u v j Hj) as (n' & d' & J1 & J2 & ->).
    specialize (H3 _ I1). rewrite forallb_forall in H3. specialize (H3 _ J1). now apply gap_ok.
  - intros id qs a w Hqs He. destruct (zm_list id qs Hqs) as (zs & Hz & ->). destruct (poly_edges_z zs a w He) as (u & v & Huw & -> & ->).
    unfold shortb in H4. rewrite forallb_forall in H4. specialize (H4 zs Hz). rewrite forallb_forall in H4. specialize (H4 (u, v) Huw). cbn [fst snd] in H4. rewrite Z.ltb_lt in H4.
    apply IZR_lt in H4. pose proof (zdist_sq u v). pose proof (dist_nonneg (zp u) (zp v)). nra.
  - now apply linside_ok.
  - intros id qs Hqs Hin. destruct (zm_list id qs Hqs) as (zs & Hz & ->). unfold lfreeb in H5. rewrite forallb_forall in H5. specialize (H5 zs Hz). apply negb_true_iff in H5.
    apply in_map_iff in Hin. destruct Hin as (z & Ez & Hin). apply zp_inj in Ez. subst z.
    assert (existsb (zeqb zstart) zs = true) by (apply existsb_exists; exists zstart; split; [exact Hin|now apply zeqb_eq]). congruence.
  - now apply linside_ok.
Qed.
End General.
End Zlayers.
