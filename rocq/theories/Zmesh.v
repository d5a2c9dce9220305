(** Meshes with integer coordinates (in thirds), for examples in exact arithmetic: the hypotheses of C62-C64 by computation. *)
From Coq Require Import List NArith ZArith Bool Lia Reals Lra Psatz.
From Verif Require Import Base Arith U32 Mesh Helpers Locate Search StdLib Spec RealArith Geometry Heuristic Search_props Search_safe Checkers Islands_facts
  Properties_geometry Examples_exact Rings Spec_inside Sight Sight_search Sight_static Examples_inside Spec_shortest Shortest_cover.
Import ListNotations.
Open Scope R_scope.

Definition zv (v : zpt * list N) : Vertex RA := vertex_new (vp (zp (fst v))) (snd v).
Definition zlayer (vs : list (zpt * list N)) (ps : list (list N)) : Layer RA :=
  mkLayer (map zv vs) (map (fun p => mkPolygon p false) ps) (vp (P 0 0)) None None.
(** One layer with the vertices [vs] (position, neighbours) and the polygons [ps]. *)
Definition zmesh (vs : list (zpt * list N)) (ps : list (list N)) : Mesh RA := mkMesh [zlayer vs ps] (Some (1 / 10)) 2.

Lemma map_split3 {X Y} (f : X -> Y) l x a y b z c w : map f l = x ++ a :: y ++ b :: z ++ c :: w ->
  exists x' a' y' b' z' c' w', l = x' ++ a' :: y' ++ b' :: z' ++ c' :: w' /\ a = f a' /\ b = f b' /\ c = f c'.
Proof.
  intro H. apply map_eq_app in H. destruct H as (x' & l1 & -> & _ & H). apply map_eq_cons in H. destruct H as (a' & l2 & -> & <- & H).
  apply map_eq_app in H. destruct H as (y' & l3 & -> & _ & H). apply map_eq_cons in H. destruct H as (b' & l4 & -> & <- & H).
  apply map_eq_app in H. destruct H as (z' & l5 & -> & _ & H). apply map_eq_cons in H. destruct H as (c' & w' & -> & <- & _).
  now exists x', a', y', b', z', c', w'.
Qed.
Lemma map_split2 {X Y} (f : X -> Y) l x a y b z : map f l = x ++ a :: y ++ b :: z ->
  exists x' a' y' b' z', l = x' ++ a' :: y' ++ b' :: z' /\ a = f a' /\ b = f b'.
Proof.
  intro H. apply map_eq_app in H. destruct H as (x' & l1 & -> & _ & H). apply map_eq_cons in H. destruct H as (a' & l2 & -> & <- & H).
  apply map_eq_app in H. destruct H as (y' & l3 & -> & _ & H). apply map_eq_cons in H. destruct H as (b' & l4 & -> & <- & _).
  now exists x', a', y', b', l4.
Qed.

(** ** Convex polygons *)
Fixpoint turns_b (a : zpt) (l : list zpt) : bool := match l with [] => true | b :: r => forallb (fun c => (0 <=? zor a b c)%Z) r && turns_b a r end.
Fixpoint all_turns (l : list zpt) : bool := match l with [] => true | a :: r => turns_b a r && all_turns r end.
Fixpoint all_apart (l : list zpt) : bool := match l with [] => true | a :: r => forallb (fun b => (1 <=? zd2 a b)%Z) r && all_apart r end.
Definition convexb (l : list zpt) : bool := all_turns l && forallb (fun e => existsb (fun c => (0 <? zor (fst e) (snd e) c)%Z) l) (zedges l).
Lemma turns_b_ok a l : turns_b a l = true -> forall x b y c z, l = x ++ b :: y ++ c :: z -> (0 <= zor a b c)%Z.
Proof.
  induction l as [|h r IH]; intros H x b y c z E; [destruct x; discriminate|]. cbn [turns_b] in H. apply andb_prop in H. destruct H as [H1 H2].
  destruct x as [|x0 x]; cbn [app] in E; injection E as -> E.
  - rewrite forallb_forall in H1. apply Z.leb_le. apply H1. rewrite E. apply in_or_app. right. now left.
  - now apply (IH H2 x b y c z).
Qed.
Lemma all_turns_ok l : all_turns l = true -> forall x a y b z c w, l = x ++ a :: y ++ b :: z ++ c :: w -> (0 <= zor a b c)%Z.
Proof.
  induction l as [|h r IH]; intros H x a y b z c w E; [destruct x; discriminate|]. cbn [all_turns] in H. apply andb_prop in H. destruct H as [H1 H2].
  destruct x as [|x0 x]; cbn [app] in E; injection E as -> E; [now apply (turns_b_ok _ _ H1 y b z c w)|now apply (IH H2 x a y b z c w)].
Qed.
Lemma convexb_ok l : convexb l = true -> convex (map zp l).
Proof.
  unfold convexb. intro H. apply andb_prop in H. destruct H as [H1 H2]. split.
  - intros x a y b z c w E. destruct (map_split3 zp l _ _ _ _ _ _ _ E) as (x' & a' & y' & b' & z' & c' & w' & E' & -> & -> & ->).
    rewrite zor_R. pose proof (all_turns_ok l H1 _ _ _ _ _ _ _ E') as Q. apply IZR_le in Q. lra.
  - intros a b He. rewrite zedges_map in He. apply in_map_iff in He. destruct He as ([u w] & E & Hu). cbn [fst snd] in E. injection E as E1 E2.
    rewrite forallb_forall in H2. specialize (H2 _ Hu). cbn [fst snd] in H2. apply existsb_exists in H2. destruct H2 as (c & Hc & Q).
    exists (zp c). split; [now apply in_map|]. rewrite <- E1, <- E2. change (0 < orient (zp u) (zp w) (zp c)). rewrite zor_R. apply Z.ltb_lt, IZR_lt in Q. lra.
Qed.
Lemma all_apart_ok l : all_apart l = true -> forall x a y b z, l = x ++ a :: y ++ b :: z -> (1 <= zd2 a b)%Z.
Proof.
  induction l as [|h r IH]; intros H x a y b z E; [destruct x; discriminate|]. cbn [all_apart] in H. apply andb_prop in H. destruct H as [H1 H2].
  destruct x as [|x0 x]; cbn [app] in E; injection E as -> E; [|now apply (IH H2 x a y b z)].
  rewrite forallb_forall in H1. apply Z.leb_le, H1. rewrite E. apply in_or_app. right. now left.
Qed.
Lemma all_apart_spaced l : all_apart l = true -> spaced (map zp l).
Proof.
  intros H x a y b z E. destruct (map_split2 zp l _ _ _ _ _ E) as (x' & a' & y' & b' & z' & E' & -> & ->).
  pose proof (all_apart_ok l H _ _ _ _ _ E') as Q. apply IZR_le in Q. rewrite zd2_R. lra.
Qed.

Section Zmesh.
Variables (vs : list (zpt * list N)) (ps : list (list N)).
Let m : Mesh RA := zmesh vs ps.

Definition zat (i : N) : zpt := match nthN vs i with Some v => fst v | None => (0, 0)%Z end.
Definition znb (i : N) : list N := match nthN vs i with Some v => snd v | None => [] end.
Definition zs_at (id : N) : list zpt := match nthN ps (id_polygon id) with Some p => map zat p | None => [] end.

Lemma zm_polygon id l p : polygon_at m id l p -> l = zlayer vs ps /\ id_layer id = 0%N /\ exists p', nthN ps (id_polygon id) = Some p' /\ p = mkPolygon p' false.
Proof.
  intros [H1 H2]. assert (E : id_layer id = 0%N) by (apply nthN_Some_lt in H1; cbn in H1; lia). apply nthN_In in H1. destruct H1 as [<-|[]].
  split; [reflexivity|]. split; [exact E|]. cbn [polygons zlayer] in H2. rewrite nthN_map in H2. destruct (nthN ps (id_polygon id)) as [p'|]; [|discriminate].
  cbn [option_map] in H2. exists p'. split; [reflexivity|congruence].
Qed.
Lemma zm_at i q : at_world (zlayer vs ps) i q -> (i < lengthN vs)%N /\ q = zp (zat i).
Proof.
  intros (v & Hv & E). cbn [vertices zlayer] in Hv. rewrite nthN_map in Hv. unfold zat. destruct (nthN vs i) as [[z nb]|] eqn:EN; [|discriminate].
  split; [now apply nthN_Some_lt in EN|]. cbn [option_map] in Hv. assert (Ev : v = zv (z, nb)) by congruence. subst v. unfold world, zv in E. cbn [coords vertex_new offset zlayer fst snd] in E.
  rewrite vadd_vp in E. apply vp_inj in E. rewrite <- E. cbn [fst]. apply P2_eq; unfold padd; cbn [px py]; ring.
Qed.
Lemma zm_at_self i : (i < lengthN vs)%N -> at_world (zlayer vs ps) i (zp (zat i)).
Proof.
  intro H. destruct (nthN_lt_Some vs i H) as ([z nb] & E). exists (zv (z, nb)). cbn [vertices zlayer]. rewrite nthN_map, E. split; [reflexivity|].
  unfold world, zv, zat. rewrite E. cbn [coords vertex_new offset zlayer fst snd]. rewrite vadd_vp. f_equal. apply P2_eq; unfold padd; cbn [px py]; ring.
Qed.
Lemma zm_corners id qs : corners m id qs -> id_layer id = 0%N /\ (id_polygon id < lengthN ps)%N /\ qs = map zp (zs_at id).
Proof.
  intros (l & p & HP & HF). destruct (zm_polygon id l p HP) as (-> & E & p' & Hp' & ->). split; [exact E|]. split; [now apply nthN_Some_lt in Hp'|]. unfold zs_at. rewrite Hp'.
  cbn [pverts] in HF. clear Hp' HP. induction HF as [|i q l k Hi HF IH]; [reflexivity|]. cbn [map]. f_equal; [now apply zm_at|exact IH].
Qed.

(** the polygons only use existing vertices *)
Definition zwfb : bool := forallb (fun p => forallb (fun i => (i <? lengthN vs)%N) p) ps.
Lemma zm_corners_at id : zwfb = true -> id_layer id = 0%N -> (id_polygon id < lengthN ps)%N -> corners m id (map zp (zs_at id)).
Proof.
  intros HW E1 E2. destruct (nthN_lt_Some ps _ E2) as (p & Hp). exists (zlayer vs ps), (mkPolygon p false). split.
  - split; [rewrite E1; reflexivity|]. cbn [polygons zlayer]. rewrite nthN_map, Hp. reflexivity.
  - unfold zs_at. rewrite Hp. cbn [pverts]. unfold zwfb in HW. rewrite forallb_forall in HW. specialize (HW p (nthN_In _ _ _ Hp)). clear Hp.
    induction p as [|i p IH]; [constructor|]. cbn [forallb] in HW. apply andb_prop in HW. destruct HW as [H1 H2]. cbn [map]. constructor; [|now apply IH].
    apply zm_at_self. now apply N.ltb_lt.
Qed.

(** all crossings *)
Definition zcross : list Crossing :=
  flat_map (fun kp => flat_map (fun e => flat_map (fun t =>
    if memN t (znb (snd e)) && negb (t =? MAX)%N && negb (t =? fst kp)%N then [mkCross (fst kp) (fst e) (snd e) t] else []) (znb (fst e)))
    (edge_list (snd kp))) (enumerate ps).
Lemma zm_crossing x : u32_crossing m x -> In x zcross.
Proof.
  intros [(l & p & va & vb & HP & HB & Hva & Hvb & Ia & Ib & HM & HN) H32]. destruct (zm_polygon _ l p HP) as (-> & E & p' & Hp' & ->).
  pose proof (id_make_layer_polygon _ H32) as Ef. rewrite E, id_make_zero in Ef. rewrite Ef in Hp'.
  cbn [vertices zlayer] in Hva, Hvb. rewrite nthN_map in Hva, Hvb. cbn [pverts] in HB. apply boundary_edge_list in HB.
  unfold zcross. apply in_flat_map. exists (cr_from x, p'). split; [now apply enumerate_spec|]. cbn [fst snd]. apply in_flat_map. exists (cr_a x, cr_b x).
  split; [exact HB|]. cbn [fst snd]. apply in_flat_map. exists (cr_to x). unfold znb.
  destruct (nthN vs (cr_a x)) as [[za na]|]; [|discriminate]. destruct (nthN vs (cr_b x)) as [[zb nb]|]; [|discriminate]. cbn [option_map] in Hva, Hvb. cbn [snd].
  assert (Ea : va = zv (za, na)) by congruence. assert (Eb : vb = zv (zb, nb)) by congruence. subst va vb. cbn [vpolys zv vertex_new snd] in Ia, Ib.
  split; [exact Ia|]. rewrite (proj2 (memN_In _ _) Ib), (proj2 (N.eqb_neq _ _) HM), (proj2 (N.eqb_neq _ _) HN). cbn [negb andb]. left. destruct x; reflexivity.
Qed.
Lemma zm_ends x a b : ends m x a b -> a = zp (zat (cr_a x)) /\ b = zp (zat (cr_b x)).
Proof. intros (l & p & HP & Ha & Hb). destruct (zm_polygon _ l p HP) as (-> & _). split; [now apply zm_at in Ha|now apply zm_at in Hb]. Qed.

Definition zgluedb : bool := forallb (fun x => existsb (fun e => zeqb (fst e) (zat (cr_b x)) && zeqb (snd e) (zat (cr_a x))) (zedges (zs_at (cr_to x)))) zcross.
Definition zplaneb : bool := zwfb && forallb (fun p => convexb (map zat p) && all_apart (map zat p)) ps && zgluedb.
Lemma zm_plane : zplaneb = true -> plane_mesh m.
Proof.
  unfold zplaneb. intro H. apply andb_prop in H. destruct H as [H H3]. apply andb_prop in H. destruct H as [H1 H2]. split.
  - intros id l p HP. destruct (zm_polygon id l p HP) as (-> & E & p' & Hp' & ->).
    destruct (zm_corners_at id H1 E) as (l1 & p1 & HP1 & HF); [now apply nthN_Some_lt in Hp'|]. exists (map zp (zs_at id)).
    assert (p1 = mkPolygon p' false). { destruct (zm_polygon id l1 p1 HP1) as (_ & _ & p2 & Hp2 & ->). congruence. } subst p1.
    assert (l1 = zlayer vs ps) by (now destruct (zm_polygon id l1 _ HP1)). subst l1. split; [exact HF|]. unfold zs_at. rewrite Hp'.
    rewrite forallb_forall in H2. specialize (H2 p' (nthN_In _ _ _ Hp')). apply andb_prop in H2. destruct H2 as [Q1 Q2]. split; [now apply convexb_ok|now apply all_apart_spaced].
  - intros x l p a b qs HX HP Ha Hb Hqs. destruct (zm_corners _ _ Hqs) as (_ & _ & ->). destruct (zm_polygon _ l p HP) as (-> & _).
    apply zm_at in Ha. apply zm_at in Hb. destruct Ha as [_ ->], Hb as [_ ->]. unfold zgluedb in H3. rewrite forallb_forall in H3. specialize (H3 x (zm_crossing x HX)).
    apply existsb_exists in H3. destruct H3 as ([u w] & He & Q). cbn [fst snd] in Q. apply andb_prop in Q. destruct Q as [Q1 Q2]. apply zeqb_eq in Q1, Q2. subst u w.
    rewrite zedges_map. apply in_map_iff. eexists. split; [|exact He]. reflexivity.
Qed.

Definition zidsb : bool := forallb (fun v => forallb (fun t => (t =? MAX)%N || (t <? lengthN ps)%N) (snd v)) vs && (lengthN ps <? 2 ^ 24)%N.
Lemma zids v id : zidsb = true -> In v (vertices (zlayer vs ps)) -> In id (vpolys v) -> id = MAX \/ (id < lengthN ps /\ id < 2 ^ 24)%N.
Proof.
  unfold zidsb. intros H Hv Hid. apply andb_prop in H. destruct H as [H H']. apply N.ltb_lt in H'. cbn [vertices zlayer] in Hv. apply in_map_iff in Hv. destruct Hv as (v' & <- & Hv).
  rewrite forallb_forall in H. specialize (H v' Hv). rewrite forallb_forall in H. specialize (H id Hid). apply orb_prop in H.
  destruct H as [H|H]; [left; now apply N.eqb_eq|right]. apply N.ltb_lt in H. split; [exact H|lia].
Qed.
Lemma zm_u32 : zidsb = true -> u32_ids m.
Proof. intros H l v id [<-|[]] Hv Hid. destruct (zids v id H Hv Hid) as [->|[_ Q]]; [reflexivity|]. assert (2 ^ 24 < 2 ^ 32)%N by reflexivity. lia. Qed.
Lemma zm_id k : (k < 2 ^ 24)%N -> id_layer k = 0%N /\ id_polygon k = k.
Proof.
  intro H. rewrite id_layer_eq, id_polygon_eq. rewrite N.div_small by exact H. split; [reflexivity|now apply N.mod_small].
Qed.
Lemma zm_ids : zidsb = true -> ids_wf m.
Proof.
  intros H l v id [<-|[]] Hv Hid HM. destruct (zids v id H Hv Hid) as [->|[Q1 Q2]]; [congruence|]. destruct (zm_id id Q2) as [E1 E2].
  destruct (nthN_lt_Some ps id Q1) as (p & Hp). exists (zlayer vs ps), (mkPolygon p false). split; [rewrite E1; reflexivity|]. rewrite E2. cbn [polygons zlayer]. rewrite nthN_map, Hp. reflexivity.
Qed.

(** ** Faultless: every vertex is a corner (nothing is blocked) *)
Definition zcornersb : bool := forallb (fun v => memN MAX (snd v)) vs.
Definition zsideb : bool := forallb (fun x => forallb (fun y =>
  negb ((cr_from x =? cr_from y) && (cr_a x =? cr_a y) && (cr_b x =? cr_b y))%N || (cr_to x =? cr_to y)%N) zcross) zcross.
Definition zbackb : bool := forallb (fun x => forallb (fun y =>
  negb ((cr_from y =? cr_to x)%N && zeqb (zat (cr_a x)) (zat (cr_b y)) && zeqb (zat (cr_b x)) (zat (cr_a y))) || (cr_to y =? cr_from x)%N) zcross) zcross.
(** from polygon [id] to polygon [id'] around the point [z], with at most [n] crossings *)
Fixpoint zround (n : nat) (z : zpt) (id id' : N) : bool :=
  (id =? id')%N || match n with
                   | O => false
                   | S n => existsb (fun x => (cr_from x =? id)%N && (zeqb z (zat (cr_a x)) || zeqb z (zat (cr_b x))) && zround n z (cr_to x) id') zcross
                   end.
Definition zfanb (n : nat) : bool := forallb (fun k => forallb (fun k' => forallb (fun z =>
  negb (existsb (zeqb z) (zs_at (fst k'))) || zround n z (fst k) (fst k')) (zs_at (fst k))) (enumerate ps)) (enumerate ps).

Lemma edge_list_boundary l u w : In (u, w) (edge_list l) -> boundary_edge l u w.
Proof.
  destruct l as [|x r]; [intros []|]. unfold edge_list. cbn [tl firstn]. intro H. apply (In_nth_error _ _) in H. destruct H as (i & H).
  assert (Q : forall (a b : list N) i, nth_error (combine a b) i = Some (u, w) -> nth_error a i = Some u /\ nth_error b i = Some w).
  { clear. intros a. induction a as [|p a IH]; intros b i H; [destruct i; discriminate|]. destruct b as [|q b]; [destruct i; discriminate|].
    destruct i as [|i]; cbn in *; [split; congruence|now apply IH]. }
  apply Q in H. destruct H as [H1 H2]. exists i. split; [exact H1|].
  assert (Hi : (i < length (x :: r))%nat) by (apply nth_error_Some; congruence). cbn [length] in *.
  destruct (Nat.eq_dec i (length r)) as [->|E].
  - rewrite Nat.mod_same by lia. rewrite nth_error_app2, Nat.sub_diag in H2 by lia. exact H2.
  - rewrite Nat.mod_small by lia. rewrite nth_error_app1 in H2 by lia. exact H2.
Qed.
Lemma zm_crossing_inv x : zwfb = true -> zidsb = true -> In x zcross -> u32_crossing m x.
Proof.
  intros HW HS H. unfold zcross in H. apply in_flat_map in H. destruct H as ([k p] & Hk & H). apply in_flat_map in H. destruct H as ([a b] & He & H).
  apply in_flat_map in H. destruct H as (t & Ht & H). cbn [fst snd] in *.
  destruct (memN t (znb b)) eqn:E1; [|destruct H]. destruct (N.eqb_spec t MAX) as [|E2]; [destruct H|]. destruct (N.eqb_spec t k) as [|E3]; [destruct H|].
  destruct H as [<-|[]]. apply enumerate_spec in Hk. pose proof (nthN_Some_lt _ _ _ Hk) as Hlt. unfold zidsb in HS. apply andb_prop in HS. destruct HS as [_ HS]. apply N.ltb_lt in HS.
  destruct (zm_id k ltac:(lia)) as [I1 I2]. assert (2 ^ 24 < 2 ^ 32)%N by reflexivity. split; [|cbn [cr_from]; lia].
  unfold zwfb in HW. rewrite forallb_forall in HW. specialize (HW p (nthN_In _ _ _ Hk)). rewrite forallb_forall in HW.
  apply edge_list_boundary in He. destruct (boundary_In _ _ _ He) as [Ia Ib]. pose proof (HW a Ia) as La. pose proof (HW b Ib) as Lb. apply N.ltb_lt in La, Lb.
  destruct (nthN_lt_Some vs a La) as (va & Va). destruct (nthN_lt_Some vs b Lb) as (vb & Vb). unfold znb in Ht, E1. rewrite Va in Ht. rewrite Vb in E1. apply memN_In in E1.
  exists (zlayer vs ps), (mkPolygon p false), (zv va), (zv vb). cbn [cr_from cr_a cr_b cr_to]. cbn [vertices zlayer]. rewrite !nthN_map, Va, Vb.
  split; [split; [rewrite I1; reflexivity|rewrite I2; cbn [polygons zlayer]; rewrite nthN_map, Hk; reflexivity]|]. repeat (split; [reflexivity || assumption|]). exact E3.
Qed.
Lemma zm_ends_at x : zwfb = true -> zidsb = true -> In x zcross -> ends m x (zp (zat (cr_a x))) (zp (zat (cr_b x))).
Proof.
  intros HW HS H. destruct (zm_crossing_inv x HW HS H) as [(l & p & va & vb & HP & HB & Hva & Hvb & _) _]. exists l, p. split; [exact HP|].
  destruct (zm_polygon _ l p HP) as (-> & _). apply nthN_Some_lt in Hva, Hvb. cbn [vertices zlayer] in Hva, Hvb.
  assert (EL : lengthN (map zv vs) = lengthN vs) by (unfold lengthN; now rewrite map_length). rewrite EL in Hva, Hvb. split; now apply zm_at_self.
Qed.
Lemma zround_way n : zwfb = true -> zidsb = true -> forall z id id' P x L, zround n z id id' = true -> way m [] P x id (zp z) L -> way m [] P x id' (zp z) L.
Proof.
  intros HW HS. induction n as [|n IH]; intros z id id' P x L H HWy; cbn [zround] in H; apply orb_prop in H; destruct H as [H|H];
    try (apply N.eqb_eq in H; now subst id'); [discriminate|].
  apply existsb_exists in H. destruct H as (c & Hc & H). apply andb_prop in H. destruct H as [H H3]. apply andb_prop in H. destruct H as [H1 H2]. apply N.eqb_eq in H1. subst id.
  apply (IH z (cr_to c) id' P x L H3). apply way_cross; [exact HWy| |].
  - split; [now apply zm_crossing_inv|intros []].
  - apply orb_prop in H2. pose proof (zm_ends_at c HW HS Hc) as HE. destruct H2 as [H2|H2]; apply zeqb_eq in H2; rewrite H2.
    + exists (zp (zat (cr_a c))), (zp (zat (cr_b c))), 0. split; [exact HE|]. split; [lra|]. now rewrite lerp_0.
    + exists (zp (zat (cr_a c))), (zp (zat (cr_b c))), 1. split; [exact HE|]. split; [lra|]. now rewrite lerp_1.
Qed.
Lemma zm_turnable id v q : zcornersb = true -> vertex_of m id v q -> turnable [] v.
Proof.
  intros H (l & p & i & HP & Hi & Hv & Hw). destruct (zm_polygon _ l p HP) as (-> & _). cbn [vertices zlayer] in Hv. rewrite nthN_map in Hv.
  destruct (nthN vs i) as [v'|] eqn:E; [|discriminate]. cbn [option_map] in Hv. assert (Ev : v = zv v') by congruence. subst v. left.
  unfold zcornersb in H. rewrite forallb_forall in H. exact (H v' (nthN_In _ _ _ E)).
Qed.
Lemma zm_faultless n start : zplaneb = true -> zidsb = true -> zcornersb = true -> zsideb = true -> zbackb = true -> zfanb n = true -> faultless m [] start.
Proof.
  intros HPl HS HC H1 H2 H3. assert (HW : zwfb = true) by (unfold zplaneb in HPl; apply andb_prop in HPl; destruct HPl as [HPl _]; now apply andb_prop in HPl).
  split.
  - intros x y Hx Hy E1 E2 E3. unfold zsideb in H1. rewrite forallb_forall in H1. specialize (H1 x (zm_crossing x Hx)). rewrite forallb_forall in H1. specialize (H1 y (zm_crossing y Hy)).
    rewrite E1, E2, E3, !N.eqb_refl in H1. now apply N.eqb_eq in H1.
  - intros x y a b Hx Hy E X1 X2. unfold zbackb in H2. rewrite forallb_forall in H2. specialize (H2 x (zm_crossing x Hx)). rewrite forallb_forall in H2. specialize (H2 y (zm_crossing y Hy)).
    apply zm_ends in X1, X2. destruct X1 as [X1 X3], X2 as [X2 X4]. assert (Q1 : zat (cr_a x) = zat (cr_b y)) by (apply zp_inj; congruence).
    assert (Q2 : zat (cr_b x) = zat (cr_a y)) by (apply zp_inj; congruence). rewrite E, Q1, Q2, N.eqb_refl in H2.
    rewrite (proj2 (zeqb_eq _ _) eq_refl), (proj2 (zeqb_eq _ _) eq_refl) in H2. now apply N.eqb_eq in H2.
  - intros l p x y HP Hone. destruct (zm_polygon _ l p HP) as (_ & _ & p' & _ & ->). discriminate Hone.
  - intros id id' v v' q _ Hv' _. exact (zm_turnable id' v' q HC Hv').
  - intros id v q Hv id1 id2 qs qs' x y L1 L2 _ _ C1 I1 C2 I2 J1 J2 D1 D2.
    assert (q = x) by (apply dist_zero; pose proof (dist_nonneg q x); lra). assert (q = y) by (apply dist_zero; pose proof (dist_nonneg q y); lra). subst x y. rewrite dist_refl.
    destruct (zm_corners id1 qs C1) as (E1 & E2 & ->). destruct (zm_corners id2 qs' C2) as (E3 & E4 & ->).
    pose proof (id_make_layer_polygon _ L1) as F1. pose proof (id_make_layer_polygon _ L2) as F2. rewrite E1, id_make_zero in F1. rewrite E3, id_make_zero in F2.
    apply in_map_iff in I1. destruct I1 as (z & <- & Hz). apply in_map_iff in I2. destruct I2 as (z' & Ez & Hz'). apply zp_inj in Ez. subst z'.
    destruct (nthN_lt_Some ps _ E2) as (p1 & Hp1). destruct (nthN_lt_Some ps _ E4) as (p2 & Hp2). rewrite F1 in Hp1. rewrite F2 in Hp2.
    unfold zfanb in H3. rewrite forallb_forall in H3. specialize (H3 (id1, p1) (proj2 (enumerate_spec _ _ _) Hp1)). rewrite forallb_forall in H3.
    specialize (H3 (id2, p2) (proj2 (enumerate_spec _ _ _) Hp2)). cbn [fst] in H3. rewrite forallb_forall in H3. specialize (H3 z Hz).
    apply orb_prop in H3. destruct H3 as [H3|H3].
    + exfalso. apply negb_true_iff in H3. assert (existsb (zeqb z) (zs_at id2) = true) by (apply existsb_exists; exists z; split; [exact Hz'|now apply zeqb_eq]). congruence.
    + apply (zround_way n HW HS z id1 id2 id1 (zp z) 0 H3). exact (way_here m [] id1 _ _ C1 J1).
  - intros id v q Hv Hn. exfalso. apply Hn. exact (zm_turnable id v q HC Hv).
Qed.

(** ** General position *)
Section General.
Variables (zstart zgoal : zpt) (s e : N).
Definition zlist : list (list zpt) := map (map zat) ps.
Lemma zm_list id qs : corners m id qs -> exists zs, In zs zlist /\ qs = map zp zs.
Proof.
  intro H. destruct (zm_corners id qs H) as (_ & E & ->). exists (zs_at id). split; [|reflexivity]. unfold zs_at, zlist. destruct (nthN_lt_Some ps _ E) as (p & Hp). rewrite Hp.
  apply in_map. now apply nthN_In in Hp.
Qed.
Notation zplaces := (zplaces zlist zstart).
Definition farb (u w x : zpt) : bool := (9 * zd2 u w <=? 10000 * (zor u w x * zor u w x))%Z.
Definition zplacesb : bool := forallb (fun u => forallb (fun w => zeqb u w || (forallb (fun x => zeqb u x || zeqb w x || farb u w x) zplaces && farb u w zgoal)) zplaces) zplaces.
Definition zallcutsb : bool := forallb (fun zs => forallb (fun e => let cs := cutsz zlist zstart (fst e) (snd e) in
  forallb (fun p => forallb (gapb (fst e) (snd e) p) cs) cs) (zedges zs)) zlist.
Definition zinsideb (id : N) (z : zpt) : bool := (id <? lengthN ps)%N && (id <? 2 ^ 24)%N && forallb (fun e => (0 <? zor (fst e) (snd e) z)%Z) (zedges (zs_at id)).
Definition zfreeb : bool := forallb (fun zs => negb (existsb (zeqb zstart) zs)) zlist.
Lemma farb_ok u w x : farb u w x = true -> dist (zp u) (zp w) / 100 <= Rabs (orient (zp u) (zp w) (zp x)).
Proof.
  unfold farb. rewrite Z.leb_le, zor_R. intro H. apply IZR_le in H. rewrite !mult_IZR in H.
  apply sq_le; [pose proof (dist_nonneg (zp u) (zp w)); lra|apply Rabs_pos|].
  replace (dist (zp u) (zp w) / 100 * (dist (zp u) (zp w) / 100)) with (dist (zp u) (zp w) * dist (zp u) (zp w) / 10000) by field.
  rewrite zdist_sq. rewrite <- Rabs_mult, Rabs_right; [|apply Rle_ge, Rle_0_sqr]. lra.
Qed.
Lemma zinside_ok id z : zwfb = true -> zinsideb id z = true -> exists qs, corners m id qs /\ forall s e, In (s, e) (poly_edges qs) -> 0 < orient s e (zp z).
Proof.
  intros HW H. unfold zinsideb in H. apply andb_prop in H. destruct H as [H H3]. apply andb_prop in H. destruct H as [H1 H2]. apply N.ltb_lt in H1, H2.
  destruct (zm_id id H2) as [E1 E2]. exists (map zp (zs_at id)). split; [apply zm_corners_at; auto; congruence|]. intros a b He.
  destruct (poly_edges_z _ _ _ He) as (u & w & Hu & -> & ->). rewrite forallb_forall in H3. specialize (H3 _ Hu). cbn [fst snd] in H3. rewrite zor_R. apply Z.ltb_lt, IZR_lt in H3. lra.
Qed.
Lemma zm_generic : zplaneb = true -> zplacesb = true -> apartb zlist zstart = true -> zallcutsb = true -> shortb zlist = true -> zfreeb = true ->
  zinsideb s zstart = true -> zinsideb e zgoal = true -> generic m (zp zstart) s e (zp zgoal).
Proof.
  intros HPl H1 H2 H3 H4 H5 H6 H7. assert (HW : zwfb = true) by (unfold zplaneb in HPl; apply andb_prop in HPl; destruct HPl as [HPl _]; now apply andb_prop in HPl).
  unfold zplacesb in H1. rewrite forallb_forall in H1.
  assert (HP : forall u w, In u zplaces -> In w zplaces -> zp u <> zp w -> farb u w zgoal = true /\ forall x, In x zplaces -> zp u <> zp x -> zp w <> zp x -> farb u w x = true).
  { intros u w Hu Hw Huw. specialize (H1 u Hu). rewrite forallb_forall in H1. specialize (H1 w Hw). apply orb_prop in H1. destruct H1 as [H1|H1]; [apply zeqb_eq in H1; congruence|].
    apply andb_prop in H1. destruct H1 as [Q1 Q2]. split; [exact Q2|]. intros x Hx N1 N2. rewrite forallb_forall in Q1. specialize (Q1 x Hx).
    apply orb_prop in Q1. destruct Q1 as [Q1|Q1]; [|exact Q1]. apply orb_prop in Q1. destruct Q1 as [Q1|Q1]; apply zeqb_eq in Q1; congruence. }
  assert (PZ := place_z m zlist zstart zm_list).
  split.
  - intros u w x Pu Pw Px N1 N2 N3. destruct (PZ u Pu) as (u' & Hu & ->), (PZ w Pw) as (w' & Hw & ->), (PZ x Px) as (x' & Hx & ->). apply farb_ok. destruct (HP u' w' Hu Hw N1) as [_ Q]. auto.
  - intros u w Pu Pw N1. destruct (PZ u Pu) as (u' & Hu & ->), (PZ w Pw) as (w' & Hw & ->). apply farb_ok. now destruct (HP u' w' Hu Hw N1).
  - intros u w Pu Pw N1. destruct (PZ u Pu) as (u' & Hu & ->), (PZ w Pw) as (w' & Hw & ->). unfold apartb in H2. rewrite forallb_forall in H2. specialize (H2 u' Hu).
    rewrite forallb_forall in H2. specialize (H2 w' Hw). rewrite orb_true_iff, zeqb_eq, Z.leb_le in H2.
    destruct H2 as [->|H2]; [congruence|]. apply IZR_le in H2. rewrite mult_IZR in H2. apply zdist_ge; lra.
  - intros id qs a b i j Hqs He Hi Hj Nij. destruct (zm_list id qs Hqs) as (zs & Hz & ->). destruct (poly_edges_z zs a b He) as (u & w & Huw & -> & ->).
    unfold zallcutsb in H3. rewrite forallb_forall in H3. specialize (H3 zs Hz). rewrite forallb_forall in H3. specialize (H3 _ Huw). cbn [fst snd] in H3. cbv zeta in H3. rewrite forallb_forall in H3.
    destruct (cut_point_z m zlist zstart zm_list u w i Hi) as (n & d & I1 & I2 & ->), (cut_point_z m zlist zstart zm_list u w j Hj) as (n' & d' & J1 & J2 & ->).
    specialize (H3 _ I1). rewrite forallb_forall in H3. specialize (H3 _ J1). now apply gap_ok.
  - intros id qs a b Hqs He. destruct (zm_list id qs Hqs) as (zs & Hz & ->). destruct (poly_edges_z zs a b He) as (u & w & Huw & -> & ->).
    unfold shortb in H4. rewrite forallb_forall in H4. specialize (H4 zs Hz). rewrite forallb_forall in H4. specialize (H4 (u, w) Huw). cbn [fst snd] in H4. rewrite Z.ltb_lt in H4.
    apply IZR_lt in H4. pose proof (zdist_sq u w). pose proof (dist_nonneg (zp u) (zp w)). nra.
  - now apply zinside_ok.
  - intros id qs Hqs Hin. destruct (zm_list id qs Hqs) as (zs & Hz & ->). unfold zfreeb in H5. rewrite forallb_forall in H5. specialize (H5 zs Hz). apply negb_true_iff in H5.
    apply in_map_iff in Hin. destruct Hin as (z & Ez & Hin). apply zp_inj in Ez. subst z.
    assert (existsb (zeqb zstart) zs = true) by (apply existsb_exists; exists zstart; split; [exact Hin|now apply zeqb_eq]). congruence.
  - now apply zinside_ok.
Qed.
End General.
End Zmesh.
