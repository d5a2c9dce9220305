(** Theorems for C01, C02, C21, C44, C49: ids, construction, islands, hashing of roots, parameters. *)
From Coq Require Import List NArith ZArith Bool Lia Relations.
From Coq.Floats Require Import SpecFloat.
From Verif Require Import Base Arith F32 RealArith U32 Mesh Helpers Locate Bake Search StdLib Spec Locate_facts Bake_facts
  F32_facts Checkers Tests.
Import ListNotations.
Open Scope N_scope.

(** ** C01: polygon ids *)

(** Packing and unpacking a layer number and a polygon index loses nothing, and the result is a u32. *)
Theorem C01_roundtrip layer polygon :
  layer < 256 -> polygon < 2^24 ->
  id_layer (id_make layer polygon) = layer /\ id_polygon (id_make layer polygon) = polygon /\
  id_make layer polygon < 2^32.
Proof.
  intros H1 H2. split; [now apply id_layer_make|]. split; [now apply id_polygon_make|now apply id_make_lt].
Qed.

(** Different polygons have different ids. *)
Theorem C01_injective l1 p1 l2 p2 :
  l1 < 256 -> p1 < 2^24 -> l2 < 256 -> p2 < 2^24 -> id_make l1 p1 = id_make l2 p2 -> l1 = l2 /\ p1 = p2.
Proof.
  intros H1 H2 H3 H4 E.
  pose proof (id_layer_make l1 p1 H1 H2) as A1. pose proof (id_layer_make l2 p2 H3 H4) as A2.
  pose proof (id_polygon_make l1 p1 H2) as B1. pose proof (id_polygon_make l2 p2 H4) as B2.
  rewrite E in A1, B1. split; congruence.
Qed.

(** Every u32 is the id of exactly one pair. *)
Theorem C01_surjective i : i < 2^32 -> id_make (id_layer i) (id_polygon i) = i /\ id_layer i < 256 /\ id_polygon i < 2^24.
Proof.
  intro H. split; [now apply id_make_layer_polygon|]. rewrite id_layer_eq, id_polygon_eq.
  split; apply N.mod_lt; discriminate.
Qed.

Section Any.
Context {A : Arith}.

(** No polygon of a layer accepted by Layer::new gets the id that means "outside", whatever the number of its layer. *)
Theorem C01_never_outside (vs : list (Vertex A)) ps l li k p :
  layer_new vs ps = Ok (Done l) -> li < 256 -> nthN (polygons l) k = Some p -> id_make li k <> MAX.
Proof.
  intros H Hli Hk. unfold layer_new in H.
  destruct (_ || _); [discriminate|]. destruct (2 ^ 24 - 1 <? lengthN ps) eqn:EN; [discriminate|].
  apply N.ltb_ge in EN. inv_bind H. inversion H; subst a. unfold layer_bake, bake_islands_detection in E.
  inv_bind E. inversion E; subst. simpl in Hk. apply nthN_Some_lt in Hk. apply id_make_not_MAX; [assumption|]. lia.
Qed.

(** ** C02: construction *)

(** all the vertex indices and neighbour ids of the input exist *)
Definition input_ok (vs : list (Vertex A)) (ps : list Polygon) : Prop :=
  (forall p, In p ps -> forall vi, In vi (pverts p) -> vi < lengthN vs) /\
  (forall v, In v vs -> forall j, In j (vpolys v) -> j <> MAX -> j < lengthN ps).

Theorem C02_layer_new (vs : list (Vertex A)) ps :
  (layer_new vs ps = Ok (Err EmptyMesh) <-> vs = [] \/ ps = []) /\
  (layer_new vs ps = Ok (Err TooManyPolygons) <-> vs <> [] /\ 2^24 <= lengthN ps) /\
  layer_new vs ps <> Ok (Err InvalidMesh) /\
  (forall l, layer_new vs ps = Ok (Done l) -> vertices l = vs /\ polygons l = ps /\ offset l = vzero) /\
  (input_ok vs ps -> vs <> [] -> ps <> [] -> lengthN ps < 2^24 -> exists l, layer_new vs ps = Ok (Done l)).
Proof.
  assert (HE : forall T (l : list T), (match l with [] => true | _ => false end) = true <-> l = []).
  { intros T []; split; congruence. }
  assert (HB : forall (l0 : Layer A) e, (let* l := layer_bake l0 in Ok (Done l)) = Ok (Err e) -> False).
  { intros l0 e H. inv_bind H. discriminate. }
  unfold layer_new.
  destruct ((match vs with [] => true | _ => false end) || (match ps with [] => true | _ => false end)) eqn:E.
  - assert (HO : vs = [] \/ ps = []).
    { apply orb_true_iff in E. rewrite !HE in E. assumption. }
    split; [tauto|]. split.
    + split; [discriminate|]. intros [H1 H2]. destruct HO as [->| ->]; [congruence|]. unfold lengthN in H2. simpl in H2. lia.
    + split; [discriminate|]. split; [discriminate|]. intros. destruct HO; congruence.
  - assert (HO : vs <> [] /\ ps <> []).
    { apply orb_false_iff in E. split; intros ->; simpl in E; destruct E; discriminate. }
    destruct (2^24 - 1 <? lengthN ps) eqn:EN.
    + apply N.ltb_lt in EN. split; [split; [discriminate|tauto]|]. split.
      * split; [intros _; split; [tauto|lia]|reflexivity].
      * split; [discriminate|]. split; [discriminate|]. intros; lia.
    + apply N.ltb_ge in EN. split; [split; [intro H; now apply HB in H|tauto]|]. split.
      * split; [intro H; now apply HB in H|]. intros [_ H]. lia.
      * split; [intro H; now apply HB in H|]. split.
        -- intros l H. inv_bind H. inversion H; subst a. unfold layer_bake, bake_islands_detection in E0.
           inv_bind E0. inversion E0; subst. simpl. auto.
        -- intros [H1 H2] _ _ _.
           destruct (bake_islands_spec (bake_polygon_finder (mkLayer vs ps vzero None None))) as (isl & Hb & _).
           { split; simpl; assumption. }
           { simpl. unfold UMAX. lia. }
           unfold layer_bake. rewrite Hb. simpl. eauto.
Qed.

Theorem C02_mesh_new (vs : list (Vertex A)) ps :
  (forall e, mesh_new vs ps = Ok (Err e) <-> layer_new vs ps = Ok (Err e)) /\
  (forall m, mesh_new vs ps = Ok (Done m) <-> exists l, layer_new vs ps = Ok (Done l) /\
      m = mkMesh [l] (flit 1 10) 2).
Proof.
  unfold mesh_new. destruct (layer_new vs ps) as [[l|e]| | |]; simpl; split; intros; split;
    try discriminate; try (intros (? & ? & _); discriminate); try congruence.
  - intro H. inversion H. eauto.
  - intros (l' & H & ->). inversion H. reflexivity.
Qed.

(** ** C21: islands *)

(** Two polygons share a vertex. *)
Definition share_vertex (l : Layer A) (i j : N) : Prop :=
  exists vi p q, nthN (polygons l) i = Some p /\ nthN (polygons l) j = Some q /\ In vi (pverts p) /\ In vi (pverts q).

(** A vertex lists exactly the polygons that use it. *)
Definition incidence_ok (l : Layer A) : Prop :=
  (forall p, In p (polygons l) -> forall vi, In vi (pverts p) -> vi < lengthN (vertices l)) /\
  (forall vi v j, nthN (vertices l) vi = Some v -> j <> MAX ->
     (In j (vpolys v) <-> exists p, nthN (polygons l) j = Some p /\ In vi (pverts p))).

Lemma incidence_ids l : incidence_ok l -> layer_ids_ok l.
Proof.
  intros [H1 H2]. split; [assumption|]. intros v Hv j Hj Hm. apply In_nthN in Hv. destruct Hv as [vi Hv].
  apply (H2 _ _ _ Hv Hm) in Hj. destruct Hj as (p & Hp & _). eapply nthN_Some_lt; eauto.
Qed.

Lemma incidence_neighbour l i j : incidence_ok l -> lengthN (polygons l) <= MAX ->
  (neighbour l i j <-> share_vertex l i j).
Proof.
  intros [H1 H2] HM. split.
  - intros (p & vi & v & G1 & G2 & G3 & G4 & G5). apply (H2 _ _ _ G3 G5) in G4. destruct G4 as (q & G6 & G7).
    exists vi, p, q. auto.
  - intros (vi & p & q & G1 & G2 & G3 & G4).
    destruct (nthN_lt_Some (vertices l) vi) as [v Hv]; [apply (H1 p); [eapply nthN_In; eauto|assumption]|].
    assert (j <> MAX) by (apply nthN_Some_lt in G2; lia).
    exists p, vi, v. do 3 (split; [assumption|]). split; [|assumption]. apply (H2 _ _ _ Hv); [assumption|]. eauto.
Qed.

(** Island detection terminates and labels every polygon; two polygons get the same label iff they are connected
    through shared vertices.  Nothing else of the layer changes. *)
Theorem C21_islands_are_components (l : Layer A) :
  incidence_ok l -> lengthN (polygons l) < 2^24 ->
  exists l' isl, bake_islands_detection l = Ok l' /\ islands l' = Some isl /\ length isl = length (polygons l) /\
    vertices l' = vertices l /\ polygons l' = polygons l /\ offset l' = offset l /\ baked l' = baked l /\
    forall i j a b, nthN isl i = Some a -> nthN isl j = Some b ->
      (a = b <-> clos_refl_trans _ (share_vertex l) i j).
Proof.
  intros HI HL. pose proof (incidence_ids l HI) as Hok.
  assert (HU : lengthN (polygons l) < UMAX) by (unfold UMAX; lia).
  assert (HM : lengthN (polygons l) <= MAX) by (unfold MAX; lia).
  destruct (bake_islands_spec l Hok HU) as (isl & E & Hlen & _ & Hiff).
  eexists _, isl. split; [exact E|]. simpl. do 6 (split; [reflexivity || assumption|]).
  pose proof (fun x y => incidence_neighbour l x y HI HM) as Heq.
  assert (Hsym : forall x y, neighbour l x y -> neighbour l y x).
  { intros x y H. apply Heq in H. apply Heq. destruct H as (vi & p & q & G1 & G2 & G3 & G4). exists vi, q, p. auto. }
  intros i j a b Ha Hb. rewrite (Hiff Hsym i j a b Ha Hb).
  clear Ha Hb. split; intro H; induction H as [x y H| |]; try apply rt_refl; try (eapply rt_trans; eassumption);
    apply rt_step; now apply Heq.
Qed.

(** Without any assumption on the incidences (only that ids exist), the label of a polygon is a polygon from which it
    can be reached. *)
Theorem C21_labels_reach (l : Layer A) :
  layer_ids_ok l -> lengthN (polygons l) < 2^24 ->
  exists l' isl, bake_islands_detection l = Ok l' /\ islands l' = Some isl /\
    forall i, i < lengthN (polygons l) ->
      exists r, nthN isl i = Some r /\ r < lengthN (polygons l) /\ clos_refl_trans _ (neighbour l) r i.
Proof.
  intros Hok HL. assert (HU : lengthN (polygons l) < UMAX) by (unfold UMAX; lia).
  destruct (bake_islands_spec l Hok HU) as (isl & E & Hlen & Hlab & _).
  eexists _, isl. split; [exact E|]. split; [reflexivity|]. intros i Hi.
  destruct (Hlab i Hi) as (r & H1 & H2 & H3). exists r. split; [assumption|]. split; [|assumption].
  apply clos_rt_rt1n in H3. destruct H3 as [|y z Hy _]; [assumption|]. exact (proj1 (neighbour_range l _ _ Hok Hy)).
Qed.

(** Mesh::bake does this for every layer, and makes the polygon finder (one box per polygon) of every layer. *)
Theorem C21_mesh_bake (m : Mesh A) :
  (forall l, In l (layers m) -> incidence_ok l /\ lengthN (polygons l) < 2^24) ->
  exists m', mesh_bake m = Ok m' /\ search_delta m' = search_delta m /\ search_steps m' = search_steps m /\
    Forall2 (fun l l' => vertices l' = vertices l /\ polygons l' = polygons l /\ offset l' = offset l /\
      (exists boxes, baked l' = Some boxes /\ length boxes = length (polygons l)) /\
      exists isl, islands l' = Some isl /\ length isl = length (polygons l) /\
        forall i j a b, nthN isl i = Some a -> nthN isl j = Some b -> (a = b <-> clos_refl_trans _ (share_vertex l) i j))
      (layers m) (layers m').
Proof.
  intros H. unfold mesh_bake. assert (HL : exists ls, mapM layer_bake (layers m) = Ok ls /\
    Forall2 (fun l l' => vertices l' = vertices l /\ polygons l' = polygons l /\ offset l' = offset l /\
      (exists boxes, baked l' = Some boxes /\ length boxes = length (polygons l)) /\
      exists isl, islands l' = Some isl /\ length isl = length (polygons l) /\
        forall i j a b, nthN isl i = Some a -> nthN isl j = Some b -> (a = b <-> clos_refl_trans _ (share_vertex l) i j))
      (layers m) ls).
  { induction (layers m) as [|l ls IH]; [exists []; split; [reflexivity|constructor]|].
    destruct IH as (ls' & E & HF). { intros l' Hl'. apply H. now right. }
    destruct (H l (or_introl eq_refl)) as [HI HL].
    destruct (C21_islands_are_components (bake_polygon_finder l)) as (l' & isl & E1 & E2 & E3 & E4 & E5 & E6 & E7 & E8); [exact HI|exact HL|].
    exists (l' :: ls'). split. { cbn [mapM]. unfold layer_bake at 1. rewrite E1. cbn [bind]. rewrite E. reflexivity. }
    constructor; [|exact HF]. split; [exact E4|]. split; [exact E5|]. split; [exact E6|]. split.
    - eexists. split; [rewrite E7; reflexivity|]. cbn [baked bake_polygon_finder]. now rewrite map_length.
    - exists isl. split; [exact E2|]. split; [exact E3|]. exact E8. }
  destruct HL as (ls & E & HF). rewrite E. cbn [bind]. eexists. split; [reflexivity|]. cbn [search_delta search_steps layers]. auto.
Qed.

(** ** C44: hashing of roots *)

(** instance.rs 31-37: the two integers fed to the hasher, with PRECISION = 1000.0 (lib.rs 15) *)
Definition root_hash (v : vec2 A) : Z * Z := (fi32 (fmul (vx v) (fz 1000)), fi32 (fmul (vy v) (fz 1000))).

(** A hash table only compares the requested key with the entries of its bucket: [tested k r] says whether the entry
    of key [k] is looked at for key [r]. *)
Fixpoint table_get (tested : vec2 A -> vec2 A -> bool) (h : list (vec2 A * F A)) (r : vec2 A) : option (F A) :=
  match h with
  | [] => None
  | (k, v) :: t => if tested k r && veq k r then Some v else table_get tested t r
  end.

(** If equal roots hash equally, then the lookup is the lookup by equality ([hist_get] of the model), for every
    bucket structure in which keys of equal hashes meet. *)
Theorem C44_lookup_is_by_equality tested h r :
  (forall a b : vec2 A, veq a b = true -> root_hash a = root_hash b) ->
  (forall k r : vec2 A, root_hash k = root_hash r -> tested k r = true) ->
  table_get tested h r = hist_get h r.
Proof.
  intros H1 H2. induction h as [|[k v] t IH]; simpl; [reflexivity|]. rewrite IH.
  destruct (veq k r) eqn:E; [|now rewrite andb_false_r]. now rewrite (H2 _ _ (H1 _ _ E)).
Qed.

(** ** C49: parameters *)
Theorem C49_search_delta (m : Mesh A) d :
  (fle (fz 0) d = true -> exists m', set_search_delta m d = Ok m' /\ search_delta m' = d /\
      search_steps m' = search_steps m /\ layers m' = layers m) /\
  (fle (fz 0) d = false -> set_search_delta m d = Panic).
Proof.
  unfold set_search_delta, fge. destruct (fle (fz 0) d); split; intro H; try discriminate; [|reflexivity].
  eexists. split; [reflexivity|]. auto.
Qed.
Theorem C49_search_steps (m : Mesh A) s :
  (s <> 0 -> exists m', set_search_steps m s = Ok m' /\ search_steps m' = s /\
      search_delta m' = search_delta m /\ layers m' = layers m) /\
  set_search_steps m 0 = Panic.
Proof.
  unfold set_search_steps. split; [|reflexivity]. intro H. destruct (N.eqb_spec s 0); [contradiction|].
  eexists. split; [reflexivity|]. auto.
Qed.
End Any.

(** C44 for binary32, whatever sin, cos, acos: signed zeros, infinities and saturation included. *)
Theorem C44_equal_roots_hash_equally sin cos acos (a b : vec2 (F32with sin cos acos)) :
  veq a b = true -> root_hash a = root_hash b.
Proof.
  unfold veq, root_hash. intro H. apply andb_prop in H. destruct H as [H1 H2].
  assert (G : forall x y : spec_float, SFeqb x y = true ->
     s_i32 (s_mul x (s_lit 1000 1)) = s_i32 (s_mul y (s_lit 1000 1))).
  { intros x y Hxy. apply SFeqb_true in Hxy. destruct Hxy as [->|(s & t & -> & ->)]; [reflexivity|].
    assert (s_lit 1000 1 = S754_finite false 16384000 (-14)) as -> by vmc.
    destruct s, t; reflexivity. }
  f_equal; apply G; assumption.
Qed.

(** so that the HashMap of the search is a lookup by equality in binary32 *)
Corollary C44_history_lookup_f32 sin cos acos tested h (r : vec2 (F32with sin cos acos)) :
  (forall k r : vec2 (F32with sin cos acos), root_hash k = root_hash r -> tested k r = true) ->
  table_get tested h r = hist_get h r.
Proof. intro H. apply C44_lookup_is_by_equality; [apply C44_equal_roots_hash_equally|exact H]. Qed.

(** C49 for binary32: exactly the deltas that are not NaN and not negative are accepted; -0.0 is. *)
Theorem C49_search_delta_f32 sin cos acos (m : Mesh (F32with sin cos acos)) (d : spec_float) :
  (exists m', set_search_delta m d = Ok m') <->
  match d with
  | S754_zero _ => True
  | S754_infinity s => s = false
  | S754_nan => False
  | S754_finite s _ _ => s = false
  end.
Proof.
  unfold set_search_delta, fge.
  change (@fle (F32with sin cos acos) (fz 0) d) with (SFleb (S754_zero false) d).
  destruct d as [s|s| |s mm e]; try destruct s; unfold SFleb; simpl; split; intro H; try tauto; eauto;
    try (destruct H; discriminate); try discriminate.
Qed.

(** ** Examples *)
Example ex_C02_done : exists l, layer_new (vertices (hd (mkLayer [] [] vzero None None) (layers mesh_u_grid)))
    (polygons (hd (mkLayer [] [] vzero None None) (layers mesh_u_grid))) = Ok (Done l).
Proof.
  apply C02_layer_new.
  - split.
    + intros p Hp. simpl in Hp. repeat destruct Hp as [<-|Hp]; try contradiction;
      intros vi Hv; simpl in Hv; unfold lengthN; simpl; lia.
    + intros v Hv. simpl in Hv. repeat destruct Hv as [<-|Hv]; try contradiction; intros j Hj Hm;
      cbn [vpolys vtx vertex_new] in Hj; simpl in Hj; unfold lengthN; simpl; unfold MAX in *; lia.
  - discriminate.
  - discriminate.
  - unfold lengthN. simpl. lia.
Qed.
(** an index out of range makes Layer::new panic (while baking the islands) *)
Example ex_C02_out_of_range : @layer_new F32 [vtx 0 0 [0; MAX]] [mkPolygon [0; 7; 9] true] = Panic.
Proof. vmc. Qed.

(** two separate squares are two islands *)
Definition two_squares : Layer F32 := mkLayer
  [vtx 0 0 [0; MAX]; vtx 1 0 [0; MAX]; vtx 1 1 [0; MAX]; vtx 0 1 [0; MAX];
   vtx 2 0 [1; MAX]; vtx 3 0 [1; MAX]; vtx 3 1 [1; MAX]; vtx 2 1 [1; MAX]]
  [mkPolygon [0; 1; 2; 3] true; mkPolygon [4; 5; 6; 7] true] vzero None None.
Example ex_C21 : incidence_ok two_squares /\
  (match bake_islands_detection two_squares with Ok l => islands l | _ => None end) = Some [0; 1].
Proof.
  split; [|vmc]. split.
  - intros p Hp. simpl in Hp. repeat destruct Hp as [<-|Hp]; try contradiction;
      intros vi Hv; simpl in Hv; unfold lengthN; simpl; lia.
  - intros vi v j Hv Hj. apply enumerate_spec in Hv.
    unfold enumerate in Hv. cbn [enum_from vertices two_squares] in Hv. simpl in Hv.
    repeat destruct Hv as [Hv|Hv]; try contradiction; injection Hv as <- <-;
    (split;
     [ intro H; cbn [vpolys vtx vertex_new] in H; simpl in H; destruct H as [<-|[<-|[]]]; [|congruence];
       eexists; split; [reflexivity|simpl; tauto]
     | intros (p & Hp & Hin); apply enumerate_spec in Hp; unfold enumerate in Hp;
       cbn [enum_from polygons two_squares] in Hp; simpl in Hp;
       destruct Hp as [Hp|[Hp|[]]]; injection Hp as <- <-; simpl in Hin;
       cbn [vpolys vtx vertex_new]; simpl; try (now left); exfalso; lia ]).
Qed.

Print Assumptions C01_roundtrip.
Print Assumptions C01_injective.
Print Assumptions C01_surjective.
Print Assumptions C01_never_outside.
Print Assumptions C02_layer_new.
Print Assumptions C02_mesh_new.
Print Assumptions C21_islands_are_components.
Print Assumptions C21_labels_reach.
Print Assumptions C44_lookup_is_by_equality.
Print Assumptions C44_equal_roots_hash_equally.
Print Assumptions C44_history_lookup_f32.
Print Assumptions C49_search_delta.
Print Assumptions C49_search_steps.
Print Assumptions C49_search_delta_f32.
Print Assumptions C21_mesh_bake.
