(** C91: a mesh with an empty spot, with and without a polygon finder. *)
From Coq Require Import List NArith ZArith Bool Lia.
From Verif Require Import Base Arith F32 U32 Mesh Helpers Locate Bake Search AsyncPath StdLib Tests Spec Checkers Locate_facts
  Properties_locate Properties_contain Finder_gen F32_finite Search_safe Properties_dsafe32 Properties_spots.
Import ListNotations.
Open Scope N_scope.

(** an empty spot, then two squares next to each other *)
Definition spotty : Mesh F32 := mesh1
  [vtx 0 0 [1; MAX]; vtx 1 0 [1; 2; MAX]; vtx 1 1 [2; 1; MAX]; vtx 0 1 [1; MAX]; vtx 2 0 [2; MAX]; vtx 2 1 [2; MAX]]
  [mkPolygon [] false; mkPolygon [0; 1; 2; 3] true; mkPolygon [1; 4; 5; 2] true].

Definition spots_wfb (m : Mesh F32) : bool :=
  forallb (fun l => forallb (fun p => forallb (fun v => v <? lengthN (vertices l)) (pverts p)) (polygons l)) (layers m) &&
  forallb (fun l => forallb (fun v => forallb (fun id => N.eqb id MAX ||
     match nthN (layers m) (id_layer id) with
     | Some l' => match nthN (polygons l') (id_polygon id) with Some p => negb (lengthN (pverts p) =? 0) | None => false end
     | None => false end) (vpolys v)) (vertices l)) (layers m).
Lemma spots_wfb_ok m : spots_wfb m = true -> spots_wf m.
Proof.
  unfold spots_wfb. intro H. apply andb_prop in H. destruct H as [H1 H2]. split.
  - intros l p v Hl Hp Hv. rewrite forallb_forall in H1. specialize (H1 l Hl). rewrite forallb_forall in H1. specialize (H1 p Hp).
    rewrite forallb_forall in H1. apply N.ltb_lt. now apply H1.
  - intros l v id Hl Hv Hid Hne. rewrite forallb_forall in H2. specialize (H2 l Hl). rewrite forallb_forall in H2. specialize (H2 v Hv).
    rewrite forallb_forall in H2. specialize (H2 id Hid). apply orb_prop in H2. destruct H2 as [H2|H2]; [apply N.eqb_eq in H2; contradiction|].
    destruct (nthN (layers m) (id_layer id)) as [l'|] eqn:E; [|discriminate].
    destruct (nthN (polygons l') (id_polygon id)) as [p|] eqn:E2; [|discriminate]. exists l', p. split; [split; assumption|].
    intro E3. rewrite E3 in H2. discriminate H2.
Qed.

Lemma std_finder_exact {A} : finder_exact (A:=A) std_bvh.
Proof.
  split; [apply std_bvh_ok|]. intros boxes pt i _ H. unfold std_bvh in H. apply in_map_iff in H. destruct H as ([j b] & <- & H).
  apply filter_In in H. destruct H as [H1 H2]. apply enumerate_spec in H1. exists b. split; [exact H1|exact H2].
Qed.
Lemma spotty_baked : spots_baked (with_finder spotty).
Proof.
  intros l Hl. right. unfold with_finder in Hl. cbn [layers spotty mesh1 map] in Hl. destruct Hl as [<-|[]]. split; [apply N.leb_le; vmc|].
  eexists. reflexivity.
Qed.

(** The polygon finder built: the hypotheses of the theorems are met, and the search finds the way from one square to the other. *)
Example ex_C91 :
  finder_exact (lbvh lib32) /\ spots_wf (with_finder spotty) /\ mesh_small (with_finder spotty) /\ spots_baked (with_finder spotty) /\
  finite_mesh t_sin t_cos t_acos (with_finder spotty) /\ 10 * search_steps (with_finder spotty) < 2^32 /\
  ~ no_empty spotty /\
  exists p, path lib32 (with_finder spotty) (at_ (pt10 5 5)) (at_ (pt10 15 5)) = Ok (Some p) /\ ppath p = [pt10 15 5].
Proof.
  split; [apply std_finder_exact|]. split; [apply spots_wfb_ok; vmc|]. split; [apply mesh_smallb_ok; vmc|]. split; [apply spotty_baked|].
  split; [apply finite_meshb_ok; vmc|]. split; [apply N.ltb_lt; vmc|]. split.
  - intro H. refine (H _ (mkPolygon [] false) (or_introl eq_refl) _ eq_refl). now left.
  - assert (G : match path lib32 (with_finder spotty) (at_ (pt10 5 5)) (at_ (pt10 15 5)) with Ok (Some p) => ppath p | _ => [] end = [pt10 15 5]) by vmc.
    destruct (path _ _ _ _) as [[p|]| | |]; try discriminate G. exists p. split; [reflexivity|exact G].
Qed.

(** Without the polygon finder (after unbake, or with the feature no-default-baking), every query panics at the empty spot. *)
Theorem C91_unbaked_refuted : exists m : Mesh F32,
  spots_wf m /\ mesh_small m /\ unbaked m /\ finite_mesh t_sin t_cos t_acos m /\ 10 * search_steps m < 2^32 /\
  point_in_mesh std_bvh m (at_ (pt10 5 5)) = Panic /\ path lib32 m (at_ (pt10 5 5)) (at_ (pt10 15 5)) = Panic /\
  (exists b, point_in_mesh std_bvh (with_finder m) (at_ (pt10 5 5)) = Ok b).
Proof.
  exists spotty. split; [apply spots_wfb_ok; vmc|]. split; [apply mesh_smallb_ok; vmc|]. split; [apply unbakedb_ok; vmc|].
  split; [apply finite_meshb_ok; vmc|]. split; [apply N.ltb_lt; vmc|]. split; [vmc|]. split; [apply panics_eq; vmc|]. exists true. vmc.
Qed.

Definition finder_safeb (l : Layer F32) (d : F F32) (c : vec2 F32) : bool :=
  forallb (fun v => forallb (fun p =>
    let x := vadd (vsub c (offset l)) v in
    implb (match point_in_polygon l x p with Ok b => b | _ => false end) (box_contains (polygon_aabb (vertices l) p) x)) (polygons l)) (probes d).
Lemma finder_safeb_ok (m : Mesh F32) c : forallb (fun l => finder_safeb l (search_delta m) c) (layers m) = true -> finder_safe m (at_ c).
Proof.
  intros H li l v [Hl _] Hv p Hp Hc. rewrite forallb_forall in H. specialize (H l (nthN_In _ _ _ Hl)). unfold finder_safeb in H.
  rewrite forallb_forall in H. apply probes_probed in Hv. specialize (H v Hv). rewrite forallb_forall in H. specialize (H p Hp). cbv zeta in H.
  change (cpos (at_ c)) with c in Hc |- *. apply point_in_polygon_true in Hc. rewrite Hc in H. exact H.
Qed.
(** The hypotheses of C91_point_in_mesh_iff are met by the mesh, for a position on it and for one outside. *)
Example ex_C91_iff :
  no_box (A:=F32) /\ finder_exact (A:=F32) std_bvh /\ mesh_small spotty /\ spots_baked (with_finder spotty) /\
  finder_safe spotty (at_ (pt10 5 5)) /\ finder_safe spotty (at_ (pt10 5 25)) /\
  point_in_mesh std_bvh (with_finder spotty) (at_ (pt10 5 5)) = Ok true /\ point_in_mesh std_bvh (with_finder spotty) (at_ (pt10 5 25)) = Ok false.
Proof.
  split; [apply F32_no_box|]. split; [apply std_finder_exact|]. split; [apply mesh_smallb_ok; vmc|]. split; [apply spotty_baked|].
  split; [apply finder_safeb_ok; vmc|]. split; [apply finder_safeb_ok; vmc|]. split; vmc.
Qed.

Print Assumptions C91_unbaked_refuted.
