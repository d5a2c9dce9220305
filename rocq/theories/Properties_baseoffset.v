(** C90: what the builder made from a layer does not keep: the offset of the layer. *)
From Coq Require Import List NArith ZArith Bool Lia Reals Lra.
From Verif Require Import Base Arith U32 Mesh Helpers Locate Search AsyncPath StdLib Spec Triangulation Spec_triangulation RealArith Geometry Search_props
  Spec_inside Examples_inside Spec_shortest Zmesh Examples_shortest Spec_area Properties_area Examples_area Spec_free Properties_free Examples_free Spec_freespace Properties_freespace Spec_frommesh Properties_frommesh Examples_frommesh.
Import ListNotations.
Open Scope R_scope.

Definition far_layer_ : Layer RA := mkLayer (vertices bent_l) (polygons bent_l) (vp (P 100 0)) None None.
Definition far_mesh_ : Mesh RA := mkMesh [far_layer_] (Some (1 / 10)) 2.
Lemma far_base_mesh : as_navmesh bent_lib (from_mesh_layer far_layer_) = Ok bent.
Proof. exact base_mesh. Qed.

Lemma map_edges (f : P2 -> P2) qs : poly_edges (map f qs) = map (fun e => (f (fst e), f (snd e))) (poly_edges qs).
Proof. unfold poly_edges. rewrite <- combine_map2. f_equal. destruct qs as [|z zs]; [reflexivity|]. cbn. rewrite map_app. reflexivity. Qed.
(** A layer with an offset, and no obstacles: the mesh of the builder is not where the layer is. *)
Theorem C90_offset_dropped_refuted : exists (lib : TriLib RA) (m m' : Mesh RA) t x,
  from_mesh m 0 = Ok t /\ as_navmesh lib t = Ok m' /\ covered m x /\ ~ covered m' x /\ (forall y, covered m y -> 90 <= px y) /\ (forall y, covered m' y -> px y <= 10).
Proof.
  assert (HB : forall id qs, Spec_inside.corners bent id qs -> qs = map zp (fst tri1) \/ qs = map zp (fst tri2)).
  { intros id qs (l & p & [Hl Hp] & Hq). apply nthN_In in Hl. destruct Hl as [<-|[]]. change (polygons (zlayer bent_vs bent_ps)) with (polygons bent_l) in Hp. apply nthN_In in Hp.
    assert (HL : laid bent_l p qs).
    { unfold laid. revert Hq. apply Properties_freespace.Forall2_imp. intros i q (v & V1 & V2). exists v. split; [exact V1|]. rewrite <- V2.
      cbn [vertices bent_l zlayer] in V1. apply nthN_In, in_map_iff in V1. destruct V1 as ([z nb] & <- & _).
      change (vp (zp z) = vadd (vp (zp z)) (vp (P 0 0))). rewrite vadd_vp. f_equal. apply P2_eq; unfold padd; cbn [px py]; ring. }
    destruct (bent_polygons p qs Hp HL) as [[_ ->]|[_ ->]]; auto. }
  assert (HF : forall id qs, Spec_inside.corners far_mesh_ id qs -> exists qs', Spec_inside.corners bent id qs' /\ qs = map (fun q => padd q (P 100 0)) qs').
  { intros id qs (l & p & [Hl Hp] & Hq). pose proof Hl as Hl'. apply nthN_In in Hl'. destruct Hl' as [<-|[]].
    exists (map (fun q => psub q (P 100 0)) qs). split.
    - exists (zlayer bent_vs bent_ps), p. split; [split; [|exact Hp]|].
      + apply nthN_Some_lt in Hl. change (lengthN (layers far_mesh_)) with 1%N in Hl. replace (id_layer id) with 0%N by lia. reflexivity.
      + clear -Hq. induction Hq as [|i q is qs (v & V1 & V2) Hq IH]; [apply Forall2_nil|]. cbn [map]. apply Forall2_cons; [|exact IH].
        exists v. split; [exact V1|]. cbn [vertices far_layer_ bent_l zlayer] in V1. apply nthN_In, in_map_iff in V1. destruct V1 as ([z nb] & <- & _).
        change (vadd (vp (zp z)) (vp (P 100 0)) = vp q) in V2. change (vadd (vp (zp z)) (vp (P 0 0)) = vp (psub q (P 100 0))).
        rewrite vadd_vp in *. apply vp_inj in V2. rewrite <- V2. f_equal. apply P2_eq; unfold padd, psub; cbn [px py]; ring.
    - rewrite map_map. clear. induction qs as [|q qs IH]; [reflexivity|]. cbn [map]. f_equal; [|exact IH]. apply P2_eq; unfold padd, psub; cbn [px py]; ring. }
  assert (HX : forall qs y, (qs = map zp (fst tri1) \/ qs = map zp (fst tri2)) -> inside qs y -> -10 <= px y <= 10).
  { intros qs [y1 y2] Hq Hin.
    assert (K : forall u w, In (u, w) (zedges (fst tri1)) /\ qs = map zp (fst tri1) \/ In (u, w) (zedges (fst tri2)) /\ qs = map zp (fst tri2) -> 0 <= orient (zp u) (zp w) (P y1 y2)).
    { intros u w [[Hu ->]|[Hu ->]]; apply Hin; rewrite zedges_map; apply in_map_iff; exists (u, w); auto. }
    destruct Hq as [E|E].
    - pose proof (K (0, 0)%Z (9, -4)%Z ltac:(left; split; [vm_compute; auto|exact E])) as A1. pose proof (K (9, -4)%Z (1, 9)%Z ltac:(left; split; [vm_compute; auto|exact E])) as A2.
      pose proof (K (1, 9)%Z (0, 0)%Z ltac:(left; split; [vm_compute; auto|exact E])) as A3. unfold orient, cross, psub, zp in A1, A2, A3. cbn [px py fst snd] in *. lra.
    - pose proof (K (0, 0)%Z (1, 9)%Z ltac:(right; split; [vm_compute; auto|exact E])) as A1. pose proof (K (1, 9)%Z (-8, -5)%Z ltac:(right; split; [vm_compute; auto|exact E])) as A2.
      pose proof (K (-8, -5)%Z (0, 0)%Z ltac:(right; split; [vm_compute; auto|exact E])) as A3. unfold orient, cross, psub, zp in A1, A2, A3. cbn [px py fst snd] in *. lra. }
  assert (H2 : forall y, covered bent y -> px y <= 10).
  { intros y (id & qs & Hc & Hin). apply (HX qs y (HB id qs Hc) Hin). }
  assert (H1 : forall y, covered far_mesh_ y -> 90 <= px y).
  { intros y (id & qs & Hc & Hin). destruct (HF id qs Hc) as (qs' & Hc' & ->).
    assert (inside qs' (psub y (P 100 0))) as Hi.
    { intros a b Hab. specialize (Hin (padd a (P 100 0)) (padd b (P 100 0))). assert (orient (padd a (P 100 0)) (padd b (P 100 0)) y = orient a b (psub y (P 100 0))) as <- by (unfold orient, cross, psub, padd; cbn [px py]; ring).
      apply Hin. rewrite map_edges. apply in_map_iff. exists (a, b). auto. }
    pose proof (HX qs' _ (HB id qs' Hc') Hi) as K. unfold psub in K. cbn [px] in K. lra. }
  exists bent_lib, far_mesh_, bent, (from_mesh_layer far_layer_), (padd bent_start (P 100 0)).
  split; [reflexivity|]. split; [exact far_base_mesh|].
  assert (HC : covered far_mesh_ (padd bent_start (P 100 0))).
  { exists 0%N, (map (fun q => padd q (P 100 0)) (map zp (fst tri1))). split.
    - exists far_layer_, (mkPolygon [0; 1; 2]%N false). split; [split; reflexivity|].
      repeat (apply Forall2_cons; [eexists; split; [reflexivity|apply vadd_vp]|]). apply Forall2_nil.
    - intros a b Hab. rewrite map_edges in Hab. apply in_map_iff in Hab. destruct Hab as ([u w] & E & Hu). cbn [fst snd] in E. injection E as <- <-.
      pose proof (zlist_centre base_edges tri1 ltac:(vm_compute; reflexivity) u w Hu) as K. change (zp (snd tri1)) with bent_start in K.
      replace (orient (padd u (P 100 0)) (padd w (P 100 0)) (padd bent_start (P 100 0))) with (orient u w bent_start) by (unfold orient, cross, psub, padd; cbn [px py]; ring). lra. }
  split; [exact HC|]. split; [|split; [exact H1|exact H2]].
  intro K. apply H2 in K. apply H1 in HC. unfold padd, bent_start, zp in *. cbn [px py fst snd] in *. lra.
Qed.
Print Assumptions C90_offset_dropped_refuted.
