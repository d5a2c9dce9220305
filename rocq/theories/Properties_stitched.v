(** C51, what holds: stitching makes crossings; in exact arithmetic a chain of polygons that share edges is found by the search, on meshes
    without defects (no stale flags); and a destination in the next polygon is always found. *)
From Coq Require Import List NArith ZArith Bool Lia Reals Lra Permutation.
From Verif Require Import Base Arith U32 Mesh Helpers Locate Search AsyncPath Stitch StdLib Spec Spec_mesh Cleanup_facts Stitch_facts Search_facts Search_props Search_hist Search_cost Search_safe
  RealArith Geometry Heuristic Properties_async Properties_geometry Properties_heuristic Properties_stitch Spec_inside Sight_static Sight Sight_search Spec_shortest Shortest_bend Shortest_always Properties_shortest Properties_complete.
Import ListNotations.
Open Scope N_scope.

(** ** Stitching makes crossings *)
Section Any.
Context {A : Arith}.
(** If the two ends of an edge of a polygon of layer [li] are stitched to two vertices of layer [lj] that share a polygon, then this
    polygon can be entered through that edge. *)
Theorem C51_stitching_makes_crossings sort (m m' : Mesh A) S one_way li lj l k p a b a' b' q :
  sort_ok sort -> plain m -> (forall l, In l (layers m) -> layer_wf l) -> stitches_ok m S -> stitch_at_vertices sort m S one_way = Ok m' ->
  nthN (layers m) li = Some l -> nthN (polygons l) k = Some p -> boundary_edge (pverts p) a b ->
  linked S one_way li a lj a' -> linked S one_way li b lj b' -> lists m lj a' q -> lists m lj b' q ->
  valid_crossing m' (mkCross (id_make li k) a b (id_make lj q)).
Proof.
  intros Hs Hp Hw HS E Hl Hk HB La Lb Qa Qb. destruct (C28_stitch_adds_exactly sort m S one_way Hs Hp Hw HS) as (m1 & E1 & Hg & _ & _ & HL).
  assert (m1 = m') by congruence. subst m1. clear E1.
  assert (Sm : li < 256 /\ k < 2^24).
  { destruct Hp as (P1 & P2 & _). apply nthN_Some_lt in Hk. specialize (P2 l (nthN_In _ _ _ Hl)). apply nthN_Some_lt in Hl. split; lia. }
  assert (Sq : lj < 256 /\ q < 2^24).
  { destruct Qa as (v & (l2 & L1 & L2) & I & NM). destruct Hp as (P1 & P2 & P3). specialize (P2 l2 (nthN_In _ _ _ L1)). specialize (P3 l2 v q (nthN_In _ _ _ L1) (nthN_In _ _ _ L2) I NM).
    apply nthN_Some_lt in L1. split; lia. }
  assert (Hne : li <> lj).
  { destruct La as [(ps & I1 & _)|(_ & ps & I1 & _)]; destruct (HS _ _ _ I1) as [N _]; congruence. }
  assert (Ga : lists m' li a (id_make lj q)) by (apply HL; right; exists lj, a', q; auto).
  assert (Gb : lists m' li b (id_make lj q)) by (apply HL; right; exists lj, b', q; auto).
  destruct Ga as (va & (l1 & L1 & V1) & I1 & M1). destruct Gb as (vb & (l2 & L2 & V2) & I2 & _). assert (l2 = l1) by congruence. subst l2.
  destruct Hg as (_ & _ & Hg). destruct (Forall2_nthN _ _ _ Hg _ _ Hl) as (l3 & L3 & EP & _). assert (l3 = l1) by congruence. subst l3.
  exists l1, p, va, vb. cbn [cr_from cr_a cr_b cr_to]. split.
  { split; [rewrite id_layer_make by apply Sm; exact L1|]. rewrite id_polygon_make by apply Sm. now rewrite EP. }
  split; [exact HB|]. split; [exact V1|]. split; [exact V2|]. split; [exact I1|]. split; [exact I2|]. split; [exact M1|].
  intro F. apply (f_equal id_layer) in F. rewrite !id_layer_make in F by (apply Sm || apply Sq). congruence.
Qed.
End Any.

(** ** A chain of polygons is a way *)
Open Scope R_scope.
Section Chain.
Context (m : Mesh RA) (HM : plane_mesh m) (HI : ids_wf m) (HU : u32_ids m).
Lemma chain_way blocked ps start qs xs pe : (ps < 2^32)%N -> corners m ps qs -> inside qs start -> corridor m ps xs pe -> (forall x, In x xs -> ~ In (id_layer (cr_to x)) blocked) ->
  (pe < 2^32)%N /\ exists y L, way m blocked ps start pe y L.
Proof.
  intros H32 Hc Hin H. induction H as [p|p xs x H IH HV]; intro Hb.
  - split; [exact H32|]. exists start, 0. econstructor; eauto.
  - destruct (IH H32 Hc) as (F32 & y & L & HW); [intros z Hz; apply Hb, in_or_app; now left|].
    assert (HX : u32_crossing m x) by (split; assumption).
    assert (HO : open_crossing m blocked x) by (split; [exact HX|apply Hb, in_or_app; right; now left]).
    destruct (crossing_ends m HM HI x HX) as (a & b & q1 & q2 & HE & C1 & C2 & X1 & X2 & E1 & E2).
    destruct (edge_In _ _ _ E1) as [I1 _].
    split. { destruct HV as (l & pl & va & vb & [Hl _] & _ & Hva & _ & Iv & _). exact (HU l va (cr_to x) (nthN_In _ _ _ Hl) (nthN_In _ _ _ Hva) Iv). }
    exists a, (L + dist y a). apply way_cross; [|exact HO|].
    + eapply way_move; [exact HW|exact C1|]. now apply convex_corner.
    + exists a, b, 0. split; [exact HE|]. split; [lra|]. now rewrite lerp_0.
Qed.
End Chain.

Lemma strict_inside qs y : (forall s e, In (s, e) (poly_edges qs) -> 0 < orient s e y) -> inside qs y.
Proof. intros H s e I. apply Rlt_le. now apply H. Qed.
(** ... and if the ends of the chain are in general position, it goes on to the destination. *)
Lemma chain_to_goal m blocked start goal ps pe xs : plane_mesh m -> ids_wf m -> u32_ids m -> (ps < 2^32)%N -> generic m start ps pe goal ->
  corridor m ps xs pe -> (forall x, In x xs -> ~ In (id_layer (cr_to x)) blocked) -> exists L, way m blocked ps start pe goal L.
Proof.
  intros HM HI HU H32 HG HC Hb. destruct (ge_start _ _ _ _ _ HG) as (qs & C1 & X1). destruct (ge_in _ _ _ _ _ HG) as (qe & C2 & X2).
  destruct (chain_way m HM HI HU blocked ps start qs xs pe H32 C1 (strict_inside _ _ X1) HC Hb) as (_ & y & L & HW).
  exists (L + dist y goal). exact (way_move _ _ _ _ _ _ _ _ _ HW C2 (strict_inside _ _ X2)).
Qed.

(** ** A chain of polygons is found *)
(** On a plane mesh without defects, with ends in general position, in exact arithmetic: if a chain of polygons that share edges leads from the
    polygon of the start to that of the destination, through any number of layers, then the future answers with a path. *)
Theorem C51_chain_is_found_partial (lib : Lib RA) m start goal ps pe xs :
  pop_ok (lpop lib) -> mesh_wf m -> real_mesh m -> plane_mesh m -> u32_ids m -> (ps < 2^32)%N ->
  get_point_location (lbvh lib) m (coords_on_mesh (vp start)) = Ok ps -> ps <> MAX ->
  get_point_location (lbvh lib) m (coords_on_mesh (vp goal)) = Ok pe -> pe <> MAX -> async_islands_reject m ps pe = Ok false ->
  generic m start ps pe goal -> faultless m [] ps -> at_border m [] ->
  corridor m ps xs pe ->
  exists k log path, poll_times k lib (get_path m (vp start) (vp goal)) = Ok (Some (Some path), log).
Proof.
  intros Hpop Hwf Hreal HM HU HP32 G1 N1 G2 N2 Hisl HG HF HB HC.
  destruct (chain_to_goal m [] start goal ps pe xs HM (proj2 Hwf) HU HP32 HG HC) as (L & HL); [intros x _ []|].
  destruct (C64_future_finds_a_shortest_path lib m start goal ps pe L Hpop Hwf Hreal HM HU HP32 G1 N1 G2 N2 Hisl HG HF HB HL) as (k & log & path & d & H & _).
  exists k, log, path. exact H.
Qed.
(** The blocking [path_on_layers] can only miss it because of its limit of steps. *)
Theorem C51_chain_is_found_unless_limited_partial (lib : Lib RA) m from to blocked start goal ps pe xs :
  pop_ok (lpop lib) -> mesh_small m -> mesh_wf m -> real_mesh m -> plane_mesh m -> u32_ids m -> (ps < 2^32)%N ->
  cpos from = vp start -> cpos to = vp goal -> located lib m from ps -> located lib m to pe -> islands_reject m ps pe = Ok false ->
  generic m start ps pe goal -> faultless m blocked ps -> at_border m blocked ->
  corridor m ps xs pe -> (forall x, In x xs -> ~ In (id_layer (cr_to x)) blocked) ->
  (exists path, path_on_layers lib m from to blocked = Ok (Some path)) \/
  (path_on_layers lib m from to blocked = Ok None /\
   exists st k path, setup (mkCtx m (vp goal) pe blocked) (vp start) ps = Ok st /\ answers lib (mkCtx m (vp goal) pe blocked) st k (Some path) /\
     (count_polygons m * 10 < k)%nat).
Proof.
  intros Hpop Hsm Hwf Hreal HM HU HP32 Es Eg H1 H2 Hisl HG HF HB HC Hb.
  destruct (chain_to_goal m blocked start goal ps pe xs HM (proj2 Hwf) HU HP32 HG HC Hb) as (L & HL).
  destruct (C64_only_the_step_limit lib m from to blocked start goal ps pe L Hpop Hsm Hwf Hreal HM HU HP32 Es Eg H1 H2 Hisl HG HF HB HL) as [F|(F & st & k & p & d & S1 & S2 & S3 & _)]; [now left|].
  right. split; [exact F|]. exists st, k, p. auto.
Qed.
