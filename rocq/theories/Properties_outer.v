(** C94: with the agent radius on the outer edge, the walkable area and the paths on it keep the distance from that edge. *)
From Coq Require Import List NArith ZArith Bool Reals Lra Lia Psatz Classical.
From Verif Require Import Base Arith U32 Mesh Helpers Locate Search AsyncPath Spec Triangulation Spec_triangulation RealArith Geometry Stitch_facts Inflate_facts Properties_triangulation Properties_inflate Spec_outline Enclose Capsule Circle
  Properties_outline Spec_inside Spec_shortest Spec_area Search_props StdLib Spec_free Properties_inside Area Properties_area Properties_free Spec_outer.
From Verif Require Import Spec_outline Properties_geometry.
Import ListNotations.
Open Scope R_scope.

Lemma pairs_snoc : forall l x z, pairs (x :: l ++ [z]) = pairs (x :: l) ++ [(last (x :: l) x, z)].
Proof.
  induction l as [|y l IH]; intros x z; [reflexivity|]. cbn [app]. change (pairs (x :: y :: l ++ [z])) with ((x, y) :: pairs (y :: l ++ [z])). rewrite IH.
  change (pairs (x :: y :: l)) with ((x, y) :: pairs (y :: l)). cbn [app]. do 4 f_equal. change (last (x :: y :: l) x) with (last (y :: l) x). apply last_default.
Qed.

Section Thick.
Context (lib : TriLib RA) (d : R) (n : N).
Context (HT : real_trig lib) (HU : union_ok lib) (HH : holes_ok lib) (Hd : 0 < d) (Hn : (3 <= n)%N).
Notation sidesV := (map (fun s : P2 * P2 => (vp (fst s), vp (snd s)))).

(** the holes of the last union are clear of all sides *)
Lemma last_holes acc r done a b o : close (fst acc) = map vp r -> closed r -> keeps d n r done -> (exists a', In (a', a) done) -> snd acc = [] ->
  union_with lib acc (vp a, vp b) (rr d) n = Ok o ->
  forall h, In h (snd o) -> exists h', h = map vp h' /\ closed h' /\
    forall x u v k, In (u, v) (done ++ [(a, b)]) -> 0 <= k <= 1 -> dist x (lerp u v k) < reach d n -> ~ enclosed h' x.
Proof using HT HU HH Hd Hn.
  intros Er Hc Hk [a' Ha'] Es H h Hin. destruct (first_side lib d n HT Hd Hn a b) as (r2 & c & Ec & E2 & Hc2 & Hk2).
  unfold union_with in H. rewrite Ec in H. cbn [bind] in H. rewrite Er, E2 in H.
  destruct (HU r r2 a (reach d n) Hc Hc2 (reach_pos d n Hd Hn)) as (ext & holes & others & EU & Hce & HE).
  { intros x Hx. split; [apply (Hk a' a 1 x Ha'); [lra|now rewrite lerp_1]|apply (Hk2 a b 0 x); [now left|lra|now rewrite lerp_0]]. }
  rewrite EU in H. inversion H as [Ho]. rewrite <- Ho in Hin. cbn [snd] in Hin. rewrite Es in Hin. cbn [app] in Hin.
  destruct (HH r r2 (map vp ext) holes others Hc Hc2 EU h Hin) as (h' & Eh & Hch & HN). exists h'. split; [exact Eh|]. split; [exact Hch|].
  intros x u v k Huv Hk0 Hx. apply (HN x (reach d n - dist x (lerp u v k))); [lra|]. intros y Hy.
  assert (dist y (lerp u v k) < reach d n) as Hy' by (pose proof (dist_triangle y x (lerp u v k)) as T; rewrite (dist_sym y x) in T; lra).
  apply in_app_or in Huv. destruct Huv as [Huv|Huv]; [left; now apply (Hk u v k)|right; now apply (Hk2 u v k)].
Qed.

Lemma thick_edge_holes a0 a1 rest :
  (forall e hs, drawn lib d n (pairs (a0 :: a1 :: rest)) e hs -> hs = []) ->
  forall i, inflate_ring lib (map vp (a0 :: a1 :: rest ++ [a0])) (rr d) n = Ok i ->
  forall h, In h (snd i) -> exists h', h = map vp h' /\ closed h' /\
    forall x u v k, In (u, v) (pairs (a0 :: a1 :: rest ++ [a0])) -> 0 <= k <= 1 -> dist x (lerp u v k) < reach d n -> ~ enclosed h' x.
Proof using HT HU HH Hd Hn.
  intros Hearly i H. unfold inflate_ring in H. rewrite lines_pairs in H.
  assert (EP : pairs (a0 :: a1 :: rest ++ [a0]) = pairs (a0 :: a1 :: rest) ++ [(last (a1 :: rest) a0, a0)]).
  { pose proof (pairs_snoc (a1 :: rest) a0 a0) as Q. cbn [app] in Q. exact Q. }
  assert (EC : is_closed (map vp (a0 :: a1 :: rest ++ [a0])) = true).
  { cbn [is_closed map]. pose proof (last_map vp ((a0 :: a1 :: rest) ++ [a0]) a0) as L. rewrite last_last in L. cbn [app map] in L. rewrite L. now apply veq_vp. }
  rewrite EC, EP in H. change (pairs (a0 :: a1 :: rest)) with ((a0, a1) :: pairs (a1 :: rest)) in H, Hearly. cbn [app map fst snd] in H.
  destruct (first_side lib d n HT Hd Hn a0 a1) as (r & c & Ec & Er & Hc & Hk). rewrite Ec in H. cbn [bind] in H. rewrite map_app, foldM_app in H. cbn [map fst snd] in H.
  assert (HP : exists c', In (c', last (a1 :: rest) a0) (pairs (a0 :: a1 :: rest))) by apply pairs_last.
  assert (HF : exists ext h, foldM (fun acc ab => union_with lib acc ab (rr d) n) (c, []) (sidesV (pairs (a1 :: rest))) = Ok (ext, h) /\
    exists r', close ext = map vp r' /\ closed r' /\ keeps d n r' (pairs (a0 :: a1 :: rest))).
  { destruct rest as [|a2 rest].
    - exists c, []. split; [reflexivity|]. exists r. auto.
    - destruct (other_sides lib d n HT HU Hd Hn (a2 :: rest) a1 (c, []) r [(a0, a1)] Er Hc Hk) as (ext & h & EU & Hce & Hke); [exists a0; now left|discriminate|].
      exists (map vp ext), h. split; [exact EU|]. exists ext. split; [now apply close_closed|]. auto. }
  destruct HF as (ext & h0 & EF & r' & Er' & Hc' & Hk').
  assert (h0 = []) as ->. { apply (Hearly ext h0). exists c. split; [exact Ec|]. exact EF. }
  rewrite EF in H. cbn [bind foldM] in H.
  destruct (union_with lib (ext, []) (vp (last (a1 :: rest) a0), vp a0) (rr d) n) as [o| | |] eqn:EO; try discriminate H. cbn [bind] in H. inversion H; subst o.
  rewrite EP. exact (last_holes (ext, []) r' (pairs (a0 :: a1 :: rest)) (last (a1 :: rest) a0) a0 i Er' Hc' Hk' HP eq_refl EO).
Qed.
End Thick.

(** the outer edge, the radius, and that there is no base mesh: no call changes them *)
Lemma kept_run (lib : TriLib RA) (ext : ring RA) (a : AgentRadius RA) : close ext = ext -> forall cs (t t' : Triangulation RA), exterior (inner t) = ext /\ base_layer t = None /\ agent_radius t = a ->
  run_calls lib t cs = Ok t' -> exterior (inner t') = ext /\ base_layer t' = None /\ agent_radius t' = a.
Proof.
  intros HX. induction cs as [|k cs IH]; intros t t' HI H; [cbn in H; inversion H; subst; exact HI|].
  unfold run_calls in H. cbn [foldM] in H. inv_bind H. rename a0 into t1. refine (IH t1 t' _ H). pose proof HI as (H1 & H2 & H3). destruct k as [o|os|]; cbn [apply_call] in E.
  - inversion E. split; [exact H1|]. auto.
  - inversion E. split; [cbn [add_obstacles with_inner inner geo_new exterior]; rewrite H1; exact HX|]. auto.
  - unfold prebuild in E. rewrite H2 in E. inv_bind E. inv_bind E. inv_bind E. inversion E.
    split; [cbn [inner geo_new exterior]; rewrite H1; exact HX|]. auto.
Qed.
Lemma reach_enough d : 1 / 100000 < d -> enough (A := RA) (rr d) = true.
Proof. intro H. unfold enough, fgt. cbn. unfold rltb. destruct (Rlt_dec _ _) as [|N]; [reflexivity|]. exfalso. apply N. lra. Qed.

(** C94: the area keeps the distance from every side of the outer edge.  The outer edge is the closed line [a0; a1; rest; a0], and no part of its inside is cut off
    before the last of its sides is drawn. *)
Theorem C94_area_keeps_distance_from_outer_edge (lib : TriLib RA) t0 cs t c m (d p : R) (n : N) (a0 a1 : P2) (rest : list P2) :
  built lib t0 cs t c m -> base_layer t0 = None -> agent_radius t0 = REverything (rr d) n (rr p) -> 1 / 100000 < d -> (3 <= n)%N ->
  real_trig lib -> union_ok lib -> holes_ok lib -> finds_only_enclosed lib ->
  exterior (inner t0) = map vp (a0 :: a1 :: rest ++ [a0]) -> (forall e hs, drawn lib d n (pairs (a0 :: a1 :: rest)) e hs -> hs = []) ->
  forall x, covered m x -> forall a b k, In (a, b) (pairs (a0 :: a1 :: rest ++ [a0])) -> 0 <= k <= 1 ->
    d * cos (PI / (2 * IZR (Z.of_N (arc_count n)))) <= dist x (lerp a b k).
Proof.
  intros HB HL HA Hd Hn HT HU HH HF HX Hearly x Hx a b k Hab Hk.
  assert (HE : exists r, edge_used lib (agent_radius t0) (exterior (inner t0)) (map vp r) /\
    forall y u v w, In (u, v) (pairs (a0 :: a1 :: rest ++ [a0])) -> 0 <= w <= 1 -> dist y (lerp u v w) < reach d n -> ~ enclosed r y).
  { destruct HB as [B1 B2 (B3 & _ & B3') B4 B5 B6 B7 B8 B9 B10 B11].
    destruct (kept_run lib (exterior (inner t0)) (agent_radius t0) B3' cs t0 t (conj eq_refl (conj HL eq_refl)) B6) as (K1 & K2 & K3).
    assert (exists g, inflated lib t = Ok g) as [g EG]. { unfold as_navmesh in B11. inv_bind B11. unfold as_layer in E. inv_bind E. inv_bind E. eauto. }
    unfold inflated in EG. rewrite K3, HA in EG. rewrite (reach_enough d Hd) in EG. unfold inflate in EG. rewrite K1, HX in EG. inv_bind EG. inv_bind EG. inv_bind EG.
    match goal with I : inflate_ring _ _ _ _ = Ok ?i, J : index _ 0 = Ok _ |- _ => rename I into EI; rename J into EJ; set (ii := i) in * end.
    apply index_Ok in EJ. destruct (snd ii) as [|h hs] eqn:Eh; [discriminate EJ|].
    destruct (thick_edge_holes lib d n HT HU HH ltac:(lra) Hn a0 a1 rest Hearly ii EI h) as (h' & Eh' & Hch & HN); [rewrite Eh; now left|].
    exists h'. split; [|exact (fun y => HN y)]. rewrite HA, HX. cbn [edge_used]. rewrite (reach_enough d Hd). exists ii, h. split; [exact EI|]. split; [rewrite Eh; reflexivity|].
    rewrite Eh'. symmetry. now apply close_closed. }
  destruct HE as (r & HE & HN). apply Rnot_lt_le. intro Hlt.
  apply (HN x a b k Hab Hk Hlt). exact (C76_area_inside_outer_edge lib t0 cs t c m r HB HL HE HF x Hx).
Qed.

(** C94: and so do the paths returned on the mesh (general position as in C62 and C76). *)
Theorem C94_path_keeps_distance_from_outer_edge (lib : TriLib RA) t0 cs t c m (d p : R) (n : N) (a0 a1 : P2) (rest : list P2) (plib : Lib RA) from to blocked path start goal ps pe :
  built lib t0 cs t c m -> base_layer t0 = None -> agent_radius t0 = REverything (rr d) n (rr p) -> 1 / 100000 < d -> (3 <= n)%N ->
  real_trig lib -> union_ok lib -> holes_ok lib -> finds_only_enclosed lib ->
  exterior (inner t0) = map vp (a0 :: a1 :: rest ++ [a0]) -> (forall e hs, drawn lib d n (pairs (a0 :: a1 :: rest)) e hs -> hs = []) ->
  pop_perm (lpop plib) -> mesh_small m -> plane_mesh m -> u32_ids m -> (ps < 2 ^ 32)%N ->
  cpos from = vp start -> cpos to = vp goal -> located plib m from ps -> located plib m to pe ->
  (exists qs, corners m ps qs /\ inside qs start) -> steady m start -> steady_goal m start pe goal ->
  path_on_layers plib m from to blocked = Ok (Some path) ->
  exists pts, ppath path = map vp pts /\
    polyline_in (fun x => forall a b k, In (a, b) (pairs (a0 :: a1 :: rest ++ [a0])) -> 0 <= k <= 1 -> d * cos (PI / (2 * IZR (Z.of_N (arc_count n)))) <= dist x (lerp a b k)) start pts.
Proof.
  intros HB HL HA Hd Hn HT HU HH HF HX Hearly H1 H2 H3 H4 H5 H6 H7 H8 H9 H10 H11 H12 H.
  destruct (path_covered plib m from to blocked path start goal ps pe H1 H2 H3 H4 H5 H6 H7 H8 H9 H10 H11 H12 H) as (pts & E & HP). exists pts. split; [exact E|].
  revert HP. apply polyline_weaken. exact (C94_area_keeps_distance_from_outer_edge lib t0 cs t c m d p n a0 a1 rest HB HL HA Hd Hn HT HU HH HF HX Hearly).
Qed.
Print Assumptions C94_area_keeps_distance_from_outer_edge.
Print Assumptions C94_path_keeps_distance_from_outer_edge.
