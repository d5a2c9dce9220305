(** C65-C67: in exact arithmetic and general position, the path returned is the shortest polyline in the area covered by the
    polygons; so its length only depends on that area, and path lengths behave like distances. *)
From Coq Require Import List NArith ZArith Bool Reals Lra Psatz Lia.
From Verif Require Import Base Arith U32 Mesh Helpers Locate Search AsyncPath StdLib Spec Locate_facts Search_facts Search_props
  RealArith Geometry Heuristic F32_facts Properties_async Properties_geometry Properties_heuristic Spec_inside Sight Sight_search Properties_search Properties_inside
  Spec_shortest Shortest_bend Properties_shortest Properties_complete Spec_area Area.
Import ListNotations.
Open Scope R_scope.

Lemma total_plane pts : forall a, total a pts = plane_length a pts.
Proof. induction pts as [|q r IH]; intro a; cbn [total plane_length]; [reflexivity|]. now rewrite IH. Qed.

(** The chain of polygons of a path is usable. *)
Lemma corridor_usable m blocked ps xs pe : u32_ids m -> (ps < 2 ^ 32)%N -> corridor m ps xs pe -> Forall (fun x => ~ In (id_layer (cr_to x)) blocked) xs ->
  forall id, In id (ps :: map cr_to xs) -> usable blocked ps id.
Proof.
  intros HU HP32 HX HB id [<-|Hid]; [split; [exact HP32|now left]|]. apply in_map_iff in Hid. destruct Hid as (x & <- & Hx).
  rewrite Forall_forall in HB. split; [|right; exact (HB x Hx)]. clear HB.
  induction HX as [p|p ys y HX IH HV]; [destruct Hx|]. apply in_app_or in Hx. destruct Hx as [Hx|[<-|[]]]; [now apply IH|].
  destruct HV as (l & q & va & vb & [HP _] & _ & Hva & _ & Ia & _). apply nthN_In in HP. apply nthN_In in Hva. exact (HU l va _ HP Hva Ia).
Qed.
Lemma walks_area m blocked ps a pts ids : walks m a pts ids -> area m blocked ps a -> (forall id, In id ids -> usable blocked ps id) -> polyline_in (area m blocked ps) a pts.
Proof.
  intros HW. induction HW as [a|a q pts ids ids' HG HW IH]; intros HA HU; cbn [polyline_in]; [exact HA|].
  assert (HS : segment_in (area m blocked ps) a q).
  { intros t Ht. destruct (goes_everywhere m a q ids HG t Ht) as (id & qs & H1 & H2 & H3). exists id, qs. split; [apply HU, in_or_app; now left|auto]. }
  split; [exact HS|]. apply IH; [exact (proj2 (segment_ends _ _ _ HS))|]. intros id Hid. apply HU, in_or_app. now right.
Qed.
(** Any polyline in the area is a way. *)
Lemma area_way m blocked ps pe start goal pts : faultless m blocked ps -> seamless m blocked ps -> (ps < 2 ^ 32)%N -> usable blocked ps pe -> generic m start ps pe goal ->
  polyline_in (area m blocked ps) start pts -> last pts start = goal -> way m blocked ps start pe goal (total start pts).
Proof.
  intros HF HS HP32 HUe HG HA HL. destruct (ge_start _ _ _ _ _ HG) as (qs & Hqs & Hin). destruct (ge_in _ _ _ _ _ HG) as (qe & Hqe & Hine).
  assert (I1 : inside qs start) by (intros s e He; apply Rlt_le; auto). assert (I2 : inside qe goal) by (intros s e He; apply Rlt_le; auto).
  assert (HUs : usable blocked ps ps) by (split; [exact HP32|now left]).
  pose proof (way_polyline m blocked ps HF HS start ps pts start 0 ps qs goal pe qe HUs Hqs I1 HUe Hqe I2 HA HL (way_here m blocked ps qs start Hqs I1)) as HW.
  now rewrite Rplus_0_l in HW.
Qed.

(** and a way is a polyline in the area. *)
Lemma total_snoc pts : forall a q, total a (pts ++ [q]) = total a pts + dist (last pts a) q.
Proof. intros a q. rewrite !total_plane. apply plane_length_app. Qed.
Lemma last_any (l : list P2) d d' : l <> [] -> last l d = last l d'.
Proof. induction l as [|a [|b l] IH]; intro H; [congruence|reflexivity|]. cbn [last]. apply IH. discriminate. Qed.
Lemma last_shift (l : list P2) a q : last (q :: l) a = last l q.
Proof. destruct l as [|b l]; [reflexivity|]. change (last (b :: l) a = last (b :: l) q). apply last_any. discriminate. Qed.
Lemma polyline_app W pts : forall a pts', polyline_in W a pts -> polyline_in W (last pts a) pts' -> polyline_in W a (pts ++ pts').
Proof.
  induction pts as [|q r IH]; intros a pts' H1 H2; [exact H2|]. cbn [app polyline_in] in *. destruct H1 as [H1 H3]. split; [exact H1|].
  apply IH; [exact H3|]. rewrite last_shift in H2. exact H2.
Qed.
Lemma total_app pts : forall a pts', total a (pts ++ pts') = total a pts + total (last pts a) pts'.
Proof. induction pts as [|q r IH]; intros a pts'; [cbn [app total last]; ring|]. cbn [app total]. rewrite IH, last_shift. ring. Qed.
Lemma last_app (pts : list P2) : forall a pts', last (pts ++ pts') a = last pts' (last pts a).
Proof. induction pts as [|q r IH]; intros a pts'; [reflexivity|]. cbn [app]. rewrite !last_shift. apply IH. Qed.
Lemma way_area m blocked P x Q y L : plane_mesh m -> ids_wf m -> u32_ids m -> (P < 2 ^ 32)%N -> way m blocked P x Q y L ->
  (exists qs, corners m Q qs /\ inside qs y) /\ exists pts, polyline_in (area m blocked P) x pts /\ last pts x = y /\ total x pts = L.
Proof.
  intros HM HI HU HP H. induction H as [P qs x H1 H2|P x Q y L qs z H IH H1 H2|P x c y L H IH H1 H2].
  - split; [eauto|]. exists []. cbn [polyline_in last total]. split; [|auto]. exists P, qs. split; [split; [exact HP|now left]|auto].
  - destruct (IH HP) as ((qs' & C1 & I1) & pts & A1 & A2 & A3). assert (qs' = qs) by (eapply corners_fun; eauto). subst qs'. split; [eauto|].
    assert (HUQ : usable blocked P Q) by exact (way_usable m blocked _ _ _ _ _ HU HP H).
    exists (pts ++ [z]). split; [|split; [apply last_last|rewrite total_snoc, A2, A3; reflexivity]].
    apply polyline_app; [exact A1|]. rewrite A2. cbn [polyline_in]. split.
    + intros t Ht. exists Q, qs. split; [exact HUQ|]. split; [exact H1|]. now apply inside_lerp.
    + exists Q, qs. auto.
  - destruct (IH HP) as (_ & pts & A1 & A2 & A3). split; [|exists pts; auto].
    destruct H1 as [[HV H32] _]. destruct HV as (l & p & va & vb & [HP1 HP2] & HB & Hva & Hvb & Ia & Ib & HMx & HN).
    assert (HX : u32_crossing m c) by (split; [exists l, p, va, vb; repeat split; auto|exact H32]).
    pose proof (HI l va (cr_to c) (nthN_In _ _ _ HP1) (nthN_In _ _ _ Hva) Ia HMx) as (l' & p' & HP').
    destruct (plane_corners _ _ _ _ HM HP') as (qs & Hqs & _). exists qs. split; [exact Hqs|].
    exact (proj2 (on_edge_inside m HM HI c y HX H2) qs Hqs).
Qed.

(** A query in exact arithmetic, on a mesh of convex polygons side by side, with start and goal in general position. *)
Record proper (lib : Lib RA) (m : Mesh RA) (blocked : list N) (start goal : P2) (ps pe : N) : Prop := {
  pr_pop : pop_ok (lpop lib);
  pr_small : mesh_small m;
  pr_plane : plane_mesh m;
  pr_ids : ids_wf m;
  pr_u32 : u32_ids m;
  pr_start : (ps < 2 ^ 32)%N;
  pr_generic : generic m start ps pe goal;
  pr_faultless : faultless m blocked ps;
  pr_seamless : seamless m blocked ps
}.

(** C65: The path returned lies in the area, and no polyline from the start to the goal that lies in the area is shorter. *)
Theorem C65_shortest_in_the_area (lib : Lib RA) m from to blocked path start goal ps pe :
  proper lib m blocked start goal ps pe ->
  cpos from = vp start -> cpos to = vp goal -> located lib m from ps -> located lib m to pe ->
  path_on_layers lib m from to blocked = Ok (Some path) ->
  exists pts, ppath path = map vp pts /\ last pts start = goal /\ plength path = Some (total start pts) /\
    polyline_in (area m blocked ps) start pts /\
    forall others, polyline_in (area m blocked ps) start others -> last others start = goal -> total start pts <= total start others.
Proof.
  intros [Hpop Hsm HM HI HU HP32 HG HF HS] Es Eg H1 H2 H.
  destruct (C63_shortest lib m from to blocked path start goal ps pe Hpop Hsm HM HI HU HP32 Es Eg H1 H2 HG HF H) as (pts & xs & d & F1 & F2 & F3 & F4 & F5 & F6 & F7 & F8).
  exists pts. rewrite Es, F1, polyline_real in F6. assert (Ed : d = plane_length start pts) by congruence. rewrite total_plane, <- Ed.
  assert (HUp : usable blocked ps pe) by exact (way_usable m blocked _ _ _ _ _ HU HP32 F7).
  split; [exact F1|]. split.
  - pose proof (C10_path_ends_at_destination lib m from to blocked path (pop_ok_perm _ Hpop) H) as (pre & E). rewrite F1, Eg in E.
    destruct (exists_last (l := pts)) as (p0 & q & ->). { intros ->. destruct pre; discriminate. }
    rewrite map_app in E. apply app_inj_tail in E. destruct E as [_ E]. rewrite last_last. now apply vp_inj in E.
  - split; [exact F5|]. split.
    + apply (walks_area m blocked ps start pts (ps :: map cr_to xs) F3); [|exact (corridor_usable m blocked ps xs pe HU HP32 F2 F4)].
      destruct (ge_start _ _ _ _ _ HG) as (qs & Hqs & Hin). exists ps, qs. split; [split; [exact HP32|now left]|]. split; [exact Hqs|]. intros s e He. apply Rlt_le. auto.
    + intros others HA HL. apply F8. exact (area_way m blocked ps pe start goal others HF HS HP32 HUp HG HA HL).
Qed.

(** The future of get_path answers; with a path whose length is the least length of the polylines in the area from start to goal, or
    with "no path" if there is no such polyline. *)
Theorem C65_future_decides (lib : Lib RA) m start goal ps pe :
  proper lib m [] start goal ps pe -> mesh_wf m -> real_mesh m -> at_border m [] -> (pe < 2 ^ 32)%N ->
  get_point_location (lbvh lib) m (coords_on_mesh (vp start)) = Ok ps -> ps <> MAX ->
  get_point_location (lbvh lib) m (coords_on_mesh (vp goal)) = Ok pe -> pe <> MAX -> async_islands_reject m ps pe = Ok false ->
  exists k log,
    (exists path pts, poll_times k lib (get_path m (vp start) (vp goal)) = Ok (Some (Some path), log) /\
       plength path = Some (total start pts) /\ polyline_in (area m [] ps) start pts /\ last pts start = goal /\
       forall others, polyline_in (area m [] ps) start others -> last others start = goal -> total start pts <= total start others) \/
    (poll_times k lib (get_path m (vp start) (vp goal)) = Ok (Some None, log) /\
     forall others, polyline_in (area m [] ps) start others -> last others start <> goal).
Proof.
  intros [Hpop Hsm HM HI HU HP32 HG HF HS] Hwf Hreal HB HPe G1 N1 G2 N2 Hisl.
  assert (HUp : usable [] ps pe) by (split; [exact HPe|right; intros []]).
  destruct (C64_future_decides lib m start goal ps pe Hpop Hwf Hreal HM HU HP32 G1 N1 G2 N2 Hisl HG HF HB) as (k & log & [(path & d & A1 & A2 & A3 & A4)|[A1 A2]]); exists k, log.
  - left. destruct (way_area m [] ps start pe goal d HM HI HU HP32 A3) as (_ & pts & B1 & B2 & B3). exists path, pts. rewrite B3. repeat (split; [assumption|]).
    intros others HO HL. apply A4. exact (area_way m [] ps pe start goal others HF HS HP32 HUp HG HO HL).
  - right. split; [exact A1|]. intros others HO HL. exact (A2 _ (area_way m [] ps pe start goal others HF HS HP32 HUp HG HO HL)).
Qed.

(** C66: a larger area never makes the path longer ([m1] and [m2] may be cut into polygons in different ways, and may have different
    blocked layers) ... *)
Theorem C66_larger_area_not_longer (lib1 lib2 : Lib RA) m1 m2 from1 to1 from2 to2 blocked1 blocked2 path1 path2 start goal ps1 pe1 ps2 pe2 :
  proper lib1 m1 blocked1 start goal ps1 pe1 -> proper lib2 m2 blocked2 start goal ps2 pe2 ->
  cpos from1 = vp start -> cpos to1 = vp goal -> located lib1 m1 from1 ps1 -> located lib1 m1 to1 pe1 ->
  cpos from2 = vp start -> cpos to2 = vp goal -> located lib2 m2 from2 ps2 -> located lib2 m2 to2 pe2 ->
  (forall x, area m1 blocked1 ps1 x -> area m2 blocked2 ps2 x) ->
  path_on_layers lib1 m1 from1 to1 blocked1 = Ok (Some path1) -> path_on_layers lib2 m2 from2 to2 blocked2 = Ok (Some path2) ->
  exists d1 d2, plength path1 = Some d1 /\ plength path2 = Some d2 /\ d2 <= d1.
Proof.
  intros P1 P2 Es1 Eg1 L1 L2 Es2 Eg2 L3 L4 HA H1 H2.
  destruct (C65_shortest_in_the_area lib1 m1 from1 to1 blocked1 path1 start goal ps1 pe1 P1 Es1 Eg1 L1 L2 H1) as (pts1 & A1 & A2 & A3 & A4 & A5).
  destruct (C65_shortest_in_the_area lib2 m2 from2 to2 blocked2 path2 start goal ps2 pe2 P2 Es2 Eg2 L3 L4 H2) as (pts2 & B1 & B2 & B3 & B4 & B5).
  exists (total start pts1), (total start pts2). split; [exact A3|]. split; [exact B3|]. apply B5; [|exact A2].
  clear -HA A4. revert A4. generalize start. induction pts1 as [|q r IH]; intros a; cbn [polyline_in]; [apply HA|]. intros [H1 H2]. split; [|now apply IH]. intros t Ht. apply HA, H1, Ht.
Qed.
(** ... and meshes with the same area give paths of the same length. *)
Theorem C66_same_area_same_length (lib1 lib2 : Lib RA) m1 m2 from1 to1 from2 to2 blocked1 blocked2 path1 path2 start goal ps1 pe1 ps2 pe2 :
  proper lib1 m1 blocked1 start goal ps1 pe1 -> proper lib2 m2 blocked2 start goal ps2 pe2 ->
  cpos from1 = vp start -> cpos to1 = vp goal -> located lib1 m1 from1 ps1 -> located lib1 m1 to1 pe1 ->
  cpos from2 = vp start -> cpos to2 = vp goal -> located lib2 m2 from2 ps2 -> located lib2 m2 to2 pe2 ->
  (forall x, area m1 blocked1 ps1 x <-> area m2 blocked2 ps2 x) ->
  path_on_layers lib1 m1 from1 to1 blocked1 = Ok (Some path1) -> path_on_layers lib2 m2 from2 to2 blocked2 = Ok (Some path2) ->
  plength path1 = plength path2.
Proof.
  intros P1 P2 Es1 Eg1 L1 L2 Es2 Eg2 L3 L4 HA H1 H2.
  destruct (C66_larger_area_not_longer lib1 lib2 m1 m2 from1 to1 from2 to2 blocked1 blocked2 path1 path2 start goal ps1 pe1 ps2 pe2) as (d1 & d2 & A1 & A2 & A3); auto; [intro x; apply HA|].
  destruct (C66_larger_area_not_longer lib2 lib1 m2 m1 from2 to2 from1 to1 blocked2 blocked1 path2 path1 start goal ps2 pe2 ps1 pe1) as (d2' & d1' & B1 & B2 & B3); auto; [intro x; apply HA|].
  rewrite A1, A2. f_equal. assert (d1 = d1') by congruence. assert (d2 = d2') by congruence. lra.
Qed.

(** The same for the futures: both find a path of the same length, or neither finds one. *)
Theorem C66_futures_agree (lib1 lib2 : Lib RA) m1 m2 start goal ps1 pe1 ps2 pe2 :
  proper lib1 m1 [] start goal ps1 pe1 -> mesh_wf m1 -> real_mesh m1 -> at_border m1 [] -> (pe1 < 2 ^ 32)%N ->
  proper lib2 m2 [] start goal ps2 pe2 -> mesh_wf m2 -> real_mesh m2 -> at_border m2 [] -> (pe2 < 2 ^ 32)%N ->
  get_point_location (lbvh lib1) m1 (coords_on_mesh (vp start)) = Ok ps1 -> ps1 <> MAX ->
  get_point_location (lbvh lib1) m1 (coords_on_mesh (vp goal)) = Ok pe1 -> pe1 <> MAX -> async_islands_reject m1 ps1 pe1 = Ok false ->
  get_point_location (lbvh lib2) m2 (coords_on_mesh (vp start)) = Ok ps2 -> ps2 <> MAX ->
  get_point_location (lbvh lib2) m2 (coords_on_mesh (vp goal)) = Ok pe2 -> pe2 <> MAX -> async_islands_reject m2 ps2 pe2 = Ok false ->
  (forall x, area m1 [] ps1 x <-> area m2 [] ps2 x) ->
  exists k1 log1 k2 log2 r1 r2,
    poll_times k1 lib1 (get_path m1 (vp start) (vp goal)) = Ok (Some r1, log1) /\
    poll_times k2 lib2 (get_path m2 (vp start) (vp goal)) = Ok (Some r2, log2) /\
    option_map plength r1 = option_map plength r2.
Proof.
  intros P1 W1 R1 B1 E1 P2 W2 R2 B2 E2 F1 F2 F3 F4 F5 G1 G2 G3 G4 G5 HA.
  destruct (C65_future_decides lib1 m1 start goal ps1 pe1 P1 W1 R1 B1 E1 F1 F2 F3 F4 F5) as (k1 & log1 & H1).
  destruct (C65_future_decides lib2 m2 start goal ps2 pe2 P2 W2 R2 B2 E2 G1 G2 G3 G4 G5) as (k2 & log2 & H2).
  assert (HP : forall pts a, polyline_in (area m1 [] ps1) a pts <-> polyline_in (area m2 [] ps2) a pts).
  { clear -HA. induction pts as [|q r IH]; intro a; cbn [polyline_in]; [apply HA|]. rewrite IH. split; intros [H1 H2]; (split; [|exact H2]); intros t Ht; apply HA, H1, Ht. }
  exists k1, log1, k2, log2. destruct H1 as [(p1 & pts1 & A1 & A2 & A3 & A4 & A5)|[A1 A2]]; destruct H2 as [(p2 & pts2 & C1 & C2 & C3 & C4 & C5)|[C1 C2]].
  - exists (Some p1), (Some p2). split; [exact A1|]. split; [exact C1|]. cbn [option_map]. rewrite A2, C2. do 2 f_equal.
    pose proof (A5 pts2 (proj2 (HP _ _) C3) C4). pose proof (C5 pts1 (proj1 (HP _ _) A3) A4). lra.
  - exfalso. exact (C2 pts1 (proj1 (HP _ _) A3) A4).
  - exfalso. exact (A2 pts2 (proj2 (HP _ _) C3) C4).
  - exists None, None. auto.
Qed.

(** C67: the length of the path is the same in both directions, *)
Lemma polyline_rev W pts : forall a, polyline_in W a pts -> polyline_in W (last pts a) (tl (rev (a :: pts))).
Proof.
  induction pts as [|q r IH]; intros a H; [exact H|]. cbn [polyline_in] in H. destruct H as [H1 H2]. specialize (IH q H2). rewrite last_shift.
  cbn [rev] in *. assert (E : tl ((rev r ++ [q]) ++ [a]) = tl (rev r ++ [q]) ++ [a]) by (destruct (rev r); reflexivity). rewrite E.
  apply polyline_app; [exact IH|]. assert (EL : last (tl (rev r ++ [q])) (last r q) = q).
  { clear. destruct r as [|p r] using rev_ind; [reflexivity|]. rewrite last_last, rev_app_distr. cbn [rev app tl]. apply last_last. }
  rewrite EL. cbn [polyline_in]. split; [|now apply segment_ends in H1]. intros t Ht. rewrite lerp_swap. apply H1. lra.
Qed.
Lemma total_rev pts : forall a, total (last pts a) (tl (rev (a :: pts))) = total a pts /\ last (tl (rev (a :: pts))) (last pts a) = a.
Proof.
  induction pts as [|q r IH]; intro a; [auto|]. rewrite last_shift. destruct (IH q) as [E1 E2].
  cbn [rev] in *. assert (E : tl ((rev r ++ [q]) ++ [a]) = tl (rev r ++ [q]) ++ [a]) by (destruct (rev r); reflexivity). rewrite E. split; [|apply last_last].
  rewrite total_snoc, E1, E2. cbn [total]. rewrite (dist_sym q a). ring.
Qed.
Lemma area_usable m blocked ps pe : usable blocked ps pe -> forall x, area m blocked pe x -> area m blocked ps x.
Proof. intros HU x (id & qs & [U1 U2] & H). exists id, qs. split; [|exact H]. split; [exact U1|]. destruct U2 as [->|U2]; [exact (proj2 HU)|now right]. Qed.
Lemma polyline_mono (W W' : P2 -> Prop) pts : (forall x, W x -> W' x) -> forall a, polyline_in W a pts -> polyline_in W' a pts.
Proof. intro HA. induction pts as [|q r IH]; intros a; cbn [polyline_in]; [apply HA|]. intros [H1 H2]. split; [|now apply IH]. intros t Ht. apply HA, H1, Ht. Qed.
Lemma path_usable (lib : Lib RA) m from to blocked path start goal ps pe : proper lib m blocked start goal ps pe ->
  cpos from = vp start -> cpos to = vp goal -> located lib m from ps -> located lib m to pe -> path_on_layers lib m from to blocked = Ok (Some path) -> usable blocked ps pe.
Proof.
  intros [Hpop Hsm HM HI HU HP32 HG HF HS] Es Eg H1 H2 H.
  destruct (C63_shortest lib m from to blocked path start goal ps pe Hpop Hsm HM HI HU HP32 Es Eg H1 H2 HG HF H) as (pts & xs & d & F1 & F2 & F3 & F4 & F5 & F6 & F7 & F8).
  exact (way_usable m blocked _ _ _ _ _ HU HP32 F7).
Qed.
Theorem C67_symmetric (lib1 lib2 : Lib RA) m from1 to1 from2 to2 blocked path path' start goal ps pe :
  proper lib1 m blocked start goal ps pe -> proper lib2 m blocked goal start pe ps ->
  cpos from1 = vp start -> cpos to1 = vp goal -> located lib1 m from1 ps -> located lib1 m to1 pe ->
  cpos from2 = vp goal -> cpos to2 = vp start -> located lib2 m from2 pe -> located lib2 m to2 ps ->
  path_on_layers lib1 m from1 to1 blocked = Ok (Some path) -> path_on_layers lib2 m from2 to2 blocked = Ok (Some path') ->
  plength path = plength path'.
Proof.
  intros P1 P2 Es1 Eg1 L1 L2 Es2 Eg2 L3 L4 H1 H2.
  destruct (C65_shortest_in_the_area lib1 m from1 to1 blocked path start goal ps pe P1 Es1 Eg1 L1 L2 H1) as (pts1 & A1 & A2 & A3 & A4 & A5).
  destruct (C65_shortest_in_the_area lib2 m from2 to2 blocked path' goal start pe ps P2 Es2 Eg2 L3 L4 H2) as (pts2 & B1 & B2 & B3 & B4 & B5).
  pose proof (path_usable lib1 m from1 to1 blocked path start goal ps pe P1 Es1 Eg1 L1 L2 H1) as U1.
  pose proof (path_usable lib2 m from2 to2 blocked path' goal start pe ps P2 Es2 Eg2 L3 L4 H2) as U2.
  rewrite A3, B3. f_equal.
  destruct (total_rev pts1 start) as [R1 R2]. destruct (total_rev pts2 goal) as [S1 S2]. rewrite A2 in R1, R2. rewrite B2 in S1, S2.
  pose proof (polyline_rev _ _ _ A4) as R3. rewrite A2 in R3. pose proof (polyline_rev _ _ _ B4) as S3. rewrite B2 in S3.
  pose proof (A5 _ (polyline_mono _ _ _ (area_usable m blocked ps pe U1) _ S3) S2). pose proof (B5 _ (polyline_mono _ _ _ (area_usable m blocked pe ps U2) _ R3) R2). lra.
Qed.
(** not longer than a detour, *)
Theorem C67_no_detour_is_shorter (lib1 lib2 lib3 : Lib RA) m from1 to1 from2 to2 from3 to3 blocked path1 path2 path3 start middle goal ps pm pe :
  proper lib1 m blocked start middle ps pm -> proper lib2 m blocked middle goal pm pe -> proper lib3 m blocked start goal ps pe ->
  cpos from1 = vp start -> cpos to1 = vp middle -> located lib1 m from1 ps -> located lib1 m to1 pm ->
  cpos from2 = vp middle -> cpos to2 = vp goal -> located lib2 m from2 pm -> located lib2 m to2 pe ->
  cpos from3 = vp start -> cpos to3 = vp goal -> located lib3 m from3 ps -> located lib3 m to3 pe ->
  path_on_layers lib1 m from1 to1 blocked = Ok (Some path1) -> path_on_layers lib2 m from2 to2 blocked = Ok (Some path2) ->
  path_on_layers lib3 m from3 to3 blocked = Ok (Some path3) ->
  exists d1 d2 d3, plength path1 = Some d1 /\ plength path2 = Some d2 /\ plength path3 = Some d3 /\ d3 <= d1 + d2.
Proof.
  intros P1 P2 P3 Es1 Eg1 L1 L2 Es2 Eg2 L3 L4 Es3 Eg3 L5 L6 H1 H2 H3.
  destruct (C65_shortest_in_the_area lib1 m from1 to1 blocked path1 start middle ps pm P1 Es1 Eg1 L1 L2 H1) as (pts1 & A1 & A2 & A3 & A4 & A5).
  destruct (C65_shortest_in_the_area lib2 m from2 to2 blocked path2 middle goal pm pe P2 Es2 Eg2 L3 L4 H2) as (pts2 & B1 & B2 & B3 & B4 & B5).
  destruct (C65_shortest_in_the_area lib3 m from3 to3 blocked path3 start goal ps pe P3 Es3 Eg3 L5 L6 H3) as (pts3 & C1 & C2 & C3 & C4 & C5).
  pose proof (path_usable lib1 m from1 to1 blocked path1 start middle ps pm P1 Es1 Eg1 L1 L2 H1) as U1.
  exists (total start pts1), (total middle pts2), (total start pts3). split; [exact A3|]. split; [exact B3|]. split; [exact C3|].
  specialize (C5 (pts1 ++ pts2)). rewrite total_app, last_app, A2 in C5. apply C5; [|exact B2].
  apply polyline_app; [exact A4|]. rewrite A2. exact (polyline_mono _ _ _ (area_usable m blocked ps pm U1) _ B4).
Qed.
(** and at least the straight distance. *)
Theorem C67_at_least_the_distance (lib : Lib RA) m from to blocked path start goal ps pe :
  proper lib m blocked start goal ps pe ->
  cpos from = vp start -> cpos to = vp goal -> located lib m from ps -> located lib m to pe ->
  path_on_layers lib m from to blocked = Ok (Some path) ->
  exists d, plength path = Some d /\ dist start goal <= d.
Proof.
  intros P1 Es Eg L1 L2 H. destruct (C65_shortest_in_the_area lib m from to blocked path start goal ps pe P1 Es Eg L1 L2 H) as (pts & A1 & A2 & A3 & _).
  exists (total start pts). split; [exact A3|]. rewrite total_plane, <- A2. apply plane_length_ge.
Qed.
(** The future finds a path back if and only if it finds one there, of the same length. *)
Theorem C67_futures_symmetric (lib1 lib2 : Lib RA) m start goal ps pe :
  proper lib1 m [] start goal ps pe -> proper lib2 m [] goal start pe ps -> mesh_wf m -> real_mesh m -> at_border m [] ->
  get_point_location (lbvh lib1) m (coords_on_mesh (vp start)) = Ok ps -> ps <> MAX ->
  get_point_location (lbvh lib1) m (coords_on_mesh (vp goal)) = Ok pe -> pe <> MAX -> async_islands_reject m ps pe = Ok false ->
  get_point_location (lbvh lib2) m (coords_on_mesh (vp goal)) = Ok pe -> get_point_location (lbvh lib2) m (coords_on_mesh (vp start)) = Ok ps ->
  async_islands_reject m pe ps = Ok false ->
  exists k1 log1 k2 log2 r1 r2,
    poll_times k1 lib1 (get_path m (vp start) (vp goal)) = Ok (Some r1, log1) /\
    poll_times k2 lib2 (get_path m (vp goal) (vp start)) = Ok (Some r2, log2) /\
    option_map plength r1 = option_map plength r2.
Proof.
  intros P1 P2 W R B F1 F2 F3 F4 F5 G1 G2 G3.
  destruct (C65_future_decides lib1 m start goal ps pe P1 W R B (pr_start _ _ _ _ _ _ _ P2) F1 F2 F3 F4 F5) as (k1 & log1 & H1).
  destruct (C65_future_decides lib2 m goal start pe ps P2 W R B (pr_start _ _ _ _ _ _ _ P1) G1 F4 G2 F2 G3) as (k2 & log2 & H2).
  assert (U1 : usable [] ps pe) by (split; [exact (pr_start _ _ _ _ _ _ _ P2)|right; intros []]).
  assert (U2 : usable [] pe ps) by (split; [exact (pr_start _ _ _ _ _ _ _ P1)|right; intros []]).
  assert (Back : forall s g a b pts, usable [] a b -> polyline_in (area m [] b) s pts -> last pts s = g ->
    exists pts', polyline_in (area m [] a) g pts' /\ last pts' g = s /\ total g pts' = total s pts).
  { clear. intros s g a b pts HU H1 <-. exists (tl (rev (s :: pts))). destruct (total_rev pts s) as [E1 E2]. split; [|auto].
    apply (polyline_mono _ _ _ (area_usable m [] a b HU)). now apply polyline_rev. }
  exists k1, log1, k2, log2. destruct H1 as [(p1 & pts1 & A1 & A2 & A3 & A4 & A5)|[A1 A2]]; destruct H2 as [(p2 & pts2 & C1 & C2 & C3 & C4 & C5)|[C1 C2]].
  - exists (Some p1), (Some p2). split; [exact A1|]. split; [exact C1|]. cbn [option_map]. rewrite A2, C2. do 2 f_equal.
    destruct (Back start goal pe ps pts1 U2 A3 A4) as (q1 & Q1 & Q2 & Q3). destruct (Back goal start ps pe pts2 U1 C3 C4) as (q2 & Q4 & Q5 & Q6).
    pose proof (A5 q2 Q4 Q5). pose proof (C5 q1 Q1 Q2). lra.
  - exfalso. destruct (Back start goal pe ps pts1 U2 A3 A4) as (q1 & Q1 & Q2 & _). exact (C2 q1 Q1 Q2).
  - exfalso. destruct (Back goal start ps pe pts2 U1 C3 C4) as (q2 & Q4 & Q5 & _). exact (A2 q2 Q4 Q5).
  - exists None, None. auto.
Qed.
Print Assumptions C65_shortest_in_the_area.
Print Assumptions C65_future_decides.
Print Assumptions C66_larger_area_not_longer.
Print Assumptions C66_same_area_same_length.
Print Assumptions C66_futures_agree.
Print Assumptions C67_symmetric.
Print Assumptions C67_no_detour_is_shorter.
Print Assumptions C67_at_least_the_distance.
Print Assumptions C67_futures_symmetric.
