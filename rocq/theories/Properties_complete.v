(** C64: in exact arithmetic and general position, if there is a way from start to goal then the search answers, with a shortest
    path; "no path" means that there is no way - except for the step limit of path. *)
From Coq Require Import List NArith ZArith Bool Reals Lra Psatz Lia Classical_Prop.
From Verif Require Import Base Arith U32 Mesh Helpers Locate Search AsyncPath StdLib Spec Locate_facts Stitch_facts Search_facts Search_props Search_hist Search_cost Search_safe Rings
  RealArith Geometry Heuristic F32_facts Properties_async Properties_geometry Properties_heuristic Properties_expand Spec_inside Sight Sight_search Sight_final Sight_static Properties_inside
  Spec_shortest Shortest_routes Shortest_bend Shortest_pieces Shortest_nodes Shortest_cover Shortest_search Shortest_run Shortest_end Shortest_finish Shortest_always Properties_shortest.
Import ListNotations.
Open Scope R_scope.

Lemma real_dists m : real_mesh m -> dists_ok m.
Proof.
  intros H l v l' v' Hl Hv Hl' Hv'. destruct (H l Hl) as ((o & Eo) & H1). destruct (H l' Hl') as ((o' & Eo') & H2).
  destruct (H1 v Hv) as (q & Eq). destruct (H2 v' Hv') as (q' & Eq'). unfold world. rewrite Eo, Eo', Eq, Eq', !vadd_vp, vdist2_vp. reflexivity.
Qed.

Section Complete.
Context (m : Mesh RA) (blocked : list N) (start goal : P2) (ps pe : N).
Context (HM : plane_mesh m) (Hwf : mesh_wf m) (Hreal : real_mesh m) (HU : u32_ids m) (HP32 : (ps < 2 ^ 32)%N) (HMAX : pe <> MAX).
Context (HG : generic m start ps pe goal) (HF : faultless m blocked ps).
Notation c := (mkCtx m (vp goal) pe blocked).
Notation way := (way m blocked ps start pe goal).
Let HI : ids_wf m := proj2 Hwf.

Definition shortest_length (path : Path RA) : Prop := exists d, plength path = Some d /\ way d /\ forall L, way L -> d <= L.

Lemma setup_done : exists st, setup c (vp start) ps = Ok st.
Proof using Hwf Hreal HG.
  assert (HE : poly_ok m pe) by (destruct (ge_in _ _ _ _ _ HG) as (qs & (l & p & HP & _) & _); exists l, p; exact HP).
  assert (HS : poly_ok m ps) by (destruct (ge_start _ _ _ _ _ HG) as (qs & (l & p & HP & _) & _); exists l, p; exact HP).
  destruct (safe_setup c Hwf (vp start) ps HS) as [S1 S2]. pose proof (nf_setup c (vp start) ps) as S3. unfold nf in S3.
  destruct (setup c (vp start) ps) as [st| | |]; try congruence. now exists st.
Qed.
Lemma way_best L : way L -> exists A, best m blocked ps pe start goal A.
Proof using HU HP32.
  intro HW. destruct (way_links m blocked _ _ _ _ _ HW) as (A0 & HA0 & _). exact (best_exists m blocked ps pe start goal HU HP32 (ex_intro _ A0 HA0)).
Qed.
Lemma answers_promising lib A st k o : pop_ok (lpop lib) -> best m blocked ps pe start goal A -> promising m blocked start goal ps pe c st ->
  answers lib c st k o -> exists p, o = Some p /\ shortest_length p.
Proof using HM HI HU HP32 HMAX HG HF.
  intros Hpop HA HP H. induction H as [st st' p H|st st' H|st st' k o H _ IH];
    pose proof (next_promising m blocked start goal ps pe HM HI HG HF c eq_refl eq_refl eq_refl eq_refl HU HP32 HMAX lib A st st' _ Hpop HA HP H) as HN.
  - exists p. split; [reflexivity|]. destruct HN as (d & D1 & D2 & D3). exists d. split; [exact D1|]. split; [exact D2|]. intros L HL.
    destruct (way_links m blocked _ _ _ _ _ HL) as (B & HB & HBL). destruct HA as [[_ HA] _]. specialize (HA B HB). lra.
  - destruct HN.
  - now apply IH.
Qed.
Lemma setup_best A st : ps <> pe -> best m blocked ps pe start goal A -> setup c (vp start) ps = Ok st -> promising m blocked start goal ps pe c st.
Proof using HM HI HU HP32 HMAX HG HF. intros Hne HA H. exact (setup_promising m blocked start goal ps pe A st HM HI HG HF HU HP32 HMAX Hne HA H). Qed.
(** whatever the search answers, it is a shortest path, if there is a way *)
Lemma search_answer lib st k o L : pop_ok (lpop lib) -> ps <> pe -> way L -> setup c (vp start) ps = Ok st -> answers lib c st k o -> exists p, o = Some p /\ shortest_length p.
Proof using HM HI HU HP32 HMAX HG HF.
  intros Hpop Hne HL Hs Ha. destruct (way_best L HL) as (A & HA). eapply answers_promising; eauto using setup_best.
Qed.
(** and it does answer *)
Lemma search_answers lib L : pop_ok (lpop lib) -> at_border m blocked -> ps <> pe -> way L ->
  exists st k p, setup c (vp start) ps = Ok st /\ answers lib c st k (Some p) /\ shortest_length p.
Proof using HM Hwf HI Hreal HU HP32 HMAX HG HF.
  intros Hpop HB Hne HL. destruct setup_done as (st & Hs). destruct (way_best L HL) as (A & HA). pose proof (setup_best A st Hne HA Hs) as HP.
  destruct (search_finds m blocked start goal ps pe HM HI HG HF c eq_refl eq_refl eq_refl eq_refl HU HP32 HMAX HB Hwf (real_dists m Hreal) lib A st Hpop HA HP) as (k & p & Ha).
  exists st, k, p. split; [exact Hs|]. split; [exact Ha|]. destruct (answers_promising lib A st k (Some p) Hpop HA HP Ha) as (p' & E & Hp). assert (p' = p) by congruence. now subst p'.
Qed.
Lemma same_shortest : ps = pe -> shortest_length (mkPath (vdist (vp start) (vp goal)) [vp goal]).
Proof using HG.
  intro E. exists (dist start goal). cbn [plength]. split; [apply vdist_vp|]. split.
  - rewrite <- E. apply direct_shortest. rewrite E. rewrite E in HG. exact HG.
  - intros L HL. exact (way_straight _ _ _ _ _ _ _ HL).
Qed.
End Complete.

(** The future of get_path, polled often enough, answers with a path of the least length of all ways, if there is any way. *)
Theorem C64_future_finds_a_shortest_path (lib : Lib RA) m start goal ps pe L :
  pop_ok (lpop lib) -> mesh_wf m -> real_mesh m -> plane_mesh m -> u32_ids m -> (ps < 2^32)%N ->
  get_point_location (lbvh lib) m (coords_on_mesh (vp start)) = Ok ps -> ps <> MAX ->
  get_point_location (lbvh lib) m (coords_on_mesh (vp goal)) = Ok pe -> pe <> MAX -> async_islands_reject m ps pe = Ok false ->
  generic m start ps pe goal -> faultless m [] ps -> at_border m [] ->
  way m [] ps start pe goal L ->
  exists k log path d,
    poll_times k lib (get_path m (vp start) (vp goal)) = Ok (Some (Some path), log) /\
    plength path = Some d /\ way m [] ps start pe goal d /\ forall L', way m [] ps start pe goal L' -> d <= L'.
Proof.
  intros Hpop Hwf Hreal HM HU HP32 G1 N1 G2 N2 Hisl HG HF HB HL.
  assert (HP : poll lib (get_path m (vp start) (vp goal)) =
    if N.eqb ps pe then Ok (get_path m (vp start) (vp goal), false, Ready (Some (mkPath (vdist (vp start) (vp goal)) [vp goal])))
    else let* st := setup (mkCtx m (vp goal) pe []) (vp start) ps in Ok (mkFuture (vp start) (vp goal) m (Some (mkCtx m (vp goal) pe [], st)), true, Pending)).
  { unfold poll, get_path. cbn [finst ffrom fto fmesh]. rewrite G1. cbn [bind]. rewrite (proj2 (N.eqb_neq _ _) N1). rewrite G2. cbn [bind]. rewrite (proj2 (N.eqb_neq _ _) N2).
    rewrite Hisl. reflexivity. }
  destruct (N.eqb_spec ps pe) as [E|Hne].
  - destruct (same_shortest m [] start goal ps pe HG E) as (d & D1 & D2 & D3). exists 1%nat, [false]. eexists. exists d. cbn [poll_times]. rewrite HP. cbn [bind].
    split; [reflexivity|]. auto.
  - destruct (search_answers m [] start goal ps pe HM Hwf Hreal HU HP32 N2 HG HF lib L Hpop HB Hne HL) as (st & k & p & Hs & Ha & d & D1 & D2 & D3).
    rewrite Hs in HP. cbn [bind] in HP.
    destruct (proj2 (C26_result_is_first_outcome lib (mkFuture (vp start) (vp goal) m (Some (mkCtx m (vp goal) pe [], st))) _ st k (Some p) eq_refl)) as (log & Hl); [exists k; split; [lia|exact Ha]|].
    exists (S k), (true :: log), p, d. cbn [poll_times]. rewrite HP. cbn [bind]. rewrite Hl. cbn [bind fst snd]. auto.
Qed.

(** The future of get_path, polled often enough, always answers - also if the goal cannot be reached. *)
Theorem C64_future_always_answers (lib : Lib RA) m start goal ps pe :
  pop_ok (lpop lib) -> mesh_wf m -> real_mesh m -> plane_mesh m -> u32_ids m -> (ps < 2^32)%N ->
  get_point_location (lbvh lib) m (coords_on_mesh (vp start)) = Ok ps ->
  get_point_location (lbvh lib) m (coords_on_mesh (vp goal)) = Ok pe ->
  generic m start ps pe goal -> at_border m [] ->
  exists k o log, poll_times k lib (get_path m (vp start) (vp goal)) = Ok (Some o, log).
Proof.
  intros Hpop Hwf Hreal HM HU HP32 G1 G2 HG HB.
  assert (HLy : exists l, nthN (layers m) (id_layer ps) = Some l) by (destruct (ge_start _ _ _ _ _ HG) as (qs & (l & p & HP & _) & _); exists l; now destruct HP).
  destruct (N.eqb ps MAX) eqn:N1.
  { exists 1%nat, None, [false]. cbn [poll_times]. unfold poll, get_path. cbn [finst ffrom fto fmesh]. rewrite G1. cbn [bind]. rewrite N1. reflexivity. }
  destruct (N.eqb pe MAX) eqn:N2.
  { exists 1%nat, None, [false]. cbn [poll_times]. unfold poll, get_path. cbn [finst ffrom fto fmesh]. rewrite G1. cbn [bind]. rewrite N1, G2. cbn [bind]. rewrite N2. reflexivity. }
  assert (HR : exists b, async_islands_reject m ps pe = Ok b).
  { unfold async_islands_reject. destruct (N.eqb_spec (id_layer ps) (id_layer pe)) as [E|E]; [|now exists false]. destruct HLy as (l & Hl).
    rewrite (proj2 (index_Ok _ _ _) Hl). cbn [bind]. eexists. reflexivity. }
  destruct HR as (rej & Hrej).
  assert (HP : poll lib (get_path m (vp start) (vp goal)) =
    if rej then Ok (get_path m (vp start) (vp goal), false, Ready None)
    else if N.eqb ps pe then Ok (get_path m (vp start) (vp goal), false, Ready (Some (mkPath (vdist (vp start) (vp goal)) [vp goal])))
    else let* st := setup (mkCtx m (vp goal) pe []) (vp start) ps in Ok (mkFuture (vp start) (vp goal) m (Some (mkCtx m (vp goal) pe [], st)), true, Pending)).
  { unfold poll, get_path. cbn [finst ffrom fto fmesh]. rewrite G1. cbn [bind]. rewrite N1. rewrite G2. cbn [bind]. rewrite N2. rewrite Hrej. reflexivity. }
  destruct rej; [exists 1%nat, None, [false]; cbn [poll_times]; rewrite HP; reflexivity|].
  destruct (N.eqb ps pe); [exists 1%nat; eexists; exists [false]; cbn [poll_times]; rewrite HP; reflexivity|].
  apply N.eqb_neq in N2. destruct (setup_done m [] start goal ps pe Hwf Hreal HG) as (st & Hs). rewrite Hs in HP. cbn [bind] in HP.
  destruct (search_ends m [] start goal ps pe HM (proj2 Hwf) HG (mkCtx m (vp goal) pe []) eq_refl eq_refl eq_refl eq_refl HU HP32 N2 HB Hwf (real_dists m Hreal) lib st Hpop Hs) as (k & o & Ha).
  destruct (proj2 (C26_result_is_first_outcome lib (mkFuture (vp start) (vp goal) m (Some (mkCtx m (vp goal) pe [], st))) _ st k o eq_refl)) as (log & Hl); [exists k; split; [lia|exact Ha]|].
  exists (S k), o, (true :: log). cbn [poll_times]. rewrite HP. cbn [bind]. rewrite Hl. reflexivity.
Qed.

(** If the future answers "no path" between two located points (and not because of the islands), there is no way. *)
Theorem C64_no_path_means_no_way (lib : Lib RA) m start goal ps pe k log :
  pop_ok (lpop lib) -> mesh_wf m -> real_mesh m -> plane_mesh m -> u32_ids m -> (ps < 2^32)%N ->
  get_point_location (lbvh lib) m (coords_on_mesh (vp start)) = Ok ps -> ps <> MAX ->
  get_point_location (lbvh lib) m (coords_on_mesh (vp goal)) = Ok pe -> pe <> MAX -> async_islands_reject m ps pe = Ok false ->
  generic m start ps pe goal -> faultless m [] ps ->
  poll_times k lib (get_path m (vp start) (vp goal)) = Ok (Some None, log) ->
  forall L, ~ way m [] ps start pe goal L.
Proof.
  intros Hpop Hwf Hreal HM HU HP32 G1 N1 G2 N2 Hisl HG HF H L HL.
  assert (HP : poll lib (get_path m (vp start) (vp goal)) =
    if N.eqb ps pe then Ok (get_path m (vp start) (vp goal), false, Ready (Some (mkPath (vdist (vp start) (vp goal)) [vp goal])))
    else let* st := setup (mkCtx m (vp goal) pe []) (vp start) ps in Ok (mkFuture (vp start) (vp goal) m (Some (mkCtx m (vp goal) pe [], st)), true, Pending)).
  { unfold poll, get_path. cbn [finst ffrom fto fmesh]. rewrite G1. cbn [bind]. rewrite (proj2 (N.eqb_neq _ _) N1). rewrite G2. cbn [bind]. rewrite (proj2 (N.eqb_neq _ _) N2).
    rewrite Hisl. reflexivity. }
  destruct k as [|k]; [discriminate|]. cbn [poll_times] in H. rewrite HP in H. clear HP.
  destruct (N.eqb_spec ps pe) as [E|Hne]; [cbn [bind] in H; discriminate|].
  destruct (setup_done m [] start goal ps pe Hwf Hreal HG) as (st & Hs). rewrite Hs in H. cbn [bind] in H. inv_bind H. destruct a as [o log']. cbn [fst snd] in H. assert (o = Some None) by congruence. subst o.
  destruct (proj1 (C26_result_is_first_outcome lib (mkFuture (vp start) (vp goal) m (Some (mkCtx m (vp goal) pe [], st))) _ st k None eq_refl) (ex_intro _ log' E)) as (n & _ & Ha).
  destruct (search_answer m [] start goal ps pe HM Hwf HU HP32 N2 HG HF lib st n None L Hpop Hne HL Hs Ha) as (p & Ep & _). discriminate.
Qed.

(** Together: the future answers, with a path of the least length of all ways or, if there is no way, with "no path". *)
Corollary C64_future_decides (lib : Lib RA) m start goal ps pe :
  pop_ok (lpop lib) -> mesh_wf m -> real_mesh m -> plane_mesh m -> u32_ids m -> (ps < 2^32)%N ->
  get_point_location (lbvh lib) m (coords_on_mesh (vp start)) = Ok ps -> ps <> MAX ->
  get_point_location (lbvh lib) m (coords_on_mesh (vp goal)) = Ok pe -> pe <> MAX -> async_islands_reject m ps pe = Ok false ->
  generic m start ps pe goal -> faultless m [] ps -> at_border m [] ->
  exists k log,
    (exists path d, poll_times k lib (get_path m (vp start) (vp goal)) = Ok (Some (Some path), log) /\
       plength path = Some d /\ way m [] ps start pe goal d /\ forall L, way m [] ps start pe goal L -> d <= L) \/
    (poll_times k lib (get_path m (vp start) (vp goal)) = Ok (Some None, log) /\ forall L, ~ way m [] ps start pe goal L).
Proof.
  intros Hpop Hwf Hreal HM HU HP32 G1 N1 G2 N2 Hisl HG HF HB.
  destruct (classic (exists L, way m [] ps start pe goal L)) as [(L & HL)|HN].
  - destruct (C64_future_finds_a_shortest_path lib m start goal ps pe L Hpop Hwf Hreal HM HU HP32 G1 N1 G2 N2 Hisl HG HF HB HL) as (k & log & path & d & H1 & H2). exists k, log. left. exists path, d. auto.
  - destruct (C64_future_always_answers lib m start goal ps pe Hpop Hwf Hreal HM HU HP32 G1 G2 HG HB) as (k & o & log & H). exists k, log. right.
    assert (HNW : forall L, ~ way m [] ps start pe goal L) by (intros L HL; apply HN; now exists L). split; [|exact HNW]. destruct o as [path|]; [exfalso|exact H].
    (* a path found is a way *)
    destruct k as [|k]; [discriminate|]. cbn [poll_times] in H. unfold poll, get_path in H. cbn [finst ffrom fto fmesh] in H. rewrite G1 in H. cbn [bind] in H. rewrite (proj2 (N.eqb_neq _ _) N1) in H.
    rewrite G2 in H. cbn [bind] in H. rewrite (proj2 (N.eqb_neq _ _) N2) in H. rewrite Hisl in H. cbn [bind] in H.
    destruct (N.eqb_spec ps pe) as [E|Hne].
    + destruct (same_shortest m [] start goal ps pe HG E) as (d & _ & HW & _). exact (HNW d HW).
    + destruct (setup_done m [] start goal ps pe Hwf Hreal HG) as (st & Hs). rewrite Hs in H. cbn [bind] in H. inv_bind H. destruct a as [o log']. cbn [fst snd] in H. assert (o = Some (Some path)) by congruence. subst o.
      destruct (proj1 (C26_result_is_first_outcome lib (mkFuture (vp start) (vp goal) m (Some (mkCtx m (vp goal) pe [], st))) _ st k (Some path) eq_refl) (ex_intro _ log' E)) as (n & _ & Ha).
      pose proof (run_answers lib _ st n (Some path) Ha n) as HR. rewrite Nat.leb_refl in HR.
      destruct (search_found lib _ _ _ _ _ _ (pop_ok_perm _ Hpop) Hs HR) as (nn & Hrn & Hto & _). cbn [cpto] in Hto.
      destruct (final_way m [] start goal ps pe HM (proj2 Hwf) HG (mkCtx m (vp goal) pe []) eq_refl eq_refl eq_refl eq_refl HU HP32 N2 nn Hrn Hto) as (d & _ & HW). exact (HNW d HW).
Qed.

(** If path answers "no path" although both ends are located, the islands do not separate them and there is a way, then the search
    would find a shortest path, but only after more than ten steps per polygon: the step limit is the only reason. *)
Theorem C64_only_the_step_limit (lib : Lib RA) m from to blocked start goal ps pe L :
  pop_ok (lpop lib) -> mesh_small m -> mesh_wf m -> real_mesh m -> plane_mesh m -> u32_ids m -> (ps < 2^32)%N ->
  cpos from = vp start -> cpos to = vp goal -> located lib m from ps -> located lib m to pe -> islands_reject m ps pe = Ok false ->
  generic m start ps pe goal -> faultless m blocked ps -> at_border m blocked ->
  way m blocked ps start pe goal L ->
  (exists path, path_on_layers lib m from to blocked = Ok (Some path)) \/
  (path_on_layers lib m from to blocked = Ok None /\
   exists st k path d, setup (mkCtx m (vp goal) pe blocked) (vp start) ps = Ok st /\ answers lib (mkCtx m (vp goal) pe blocked) st k (Some path) /\
     (count_polygons m * 10 < k)%nat /\
     plength path = Some d /\ way m blocked ps start pe goal d /\ forall L', way m blocked ps start pe goal L' -> d <= L').
Proof.
  intros Hpop Hsm Hwf Hreal HM HU HP32 Es Eg H1 H2 Hisl HG HF HB HL. pose proof (located_not_MAX lib m to pe Hsm H2) as HpM.
  unfold path_on_layers. rewrite (proj2 (locate_end_located lib m from ps) H1). cbn [bind]. rewrite (proj2 (locate_end_located lib m to pe) H2). cbn [bind]. rewrite Hisl. cbn [bind].
  destruct (N.eqb_spec ps pe) as [E|Hne]; [left; eexists; reflexivity|]. rewrite Es, Eg.
  destruct (search_answers m blocked start goal ps pe HM Hwf Hreal HU HP32 HpM HG HF lib L Hpop HB Hne HL) as (st & k & p & Hs & Ha & d & D1 & D2 & D3).
  rewrite Hs. cbn [bind]. rewrite (run_answers lib _ st k (Some p) Ha (count_polygons m * 10)).
  destruct (Nat.leb_spec k (count_polygons m * 10)) as [Hk|Hk]; [left; now exists p|]. right. split; [reflexivity|]. exists st, k, p, d. auto 10.
Qed.
Print Assumptions C64_future_finds_a_shortest_path.
Print Assumptions C64_future_always_answers.
Print Assumptions C64_no_path_means_no_way.
Print Assumptions C64_future_decides.
Print Assumptions C64_only_the_step_limit.
