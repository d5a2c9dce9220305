(** C82: what the future of get_path answers is a proper path, with the guarantees of path: its turns, its length, its place in the plane,
    its numbers in binary32.  The future stops after no number of steps, so these do not follow from the theorems about path. *)
From Coq Require Import List NArith ZArith Bool Reals Lra Lia.
From Coq.Floats Require Import SpecFloat.
From Verif Require Import Base Arith RealArith F32 Spec_f32 F32_real U32 Mesh Helpers Locate Bake Search AsyncPath StdLib Spec Locate_facts Search_facts Search_cost Search_hist F32_facts Geometry Heuristic
  Properties_geometry Properties_search Properties_async Properties_heuristic Length32 Reach32 End32 Properties_length32 Triangulation Spec_triangulation Spec_outline Spec_free Inflate_facts
  Spec_inside Spec_shortest Spec_area Sight_static Properties_inside Properties_triangulation Properties_inflate Capsule Properties_free Search_props.
Import ListNotations.

Section Future.
Context {A : Arith}.

(** The place the future looks for the ends of the way: the polygon of a point, which is not "outside". *)
Definition future_at (lib : Lib A) m (p : vec2 A) (id : N) : Prop := get_point_location (lbvh lib) m (coords_on_mesh p) = Ok id /\ id <> MAX.
Lemma future_at_fun lib m p i j : future_at lib m p i -> future_at lib m p j -> i = j.
Proof. intros [H _] [G _]. congruence. Qed.

Lemma future_node lib m (from to : vec2 A) k p log : pop_perm (lpop lib) ->
  poll_times k lib (get_path m from to) = Ok (Some (Some p), log) ->
  exists ps pe, future_at lib m from ps /\ future_at lib m to pe /\
   ((ps = pe /\ p = mkPath (vdist from to) [to]) \/
    (ps <> pe /\ exists n, reachable (mkCtx m to pe []) from ps n /\ nto n = pe /\ p = final_path (mkCtx m to pe []) n)).
Proof.
  intros Hpop H. destruct k as [|k]; [discriminate|]. cbn [poll_times] in H. inv_bind H.
  unfold poll, get_path in E. cbn [finst ffrom fto fmesh] in E. inv_bind E. rename a0 into ps.
  destruct (N.eqb_spec ps MAX); [inversion E; subst; discriminate|].
  inv_bind E. rename a0 into pe. destruct (N.eqb_spec pe MAX); [inversion E; subst; discriminate|].
  exists ps, pe. split; [split; assumption|]. split; [split; assumption|].
  inv_bind E. destruct a0; [inversion E; subst; discriminate|].
  destruct (N.eqb_spec ps pe).
  - left. split; [assumption|]. inversion E; subst. congruence.
  - right. split; [assumption|]. inv_bind E. inversion E; subst. inv_bind H.
    destruct a as [r lg]. cbn [fst snd] in H. inversion H; subst.
    destruct (setup_all (mkCtx m to pe []) from ps a0 (reachable (mkCtx m to pe []) from ps)) as [Ha Hb].
    { intros n2 Hn2. exists []. now constructor. }
    { exact E3. }
    apply (poll_times_found lib (mkFuture from to m (Some (mkCtx m to pe [], a0))) _ (mkCtx m to pe []) a0 k p lg Hpop); [|reflexivity|exact Ha|exact Hb|exact E4].
    intros x y [hs Hx] Hy. exact (ex_intro _ _ (reach_step _ _ _ _ _ _ Hx Hy)).
Qed.

(** C82: the path only turns at corners of crossed edges; the chain is one of the mesh. *)
Theorem C82_turns_at_corners lib m (from to : vec2 A) k p log ps pe : nan_sane A -> pop_perm (lpop lib) ->
  future_at lib m from ps -> future_at lib m to pe -> poll_times k lib (get_path m from to) = Ok (Some (Some p), log) ->
  (ps = pe /\ p = mkPath (vdist from to) [to]) \/
  (ps <> pe /\ exists xs x turns last_turn, corridor m ps (xs ++ [x]) pe /\ turns_along m [] xs turns /\
    ppath p = turns ++ last_turn ++ [to] /\ (last_turn = [] \/ exists t, last_turn = [t] /\ crossing_point m x t)).
Proof.
  intros Hn Hp [G1 N1] [G2 N2] H. destruct (get_path_supported lib m from to k p log Hn Hp H) as (ps' & pe' & H1 & _ & H2 & _ & H3).
  assert (ps' = ps) by congruence. assert (pe' = pe) by congruence. subst. exact H3.
Qed.

(** C82: the reported length is the length walked to the last corner plus the final estimate. *)
Theorem C82_reported_length lib m (from to : vec2 A) k p log ps pe : veq_ok A -> pop_perm (lpop lib) ->
  future_at lib m from ps -> future_at lib m to pe -> ps <> pe -> poll_times k lib (get_path m from to) = Ok (Some (Some p), log) ->
  exists n turns root i,
    (reachable (mkCtx m to pe []) from ps n /\ nto n = pe /\ npath n = turns /\ nroot n = root /\ ninterval n = i) /\
    plength p = fadd (polyline_length from turns) (heuristic root to i) /\
    (forall q, vdist root q = vdist (last turns from) q) /\
    ppath p = turns ++ match turning_point root to i with Some t => [t] | None => [] end ++ [to].
Proof.
  intros Hv Hp G1 G2 Hne H. destruct (future_node lib m from to k p log Hp H) as (ps' & pe' & H1 & H2 & H3).
  assert (ps' = ps) by (eapply future_at_fun; eauto). assert (pe' = pe) by (eapply future_at_fun; eauto). subst ps' pe'.
  destruct H3 as [[? _]|(_ & n & Hr & Hto & ->)]; [contradiction|].
  destruct (reachable_cost _ _ _ _ Hv Hr) as [Hc Hl]. exists n, (npath n), (nroot n), (ninterval n). split; [auto|]. split; [|split; [exact Hl|]].
  - unfold final_path. cbn [plength]. unfold node_f. rewrite Hc, (reachable_h _ _ _ _ Hr). reflexivity.
  - unfold final_path. cbn [ppath cgoal]. destruct (turning_point _ _ _); [now rewrite <- app_assoc|reflexivity].
Qed.

(** C82: when the future answers with a path, no node left in the queue has a smaller estimate. *)
Theorem C82_best lib m (from to : vec2 A) k p log ps pe : total_ok A -> pop_ok (lpop lib) ->
  future_at lib m from ps -> future_at lib m to pe -> ps <> pe -> poll_times k lib (get_path m from to) = Ok (Some (Some p), log) ->
  exists st st', search_state lib (mkCtx m to pe []) from ps st /\ next lib (mkCtx m to pe []) st = Ok (st', Found p) /\
    forall n, In n (squeue st') -> ftotal (plength p) (node_f n) <> Gt.
Proof.
  intros Ht Hp [G1 N1] [G2 N2] Hne H. destruct k as [|k]; [discriminate|]. cbn [poll_times] in H.
  unfold poll, get_path in H. cbn [finst ffrom fto fmesh] in H. rewrite G1 in H. cbn [bind] in H. rewrite (proj2 (N.eqb_neq _ _) N1) in H.
  rewrite G2 in H. cbn [bind] in H. rewrite (proj2 (N.eqb_neq _ _) N2) in H.
  destruct (async_islands_reject m ps pe) as [[|]| | |]; cbn [bind] in H; try discriminate.
  rewrite (proj2 (N.eqb_neq _ _) Hne) in H. destruct (setup (mkCtx m to pe []) from ps) as [st| | |] eqn:ES; cbn [bind] in H; try discriminate.
  inv_bind H. destruct a as [o lg]. cbn [fst snd] in H. inversion H; subst. clear H.
  destruct (proj1 (C26_result_is_first_outcome lib (mkFuture from to m (Some (mkCtx m to pe [], st))) _ st k (Some p) eq_refl)) as (n & _ & Ha); [eauto|].
  assert (HS : search_state lib (mkCtx m to pe []) from ps st) by now constructor.
  assert (K : forall st n o, answers lib (mkCtx m to pe []) st n o -> o = Some p -> search_state lib (mkCtx m to pe []) from ps st ->
    exists st st', search_state lib (mkCtx m to pe []) from ps st /\ next lib (mkCtx m to pe []) st = Ok (st', Found p) /\ forall n, In n (squeue st') -> ftotal (plength p) (node_f n) <> Gt);
    [|exact (K st n _ Ha eq_refl HS)].
  clear st n ES E HS Ha. intros st n o Ha. induction Ha as [st st' p' Hx|st st' Hx|st st' n o Hx Ha IH]; intros Eo HS.
  - injection Eo as ->. exists st, st'. split; [exact HS|]. split; [exact Hx|]. eapply next_found_best; eauto.
  - discriminate.
  - apply IH; [exact Eo|]. eapply ss_next; [exact HS|exact Hx].
Qed.
End Future.

(** ** In exact arithmetic *)
Open Scope R_scope.
(** C82: the reported length is the length of the reported polyline, under the conditions of C14. *)
Theorem C82_exact_length (lib : Lib RA) m k p log ps pe a b : pop_perm (lpop lib) -> real_mesh m ->
  future_at lib m (vp a) ps -> future_at lib m (vp b) pe -> ps <> pe -> poll_times k lib (get_path m (vp a) (vp b)) = Ok (Some (Some p), log) ->
  exists turns i0 i1, i0 <> i1 /\
    (exists n, reachable (mkCtx m (vp b) pe []) (vp a) ps n /\ nto n = pe /\
      npath n = map vp turns /\ nroot n = vp (last turns a) /\ ninterval n = (vp i0, vp i1)) /\
    ppath p = map vp turns ++ match turning_point (vp (last turns a)) (vp b) (vp i0, vp i1) with Some t => [t] | None => [] end ++ [vp b] /\
    (let root := last turns a in
     root = i0 \/ root = i1 \/ eps <= orient i0 i1 root -> orient i0 i1 b <= - eps ->
     clear_of root i0 b -> clear_of root i1 b ->
     plength p = polyline_length (vp a) (ppath p)).
Proof.
  intros Hp Hm G1 G2 Hne H. destruct (future_node lib m _ _ k p log Hp H) as (ps' & pe' & H1 & H2 & H3).
  assert (ps' = ps) by (eapply future_at_fun; eauto). assert (pe' = pe) by (eapply future_at_fun; eauto). subst ps' pe'.
  destruct H3 as [[? _]|(_ & n & Hr & Hto & ->)]; [contradiction|].
  exact (node_exact_length m ps pe [] n a b Hm (proj2 G2) Hr Hto).
Qed.
(** C82: the path is not shorter than the straight line, but for the tolerance of 1e-4 (C15). *)
Theorem C82_not_shorter_than_straight_line (lib : Lib RA) m k p log a b : pop_perm (lpop lib) -> real_mesh m ->
  poll_times k lib (get_path m (vp a) (vp b)) = Ok (Some (Some p), log) ->
  exists len, plength p = Some len /\
    (dist a b <= len \/
     exists turns i0 i1, ppath p = map vp turns ++ match turning_point (vp (last turns a)) (vp b) (vp i0, vp i1) with Some t => [t] | None => [] end ++ [vp b] /\
       i0 <> i1 /\ - eps < orient i0 i1 (last turns a) < eps /\ - eps < orient i0 i1 b < eps /\
       orient i0 i1 (last turns a) * orient i0 i1 b < 0 /\ dist a b <= len + 2 * eps / dist i0 i1).
Proof.
  intros Hp Hm H. destruct (future_node lib m _ _ k p log Hp H) as (ps & pe & H1 & H2 & [[_ ->]|(_ & n & Hr & Hto & ->)]).
  { cbn [plength]. rewrite vdist_vp. eexists. split; [reflexivity|]. left. lra. }
  exact (node_not_shorter m ps pe [] n a b Hm (proj2 H2) Hr Hto).
Qed.
(** C82: in general position, the path goes through the polygons of a chain and never leaves them. *)
Theorem C82_walks_through_chain (lib : Lib RA) m k path log start goal ps pe :
  pop_perm (lpop lib) -> plane_mesh m -> u32_ids m -> (ps < 2^32)%N ->
  future_at lib m (vp start) ps -> future_at lib m (vp goal) pe ->
  (exists qs, corners m ps qs /\ inside qs start) -> steady m start -> steady_goal m start pe goal ->
  poll_times k lib (get_path m (vp start) (vp goal)) = Ok (Some (Some path), log) ->
  exists pts xs, ppath path = map vp pts /\ corridor m ps xs pe /\ walks m start pts (ps :: map cr_to xs).
Proof.
  intros Hp HM HU HP32 G1 G2 HS HSt HSg H. destruct (future_node lib m _ _ k path log Hp H) as (ps' & pe' & H1 & H2 & H3).
  assert (ps' = ps) by (eapply future_at_fun; eauto). assert (pe' = pe) by (eapply future_at_fun; eauto). subst ps' pe'.
  destruct (steady_clear m [] start goal ps pe HM HU HP32 (proj2 G2) HS HSt HSg) as (HG & HC & HCg).
  destruct H3 as [[-> ->]|(_ & n & Hr & Hto & ->)].
  - destruct (same_walks m [] start goal pe HS HG) as (pts & xs & E1 & E2 & E3 & _). exists pts, xs. auto.
  - destruct (node_walks m [] start goal ps pe n HM HU HP32 (proj2 G2) HS HG HC HCg Hr Hto) as (pts & xs & E1 & E2 & E3 & _). exists pts, xs. auto.
Qed.
(** C82: on a triangulated mesh, it keeps the radius of the agent from every obstacle (C76). *)
Theorem C82_keeps_distance (lib : TriLib RA) t0 cs t c m (d p : R) (n : N) (a0 a1 : P2) (rest : list P2) (plib : Lib RA) k path log start goal ps pe :
  built lib t0 cs t c m -> agent_radius t0 = RObstacles (rr d) n (rr p) \/ agent_radius t0 = REverything (rr d) n (rr p) ->
  1 / 100000 < d -> (3 <= n)%N -> real_trig lib -> union_ok lib -> simplify_keeps lib p ->
  In (map vp (a0 :: a1 :: rest)) (Spec_triangulation.added cs) -> (rest = [] -> a0 <> a1) ->
  (forall r, outline lib (agent_radius t0) (map vp (a0 :: a1 :: rest)) (map vp r) -> finds_enclosed lib r) ->
  pop_perm (lpop plib) -> plane_mesh m -> u32_ids m -> (ps < 2 ^ 32)%N ->
  future_at plib m (vp start) ps -> future_at plib m (vp goal) pe ->
  (exists qs, corners m ps qs /\ inside qs start) -> steady m start -> steady_goal m start pe goal ->
  poll_times k plib (get_path m (vp start) (vp goal)) = Ok (Some (Some path), log) ->
  exists pts, ppath path = map vp pts /\
    polyline_in (fun x => forall a b k, In (a, b) (pairs (a0 :: a1 :: rest ++ [a0])) -> 0 <= k <= 1 -> d * cos (PI / (2 * IZR (Z.of_N (arc_count n)))) <= dist x (lerp a b k)) start pts.
Proof.
  intros HB HA Hd Hn HT HU HS Ho HD HJ H1 H3 H4 H5 H8 H9 H10 H11 H12 H.
  destruct (C82_walks_through_chain plib m k path log start goal ps pe H1 H3 H4 H5 H8 H9 H10 H11 H12 H) as (pts & xs & E & _ & HW). exists pts. split; [exact E|].
  apply (polyline_weaken _ _ (C76_area_keeps_distance lib t0 cs t c m d p n a0 a1 rest HB HA Hd Hn HT HU HS Ho HD HJ)).
  exact (walks_covered m start ps pts _ H10 HW).
Qed.

(** ** In binary32 *)
Section F32.
Context {sn cs ac : spec_float -> spec_float}.
Notation A := (F32with sn cs ac).
(** C82: every point of the path is a pair of finite numbers and the last one is the destination. *)
Theorem C82_points_are_finite (lib : Lib A) m (from to : vec2 A) k p log a b :
  pop_perm (lpop lib) -> mesh32 m -> at32 from a -> at32 to b -> poll_times k lib (get_path m from to) = Ok (Some (Some p), log) ->
  exists pts, Forall2 at32 (ppath p) (pts ++ [b]) /\ Forall (within 1125899906842624) pts.
Proof.
  intros Hp Hm Ha Hb H. destruct (future_node lib m _ _ k p log Hp H) as (ps & pe & H1 & H2 & [[_ ->]|(_ & n & Hr & Hto & ->)]).
  { exists []. cbn. auto. }
  exact (node_points32 m from to ps pe [] n a b Hm (proj2 H2) Ha Hb Hr Hto).
Qed.
(** C82: the reported length is that of the reported polyline, up to the rounding error of C74. *)
Theorem C82_length_in_binary32 (lib : Lib A) m (from to : vec2 A) k p log ps pe a b :
  pop_perm (lpop lib) -> mesh32 m -> at32 from a -> at32 to b -> within 1125899906842624 a -> within 1125899906842624 b ->
  future_at lib m from ps -> future_at lib m to pe -> ps <> pe -> poll_times k lib (get_path m from to) = Ok (Some (Some p), log) -> INR (length (ppath p)) <= 4194300 ->
  exists n turns i0 i1 pts,
    (reachable (mkCtx m to pe []) from ps n /\ nto n = pe /\ Forall2 at32 (npath n) turns /\
     at32 (fst (ninterval n)) i0 /\ at32 (snd (ninterval n)) i1) /\
    Forall2 at32 (ppath p) pts /\
    (clear_end (last turns a) i0 i1 b ->
     exists len, num (plength p) len /\ Rabs (len - walked a pts) <= length_error (length pts) (walked a pts)).
Proof.
  intros Hp Hm Ha Hb Wa Wb G1 G2 Hne H Hl. destruct (future_node lib m _ _ k p log Hp H) as (ps' & pe' & H1 & H2 & H3).
  assert (ps' = ps) by (eapply future_at_fun; eauto). assert (pe' = pe) by (eapply future_at_fun; eauto). subst ps' pe'.
  destruct H3 as [[? _]|(_ & n & Hr & Hto & ->)]; [contradiction|].
  exact (node_length32 m from to ps pe [] n a b Hm (proj2 G2) Ha Hb Wa Wb Hr Hto Hl).
Qed.
End F32.
