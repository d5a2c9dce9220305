(** Theorems in exact arithmetic about lengths: C14 (exact part), C15 (never shorter than the straight line), C16 (the
    heuristic never overestimates). *)
From Coq Require Import List NArith ZArith Bool Reals Lra Psatz Lia.
From Verif Require Import Base Arith RealArith U32 Mesh Helpers Locate Bake Search StdLib Spec Locate_facts Closest_facts
  Search_facts Search_props Search_cost Geometry Heuristic F32_facts Properties_geometry.
Import ListNotations.
Open Scope R_scope.

(** ** C16 *)
(** [root] and [goal] each exactly on the line of the interval or outside of the tolerance of 1e-4 (twice the area of the
    triangle): the heuristic is at most the length of every way from the root to the goal through a point of the interval. *)
Theorem C16_admissible (root goal i0 i1 : P2) : i0 <> i1 -> clear_of i0 i1 root -> clear_of i0 i1 goal ->
  exists h, heuristic (vp root) (vp goal) (vp i0, vp i1) = Some h /\
    forall t, 0 <= t <= 1 -> h <= dist root (lerp i0 i1 t) + dist (lerp i0 i1 t) goal.
Proof.
  intros H Hr Hg. eexists. split; [now apply heuristic_vp|]. intros t Ht.
  rewrite <- (mgoal_on_line root goal i0 i1 (lerp i0 i1 t) H (orient_lerp _ _ _)).
  apply hval_le; [assumption|]. now apply mgoal_opposite.
Qed.
(** and it is the length of one of them, unless root and goal are both on the line of the interval *)
Theorem C16_attained (root goal i0 i1 : P2) : i0 <> i1 -> clear_of i0 i1 root -> clear_of i0 i1 goal ->
  orient i0 i1 root <> 0 \/ orient i0 i1 goal <> 0 ->
  exists t, 0 <= t <= 1 /\
    heuristic (vp root) (vp goal) (vp i0, vp i1) = Some (dist root (lerp i0 i1 t) + dist (lerp i0 i1 t) goal).
Proof.
  intros H Hr Hg Hn. rewrite heuristic_vp by assumption.
  destruct (hval_attained root (mgoal root goal i0 i1) i0 i1) as (t & Ht & E); [now apply mgoal_opposite| |].
  - destruct Hn as [Hn|Hn]; [now left|right]. unfold mgoal. destruct (side_eqb _ _); [rewrite orient_reflect by assumption; lra|assumption].
  - exists t. split; [assumption|]. f_equal. rewrite E. now rewrite (mgoal_on_line root goal i0 i1 (lerp i0 i1 t) H (orient_lerp _ _ _)).
Qed.
Example C16_example : P 0 0 <> P 0 1 /\ clear_of (P 0 0) (P 0 1) (P (-1) 0) /\ clear_of (P 0 0) (P 0 1) (P 1 5) /\
  orient (P 0 0) (P 0 1) (P (-1) 0) <> 0.
Proof.
  split; [intro E; injection E; lra|]. unfold clear_of, orient, cross, psub, eps. cbn [px py].
  split; [right|split; [right|]]; [rewrite Rabs_right; lra|rewrite Rabs_left; lra|lra].
Qed.

(** Inside of the tolerance it can overestimate: root (1/2, 1/20000) and goal (10, 1/2000) and the interval from (0,0) to
    (1,0).  The way through (1,0) is shorter than the heuristic by more than 0.9. *)
Lemma dist_le a b d : 0 <= d -> pdot (psub a b) (psub a b) <= d * d -> dist a b <= d.
Proof.
  intros Hd H. apply Rsqr_incr_0_var; [|assumption]. unfold Rsqr, dist. rewrite plen_sqr. assumption.
Qed.
Lemma dist_ge a b d : d * d <= pdot (psub a b) (psub a b) -> d <= dist a b.
Proof.
  intros H. apply Rsqr_incr_0_var; [|apply dist_nonneg]. unfold Rsqr, dist. rewrite plen_sqr. assumption.
Qed.
Theorem C16_in_tolerance_refuted : exists root goal i0 i1 h t,
  i0 <> i1 /\ heuristic (vp root) (vp goal) (vp i0, vp i1) = Some h /\ 0 <= t <= 1 /\
  dist root (lerp i0 i1 t) + dist (lerp i0 i1 t) goal + 9/10 < h.
Proof.
  exists (P (1/2) (1/20000)), (P 10 (1/2000)), (P 0 0), (P 1 0).
  assert (Hne : P 0 0 <> P 1 0) by (intro E; injection E; lra).
  rewrite heuristic_vp by assumption. eexists _, 1. split; [assumption|]. split; [reflexivity|]. split; [lra|].
  assert (EM : mgoal (P (1/2) (1/20000)) (P 10 (1/2000)) (P 0 0) (P 1 0) = P 10 (1/2000)).
  { unfold mgoal. assert (side (vp (P (1/2) (1/20000))) (vp (P 0 0), vp (P 1 0)) = SEdge) as ->.
    { apply side_edge. unfold orient, cross, psub, eps. cbn [px py]. lra. }
    assert (side (vp (P 10 (1/2000))) (vp (P 0 0), vp (P 1 0)) = SLeft) as ->; [|reflexivity].
    apply side_left. unfold orient, cross, psub, eps. cbn [px py]. lra. }
  rewrite EM. rewrite lerp_1. unfold hval.
  destruct (P2_dec _ _) as [E|_]; [exfalso; injection E; lra|]. destruct (P2_dec _ _) as [E|_]; [exfalso; injection E; lra|].
  destruct (Req_EM_T _ _) as [E|_]; [exfalso; unfold orient, cross, psub in E; cbn [px py] in E; lra|]. cbv zeta.
  assert (EI : itime (P (1/2) (1/20000)) (P 10 (1/2000)) (P 0 0) (P 1 0) = - (5/9)).
  { unfold itime, cross, psub. cbn [px py]. field. }
  rewrite EI. destruct (Rlt_dec _ 0) as [_|F]; [|exfalso; lra].
  assert (dist (P (1/2) (1/20000)) (P 1 0) <= 51/100) by (apply dist_le; [lra|]; unfold psub, pdot; cbn [px py]; lra).
  assert (dist (P 1 0) (P 10 (1/2000)) <= 901/100) by (apply dist_le; [lra|]; unfold psub, pdot; cbn [px py]; lra).
  assert (1/2 <= dist (P (1/2) (1/20000)) (P 0 0)) by (apply dist_ge; unfold psub, pdot; cbn [px py]; lra).
  assert (999/100 <= dist (P 0 0) (P 10 (1/2000))) by (apply dist_ge; unfold psub, pdot; cbn [px py]; lra).
  lra.
Qed.

(** ** All that the search handles is real *)
Definition node_real (n : Node RA) : Prop :=
  (exists r, nroot n = vp r) /\ (exists i0 i1, ninterval n = (vp i0, vp i1)) /\ (forall q, In q (npath n) -> exists z, q = vp z).
Lemma reachable_real (c : Ctx RA) (start : vec2 RA) ps n s0 :
  real_mesh (cmesh c) -> cpto c <> MAX -> start = vp s0 -> reachable c start ps n -> node_real n.
Proof.
  intros Hm Hp -> Hr.
  assert (HI : forall n, reachable c (vp s0) ps n -> exists i0 i1, ninterval n = (vp i0, vp i1)).
  { intros n1 H1. destruct (C48_intervals_on_edges c (vp s0) ps n1 RA_nan_sane Hm Hp H1) as (l & p & va & vb & a & b & t0 & t1 & H).
    destruct H as (_ & _ & _ & _ & _ & _ & -> & _). eauto. }
  destruct Hr as [h Hh]. remember (n :: h) as hh eqn:E. revert n h E.
  induction Hh as [n0 H0|n0 n1 h0 Hr IH Hg]; intros n h E; inversion E; subst.
  - assert (HR : reachable c (vp s0) ps n) by (exists []; now constructor). split; [|split; [now apply HI|]].
    + destruct H0 as (l & p & a & b & sv & ev & _ & _ & _ & _ & _ & _ & -> & _). cbn [nroot new_node]. eauto.
    + destruct H0 as (l & p & a & b & sv & ev & _ & _ & _ & _ & _ & _ & -> & _). cbn [npath new_node empty_node nroot].
      destruct (negb _); [|intros ? []]. intros q [<-|[]]. eauto.
  - assert (HR : reachable c (vp s0) ps n) by (exists (n0 :: h0); econstructor; eauto).
    destruct (IH n0 h0 eq_refl) as ([r0 R0] & (j0 & j1 & J) & HP).
    destruct Hg as (s & root & l & ss & sv & ev & _ & _ & _ & _ & _ & _ & _ & _ & _ & HC & _ & -> & _).
    assert (exists r, root = vp r) as [r ->].
    { unfold root_choice in HC. destruct (sty s).
      - destruct HC as (_ & _ & ->). rewrite J. cbn. eauto.
      - subst. eauto.
      - destruct HC as (_ & _ & ->). rewrite J. cbn. eauto. }
    split; [cbn [nroot new_node]; eauto|]. split; [now apply HI|].
    cbn [npath new_node]. destruct (negb _); [|assumption]. intros q Hq. apply in_app_or in Hq. destruct Hq as [Hq|[<-|[]]]; eauto.
Qed.

(** The length of a polyline of the plane. *)
Fixpoint plane_length (a : P2) (qs : list P2) : R :=
  match qs with [] => 0 | q :: r => dist a q + plane_length q r end.
Lemma plane_length_ge qs : forall a, dist a (last qs a) <= plane_length a qs.
Proof.
  induction qs as [|q r IH]; intro a; cbn [plane_length]; [cbn; rewrite dist_refl; lra|].
  replace (last (q :: r) a) with (last r q).
  - eapply Rle_trans; [apply dist_triangle|]. specialize (IH q). apply Rplus_le_compat_l. exact IH.
  - destruct r; [reflexivity|]. cbn. clear. revert p. induction r; intro; [reflexivity|]. apply IHr.
Qed.
Lemma plane_length_app qs x : forall a, plane_length a (qs ++ [x]) = plane_length a qs + dist (last qs a) x.
Proof.
  induction qs as [|q r IH]; intro a; cbn [plane_length app]; [cbn; lra|]. rewrite IH.
  replace (last (q :: r) a) with (last r q); [lra|].
  destruct r; [reflexivity|]. cbn. clear. revert p. induction r; intro; [reflexivity|]. apply IHr.
Qed.
Lemma walk_real qs : forall acc a, walk_length (A:=RA) (Some acc) (vp a) (map vp qs) = Some (acc + plane_length a qs).
Proof.
  induction qs as [|q r IH]; intros acc a; cbn [map walk_length plane_length]; [now rewrite Rplus_0_r|].
  rewrite vdist_vp. cbn [fadd RA lift2]. rewrite IH. f_equal. lra.
Qed.
Lemma polyline_real qs a : polyline_length (A:=RA) (vp a) (map vp qs) = Some (plane_length a qs).
Proof. unfold polyline_length. rewrite fz_R, walk_real. f_equal. lra. Qed.
Lemma all_real (l : list (vec2 RA)) : (forall q, In q l -> exists z, q = vp z) -> exists zs, l = map vp zs.
Proof.
  induction l as [|x l IH]; intro H; [now exists []|]. destruct (H x (or_introl eq_refl)) as [z ->].
  destruct IH as [zs ->]; [intros; apply H; now right|]. now exists (z :: zs).
Qed.

(** What is known about a path returned between two polygons: the walked turns, and the last interval. *)
Lemma node_final m ps pe blocked n a b : real_mesh m -> pe <> MAX ->
  reachable (mkCtx m (vp b) pe blocked) (vp a) ps n -> nto n = pe ->
  let p := final_path (mkCtx m (vp b) pe blocked) n in
  exists turns i0 i1, i0 <> i1 /\
    plength p = Some (plane_length a turns + hval (last turns a) (mgoal (last turns a) b i0 i1) i0 i1) /\
    heuristic (vp (last turns a)) (vp b) (vp i0, vp i1) = Some (hval (last turns a) (mgoal (last turns a) b i0 i1) i0 i1) /\
    ppath p = map vp turns ++ match turning_point (vp (last turns a)) (vp b) (vp i0, vp i1) with Some t => [t] | None => [] end ++ [vp b] /\
    exists n, reachable (mkCtx m (vp b) pe blocked) (vp a) ps n /\ nto n = pe /\
      npath n = map vp turns /\ nroot n = vp (last turns a) /\ ninterval n = (vp i0, vp i1).
Proof.
  intros Hm HpM Hrn Hto. cbv zeta.
  pose proof (reachable_real (mkCtx m (vp b) pe blocked) _ _ _ a Hm HpM eq_refl Hrn) as ([r R] & (i0 & i1 & I) & HP).
  destruct (all_real _ HP) as [turns HT].
  destruct (reachable_cost _ _ _ _ RA_veq_ok Hrn) as [Hc Hl]. pose proof (reachable_h _ _ _ _ Hrn) as Hh.
  destruct (reachable_not_nan _ _ _ _ Hrn) as [_ Hnan]. cbn [cgoal] in Hh.
  assert (r = last turns a) as ->.
  { specialize (Hl (vp r)). rewrite R, HT in Hl. rewrite vdist_vp in Hl.
    assert (last (map vp turns) (vp a) = vp (last turns a)) as E.
    { clear. revert a. induction turns as [|q r IH]; intro; [reflexivity|]. destruct r; [reflexivity|]. apply (IH a). }
    rewrite E, vdist_vp, dist_refl in Hl. injection Hl as Hl. symmetry in Hl. apply dist_zero in Hl. auto. }
  exists turns, i0, i1. rewrite R, I in Hh.
  assert (Hi : i0 <> i1).
  { intros ->. rewrite heuristic_degenerate in Hh. rewrite Hh in Hnan. discriminate. }
  split; [assumption|]. split; [|split; [now apply heuristic_vp|split]].
  - unfold final_path. cbn [plength]. unfold node_f. rewrite Hc, Hh, HT, polyline_real, heuristic_vp by assumption. reflexivity.
  - unfold final_path. cbn [ppath cgoal]. rewrite R, I, HT. destruct (turning_point _ _ _); [|reflexivity]. now rewrite <- app_assoc.
  - exists n. auto.
Qed.
Lemma path_final (lib : Lib RA) m from to blocked p ps pe a b :
  pop_perm (lpop lib) -> mesh_small m -> cpos from = vp a -> cpos to = vp b ->
  located lib m from ps -> located lib m to pe -> ps <> pe ->
  path_on_layers lib m from to blocked = Ok (Some p) ->
  pe <> MAX /\ exists n, reachable (mkCtx m (vp b) pe blocked) (vp a) ps n /\ nto n = pe /\ p = final_path (mkCtx m (vp b) pe blocked) n.
Proof.
  intros Hpop Hsm Ha Hb H1 H2 Hne H. apply path_on_layers_cases in H.
  destruct H as (ps' & pe' & G1 & G2 & _ & H). apply locate_end_located in G1. apply locate_end_located in G2.
  assert (ps' = ps) by (eapply located_fun; eauto). assert (pe' = pe) by (eapply located_fun; eauto). subst.
  destruct H as [[? _]|(_ & st & Hs & Hr)]; [contradiction|].
  destruct (search_found lib _ _ _ _ _ _ Hpop Hs Hr) as (n & Hrn & Hto & ->). rewrite Ha, Hb in *.
  split; [exact (located_not_MAX lib m to pe Hsm H2)|]. exists n. auto.
Qed.

(** ** C15 *)
Lemma node_not_shorter m ps pe blocked n a b : real_mesh m -> pe <> MAX ->
  reachable (mkCtx m (vp b) pe blocked) (vp a) ps n -> nto n = pe ->
  let p := final_path (mkCtx m (vp b) pe blocked) n in
  exists len, plength p = Some len /\
    (dist a b <= len \/
     exists turns i0 i1, ppath p = map vp turns ++ match turning_point (vp (last turns a)) (vp b) (vp i0, vp i1) with Some t => [t] | None => [] end ++ [vp b] /\
       i0 <> i1 /\
       - eps < orient i0 i1 (last turns a) < eps /\ - eps < orient i0 i1 b < eps /\
       orient i0 i1 (last turns a) * orient i0 i1 b < 0 /\
       dist a b <= len + 2 * eps / dist i0 i1).
Proof.
  intros Hm HpM Hrn Hto. cbv zeta.
  destruct (node_final m ps pe blocked n a b Hm HpM Hrn Hto) as (turns & i0 & i1 & Hi & HL & _ & HP & _).
  eexists. split; [exact HL|]. pose proof (plane_length_ge turns a) as T1. pose proof (dist_triangle a (last turns a) b) as T2.
  pose proof (hval_ge (last turns a) (mgoal (last turns a) b i0 i1) i0 i1) as T3.
  destruct (mgoal_dist (last turns a) b i0 i1 Hi) as [D|(D1 & D2 & D3)]; [left; lra|right].
  exists turns, i0, i1. split; [exact HP|]. do 4 (split; [assumption|]).
  pose proof (mgoal_dist_bound (last turns a) b i0 i1 Hi). lra.
Qed.
(** A returned path is never shorter than the straight line, except when the last corner (or the start) and the goal are on
    opposite sides of the last crossed interval and both inside of the tolerance of its line; and then it is shorter by at
    most 2e-4 divided by the length of that interval. *)
Theorem C15_not_shorter_than_straight_line_partial (lib : Lib RA) m from to blocked p a b :
  pop_perm (lpop lib) -> real_mesh m -> mesh_small m -> cpos from = vp a -> cpos to = vp b ->
  path_on_layers lib m from to blocked = Ok (Some p) ->
  exists len, plength p = Some len /\
    (dist a b <= len \/
     exists turns i0 i1, ppath p = map vp turns ++ match turning_point (vp (last turns a)) (vp b) (vp i0, vp i1) with Some t => [t] | None => [] end ++ [vp b] /\
       i0 <> i1 /\
       - eps < orient i0 i1 (last turns a) < eps /\ - eps < orient i0 i1 b < eps /\
       orient i0 i1 (last turns a) * orient i0 i1 b < 0 /\
       dist a b <= len + 2 * eps / dist i0 i1).
Proof.
  intros Hpop Hm Hsm Ha Hb H.
  destruct (path_on_layers_cases _ _ _ _ _ _ H) as (ps & pe & G1 & G2 & _ & HC).
  apply locate_end_located in G1. apply locate_end_located in G2. destruct HC as [[-> ->]|(Hne & _)].
  { cbn [plength]. rewrite Ha, Hb, vdist_vp. eexists. split; [reflexivity|]. left. lra. }
  destruct (path_final lib m from to blocked p ps pe a b Hpop Hsm Ha Hb G1 G2 Hne H) as (HpM & n & Hrn & Hto & ->).
  exact (node_not_shorter m ps pe blocked n a b Hm HpM Hrn Hto).
Qed.

(** ** C14: exact length *)
Lemma consistent_length root goal i0 i1 : i0 <> i1 ->
  root = i0 \/ root = i1 \/ eps <= orient i0 i1 root -> orient i0 i1 goal <= - eps ->
  clear_of root i0 goal -> clear_of root i1 goal ->
  match turning_point (vp root) (vp goal) (vp i0, vp i1) with
  | Some t => exists z, t = vp z /\ hval root (mgoal root goal i0 i1) i0 i1 = dist root z + dist z goal
  | None => hval root (mgoal root goal i0 i1) i0 i1 = dist root goal
  end.
Proof.
  intros Hi Hr Hg C0 C1. pose proof eps_pos.
  assert (EM : mgoal root goal i0 i1 = goal).
  { unfold mgoal. assert (side (vp goal) (vp i0, vp i1) = SRight) as -> by (now apply side_right).
    destruct (side_cases i0 i1 root) as [[-> R1]|[[-> R1]|[-> R1]]]; cbn [side_eqb]; try reflexivity. exfalso.
    destruct Hr as [->|[->|]]; [rewrite orient_start in R1|rewrite orient_end in R1|]; lra. }
  rewrite turning_point_vp by assumption. rewrite EM. unfold hval.
  destruct (P2_dec root i0) as [->|N0]; [reflexivity|].
  destruct (P2_dec root i1) as [->|N1].
  { destruct (Rle_dec _ _) as [L|_]; [exfalso; rewrite orient_swap in L; lra|].
    destruct (Rle_dec _ _) as [L|_]; [exfalso; replace (orient i1 i1 goal) with 0 in L by (pts; ring); lra|]. reflexivity. }
  destruct Hr as [?|[?|Hr]]; try contradiction.
  destruct (Req_EM_T _ _) as [E|_]; [exfalso; lra|]. cbv zeta.
  assert (ET : itime root goal i0 i1 = - orient root goal i0 / (orient i0 i1 root - orient i0 i1 goal)).
  { rewrite itime_orient. f_equal. rewrite <- (cross_orient root goal i0 i1). apply cross_orient2. }
  assert (ED : orient root goal i1 - orient root goal i0 = orient i0 i1 root - orient i0 i1 goal).
  { rewrite <- (cross_orient root goal i0 i1). apply cross_orient2. }
  set (D := orient i0 i1 root - orient i0 i1 goal) in *. assert (HD : 0 < D) by (unfold D; lra).
  assert (S0 : orient root i0 goal = - orient root goal i0) by (pts; ring).
  assert (S1 : orient root i1 goal = - orient root goal i1) by (pts; ring).
  assert (T0 : itime root goal i0 i1 * D = orient root i0 goal) by (rewrite ET, S0; field; lra).
  assert (T1 : orient root i1 goal = (itime root goal i0 i1 - 1) * D).
  { rewrite Rmult_minus_distr_r, T0, Rmult_1_l, <- ED, S0, S1. ring. }
  set (t := itime root goal i0 i1) in *. clearbody t.
  destruct (Rle_dec (orient root i0 goal) (- eps)) as [L0|L0].
  - destruct (Rlt_dec t 0) as [_|F]; [exists i0; split; [reflexivity|reflexivity]|]. exfalso. nra.
  - destruct (Rlt_dec t 0) as [F|F].
    + exfalso. destruct C0 as [C0|C0]; [nra|]. unfold Rabs in C0. destruct (Rcase_abs _) in C0; [lra|nra].
    + destruct (Rle_dec eps (orient root i1 goal)) as [L1|L1].
      * destruct (Rlt_dec 1 t) as [_|G]; [exists i1; split; reflexivity|]. exfalso. nra.
      * destruct (Rlt_dec 1 t) as [G|G]; [|reflexivity]. exfalso. destruct C1 as [C1|C1]; [nra|].
        unfold Rabs in C1. destruct (Rcase_abs _) in C1; [nra|lra].
Qed.

Lemma node_exact_length m ps pe blocked n a b : real_mesh m -> pe <> MAX ->
  reachable (mkCtx m (vp b) pe blocked) (vp a) ps n -> nto n = pe ->
  let p := final_path (mkCtx m (vp b) pe blocked) n in
  exists turns i0 i1, i0 <> i1 /\
    (exists n, reachable (mkCtx m (vp b) pe blocked) (vp a) ps n /\ nto n = pe /\
      npath n = map vp turns /\ nroot n = vp (last turns a) /\ ninterval n = (vp i0, vp i1)) /\
    ppath p = map vp turns ++ match turning_point (vp (last turns a)) (vp b) (vp i0, vp i1) with Some t => [t] | None => [] end ++ [vp b] /\
    (let root := last turns a in
     root = i0 \/ root = i1 \/ eps <= orient i0 i1 root -> orient i0 i1 b <= - eps ->
     clear_of root i0 b -> clear_of root i1 b ->
     plength p = polyline_length (vp a) (ppath p)).
Proof.
  intros Hm HpM Hrn Hto. cbv zeta.
  destruct (node_final m ps pe blocked n a b Hm HpM Hrn Hto) as (turns & i0 & i1 & Hi & HL & _ & HP & HN).
  exists turns, i0, i1. split; [assumption|]. split; [assumption|]. split; [assumption|]. intros Q1 Q2 Q3 Q4.
  pose proof (consistent_length (last turns a) b i0 i1 Hi Q1 Q2 Q3 Q4) as HX. rewrite HL, HP.
  destruct (turning_point _ _ _) as [t|].
  - destruct HX as (z & -> & ->).
    change ([vp z] ++ [vp b]) with (map vp [z; b]). rewrite <- map_app, polyline_real. f_equal.
    change [z; b] with ([z] ++ [b]). rewrite app_assoc, !plane_length_app. rewrite last_last. lra.
  - rewrite HX. change ([] ++ [vp b]) with (map vp [b]). rewrite <- map_app, polyline_real. f_equal. now rewrite plane_length_app.
Qed.
(** If the goal is beyond the last crossed interval, seen from the last corner, and the goal is not inside of the tolerance of
    the lines from there through the two ends of the interval (but possibly exactly on them), then the reported length is the
    length of the returned polyline. *)
Theorem C14_exact_length (lib : Lib RA) m from to blocked p ps pe a b :
  pop_perm (lpop lib) -> real_mesh m -> mesh_small m -> cpos from = vp a -> cpos to = vp b ->
  located lib m from ps -> located lib m to pe -> ps <> pe ->
  path_on_layers lib m from to blocked = Ok (Some p) ->
  exists turns i0 i1, i0 <> i1 /\
    (exists n, reachable (mkCtx m (vp b) pe blocked) (vp a) ps n /\ nto n = pe /\
      npath n = map vp turns /\ nroot n = vp (last turns a) /\ ninterval n = (vp i0, vp i1)) /\
    ppath p = map vp turns ++ match turning_point (vp (last turns a)) (vp b) (vp i0, vp i1) with Some t => [t] | None => [] end ++ [vp b] /\
    (let root := last turns a in
     root = i0 \/ root = i1 \/ eps <= orient i0 i1 root -> orient i0 i1 b <= - eps ->
     clear_of root i0 b -> clear_of root i1 b ->
     plength p = polyline_length (cpos from) (ppath p)).
Proof.
  intros Hpop Hm Hsm Ha Hb H1 H2 Hne H.
  destruct (path_final lib m from to blocked p ps pe a b Hpop Hsm Ha Hb H1 H2 Hne H) as (HpM & n & Hrn & Hto & ->). rewrite Ha.
  exact (node_exact_length m ps pe blocked n a b Hm HpM Hrn Hto).
Qed.

Print Assumptions C14_exact_length.
Print Assumptions C15_not_shorter_than_straight_line_partial.
Print Assumptions C16_admissible.
Print Assumptions C16_attained.
Print Assumptions C16_in_tolerance_refuted.
