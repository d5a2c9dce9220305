(** Theorems about binary32, the arithmetic the code really uses: C74 (the reported length and the reported points, up to an explicit
    rounding error). *)
From Coq Require Import List NArith ZArith Bool Lia Reals Lra Psatz.
From Coq.Floats Require Import SpecFloat.
From Flocq Require Import Core BinarySingleNaN.
From Verif Require Import Base Arith RealArith F32 Decimal32_real Spec_f32 F32_real Side32 Length32 Reach32 End32 U32 Mesh Helpers Locate Bake Search StdLib Spec
  Search_facts Search_props Search_cost F32_facts Geometry Heuristic.
Import ListNotations.
Open Scope R_scope.

Section C74.
Context {sn cs ac : spec_float -> spec_float}.
Notation A := (F32with sn cs ac).
Notation B50 := 1125899906842624.

Lemma F2_len {S T} (Q : S -> T -> Prop) l l' : Forall2 Q l l' -> length l = length l'.
Proof. induction 1; cbn; congruence. Qed.
Lemma walked_app l1 : forall a l2, walked a (l1 ++ l2) = walked a l1 + walked (last l1 a) l2.
Proof.
  induction l1 as [|x l1 IH]; intros a l2; [cbn [app walked last]; lra|]. cbn [app walked]. rewrite IH.
  replace (last (x :: l1) a) with (last l1 x); [lra|]. clear. destruct l1 as [|y l1]; [reflexivity|]. cbn [last]. revert y. induction l1; intro; [reflexivity|]. cbn. apply IHl1.
Qed.
Lemma walked_straight l : forall a, dist a (last l a) <= walked a l.
Proof.
  induction l as [|x l IH]; intro a; cbn [walked]; [cbn [last]; rewrite dist_refl; lra|].
  replace (last (x :: l) a) with (last l x). { pose proof (dist_triangle a x (last l x)). specialize (IH x). lra. }
  clear. destruct l as [|y l]; [reflexivity|]. cbn [last]. revert y. induction l; intro; [reflexivity|]. cbn. apply IHl.
Qed.
Lemma walked_bound l : forall a, moderate a -> Forall moderate l -> walked a l <= 4 * B60 * INR (length l).
Proof.
  induction l as [|x l IH]; intros a Ma H; [cbn; lra|]. inversion_clear H as [|? ? Mx Ml]. cbn [walked length]. rewrite S_INR.
  pose proof (dist_bound a x Ma Mx). specialize (IH x Mx Ml). lra.
Qed.

(** two legs added first, then added to the rest *)
Lemma two_legs x y n S d L D1 D2 d1 d2 e : 0 <= n -> (2 * n + 12) * u32 <= 7 / 10 -> 0 <= L -> 0 <= D1 -> 0 <= D2 ->
  Rabs (S - L) <= (2 * n + 8) * u32 * L + 2 * n * tau -> Rabs (d1 - D1) <= 4 * u32 * D1 + tau -> Rabs (d2 - D2) <= 4 * u32 * D2 + tau ->
  Rabs d <= u32 -> Rabs e <= u32 -> x = (d1 + d2) * (1 + d) -> y = (S + x) * (1 + e) ->
  Rabs (y - (L + D1 + D2)) <= (2 * (n + 2) + 8) * u32 * (L + D1 + D2) + 2 * (n + 2) * tau.
Proof.
  intros Hn HU HL H1 H2 HS E1 E2 Hd He -> ->. pose proof u32_small as [U0 U1]. assert (T0 : 0 < tau) by (rewrite tau_bpow; apply bpow_gt_0).
  assert (HX : Rabs ((d1 + d2) * (1 + d) - (D1 + D2)) <= 51 / 10 * u32 * (D1 + D2) + 21 / 10 * tau).
  { replace ((d1 + d2) * (1 + d) - (D1 + D2)) with ((d1 - D1 + (d2 - D2)) * (1 + d) + (D1 + D2) * d) by ring.
    eapply Rle_trans; [apply Rabs_triang|]. rewrite !Rabs_mult. rewrite (Rabs_pos_eq (D1 + D2)) by lra.
    assert (Rabs (d1 - D1 + (d2 - D2)) <= 4 * u32 * (D1 + D2) + 2 * tau) by (eapply Rle_trans; [apply Rabs_triang|]; lra).
    assert (Rabs (1 + d) <= 1 + u32). { eapply Rle_trans; [apply Rabs_triang|]. rewrite Rabs_R1. lra. }
    pose proof (Rabs_pos (d1 - D1 + (d2 - D2))). pose proof (Rabs_pos (1 + d)). set (D := D1 + D2) in *. assert (0 <= D) by (unfold D; lra).
    assert (Rabs (d1 - D1 + (d2 - D2)) * Rabs (1 + d) <= (4 * u32 * D + 2 * tau) * (1 + u32)) by (apply Rmult_le_compat; assumption).
    assert (D * Rabs d <= D * u32) by (apply Rmult_le_compat_l; assumption). assert (0 <= u32 * D) by nra.
    assert (4 * u32 * D * u32 <= / 10 * (u32 * D)) by nra. assert (2 * tau * u32 <= / 10 * tau) by nra. lra. }
  set (X := (d1 + d2) * (1 + d)) in *. clearbody X. set (D := D1 + D2) in *. assert (HD : 0 <= D) by (unfold D; lra). replace (L + D1 + D2) with (L + D) by (unfold D; ring). clearbody D.
  replace ((S + X) * (1 + e) - (L + D)) with ((S - L + (X - D)) * (1 + e) + (L + D) * e) by ring.
  eapply Rle_trans; [apply Rabs_triang|]. rewrite !Rabs_mult, (Rabs_pos_eq (L + D)) by lra.
  set (k := 2 * n + 8) in *. assert (8 <= k) by (unfold k; lra).
  assert (HW : Rabs (S - L + (X - D)) <= k * u32 * (L + D) + (2 * n + 21 / 10) * tau).
  { eapply Rle_trans; [apply Rabs_triang|]. assert (51 / 10 * u32 * D <= k * u32 * D) by (apply Rmult_le_compat_r; [assumption|]; apply Rmult_le_compat_r; lra). lra. }
  assert (Rabs (1 + e) <= 1 + u32). { eapply Rle_trans; [apply Rabs_triang|]. rewrite Rabs_R1. lra. }
  pose proof (Rabs_pos (S - L + (X - D))). pose proof (Rabs_pos (1 + e)). set (M := L + D) in *. assert (0 <= M) by (unfold M; lra). clearbody M.
  assert (Rabs (S - L + (X - D)) * Rabs (1 + e) <= (k * u32 * M + (2 * n + 21 / 10) * tau) * (1 + u32)) by (apply Rmult_le_compat; assumption).
  assert (M * Rabs e <= M * u32) by (apply Rmult_le_compat_l; assumption). assert (0 <= u32 * M) by nra.
  assert (k * u32 * (u32 * M) <= 1 * (u32 * M)) by (apply Rmult_le_compat_r; [assumption|unfold k; lra]).
  assert ((2 * n + 21 / 10) * u32 * tau <= 7 / 10 * tau) by (apply Rmult_le_compat_r; lra).
  replace (2 * (n + 2) + 8) with (k + 4) by (unfold k; ring). lra.
Qed.

(** the length of a path through one more point *)
Lemma bent_length32 (turns : list (vec2 A)) (vf vr vt vg : vec2 A) a zs t g : Forall2 at32 turns zs -> at32 vf a -> at32 vr (last zs a) -> at32 vt t -> at32 vg g ->
  moderate a -> Forall moderate zs -> moderate t -> moderate g -> INR (length zs) <= 4194300 ->
  exists S, num (fadd (polyline_length vf turns) (fadd (vdist vr vt) (vdist vt vg))) S /\ 0 <= S /\
    Rabs (S - walked a (zs ++ [t; g])) <= length_error (length (zs ++ [t; g])) (walked a (zs ++ [t; g])).
Proof.
  intros HT Ha Hr Ht Hg Ma Mz Mt Mg Hn. assert (Ml : moderate (last zs a)). { destruct zs as [|z zs]; [exact Ma|]. rewrite Forall_forall in Mz. apply Mz. destruct (exists_last (l:=z :: zs)) as (l & y & E); [discriminate|]. rewrite E, last_last. apply in_or_app. right. now left. }
  destruct (polyline_length32 turns zs vf a HT Ha Ma Mz ltac:(lra)) as (S & NS & S0 & ES).
  destruct (vdist32 vr vt _ _ Hr Ht Ml Mt) as (d1 & N1 & P1 & E1). destruct (vdist32 vt vg _ _ Ht Hg Mt Mg) as (d2 & N2 & P2 & E2).
  pose proof (dist_bound _ _ Ml Mt) as Q1. pose proof (dist_bound _ _ Mt Mg) as Q2. pose proof (walked_bound zs a Ma Mz) as Q3. pose proof (dist_nonneg (last zs a) t) as Q4. pose proof (dist_nonneg t g) as Q5.
  pose proof (walked_nonneg zs a) as Q6. pose proof (pos_INR (length zs)) as Q7. pose proof u32_small as [U0 U1].
  assert (B1 : d1 <= 5 * B60 + 1). { apply abs_le in E1. assert (4 * u32 * dist (last zs a) t <= / 10 * dist (last zs a) t) by (apply Rmult_le_compat_r; lra). lra. }
  assert (B2 : d2 <= 5 * B60 + 1). { apply abs_le in E2. assert (4 * u32 * dist t g <= / 10 * dist t g) by (apply Rmult_le_compat_r; lra). lra. }
  destruct (num_add _ _ _ _ N1 N2) as (d & Dd & N3). { rewrite bpow127, Rabs_pos_eq by lra. lra. }
  assert (P3 : 0 <= (d1 + d2) * (1 + d)) by (apply abs_le in Dd; apply Rmult_le_pos; lra).
  assert (B3 : (d1 + d2) * (1 + d) <= 20 * B60 + 4). { apply abs_le in Dd. assert ((d1 + d2) * (1 + d) <= (d1 + d2) * 2) by (apply Rmult_le_compat_l; lra). lra. }
  rewrite length_error_eq in *. set (n := INR (length zs)) in *.
  assert (HU : (2 * n + 12) * u32 <= 7 / 10) by (rewrite u32_eq; lra).
  assert (BS : S <= 2 * (4 * B60 * n) + 2 * n + 1).
  { apply abs_le in ES. assert ((2 * n + 8) * u32 * walked a zs <= 1 * walked a zs) by (apply Rmult_le_compat_r; lra). assert (2 * n * tau <= 2 * n * 1) by (apply Rmult_le_compat_l; lra). lra. }
  destruct (num_add _ _ _ _ NS N3) as (e & De & N4). { rewrite bpow127, Rabs_pos_eq by lra. lra. }
  exists ((S + (d1 + d2) * (1 + d)) * (1 + e)). split; [exact N4|]. split; [apply abs_le in De; apply Rmult_le_pos; lra|].
  replace (walked a (zs ++ [t; g])) with (walked a zs + dist (last zs a) t + dist t g) by (rewrite walked_app; cbn [walked]; lra).
  replace (INR (length (zs ++ [t; g]))) with (n + 2) by (rewrite app_length, plus_INR; cbn; unfold n; lra).
  eapply two_legs with (S := S) (d := d) (d1 := d1) (d2 := d2) (e := e); try reflexivity; try assumption.
Qed.

(** ** C74: same polygon *)
Theorem C74_same_polygon (lib : Lib A) m from to blocked id p a b :
  located lib m from id -> located lib m to id -> path_on_layers lib m from to blocked = Ok (Some p) ->
  at32 (cpos from) a -> at32 (cpos to) b -> moderate a -> moderate b ->
  ppath p = [cpos to] /\ exists len, num (plength p) len /\ Rabs (len - dist a b) <= 4 / 16777216 * dist a b + / 4722366482869645213696.
Proof.
  intros H1 H2 H Ha Hb Ma Mb. rewrite <- locate_end_located in H1, H2.
  destruct (path_on_layers_cases _ _ _ _ _ _ H) as (ps & pe & G1 & G2 & _ & HC).
  assert (ps = id) by congruence. assert (pe = id) by congruence. subst. destruct HC as [[_ ->]|(Hne & _)]; [|contradiction].
  split; [reflexivity|]. cbn [plength]. destruct (vdist32 _ _ a b Ha Hb Ma Mb) as (d & Nd & _ & Hd). exists d. split; [exact Nd|].
  rewrite u32_eq in Hd. unfold Rdiv. exact Hd.
Qed.

(** ** C74: between two polygons *)
(** The node of the search a returned path comes from, in finite numbers. *)
Lemma node_final32 m (from to : vec2 A) ps pe blocked n a :
  mesh32 m -> pe <> MAX -> at32 from a -> reachable (mkCtx m to pe blocked) from ps n -> nto n = pe ->
  let p := final_path (mkCtx m to pe blocked) n in
  exists n turns i0 i1, reachable (mkCtx m to pe blocked) from ps n /\ nto n = pe /\ node32 a n turns i0 i1 /\
    plength p = fadd (polyline_length from (npath n)) (heuristic (nroot n) to (ninterval n)) /\
    ppath p = npath n ++ match turning_point (nroot n) to (ninterval n) with Some t => [t] | None => [] end ++ [to].
Proof.
  intros Hm HpM Ha Hrn Hto. cbv zeta.
  destruct (reachable32 (mkCtx m to pe blocked) from ps n a Hm HpM Ha Hrn) as (turns & i0 & i1 & HN).
  destruct (reachable_cost _ _ _ _ (F32_veq_ok _ _ _) Hrn) as [Hc _].
  exists n, turns, i0, i1. split; [assumption|]. split; [assumption|]. split; [assumption|]. split.
  - unfold final_path. cbn [plength]. unfold node_f. rewrite Hc, (reachable_h _ _ _ _ Hrn). reflexivity.
  - unfold final_path. cbn [ppath cgoal]. destruct (turning_point _ _ _); [now rewrite <- app_assoc|reflexivity].
Qed.
Lemma path_node (lib : Lib A) m from to blocked p ps pe :
  pop_perm (lpop lib) -> mesh_small m -> located lib m from ps -> located lib m to pe -> ps <> pe -> path_on_layers lib m from to blocked = Ok (Some p) ->
  pe <> MAX /\ exists n, reachable (mkCtx m (cpos to) pe blocked) (cpos from) ps n /\ nto n = pe /\ p = final_path (mkCtx m (cpos to) pe blocked) n.
Proof.
  intros Hpop Hsm H1 H2 Hne H. apply path_on_layers_cases in H.
  destruct H as (ps' & pe' & G1 & G2 & _ & H). apply locate_end_located in G1. apply locate_end_located in G2.
  assert (ps' = ps) by (eapply located_fun; eauto). assert (pe' = pe) by (eapply located_fun; eauto). subst.
  destruct H as [[? _]|(_ & st & Hs & Hr)]; [contradiction|].
  split; [exact (located_not_MAX lib m to pe Hsm H2)|]. exact (search_found lib _ _ _ _ _ _ Hpop Hs Hr).
Qed.

Lemma node_points32 m (from to : vec2 A) ps pe blocked n a b :
  mesh32 m -> pe <> MAX -> at32 from a -> at32 to b -> reachable (mkCtx m to pe blocked) from ps n -> nto n = pe ->
  exists pts, Forall2 at32 (ppath (final_path (mkCtx m to pe blocked) n)) (pts ++ [b]) /\ Forall (within 1125899906842624) pts.
Proof.
  intros Hm HpM Ha Hb Hrn Hto. destruct (node_final32 m from to ps pe blocked n a Hm HpM Ha Hrn Hto) as (n' & turns & i0 & i1 & _ & _ & (T & _ & I0 & I1 & WT & W0 & W1) & _ & ->).
  assert (exists lt, Forall2 at32 match turning_point (nroot n') to (ninterval n') with Some t => [t] | None => [] end lt /\ Forall (within B50) lt) as (lt & L1 & L2).
  { unfold turning_point. cbv zeta. destruct (veq _ _); [exists []; auto|]. destruct (side_eqb _ _); [exists [i0]; auto|]. destruct (side_eqb _ _); [exists [i1]; auto|exists []; auto]. }
  exists (turns ++ lt). split; [|apply Forall_app; auto]. rewrite <- app_assoc. apply Forall2_app; [assumption|]. apply Forall2_app; [assumption|auto].
Qed.

(** Every point of a returned path is a pair of finite numbers, and the last one is the destination. *)
Theorem C74_points_are_finite (lib : Lib A) m from to blocked p a b :
  pop_perm (lpop lib) -> mesh_small m -> mesh32 m -> at32 (cpos from) a -> at32 (cpos to) b ->
  path_on_layers lib m from to blocked = Ok (Some p) ->
  exists pts, Forall2 at32 (ppath p) (pts ++ [b]) /\ Forall (within 1125899906842624) pts.
Proof.
  intros Hpop Hsm Hm Ha Hb H. destruct (path_on_layers_cases _ _ _ _ _ _ H) as (ps & pe & G1 & G2 & _ & HC).
  apply locate_end_located in G1. apply locate_end_located in G2. destruct HC as [[_ ->]|(Hne & _)].
  { exists []. cbn. auto. }
  destruct (path_node lib m from to blocked p ps pe Hpop Hsm G1 G2 Hne H) as (HpM & n & Hrn & Hto & ->).
  exact (node_points32 m _ _ ps pe blocked n a b Hm HpM Ha Hb Hrn Hto).
Qed.

Lemma last_within turns a : within B50 a -> Forall (within B50) turns -> within B50 (last turns a).
Proof.
  intros Ha H. destruct turns as [|z zs]; [exact Ha|]. rewrite Forall_forall in H. apply H.
  destruct (exists_last (l:=z :: zs)) as (l & y & E); [discriminate|]. rewrite E, last_last. apply in_or_app. right. now left.
Qed.
Lemma all_moderate l : Forall (within B50) l -> Forall moderate l.
Proof. apply Forall_impl. intro. apply within_moderate. Qed.

Lemma direct_length32 (turns : list (vec2 A)) (vf vr vg : vec2 A) a zs g : Forall2 at32 turns zs -> at32 vf a -> at32 vr (last zs a) -> at32 vg g ->
  within B50 a -> Forall (within B50) zs -> within B50 g -> INR (length zs) <= 4194300 ->
  exists S, num (fadd (polyline_length vf turns) (vdist vr vg)) S /\
    Rabs (S - walked a (zs ++ [] ++ [g])) <= length_error (length (zs ++ [] ++ [g])) (walked a (zs ++ [] ++ [g])).
Proof.
  intros HT Ha Hr Hg Wa Wz Wg Hn. assert (Ml : moderate (last zs a)) by (apply within_moderate; now apply last_within).
  assert (Mz : Forall moderate zs) by now apply all_moderate. assert (Ma : moderate a) by now apply within_moderate.
  destruct (polyline_length32 turns zs vf a HT Ha Ma Mz ltac:(lra)) as (S & NS & S0 & ES).
  destruct (vdist32 vr vg _ _ Hr Hg Ml ltac:(now apply within_moderate)) as (d & Nd & Pd & Ed).
  pose proof (dist_bound _ _ Ml (within_moderate _ Wg)) as Q1. pose proof (walked_bound zs a Ma Mz) as Q3. pose proof (dist_nonneg (last zs a) g) as Q4.
  pose proof (walked_nonneg zs a) as Q6. pose proof (pos_INR (length zs)) as Q7.
  destruct (leg_step _ _ (length zs) S d (walked a zs) (dist (last zs a) g) NS Nd) as (S' & NS' & _ & ES'); try assumption; try lra.
  exists S'. split; [exact NS'|]. cbn [app]. rewrite walked_app. cbn [walked]. rewrite Rplus_0_r, app_length. cbn [length]. rewrite Nat.add_comm. exact ES'.
Qed.
Lemma at32_fun (v : vec2 A) p q : at32 v p -> at32 v q -> p = q.
Proof. intros [H1 H2] [G1 G2]. destruct p as [x y], q as [x' y']. cbn [px py] in *. f_equal; eapply num_fun; eassumption. Qed.

(** The way the search reports: to the corners, through at most one end of the last interval, and to the goal. *)
Lemma walk_end32 (turns : list (vec2 A)) (vf vr vg v0 v1 : vec2 A) a zs g i0 i1 : Forall2 at32 turns zs -> at32 vf a -> at32 vr (last zs a) -> at32 vg g -> at32 v0 i0 -> at32 v1 i1 ->
  within B50 a -> Forall (within B50) zs -> within B50 g -> within B50 i0 -> within B50 i1 -> INR (length zs) <= 4194300 ->
  mirrored_goal vr vg (v0, v1) = vg ->
  exists mid S, (mid = [] \/ mid = [i0] \/ mid = [i1]) /\ num (fadd (polyline_length vf turns) (heuristic vr vg (v0, v1))) S /\
    Rabs (S - walked a (zs ++ mid ++ [g])) <= length_error (length (zs ++ mid ++ [g])) (walked a (zs ++ mid ++ [g])).
Proof.
  intros HT Ha Hr Hg H0 H1 Wa Wz Wg W0 W1 Hn NM.
  assert (HB : forall vt t, at32 vt t -> within B50 t -> exists S, num (fadd (polyline_length vf turns) (fadd (vdist vr vt) (vdist vt vg))) S /\
    Rabs (S - walked a (zs ++ [t] ++ [g])) <= length_error (length (zs ++ [t] ++ [g])) (walked a (zs ++ [t] ++ [g]))).
  { intros vt t Ht Wt. destruct (bent_length32 turns vf vr vt vg a zs t g) as (S & NS & _ & ES); try assumption; auto using within_moderate, all_moderate. exists S. split; [exact NS|exact ES]. }
  pose proof (direct_length32 turns vf vr vg a zs g HT Ha Hr Hg Wa Wz Wg Hn) as HD.
  unfold heuristic. rewrite NM. cbv zeta. cbn [fst snd].
  destruct (veq vr v0 || veq vr v1). { destruct HD as (S & D1 & D2). exists [], S. auto. }
  destruct (flt _ _). { destruct (HB v0 i0 H0 W0) as (S & D1 & D2). exists [i0], S. auto. }
  destruct (fgt _ _). { destruct (HB v1 i1 H1 W1) as (S & D1 & D2). exists [i1], S. auto. }
  destruct HD as (S & D1 & D2). exists [], S. auto.
Qed.

Lemma node_length32 m (from to : vec2 A) ps pe blocked n0 a b :
  mesh32 m -> pe <> MAX -> at32 from a -> at32 to b -> within 1125899906842624 a -> within 1125899906842624 b ->
  reachable (mkCtx m to pe blocked) from ps n0 -> nto n0 = pe ->
  let p := final_path (mkCtx m to pe blocked) n0 in INR (length (ppath p)) <= 4194300 ->
  exists n turns i0 i1 pts,
    (reachable (mkCtx m to pe blocked) from ps n /\ nto n = pe /\ Forall2 at32 (npath n) turns /\
     at32 (fst (ninterval n)) i0 /\ at32 (snd (ninterval n)) i1) /\
    Forall2 at32 (ppath p) pts /\
    (clear_end (last turns a) i0 i1 b ->
     exists len, num (plength p) len /\ Rabs (len - walked a pts) <= length_error (length pts) (walked a pts)).
Proof.
  intros Hm HpM Ha Hb Wa Wb Hrn0 Hto0. cbv zeta. intro Hl.
  destruct (node_final32 m from to ps pe blocked n0 a Hm HpM Ha Hrn0 Hto0) as (n & turns & i0 & i1 & HR & Hto & (T & R & I0 & I1 & WT & W0 & W1) & EL & EP).
  pose proof (last_within turns a Wa WT) as Wr. exists n, turns, i0, i1. rewrite EP in Hl. rewrite EP, EL.
  assert (Ln : INR (length turns) <= 4194300).
  { eapply Rle_trans; [|exact Hl]. apply le_INR. rewrite app_length. rewrite (F2_len _ _ _ T). lia. }
  destruct (ninterval n) as [v0 v1]. cbn [fst snd] in *.
  assert (exists lt, Forall2 at32 match turning_point (nroot n) to (v0, v1) with Some t => [t] | None => [] end lt) as (lt & L1).
  { unfold turning_point. cbv zeta. cbn [fst snd]. destruct (veq _ _); [exists []; auto|]. destruct (side_eqb _ _); [exists [i0]; auto|]. destruct (side_eqb _ _); [exists [i1]; auto|exists []; auto]. }
  exists (turns ++ lt ++ [b]). split; [auto 10|]. split; [apply Forall2_app; [assumption|apply Forall2_app; auto]|]. intro HC.
  destruct (plain_end32 (nroot n) to v0 v1 (last turns a) b i0 i1 R Hb I0 I1 Wr Wb W0 W1 HC) as [[E1 E2]|(vt & t & Ht & E1 & E2)]; rewrite E1 in L1; rewrite E2.
  - inversion L1; subst lt. apply direct_length32; assumption.
  - inversion L1 as [|? t' ? ? Ht' L2]; subst. inversion L2; subst.
    assert (at32 vt t /\ within B50 t) as [Ht2 Wt] by (destruct Ht as [[-> ->]|[-> ->]]; auto). rewrite (at32_fun vt t' t Ht' Ht2).
    destruct (bent_length32 (npath n) from (nroot n) vt to a turns t b) as (S & NS & _ & ES); try assumption; auto using within_moderate, all_moderate.
    exists S. split; [exact NS|exact ES].
Qed.

(** The reported length is the length of the reported polyline, up to 2n + 8 units in the last place for n points, when the last corner
    and the goal are clear of the lines that decide how the path ends. *)
Theorem C74_reported_length (lib : Lib A) m from to blocked p ps pe a b :
  pop_perm (lpop lib) -> mesh_small m -> mesh32 m -> at32 (cpos from) a -> at32 (cpos to) b -> within 1125899906842624 a -> within 1125899906842624 b ->
  located lib m from ps -> located lib m to pe -> ps <> pe -> path_on_layers lib m from to blocked = Ok (Some p) -> INR (length (ppath p)) <= 4194300 ->
  exists n turns i0 i1 pts,
    (reachable (mkCtx m (cpos to) pe blocked) (cpos from) ps n /\ nto n = pe /\ Forall2 at32 (npath n) turns /\
     at32 (fst (ninterval n)) i0 /\ at32 (snd (ninterval n)) i1) /\
    Forall2 at32 (ppath p) pts /\
    (clear_end (last turns a) i0 i1 b ->
     exists len, num (plength p) len /\ Rabs (len - walked a pts) <= length_error (length pts) (walked a pts)).
Proof.
  intros Hpop Hsm Hm Ha Hb Wa Wb H1 H2 Hne H Hl.
  destruct (path_node lib m from to blocked p ps pe Hpop Hsm H1 H2 Hne H) as (HpM & n & Hrn & Hto & ->).
  exact (node_length32 m _ _ ps pe blocked n a b Hm HpM Ha Hb Wa Wb Hrn Hto Hl).
Qed.

Lemma node_not_shorter32 m (from to : vec2 A) ps pe blocked n0 a b :
  mesh32 m -> pe <> MAX -> at32 from a -> at32 to b -> within 1125899906842624 a -> within 1125899906842624 b ->
  reachable (mkCtx m to pe blocked) from ps n0 -> nto n0 = pe ->
  let p := final_path (mkCtx m to pe blocked) n0 in INR (length (ppath p)) <= 4194300 ->
  exists n turns i0 i1,
    (reachable (mkCtx m to pe blocked) from ps n /\ nto n = pe /\ Forall2 at32 (npath n) turns /\
     at32 (fst (ninterval n)) i0 /\ at32 (snd (ninterval n)) i1) /\
    (let root := last turns a in
     root = i0 \/ root = i1 \/ eps + slack i0 i1 root <= orient i0 i1 root -> orient i0 i1 b <= - eps - slack i0 i1 b ->
     exists len, num (plength p) len /\ dist a b - length_error (2 + length turns) (dist a b) <= len).
Proof.
  intros Hm HpM Ha Hb Wa Wb Hrn0 Hto0. cbv zeta. intro Hl.
  destruct (node_final32 m from to ps pe blocked n0 a Hm HpM Ha Hrn0 Hto0) as (n & turns & i0 & i1 & HR & Hto & (T & R & I0 & I1 & WT & W0 & W1) & EL & EP).
  pose proof (last_within turns a Wa WT) as Wr. exists n, turns, i0, i1. rewrite EP in Hl. rewrite EL.
  assert (Ln : INR (length turns) <= 4194300).
  { eapply Rle_trans; [|exact Hl]. apply le_INR. rewrite app_length. rewrite (F2_len _ _ _ T). lia. }
  split; [auto 10|]. cbv zeta. intros C1 C2. destruct (ninterval n) as [v0 v1]. cbn [fst snd] in *.
  pose proof (not_mirrored (nroot n) to v0 v1 (last turns a) b i0 i1 R Hb I0 I1 (within_moderate _ Wr) (within_moderate _ Wb) (within_moderate _ W0) (within_moderate _ W1) C1 C2) as NM.
  destruct (walk_end32 (npath n) from (nroot n) to v0 v1 a turns b i0 i1) as (mid & S & Hmid & NS & ES); try assumption.
  exists S. split; [exact NS|]. set (W := walked a (turns ++ mid ++ [b])) in *.
  assert (HW : dist a b <= W).
  { pose proof (walked_straight (turns ++ mid ++ [b]) a) as K. rewrite app_assoc, last_last in K. unfold W. rewrite app_assoc. exact K. }
  assert (HN : INR (length (turns ++ mid ++ [b])) <= INR (2 + length turns)).
  { apply le_INR. rewrite !app_length. cbn [length]. destruct Hmid as [-> |[-> | ->]]; cbn [length]; lia. }
  rewrite length_error_eq in *. apply abs_le in ES. pose proof u32_small as [U0 U1]. assert (T0 : 0 < tau) by (rewrite tau_bpow; apply bpow_gt_0).
  pose proof (dist_nonneg a b) as D0. set (k := INR (length (turns ++ mid ++ [b]))) in *. set (k' := INR (2 + length turns)) in *.
  assert (Hk : k' <= 4194302) by (unfold k'; rewrite plus_INR; cbn [INR]; lra).
  assert (U2 : (2 * k + 8) * u32 <= 1) by (rewrite u32_eq; lra).
  assert (U3 : (2 * k + 8) * u32 <= (2 * k' + 8) * u32) by (apply Rmult_le_compat_r; lra).
  assert ((2 * k + 8) * u32 * dist a b <= (2 * k' + 8) * u32 * dist a b) by (apply Rmult_le_compat_r; lra).
  assert (2 * k * tau <= 2 * k' * tau) by (apply Rmult_le_compat_r; lra).
  assert ((1 - (2 * k + 8) * u32) * dist a b <= (1 - (2 * k + 8) * u32) * W) by (apply Rmult_le_compat_l; lra). lra.
Qed.
(** C15 in binary32: with the goal behind the last crossed interval and the last corner in front of it or an end of it, the reported length
    is not shorter than the straight line, up to the rounding error. *)
Theorem C74_not_shorter_than_straight_line (lib : Lib A) m from to blocked p ps pe a b :
  pop_perm (lpop lib) -> mesh_small m -> mesh32 m -> at32 (cpos from) a -> at32 (cpos to) b -> within 1125899906842624 a -> within 1125899906842624 b ->
  located lib m from ps -> located lib m to pe -> ps <> pe -> path_on_layers lib m from to blocked = Ok (Some p) -> INR (length (ppath p)) <= 4194300 ->
  exists n turns i0 i1,
    (reachable (mkCtx m (cpos to) pe blocked) (cpos from) ps n /\ nto n = pe /\ Forall2 at32 (npath n) turns /\
     at32 (fst (ninterval n)) i0 /\ at32 (snd (ninterval n)) i1) /\
    (let root := last turns a in
     root = i0 \/ root = i1 \/ eps + slack i0 i1 root <= orient i0 i1 root -> orient i0 i1 b <= - eps - slack i0 i1 b ->
     exists len, num (plength p) len /\ dist a b - length_error (2 + length turns) (dist a b) <= len).
Proof.
  intros Hpop Hsm Hm Ha Hb Wa Wb H1 H2 Hne H Hl.
  destruct (path_node lib m from to blocked p ps pe Hpop Hsm H1 H2 Hne H) as (HpM & n & Hrn & Hto & ->).
  exact (node_not_shorter32 m _ _ ps pe blocked n a b Hm HpM Ha Hb Wa Wb Hrn Hto Hl).
Qed.
End C74.
