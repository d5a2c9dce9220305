(** C81 is not vacuous: the mesh of Examples_shortest, turned by a right angle and moved, or with all coordinates doubled. *)
From Coq Require Import List NArith ZArith Bool Lia Reals Lra Psatz.
From Verif Require Import Base Arith U32 Mesh Helpers Locate Search AsyncPath StdLib Spec RealArith Geometry Heuristic F32_facts Search_props Search_safe Checkers Islands_facts
  Properties_geometry Examples_exact Rings Spec_inside Sight Sight_search Sight_static Examples_inside Spec_shortest Shortest_cover Properties_shortest Properties_complete Zmesh Examples_shortest Examples_complete
  Spec_area Properties_area Examples_area Spec_moved Properties_moved.
Import ListNotations.
Open Scope R_scope.

(** (x, y) becomes (6 - y, x - 3), in thirds *)
Definition quarter_vs : list (zpt * list N) := [((6, -3)%Z, [0; 1; MAX]%N); ((10, 6)%Z, [0; MAX]%N); ((-3, -2)%Z, [0; 1; MAX]%N); ((11, -11)%Z, [1; MAX]%N)].
Definition quarter : Mesh RA := zmesh quarter_vs bent_ps.
Definition quarter_shift : P2 := zp (6, -3)%Z.
Definition double_vs : list (zpt * list N) := [((0, 0)%Z, [0; 1; MAX]%N); ((18, -8)%Z, [0; MAX]%N); ((2, 18)%Z, [0; 1; MAX]%N); ((-16, -10)%Z, [1; MAX]%N)].
Definition double : Mesh RA := zmesh double_vs bent_ps.

Lemma zv_moved c s t l l' z z' nb : offset l = vp (P 0 0) -> offset l' = vp (P 0 0) -> turned c s t (zp z) = zp z' -> vertex_moved (turned c s t) l l' (zv (z, nb)) (zv (z', nb)).
Proof.
  intros E1 E2 H. split; [reflexivity|]. split; [reflexivity|]. exists (zp z). unfold world, zv. cbn [coords vertex_new fst snd]. rewrite E1, E2, !vadd_vp. split; [f_equal|rewrite H; f_equal]; apply P2_eq; unfold padd; cbn [px py]; ring.
Qed.
Ltac moved_tac := constructor; [|constructor]; split; [reflexivity|]; cbn [vertices zlayer map];
  repeat (apply Forall2_cons; [apply zv_moved; [reflexivity|reflexivity|apply P2_eq; unfold turned, quarter_shift, zp; cbn [px py fst snd]; lra]|]); apply Forall2_nil.
Lemma quarter_moved : moved (turned 0 1 quarter_shift) bent quarter.
Proof. moved_tac. Qed.
Lemma double_moved : moved (turned 2 0 (P 0 0)) bent double.
Proof. moved_tac. Qed.
Lemma double_proper : proper std_lib double [] (turned 2 0 (P 0 0) bent_start) (turned 2 0 (P 0 0) bent_goal) 0 1.
Proof.
  assert (E1 : turned 2 0 (P 0 0) bent_start = zp (8, -2)%Z) by (apply P2_eq; unfold turned, bent_start, zp; cbn [px py fst snd]; lra).
  assert (E2 : turned 2 0 (P 0 0) bent_goal = zp (-8, -4)%Z) by (apply P2_eq; unfold turned, bent_goal, zp; cbn [px py fst snd]; lra). rewrite E1, E2.
  apply zm_proper; [apply mesh_smallb_ok; reflexivity|vm_compute; reflexivity..].
Qed.
Lemma quarter_path : exists p, path_on_layers std_lib quarter (in_polygon (turned 0 1 quarter_shift bent_start) 0) (in_polygon (turned 0 1 quarter_shift bent_goal) 1) [] = Ok (Some p).
Proof.
  apply (first_step quarter _ _ 0 1 (padd (zp (-3, -2)%Z) (P 0 0)) (padd (zp (6, -3)%Z) (P 0 0)) 2 0 19); try discriminate; try reflexivity.
  intro H. unfold padd, zp in H. cbn [px py fst snd] in H. injection H as H. lra.
Qed.
Lemma double_path : exists p, path_on_layers std_lib double (in_polygon (turned 2 0 (P 0 0) bent_start) 0) (in_polygon (turned 2 0 (P 0 0) bent_goal) 1) [] = Ok (Some p).
Proof.
  apply (first_step double _ _ 0 1 (padd (zp (2, 18)%Z) (P 0 0)) (padd (zp (0, 0)%Z) (P 0 0)) 2 0 19); try discriminate; try reflexivity.
  intro H. unfold padd, zp in H. cbn [px py fst snd] in H. injection H as H. lra.
Qed.
(** The hypotheses of C81_rotated_mesh *)
Example ex_C81_rotated : exists p1 p2,
  path_on_layers std_lib bent (in_polygon bent_start 0) (in_polygon bent_goal 1) [] = Ok (Some p1) /\
  path_on_layers std_lib quarter (in_polygon (turned 0 1 quarter_shift bent_start) 0) (in_polygon (turned 0 1 quarter_shift bent_goal) 1) [] = Ok (Some p2) /\ plength p1 = plength p2.
Proof.
  destruct bent_path as (p1 & H1 & _). destruct quarter_path as (p2 & H2). exists p1, p2. split; [exact H1|]. split; [exact H2|].
  assert (E : 0 * 0 + 1 * 1 = 1) by lra. assert (M0 : 0%N <> MAX) by discriminate. assert (M1 : 1%N <> MAX) by discriminate.
  exact (C81_rotated_mesh std_lib std_lib bent quarter (in_polygon bent_start 0) (in_polygon bent_goal 1) (in_polygon _ 0) (in_polygon _ 1) [] p1 p2 bent_start bent_goal 0 1 0 1 quarter_shift
    E quarter_moved (std_pop_ok RA_total_ok) bent_proper eq_refl eq_refl (at_polygon _ _ _ M0) (at_polygon _ _ _ M1) eq_refl eq_refl (at_polygon _ _ _ M0) (at_polygon _ _ _ M1) H1 H2).
Qed.
(** and of C81_moved_mesh (and so of C81_similar_areas) *)
Example ex_C81_double : exists p1 p2 d,
  path_on_layers std_lib bent (in_polygon bent_start 0) (in_polygon bent_goal 1) [] = Ok (Some p1) /\
  path_on_layers std_lib double (in_polygon (turned 2 0 (P 0 0) bent_start) 0) (in_polygon (turned 2 0 (P 0 0) bent_goal) 1) [] = Ok (Some p2) /\ plength p1 = Some d /\ plength p2 = Some (2 * d).
Proof.
  destruct bent_path as (p1 & H1 & _). destruct double_path as (p2 & H2). exists p1, p2.
  assert (E : 2 * 2 + 0 * 0 <> 0) by lra. assert (M0 : 0%N <> MAX) by discriminate. assert (M1 : 1%N <> MAX) by discriminate.
  destruct (C81_moved_mesh std_lib std_lib bent double (in_polygon bent_start 0) (in_polygon bent_goal 1) (in_polygon _ 0) (in_polygon _ 1) [] p1 p2 bent_start bent_goal 0 1 2 0 (P 0 0)
    E double_moved bent_proper double_proper eq_refl eq_refl (at_polygon _ _ _ M0) (at_polygon _ _ _ M1) eq_refl eq_refl (at_polygon _ _ _ M0) (at_polygon _ _ _ M1) H1 H2) as (d & D1 & D2).
  exists d. split; [exact H1|]. split; [exact H2|]. split; [exact D1|]. rewrite D2. f_equal. f_equal. replace (2 * 2 + 0 * 0) with (2 * 2) by ring. apply sqrt_square. lra.
Qed.
(** C81_futures_rotated *)
Example ex_C81_futures : exists k1 log1 k2 log2 r1 r2,
  poll_times k1 std_lib (get_path bent (vp bent_start) (vp bent_goal)) = Ok (Some r1, log1) /\
  poll_times k2 std_lib (get_path quarter (vp (turned 0 1 quarter_shift bent_start)) (vp (turned 0 1 quarter_shift bent_goal))) = Ok (Some r2, log2) /\ option_map plength r1 = option_map plength r2.
Proof.
  assert (W : mesh_wf bent) by (apply (zm_wf bent_vs bent_ps); vm_compute; reflexivity).
  assert (B : at_border bent []) by (apply zm_at_border; vm_compute; reflexivity).
  assert (L1 : get_point_location (lbvh (@std_lib RA)) bent (coords_on_mesh (vp bent_start)) = Ok 0%N) by (apply (zm_location bent_vs bent_ps); vm_compute; reflexivity).
  assert (L2 : get_point_location (lbvh (@std_lib RA)) bent (coords_on_mesh (vp bent_goal)) = Ok 1%N) by (apply (zm_location bent_vs bent_ps); vm_compute; reflexivity).
  assert (E1 : turned 0 1 quarter_shift bent_start = zp (7, 1)%Z) by (apply P2_eq; unfold turned, quarter_shift, bent_start, zp; cbn [px py fst snd]; lra).
  assert (E2 : turned 0 1 quarter_shift bent_goal = zp (8, -7)%Z) by (apply P2_eq; unfold turned, quarter_shift, bent_goal, zp; cbn [px py fst snd]; lra).
  assert (L3 : get_point_location (lbvh (@std_lib RA)) quarter (coords_on_mesh (vp (turned 0 1 quarter_shift bent_start))) = Ok 0%N) by (rewrite E1; apply (zm_location quarter_vs bent_ps); vm_compute; reflexivity).
  assert (L4 : get_point_location (lbvh (@std_lib RA)) quarter (coords_on_mesh (vp (turned 0 1 quarter_shift bent_goal))) = Ok 1%N) by (rewrite E2; apply (zm_location quarter_vs bent_ps); vm_compute; reflexivity).
  assert (E : 0 * 0 + 1 * 1 = 1) by lra. assert (M0 : 0%N <> MAX) by discriminate. assert (M1 : 1%N <> MAX) by discriminate.
  exact (C81_futures_rotated std_lib std_lib bent quarter bent_start bent_goal 0 1 0 1 quarter_shift E quarter_moved (std_pop_ok RA_total_ok) bent_proper W (zm_real _ _) (zm_real _ _) B eq_refl M0 M1 L1 L2 eq_refl L3 L4 eq_refl).
Qed.
