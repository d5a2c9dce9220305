(** C82 is not vacuous: futures that answer with a path around a corner, in exact arithmetic and in binary32. *)
From Coq Require Import List NArith ZArith Bool Reals Lra Lia.
From Flocq Require Import Core BinarySingleNaN.
From Verif Require Import Base Arith RealArith F32 Spec_f32 F32_real U32 Mesh Helpers Locate Bake Search AsyncPath StdLib Spec Locate_facts Search_facts F32_facts Checkers Geometry Tests
  Properties_geometry Properties_search Properties_async Shortest_nodes Properties_shortest Spec_inside Spec_shortest Spec_area Sight_static Zmesh Examples_exact Examples_shortest Properties_complete Examples_complete Properties_area Examples_area
  Triangulation Spec_triangulation Inflate_facts Properties_triangulation Spec_free Properties_inflate Properties_outline Properties_free Examples_free Examples_f32 Properties_future Search_props.
From Verif Require Import Spec_outline.
Import ListNotations.
Open Scope R_scope.

Example ex_C82 : exists k log path, pop_ok (lpop (@std_lib RA)) /\ real_mesh bent /\ plane_mesh bent /\ u32_ids bent /\
  future_at std_lib bent (vp bent_start) 0 /\ future_at std_lib bent (vp bent_goal) 1 /\ 0%N <> 1%N /\
  (exists qs, corners bent 0 qs /\ inside qs bent_start) /\ steady bent bent_start /\ steady_goal bent bent_start 1 bent_goal /\
  poll_times k std_lib (get_path bent (vp bent_start) (vp bent_goal)) = Ok (Some (Some path), log).
Proof.
  destruct ex_C64_future as (k & log & path & H). exists k, log, path.
  split; [exact (pr_pop _ _ _ _ _ _ _ bent_proper)|]. split; [apply zm_real|]. split; [exact (pr_plane _ _ _ _ _ _ _ bent_proper)|].
  split; [exact (pr_u32 _ _ _ _ _ _ _ bent_proper)|].
  split. { split; [|discriminate]. apply zm_location; vm_compute; reflexivity. }
  split. { split; [|discriminate]. apply zm_location; vm_compute; reflexivity. }
  split; [discriminate|].
  split. { destruct (ge_start _ _ _ _ _ bent_generic) as (qs & Q1 & Q2). exists qs. split; [exact Q1|]. intros a b Hab. apply Rlt_le. now apply Q2. }
  split; [exact (generic_steady _ _ _ _ _ bent_generic)|]. split; [exact (generic_goal _ _ _ _ _ bent_generic)|exact H].
Qed.

(** what follows: the future's path keeps the radius of the agent from the obstacle of Examples_free *)
Example ex_C82_distance : exists k log path pts,
  poll_times k std_lib (get_path bent (vp bent_start) (vp bent_goal)) = Ok (Some (Some path), log) /\ ppath path = map vp pts /\
  polyline_in (fun x => forall a b k, In (a, b) (pairs far_ring) -> 0 <= k <= 1 -> 1 / 2 * cos (PI / (2 * IZR (Z.of_N (arc_count 5)))) <= dist x (lerp a b k)) bent_start pts.
Proof.
  destruct ex_C82 as (k & log & path & H1 & _ & H2 & H3 & H4 & H5 & _ & H6 & H7 & H8 & H). destruct far_built as [c HB].
  destruct (C82_keeps_distance far_lib far0 _ far_t c bent (1 / 2) 0 5 (P 100 0) (P 103 4) [P 103 0] std_lib k path log
    bent_start bent_goal 0 1 HB (or_introl far_radius)) as (pts & E & HP); try assumption.
  - lra.
  - lia.
  - apply free_trig.
  - apply free_union.
  - apply free_simplify.
  - now left.
  - discriminate.
  - intros r _. apply free_finds.
  - now apply pop_ok_perm.
  - reflexivity.
  - exists k, log, path, pts. auto.
Qed.

(** In binary32, on the mesh of tests/u_grid: from polygon 3 to polygon 4. *)
Lemma answer_ok (r : res (option (option (Path F32)) * list bool)) n :
  match r with Ok (Some (Some p), _) => Nat.eqb (length (ppath p)) n | _ => false end = true -> exists p log, r = Ok (Some (Some p), log) /\ length (ppath p) = n.
Proof. destruct r as [[[[p|]|] log]| | |]; try discriminate. intro H. apply Nat.eqb_eq in H. eauto. Qed.
Lemma location_ok (r : res N) id : match r with Ok i => N.eqb i id | _ => false end = true -> r = Ok id.
Proof. destruct r as [i| | |]; try discriminate. intro H. apply N.eqb_eq in H. now subst. Qed.
Example ex_C82_in_binary32 : pop_perm (lpop lib32) /\ mesh32 mesh_u_grid /\
  (exists a b, at32 (cpos ex_from) a /\ at32 (cpos ex_to) b /\ within 1125899906842624 a /\ within 1125899906842624 b) /\
  future_at lib32 mesh_u_grid (cpos ex_from) 3 /\ future_at lib32 mesh_u_grid (cpos ex_to) 4 /\ 3%N <> 4%N /\
  exists p log, poll_times 10 lib32 (get_path mesh_u_grid (cpos ex_from) (cpos ex_to)) = Ok (Some (Some p), log) /\ INR (length (ppath p)) <= 4194300.
Proof.
  destruct ex_C74 as (H1 & _ & H3 & H4 & _). split; [exact H1|]. split; [exact H3|]. split; [exact H4|].
  split; [split; [apply location_ok; vmc|discriminate]|]. split; [split; [apply location_ok; vmc|discriminate]|]. split; [discriminate|].
  destruct (answer_ok (poll_times 10 lib32 (get_path mesh_u_grid (cpos ex_from) (cpos ex_to))) 3 ltac:(vmc)) as (p & log & E & L). exists p, log. split; [exact E|]. rewrite L. cbn. lra.
Qed.
