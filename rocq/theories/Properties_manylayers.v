(** What C03 and C18 need mesh_small for: with more than 256 layers the number of the layer does not fit in the polygon index. *)
From Coq Require Import List NArith ZArith Bool Lia.
From Verif Require Import Base Arith F32 U32 Mesh Helpers Locate Bake Search AsyncPath StdLib Tests Spec Checkers Locate_facts F32_finite Search_safe Properties_dsafe32.
Import ListNotations.
Open Scope N_scope.

Definition no_layer : Layer F32 := mkLayer [] [] vzero None None.
Definition last_layer : Layer F32 :=
  mkLayer [vtx 0 0 [MAX]; vtx 1 0 [MAX]; vtx 1 1 [MAX]; vtx 0 1 [MAX]; vtx 2 0 [MAX]; vtx 2 1 [MAX]]
    [mkPolygon [0; 1; 2; 3] true; mkPolygon [1; 4; 5; 2] true] vzero None None.
(** 256 empty layers and one with two squares next to each other *)
Definition many_layers : Mesh F32 := mkMesh (repeat no_layer 256 ++ [last_layer]) (q 1 10) 2.

(** C03: the point is on the mesh, but the polygon its location names is on the first layer, which has none. *)
Theorem C03_many_layers_refuted : exists (m : Mesh F32) (p : vec2 F32) id,
  mesh_wf m /\ unbaked m /\ lengthN (layers m) = 257 /\
  get_point_location std_bvh m (at_ p) = Ok id /\ id <> MAX /\ (forall l x, ~ polygon_at m id l x) /\
  exists l x, In l (layers m) /\ In x (polygons l) /\ point_in_polygon l p x = Ok true.
Proof.
  exists many_layers, (pt10 5 5), 0. split; [apply mesh_wfb_ok; vmc|]. split; [apply unbakedb_ok; vmc|]. split; [vmc|]. split; [vmc|]. split; [discriminate|]. split.
  - intros l x [H1 H2]. assert (E : nthN (layers many_layers) (id_layer 0) = Some no_layer) by vmc. rewrite E in H1. assert (l = no_layer) by congruence. subst l. discriminate H2.
  - exists last_layer, (mkPolygon [0; 1; 2; 3] true). split; [apply in_or_app; right; now left|]. split; [now left|]. vmc.
Qed.
(** C18: and path fails on it, for two points of neighbouring polygons. *)
Theorem C18_many_layers_refuted : exists (m : Mesh F32) (from to : vec2 F32),
  mesh_wf m /\ unbaked m /\ no_empty m /\ finite_mesh t_sin t_cos t_acos m /\ lengthN (layers m) = 257 /\
  point_in_mesh std_bvh m (at_ from) = Ok true /\ point_in_mesh std_bvh m (at_ to) = Ok true /\
  path lib32 m (at_ from) (at_ to) = Panic.
Proof.
  exists many_layers, (pt10 5 5), (pt10 15 5). split; [apply mesh_wfb_ok; vmc|]. split; [apply unbakedb_ok; vmc|]. split; [apply no_emptyb_ok; vmc|]. split; [apply finite_meshb_ok; vmc|].
  split; [vmc|]. split; [vmc|]. split; [vmc|]. apply panics_eq. vmc.
Qed.
Print Assumptions C03_many_layers_refuted.
Print Assumptions C18_many_layers_refuted.
