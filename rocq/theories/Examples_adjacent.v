(** C78: a concrete case that meets the hypotheses, in binary32: from one square to the next on the U-shaped mesh. *)
From Coq Require Import List NArith ZArith Bool Lia Reals Lra.
From Coq.Floats Require Import SpecFloat.
From Flocq Require Import Core BinarySingleNaN.
From Verif Require Import Base Arith RealArith F32 Decimal32_real Spec_f32 F32_real U32 Mesh Helpers Locate Bake Search StdLib Spec Tests
  Checkers Search_facts Search_props Properties_contain Geometry Properties_search Properties_async Examples_f32 Properties_adjacent.
Import ListNotations.
Open Scope R_scope.

Lemma n3h : num (q 15 10) (3 / 2). Proof. lit false 12582912%positive (-23)%Z (/ 8388608). Qed.
Lemma vertex_all (l : Layer F32) (i : N) w ns : nthN (map (world l) (vertices l)) i = Some w -> nthN (map vpolys (vertices l)) i = Some ns ->
  exists v, nthN (vertices l) i = Some v /\ world l v = w /\ vpolys v = ns.
Proof.
  intros H1 H2. rewrite nthN_nth_error, nth_error_map in H1. rewrite nthN_nth_error, nth_error_map in H2. rewrite nthN_nth_error. destruct (nth_error (vertices l) (N.to_nat i)) as [v|]; [|discriminate].
  exists v. injection H1 as H1. injection H2 as H2. auto.
Qed.
Definition door_from := at_ (pt10 5 5).
Definition door_to := at_ (pt10 5 15).
Example ex_C78 : exists va vb, pop_perm (lpop lib32) /\ located lib32 mesh_u_grid door_from 0 /\ located lib32 mesh_u_grid door_to 3 /\ islands_reject mesh_u_grid 0 3 = Ok false /\
  polygon_at mesh_u_grid 0 ulayer square /\ boundary_edge (pverts square) 5 4 /\ nthN (vertices ulayer) 5 = Some va /\ nthN (vertices ulayer) 4 = Some vb /\
  only_other va vb 0 3 /\ ~ In (id_layer 3) [1%N] /\ at32 (cpos door_from) (P (1 / 2) (1 / 2)) /\ at32 (cpos door_to) (P (1 / 2) (3 / 2)) /\ at32 (world ulayer va) (P 1 1) /\ at32 (world ulayer vb) (P 0 1) /\
  eps + slack (P 1 1) (P 0 1) (P (1 / 2) (1 / 2)) <= orient (P 1 1) (P 0 1) (P (1 / 2) (1 / 2)) /\
  orient (P 1 1) (P 0 1) (P (1 / 2) (3 / 2)) <= - eps - slack (P 1 1) (P 0 1) (P (1 / 2) (3 / 2)) /\
  exists path, path_on_layers lib32 mesh_u_grid door_from door_to [1%N] = Ok (Some path).
Proof.
  destruct (vertex_all ulayer 5 (pt 1 1) [3; 1; 0; MAX]%N ltac:(vmc) ltac:(vmc)) as (va & Va & Wa & Pa).
  destruct (vertex_all ulayer 4 (pt 0 1) [3; 0; MAX]%N ltac:(vmc) ltac:(vmc)) as (vb & Vb & Wb & Pb).
  exists va, vb. split; [apply ex_lib_ok|]. split; [apply locate_end_located; vmc|]. split; [apply locate_end_located; vmc|]. split; [vmc|].
  split; [split; vmc|]. split; [exists 2%nat; split; reflexivity|]. split; [exact Va|]. split; [exact Vb|].
  split. { unfold only_other. rewrite Pa, Pb. split; [now left|]. split; [now left|]. split; [discriminate|]. split; [discriminate|].
    intros i [<-|[<-|[<-|[<-|[]]]]] H; auto. exfalso. destruct H as [H|[H|[H|[]]]]; discriminate. }
  split; [intros [H|[]]; discriminate|]. split; [split; exact nh|]. split; [split; [exact nh|exact n3h]|]. split; [rewrite Wa; split; exact n1|]. split; [rewrite Wb; split; [exact n0|exact n1]|].
  split. { unfold slack, spread, orient, cross, psub, eps; cbn [px py]; unfold Rabs; repeat destruct (Rcase_abs _); lra. }
  split. { unfold slack, spread, orient, cross, psub, eps; cbn [px py]; unfold Rabs; repeat destruct (Rcase_abs _); lra. }
  destruct (is_Ok_Some_ex (fun _ => true) (path_on_layers lib32 mesh_u_grid door_from door_to [1%N]) ltac:(vmc)) as (path & H & _). now exists path.
Qed.
