(** C68, C69: cases that meet the hypotheses. *)
From Coq Require Import List NArith ZArith Bool Lia Reals Lra.
From Verif Require Import Base Arith U32 Mesh Helpers Locate Search AsyncPath Cleanup StdLib F32 RealArith Spec Spec_alike Checkers Tests Alike Cleanup_facts Properties_cleanup Properties_alike Examples_exact Zmesh Examples_shortest Examples_complete Examples_area.
Import ListNotations.
Open Scope N_scope.

(** Two squares, with unused vertices before and between the others. *)
Definition littered : Mesh F32 := mesh1
  [vtx 5 5 [MAX]; vtx 0 0 [0; MAX]; vtx 1 0 [0; 1; MAX]; vtx 7 7 []; vtx 2 0 [1; MAX]; vtx 0 1 [0; MAX]; vtx 1 1 [1; 0; MAX]; vtx 2 1 [1; MAX]]
  [mkPolygon [1; 2; 6; 5] false; mkPolygon [2; 4; 7; 6] false].
Lemma littered_ok : forall l, In l (layers littered) -> lengthN (vertices l) < 2^32 /\ consistent l.
Proof.
  intros l [<-|[]]. split; [reflexivity|].
  intros p i [<-|[<-|[]]] [<-|[<-|[<-|[<-|[]]]]]; (eexists; split; [reflexivity|]); intros [H|H]; discriminate H.
Qed.
Lemma removed_ok (m : Mesh F32) (r : res (Mesh F32 * bool)) n : mesh_remove_useless m = r ->
  match r with Ok (m', true) => match layers m' with [l] => lengthN (vertices l) =? n | _ => false end | _ => false end = true ->
  match layers m with [l] => lengthN (vertices l) =? n | _ => false end = false ->
  exists m', mesh_remove_useless m = Ok (m', true) /\ m' <> m.
Proof.
  intros E H H'. destruct r as [[m' [|]]| | |]; try discriminate H. exists m'. split; [exact E|]. intros ->. rewrite H in H'. discriminate H'.
Qed.
Lemma littered_removed : exists m', mesh_remove_useless littered = Ok (m', true) /\ m' <> littered.
Proof. apply (removed_ok littered _ 6 eq_refl); vmc. Qed.
Lemma littered_path : exists p, path_on_layers lib32 littered (at_ (pt10 5 5)) (at_ (pt10 15 6)) [] = Ok (Some p) /\ true = true.
Proof. apply (is_Ok_Some_ex (fun _ => true)). vmc. Qed.
(** Six vertices are left, the polygons have new vertex numbers, and a search still answers what it did. *)
Example ex_C68 : exists m' p, mesh_remove_useless littered = Ok (m', true) /\ m' <> littered /\ same_answers lib32 littered m' /\
  path_on_layers lib32 littered (at_ (pt10 5 5)) (at_ (pt10 15 6)) [] = Ok (Some p) /\
  path_on_layers lib32 m' (at_ (pt10 5 5)) (at_ (pt10 15 6)) [] = Ok (Some p).
Proof.
  destruct littered_removed as (m' & E & D). destruct littered_path as (p & HP & _).
  pose proof (C68_remove_useless_same_answers lib32 littered m' true std_pop_blind littered_ok E) as HS.
  exists m', p. split; [exact E|]. split; [exact D|]. split; [exact HS|]. split; [exact HP|].
  exact (eq_trans (sa_path _ _ _ HS (at_ (pt10 5 5)) (at_ (pt10 15 6)) []) HP).
Qed.

(** The bent mesh of C65, moved. *)
Example ex_C69 (t : P2) : exists p, path_on_layers std_lib bent (in_polygon bent_goal 1) (in_polygon bent_start 0) [] = Ok (Some p) /\
  path_on_layers std_lib (mesh_shift (vp t) bent) (coords_shift (vp t) (in_polygon bent_goal 1)) (coords_shift (vp t) (in_polygon bent_start 0)) [] =
    Ok (Some (path_shift (vp t) p)).
Proof.
  destruct bent_path_back as [p Hp]. exists p. split; [exact Hp|].
  assert (W : mesh_wf bent) by (apply (zm_wf bent_vs bent_ps); vm_compute; reflexivity).
  rewrite (proj1 (C69_paths_move std_lib bent t std_pop_blind (proj1 W))), Hp. reflexivity.
Qed.
