(** C93: cases that meet the hypotheses. *)
From Coq Require Import List NArith ZArith Bool Lia Reals Lra.
From Verif Require Import Base Arith U32 Mesh Helpers Locate Search AsyncPath Cleanup StdLib F32 RealArith Detailed Spec Spec_alike Checkers Tests Tests_detailed Alike Cleanup_facts Properties_cleanup Properties_alike Properties_detailed_alike Zmesh Examples_shortest Examples_complete Examples_area Examples_exact Examples_layered.
Import ListNotations.
Open Scope N_scope.

Definition consistentb {A : Arith} (l : Layer A) : bool :=
  forallb (fun p => forallb (fun i => match nthN (vertices l) i with Some v => negb (useless v) | None => false end) (pverts p)) (polygons l).
Lemma consistentb_ok {A : Arith} (l : Layer A) : consistentb l = true -> consistent l.
Proof.
  intros H p i Hp Hi. unfold consistentb in H. pose proof (proj1 (forallb_forall _ _) H p Hp) as H1. cbv beta in H1. pose proof (proj1 (forallb_forall _ _) H1 i Hi) as H2. cbv beta in H2.
  destruct (nthN (vertices l) i) as [v|]; [|discriminate H2]. exists v. split; [reflexivity|]. apply negb_true_iff in H2. unfold useless in H2. intros [U|U]; rewrite U in H2; [discriminate H2|]. rewrite N.eqb_refl in H2. discriminate H2.
Qed.
(** The hill, with an unused vertex before the others of every layer. *)
Definition litter (l : Layer F32) : Layer F32 :=
  mkLayer (vtx 9 9 [MAX] :: vertices l) (map (fun p => mkPolygon (map N.succ (pverts p)) (is_one_way p)) (polygons l)) (offset l) (baked l) (islands l).
Definition littered_hill : Mesh F32 := mkMesh (map litter (layers hill_mesh)) (search_delta hill_mesh) (search_steps hill_mesh).
Definition litter_okb (m : Mesh F32) : bool := forallb (fun l => (lengthN (vertices l) <=? 2^24) && consistentb l) (layers m).
Lemma litter_okb_ok (m : Mesh F32) : litter_okb m = true -> forall l, In l (layers m) -> lengthN (vertices l) <= 2^24 /\ consistent l.
Proof.
  intros H l Hl. pose proof (proj1 (forallb_forall _ _) H l Hl) as H1. cbv beta in H1. apply andb_true_iff in H1. destruct H1 as [H1 H2]. split; [now apply N.leb_le|now apply consistentb_ok].
Qed.
Lemma littered_hill_ok : forall l, In l (layers littered_hill) -> lengthN (vertices l) <= 2^24 /\ consistent l.
Proof. apply litter_okb_ok. vmc. Qed.
Lemma hill_removed : exists mb, mesh_remove_useless littered_hill = Ok mb /\ snd mb = true.
Proof.
  assert (G : match mesh_remove_useless littered_hill with Ok mb => snd mb | _ => false end = true) by vmc.
  destruct (mesh_remove_useless littered_hill) as [mb| | |]; try discriminate G. exists mb. split; [reflexivity|exact G].
Qed.
Lemma hill_query : exists p, dpath_on_layers dlib32 littered_hill hill_scales (at_ (pt10 3 1)) (at_ (pt10 3 39)) [] = Ok (Some p) /\ map snd (dlayers p) = [1; 2; 4; 4].
Proof.
  assert (G : match dpath_on_layers dlib32 littered_hill hill_scales (at_ (pt10 3 1)) (at_ (pt10 3 39)) [] with Ok (Some p) => map snd (dlayers p) | _ => [] end = [1; 2; 4; 4]) by vmc.
  destruct (dpath_on_layers dlib32 littered_hill _ _ _ _) as [[p|]| | |]; try discriminate G. exists p. split; [reflexivity|exact G].
Qed.
(** A vertex is removed, and the search over four layers still answers what it did. *)
Example ex_C93 : exists m' p, mesh_remove_useless littered_hill = Ok (m', true) /\ same_detailed_answers dlib32 littered_hill m' /\
  dpath_on_layers dlib32 m' hill_scales (at_ (pt10 3 1)) (at_ (pt10 3 39)) [] = Ok (Some p) /\ map snd (dlayers p) = [1; 2; 4; 4].
Proof.
  destruct hill_removed as ([m' b] & E & Eb). cbn [snd] in Eb. rewrite Eb in E. destruct hill_query as (p & HP & HL).
  pose proof (C93_remove_useless_same_detailed_answers dlib32 littered_hill m' true std_dpop_blind littered_hill_ok E) as HS.
  exists m', p. split; [exact E|]. split; [exact HS|]. split; [|exact HL]. exact (eq_trans (sd_path _ _ _ HS hill_scales (at_ (pt10 3 1)) (at_ (pt10 3 39)) []) HP).
Qed.

(** The bent mesh of C65, moved. *)
Example ex_C93_moved (t : P2) : exists p, dpath_on_layers std_dlib bent [one_scale] (in_polygon bent_start 0) (in_polygon bent_goal 1) [] = Ok (Some p) /\
  dpath_on_layers std_dlib (mesh_shift (vp t) bent) [one_scale] (coords_shift (vp t) (in_polygon bent_start 0)) (coords_shift (vp t) (in_polygon bent_goal 1)) [] =
    Ok (Some (dpath_shift (vp t) p)).
Proof.
  destruct bent_dpath as [p Hp]. assert (E1 : Detailed_sim.vone = one_scale) by (unfold Detailed_sim.vone, one_scale, vp, pt; rewrite fz_R; reflexivity). rewrite E1 in Hp. exists p. split; [exact Hp|].
  assert (W : mesh_wf bent) by (apply (zm_wf bent_vs bent_ps); vm_compute; reflexivity).
  assert (V : Detailed_sim.verts_small bent) by (intros l [<-|[]]; vm_compute; discriminate).
  rewrite (proj1 (C93_detailed_paths_move std_dlib bent t [one_scale] std_dpop_blind V (proj1 W) (Forall_cons _ eq_refl (Forall_nil _)))), Hp. reflexivity.
Qed.
