(** C77: the hypotheses are met by the mesh of the tests; a scale that is finite but huge makes the search panic. *)
From Coq Require Import List NArith ZArith Bool Lia.
From Coq.Floats Require Import SpecFloat.
From Verif Require Import Base Arith F32 U32 Mesh Helpers Locate Bake Search AsyncPath StdLib Spec Tests Stitch Tests_stitch Detailed Tests_detailed Checkers F32_facts F32_finite Search_safe Detailed_facts Detailed_sim Properties_safe Properties_detailed RealArith Properties_geometry Examples_exact Properties_dsafe.
Import ListNotations.
Open Scope N_scope.

Definition verts_smallb {A} (m : Mesh A) : bool := forallb (fun l => lengthN (vertices l) <=? 2^24) (layers m).
Lemma verts_smallb_ok {A} (m : Mesh A) : verts_smallb m = true -> verts_small m.
Proof. intros H l Hl. unfold verts_smallb in H. rewrite forallb_forall in H. apply N.leb_le. now apply H. Qed.
Lemma ex_lib : bvh_ok (dbvh dlib32) /\ dpop_perm (dpop dlib32).
Proof. split; [exact std_bvh_ok|exact std_dpop_perm]. Qed.
Lemma hill_ok : mesh_wf hill_mesh /\ mesh_small hill_mesh /\ verts_small hill_mesh /\ (forall l, In l (layers hill_mesh) -> baked_ok l) /\ dists_ok hill_mesh /\ 10 * search_steps hill_mesh < 2^32.
Proof.
  split; [apply mesh_wfb_ok; vmc|]. split; [apply mesh_smallb_ok; vmc|]. split; [apply verts_smallb_ok; vmc|].
  split; [apply baked_okb_ok; vmc|]. split; [apply finite_dists_ok, finite_meshb_ok; vmc|apply N.ltb_lt; vmc].
Qed.
(** the hypotheses are met, for every two points *)
Example C77_example (a b : vec2 F32) :
  (exists r, dpath_on_layers dlib32 hill_mesh hill_scales (at_ a) (at_ b) [] = Ok r) \/
  (dpath_on_layers dlib32 hill_mesh hill_scales (at_ a) (at_ b) [] = Panic /\ exists d, candidate dlib32 hill_mesh hill_scales (at_ a) (at_ b) [] d /\ fnan (dlength d) = true).
Proof.
  destruct hill_ok as (H1 & H2 & H3 & H4 & H5 & H6). destruct ex_lib as [L1 L2].
  apply C77_detailed_path_never_fails; auto; [apply N.eqb_eq; vmc|..]; intros li Hli; discriminate.
Qed.
Example C77_future_example (a b : vec2 F32) k : exists r, dget_path k dlib32 hill_mesh hill_scales a b = Ok r.
Proof.
  destruct hill_ok as (H1 & H2 & H3 & H4 & H5 & H6). destruct ex_lib as [L1 L2].
  apply C77_detailed_future_never_fails; auto. apply N.eqb_eq; vmc.
Qed.

(** A finite scale is not enough: with the factor 2^127 for one layer, products overflow, lengths are not numbers, and sorting the
    paths found panics.   *)
Definition huge : F F32 := q (2^127) 1.
Definition huge_scales : list (vec2 F32) := [one; one; V huge huge; one; one].
Definition panics {T} (r : res T) : bool := match r with Panic => true | _ => false end.
Lemma panics_eq {T} (r : res T) : panics r = true -> r = Panic.
Proof. destruct r; [discriminate|reflexivity|discriminate|discriminate]. Qed.
Theorem C77_overflowing_scale_refuted : exists (m : Mesh F32) scales (a b : vec2 F32),
  mesh_wf m /\ mesh_small m /\ verts_small m /\ scales_ok m scales /\ (forall l, In l (layers m) -> baked_ok l) /\ dists_ok m /\ 10 * search_steps m < 2^32 /\
  (forall s, In s scales -> fle (q 1 1) (vx s) = true /\ fle (vx s) huge = true /\ fle (q 1 1) (vy s) = true /\ fle (vy s) huge = true) /\
  dpath_on_layers dlib32 m scales (at_ a) (at_ b) [] = Panic.
Proof.
  destruct hill_ok as (H1 & H2 & H3 & H4 & H5 & H6). exists hill_mesh, huge_scales, (pt10 5 1), (pt10 5 39).
  split; [exact H1|]. split; [exact H2|]. split; [exact H3|]. split; [apply N.eqb_eq; vmc|]. split; [exact H4|]. split; [exact H5|]. split; [exact H6|].
  split; [|apply panics_eq; vmc].
  intros s [<-|[<-|[<-|[<-|[<-|[]]]]]]; (split; [vmc|]; split; [vmc|]; split; vmc).
Qed.

(** The hypotheses of C77_detailed_path_exact are met. *)
Lemma stairs_real : real_mesh stairs_exact.
Proof. intros l [<-|[<-|[]]]; (split; [eexists; reflexivity|]); intros v [<-|[<-|[<-|[<-|[]]]]]; eexists; reflexivity. Qed.
Example C77_exact_example (a b : P2) : exists r, dpath_on_layers std_dlib stairs_exact stairs_scales (in_polygon a 0) (in_polygon b other_id) [] = Ok r /\ forall p, r = Some p -> exists t, dlength p = Some t.
Proof.
  apply C77_detailed_path_exact.
  - exact std_bvh_ok.
  - exact std_dpop_perm.
  - apply mesh_wfb_ok. reflexivity.
  - exact stairs_small.
  - exact (proj2 ex_C61).
  - reflexivity.
  - intros l [<-|[<-|[]]] x Hx; discriminate.
  - exact stairs_real.
  - apply Forall_cons; [eexists; reflexivity|]. apply Forall_cons; [eexists; reflexivity|constructor].
  - reflexivity.
  - eexists. eexists. split; reflexivity.
  - eexists. eexists. split; reflexivity.
  - eexists; reflexivity.
  - eexists; reflexivity.
Qed.
