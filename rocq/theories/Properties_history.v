(** C87: a mesh stays usable through any sequence of maintenance calls. *)
From Coq Require Import List NArith ZArith Bool Permutation Lia.
From Coq.Floats Require Import SpecFloat.
From Verif Require Import Base Arith U32 F32 Mesh Helpers Locate Bake Search AsyncPath Search_facts Search_safe StdLib F32_finite Cleanup Cleanup_facts Merger Stitch Stitch_facts Spec Spec_mesh
  Properties_safe Spec_history History_facts.
Import ListNotations.
Open Scope N_scope.

Section Any.
Context {A : Arith}.
Variables (area_of : list (vec2 A) -> F A) (sort_area : list (N * F A) -> list (N * F A)) (convex : list (vec2 A) -> bool).
Variable sort : list (Z * N) -> list (Z * N).
Variable pos_ok : vec2 A -> vec2 A -> Prop.
Local Notation usable := (usable area_of pos_ok).
Local Notation legal := (legal area_of sort_area convex sort pos_ok).
Local Notation run := (run area_of sort_area convex sort).

(** The library functions do what they are for: the sorts sort, nothing is not convex. *)
Hypothesis Harea : forall l, Permutation l (sort_area l).
Hypothesis Hconvex : convex [] = false.
Hypothesis Hsort : sort_ok sort.

(** Every history of allowed calls goes through, and ends with a mesh in the expected state. *)
Theorem C87_any_history cs : forall ph m, usable ph m -> legal ph m cs -> exists m', run cs m = Ok m' /\ usable (last_phase ph cs) m'.
Proof.
  induction cs as [|c cs IH]; intros ph m HU HL; [exists m; split; [reflexivity|exact HU]|]. destruct HL as [Hc HL].
  destruct (step_call area_of sort_area convex sort pos_ok Harea Hconvex Hsort ph m c HU Hc) as (m1 & E & HU1).
  cbn [Spec_history.run]. rewrite E. cbn [bind]. exact (IH _ _ HU1 (HL _ E)).
Qed.

(** the beginning of an allowed history is allowed *)
Lemma legal_prefix cs1 cs2 : forall ph m, legal ph m (cs1 ++ cs2) -> legal ph m cs1.
Proof. induction cs1 as [|c cs IH]; intros ph m H; [exact I|]. destruct H as [H1 H2]. split; [assumption|]. intros m1 E. apply IH. auto. Qed.

(** a mesh that can be queried: stitched, or with one layer at most *)
Definition queryable (ph : phase) (m : Mesh A) : Prop := ph = Joined \/ (ph = Apart /\ lengthN (layers m) <= 1).
(** squared distances of accepted vertices are numbers *)
Definition pos_sane : Prop := forall o p o' p', pos_ok o p -> pos_ok o' p' -> fnan (vdist2 (vadd p o) (vadd p' o')) = false.

Lemma usable_query ph m : pos_sane -> usable ph m -> queryable ph m ->
  mesh_wf m /\ mesh_small m /\ (forall l, In l (layers m) -> baked_ok l) /\ dists_ok m /\ 10 * search_steps m < 2^32.
Proof.
  intros Hps HU HQ. assert (Hwf : mesh_wf m).
  { destruct HQ as [E|[E H1]]; subst ph; [eapply joined_wf; exact HU|eapply single_wf; eassumption]. }
  destruct HU as (U1 & U2 & _ & U4).
  assert (Hs : forall l, In l (layers m) -> shaped area_of pos_ok l).
  { intros l Hl. apply In_nthN in Hl. destruct Hl as [i Hi]. apply (U4 i l Hi). }
  split; [exact Hwf|]. split; [split; [assumption|intros l Hl; apply (Hs l Hl)]|]. split; [intros l Hl; destruct (Hs l Hl) as (_ & _ & _ & H4 & _); exact H4|]. split; [|assumption].
  intros l v l' v' Hl Hv Hl' Hv'. unfold world. destruct (Hs l Hl) as (_ & _ & _ & _ & P1 & _), (Hs l' Hl') as (_ & _ & _ & _ & P2 & _). apply Hps; auto.
Qed.

(** After any history, at any moment: no query fails on a mesh that can be queried. *)
Theorem C87_path_never_fails cs ph m m' (lib : Lib A) from to blocked : bvh_ok (lbvh lib) -> pop_perm (lpop lib) -> pos_sane ->
  usable ph m -> legal ph m cs -> run cs m = Ok m' -> queryable (last_phase ph cs) m' -> end_ok m' from -> end_ok m' to ->
  exists r, path_on_layers lib m' from to blocked = Ok r.
Proof.
  intros Hb Hq Hps HU HL E HQ Hf Ht. destruct (C87_any_history cs ph m HU HL) as (m1 & E1 & HU1). assert (m1 = m') by congruence. subst m1.
  destruct (usable_query _ _ Hps HU1 HQ) as (H1 & H2 & H3 & H4 & H5). now apply C18_path_never_fails.
Qed.

Theorem C87_future_never_fails cs ph m m' (lib : Lib A) from to polls : bvh_ok (lbvh lib) -> pop_perm (lpop lib) -> pos_sane ->
  usable ph m -> legal ph m cs -> run cs m = Ok m' -> queryable (last_phase ph cs) m' ->
  let r := poll_times polls lib (get_path m' from to) in r <> Panic /\ r <> Oob.
Proof.
  intros Hb Hq Hps HU HL E HQ. destruct (C87_any_history cs ph m HU HL) as (m1 & E1 & HU1). assert (m1 = m') by congruence. subst m1.
  destruct (usable_query _ _ Hps HU1 HQ) as (H1 & H2 & H3 & H4 & H5). now apply C18_get_path_never_fails.
Qed.

Theorem C87_queries_never_fail cs ph m m' (lib : Lib A) (q : Coords A) : bvh_ok (lbvh lib) -> pos_sane ->
  usable ph m -> legal ph m cs -> run cs m = Ok m' -> queryable (last_phase ph cs) m' -> (forall li, clayer q = Some li -> li < lengthN (layers m')) ->
  let good {T} (r : res T) := r <> Panic /\ r <> Oob in
  good (point_in_mesh (lbvh lib) m' q) /\ good (get_point_layer (lbvh lib) m' q) /\
  good (get_closest_point (lbvh lib) m' q) /\ (forall towards, good (get_closest_point_towards (lbvh lib) m' q towards)).
Proof.
  intros Hb Hps HU HL E HQ Hq. destruct (C87_any_history cs ph m HU HL) as (m1 & E1 & HU1). assert (m1 = m') by congruence. subst m1.
  destruct (usable_query _ _ Hps HU1 HQ) as (H1 & H2 & H3 & H4 & H5). now apply C18_queries_never_fail.
Qed.

(** A mesh from `Mesh::new` can be used. *)
Theorem C87_new_mesh vs ps m : mesh_new vs ps = Ok (Done m) ->
  lengthN vs < 2^32 -> (forall p, In p ps -> pverts p <> [] /\ forall i, In i (pverts p) -> i < lengthN vs) ->
  (forall v id, In v vs -> In id (vpolys v) -> id = MAX \/ id < lengthN ps) ->
  (forall p i v, In p ps -> In i (pverts p) -> nthN vs i = Some v -> exists id, In id (vpolys v) /\ id <> MAX) ->
  (forall v, In v vs -> pos_ok vzero (coords v)) ->
  (forall cs, incl cs (map (fun v => coords v) vs) -> fnan (area_of cs) = false) ->
  usable Apart m.
Proof.
  intros E H1 H2 H3 H4 H5 H6. unfold mesh_new in E. inv_bind E. unfold layer_new in E0.
  destruct (_ || _); [injection E0 as <-; discriminate E|]. destruct (N.ltb_spec (2^24 - 1) (lengthN ps)) as [|Hps]; [injection E0 as <-; discriminate E|].
  inv_bind E0. injection E0 as <-. injection E as <-.
  assert (Hs : shaped area_of pos_ok (mkLayer vs ps vzero None None)).
  { split; [exact H1|]. split; [exact Hps|]. split; [exact H2|]. split; [discriminate|]. split; [exact H5|exact H6]. }
  assert (Hl : local_ids (mkLayer vs ps (A:=A) vzero None None)) by (split; [exact H3|exact H4]).
  destruct (bake_kept area_of pos_ok _ Hs Hl) as (l' & El & (_ & K2 & K3 & _)). assert (l' = a0) by congruence. subst l'.
  split; [cbn; lia|]. split; [cbn; lia|]. split; [discriminate|]. intros li l Hli. cbn [layers] in Hli. apply nthN_In in Hli. destruct Hli as [<-|[]]. auto.
Qed.
End Any.

(** binary32: the accepted positions are those with a finite sum *)
Definition finite_sum sn cs ac (o c : vec2 (F32with sn cs ac)) : Prop := vfinite sn cs ac (vadd c o).
Lemma finite_sum_sane sn cs ac : pos_sane (A:=F32with sn cs ac) (finite_sum sn cs ac).
Proof. intros o p o' p' H H'. now apply vdist2_nonan. Qed.

Print Assumptions C87_any_history.
Print Assumptions C87_path_never_fails.
Print Assumptions C87_future_never_fails.
Print Assumptions C87_queries_never_fail.
Print Assumptions C87_new_mesh.
