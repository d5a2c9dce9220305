(** C44 for the searches with the feature `detailed-layers`: the answers do not depend on the hash tables, that is on their random
    seed, capacity and growth. *)
From Coq Require Import List NArith ZArith Bool Lia.
From Verif Require Import Base Arith F32 U32 Mesh Helpers Locate Search AsyncPath Detailed Spec Search_hist Detailed_sim F32_facts
  Properties_mesh Hashed Hashed_detailed Properties_hashed.
From Verif Require Tests_detailed.
Import ListNotations.
Open Scope N_scope.

Section Any.
Context {A : Arith} (OL : order_laws A) (seed : Seed).
Context (HK : forall a b : vec2 A, veq a b = true -> hash_key a = hash_key b).
Implicit Types (root : vec2 A).

Definition hdsim (st : DState A) (ht : HDState) : Prop :=
  dqueue st = hdqueue ht /\ dbuffer st = hdbuffer ht /\ same_table seed (dhist st) (dtable ht).

Lemma hdadd_node_sim c st ht root os s e n :
  hdsim st ht -> rsim hdsim (dadd_node c st root os s e n) (hdadd_node seed c ht root os s e n).
Proof using HK OL.
  intros (S1 & S2 & S3 & S4). unfold dadd_node, hdadd_node. apply rsim_same. intros nn _. cbn [rsim].
  destruct (fnan _ || fnan _); [repeat split; try assumption; apply S3|].
  destruct (hist_get (dhist st) root) as [o|] eqn:E; rewrite S4 in E; rewrite E.
  - destruct (flt _ _); [repeat split; try assumption; apply S3|].
    split; [exact S1|]. split; [cbn [dbuffer hdbuffer]; now rewrite S2|]. cbn [dhist dtable]. split; [now apply set_placed|].
    intro q. rewrite <- S4 in E. rewrite (hist_get_set OL _ _ _ _ _ E). rewrite S4 in E.
    rewrite (set_get OL seed HK _ _ _ _ _ S3 E). now rewrite S4.
  - split; [exact S1|]. split; [cbn [dbuffer hdbuffer]; now rewrite S2|]. cbn [dhist dtable]. split; [now apply add_placed|].
    intro q. rewrite (add_get seed HK _ _ _ _ S3). cbn [hist_get]. now rewrite S4.
Qed.
Lemma hdflush_sim st ht : hdsim st ht -> hdsim (dflush st) (hdflush ht).
Proof. intros (S1 & S2 & S3). unfold hdsim, dflush, hdflush. cbn [dqueue dbuffer dhist hdqueue hdbuffer dtable]. rewrite S1, S2. auto. Qed.

Lemma hdsetup_sim c from ps : rsim hdsim (dsetup c from ps) (hdsetup seed c from ps).
Proof using HK OL.
  unfold dsetup, hdsetup. apply rsim_same. intros l _. apply rsim_same. intros p _. apply rsim_same. intros es _.
  apply (rsim_bind hdsim).
  - apply rsim_foldM.
    + intros x s s' _ HS. unfold dsetup_edge, hdsetup_edge.
      destruct (nthN (vertices l) (fst x)) as [sv|]; [|exact HS]. destruct (nthN (vertices l) (snd x)) as [ev|]; [|exact HS].
      destruct (memN _ _); [exact HS|]. apply rsim_same. intros [] _; [|exact HS]. now apply hdadd_node_sim.
    + split; [reflexivity|]. split; [reflexivity|]. cbn [dhist dtable]. split; [apply add_placed, new_placed|].
      intro q. rewrite (add_get seed HK _ _ _ _ (new_placed seed)), new_get. reflexivity.
  - intros s s' _ HS. now apply hdflush_sim.
Qed.

Lemma hdexpand_sim c n st ht : hdsim st ht -> rsim hdsim (dexpand c n st) (hdexpand seed c n ht).
Proof using HK OL.
  intro HS0. unfold dexpand, hdexpand. apply rsim_same. intros ss _. apply rsim_same. intros l _.
  apply rsim_foldM; [|exact HS0]. intros x s s' _ HS. unfold dexpand_one, hdexpand_one.
  apply rsim_same. intros sv _. apply rsim_same. intros ev _.
  destruct (N.eqb _ _); [exact HS|]. destruct (memN _ _); [exact HS|].
  apply rsim_same. intros [] _; [exact HS|]. destruct (N.eqb _ _); [exact HS|].
  apply rsim_same. intros [root|] _; [|exact HS]. destruct (flt _ _); [exact HS|]. now apply hdadd_node_sim.
Qed.

Lemma hdsuccessors_sim fuel c : forall visited n st ht, hdsim st ht ->
  rsim hdsim (dsuccessors fuel c visited n st) (hdsuccessors seed fuel c visited n ht).
Proof using HK OL.
  induction fuel as [|fuel IH]; intros visited n st ht HS; cbn [dsuccessors hdsuccessors]; [exact I|].
  apply (rsim_bind hdsim); [now apply hdexpand_sim|]. intros s s' _ H. pose proof H as (S1 & S2 & S3). rewrite <- S2.
  destruct (dbuffer s) as [|n' [|n'' r]]; try (apply hdflush_sim; exact H).
  destruct (N.eqb _ _); [apply hdflush_sim; exact H|].
  assert (H' : hdsim (mkDState (dqueue s) [] (dhist s)) (mkHDState (hdqueue s') [] (dtable s')))
    by (split; [exact S1|split; [reflexivity|exact S3]]).
  destruct (reverse_of _ _); [apply hdflush_sim; exact H'|]. destruct (memN _ _); [apply hdflush_sim; exact H'|]. now apply IH.
Qed.

Definition dstep_sim (a : DState A * DStep A) (b : HDState * DStep A) : Prop := hdsim (fst a) (fst b) /\ snd a = snd b.
Lemma hdnext_sim lib c st ht : hdsim st ht -> rsim dstep_sim (dnext lib c st) (hdnext seed lib c ht).
Proof using HK OL.
  intros (S1 & S2 & S3). unfold dnext, hdnext. rewrite S1. destruct (dpop lib (hdqueue ht)) as [[n q]|].
  - cbn [dhist dtable dbuffer hdbuffer]. rewrite (proj2 S3).
    assert (H : hdsim (mkDState q (dbuffer st) (dhist st)) (mkHDState q (hdbuffer ht) (dtable ht)))
      by (split; [reflexivity|split; [exact S2|exact S3]]).
    destruct (match table_get seed (dtable ht) (nroot (dnode n)) with Some o => flt o (ng (dnode n)) | None => false end);
      [split; [exact H|reflexivity]|].
    destruct (N.eqb _ _); [apply rsim_same; intros p _; split; [exact H|reflexivity]|].
    apply (rsim_bind hdsim); [now apply hdsuccessors_sim|]. intros s s' _ HS. split; [exact HS|reflexivity].
  - split; [|reflexivity]. split; [exact S1|]. split; [exact S2|exact S3].
Qed.

Lemma hdrun_eq k lib c : forall st ht ps, hdsim st ht -> hdrun seed k lib c ht ps = drun k lib c st ps.
Proof using HK OL.
  induction k as [|k IH]; intros st ht ps H; cbn [drun hdrun]; [reflexivity|]. apply (hdnext_sim lib c) in H.
  destruct (dnext lib c st) as [[s1 p1]| | |], (hdnext seed lib c ht) as [[s2 p2]| | |]; cbn [rsim] in H; try contradiction; try reflexivity.
  destruct H as [H1 H2]. cbn [fst snd bind] in *. subst p2. now apply IH.
Qed.

Lemma hdfirst_eq k lib c : forall st ht, hdsim st ht -> hdfirst seed k lib c ht = dfirst k lib c st.
Proof using HK OL.
  induction k as [|k IH]; intros st ht H; cbn [dfirst hdfirst]; [reflexivity|]. apply (hdnext_sim lib c) in H.
  destruct (dnext lib c st) as [[s1 p1]| | |], (hdnext seed lib c ht) as [[s2 p2]| | |]; cbn [rsim] in H; try contradiction; try reflexivity.
  destruct H as [H1 H2]. cbn [fst snd bind] in *. subst p2. destruct p1; [reflexivity|reflexivity|now apply IH].
Qed.

Lemma hdpath_eq lib (m : Mesh A) scales from to blocked :
  hdpath_on_layers seed lib m scales from to blocked = dpath_on_layers lib m scales from to blocked.
Proof using HK OL.
  unfold hdpath_on_layers, dpath_on_layers. destruct (locate_end _ m from) as [[ps|]| | |]; try reflexivity. cbn [bind].
  destruct (locate_end _ m to) as [[pe|]| | |]; try reflexivity. cbn [bind].
  destruct (islands_reject m ps pe) as [[]| | |]; try reflexivity. cbn [bind]. destruct (N.eqb ps pe); [reflexivity|].
  pose proof (hdsetup_sim (mkDCtx (mkCtx m (cpos to) pe blocked) scales (cpos from, id_layer ps)) (cpos from) ps) as H.
  destruct (dsetup _ _ _) as [s| | |], (hdsetup _ _ _ _) as [s'| | |]; cbn [rsim] in H; try contradiction; try reflexivity.
  cbn [bind]. now rewrite (hdrun_eq _ lib _ _ _ [] H).
Qed.

Lemma hdget_eq k lib (m : Mesh A) scales from to : hdget_path seed k lib m scales from to = dget_path k lib m scales from to.
Proof using HK OL.
  unfold hdget_path, dget_path. destruct (get_point_location _ m (coords_on_mesh from)) as [ps| | |]; try reflexivity. cbn [bind].
  destruct (N.eqb ps MAX); [reflexivity|].
  destruct (get_point_location _ m (coords_on_mesh to)) as [pe| | |]; try reflexivity. cbn [bind].
  destruct (N.eqb pe MAX); [reflexivity|].
  destruct (async_islands_reject m ps pe) as [[]| | |]; try reflexivity. cbn [bind]. destruct (N.eqb ps pe); [reflexivity|].
  pose proof (hdsetup_sim (mkDCtx (mkCtx m to pe []) scales (from, id_layer ps)) from ps) as H.
  destruct (dsetup _ _ _) as [s| | |], (hdsetup _ _ _ _) as [s'| | |]; cbn [rsim] in H; try contradiction; try reflexivity.
  cbn [bind]. now apply hdfirst_eq.
Qed.
End Any.

(** C44 with `detailed-layers`, whole searches in binary32 (whatever sin, cos, acos): for every seed of the hash tables, every
    first capacity and every growth policy, and every scale of the layers, path_on_layers answers as with a lookup by equality *)
Theorem C44_detailed_any_seed sin cos acos seed lib (m : Mesh (F32with sin cos acos)) scales from to blocked :
  hdpath_on_layers seed lib m scales from to blocked = dpath_on_layers lib m scales from to blocked.
Proof. apply hdpath_eq; [apply F32_order_laws|]. apply C44_equal_roots_hash_equally. Qed.

Corollary C44_detailed_seeds_agree sin cos acos seed seed' lib (m : Mesh (F32with sin cos acos)) scales from to blocked :
  hdpath_on_layers seed lib m scales from to blocked = hdpath_on_layers seed' lib m scales from to blocked.
Proof. now rewrite !C44_detailed_any_seed. Qed.

(** and the future, for every number of steps of its search *)
Theorem C44_detailed_get_path_any_seed sin cos acos seed k lib (m : Mesh (F32with sin cos acos)) scales from to :
  hdget_path seed k lib m scales from to = dget_path k lib m scales from to.
Proof. apply hdget_eq; [apply F32_order_laws|apply C44_equal_roots_hash_equally]. Qed.

(** The hill of the tests (five layers, two of them 1.1 times longer), with a table that starts with one bucket, in which all roots
    collide at first: the way over the hill by three layers. *)
Example ex_hashed_detailed :
  match hdpath_on_layers ex_seed Tests_detailed.dlib32 Tests_detailed.hill_mesh Tests_detailed.hill_scales
          (Tests.at_ (Tests.pt10 2 1)) (Tests.at_ (Tests.pt10 2 39)) [] with
  | Ok (Some p) => map snd (dlayers p) = [1; 2; 4; 4]
  | _ => False
  end.
Proof.
  assert (G : match hdpath_on_layers ex_seed Tests_detailed.dlib32 Tests_detailed.hill_mesh Tests_detailed.hill_scales
          (Tests.at_ (Tests.pt10 2 1)) (Tests.at_ (Tests.pt10 2 39)) [] with
    | Ok (Some p) => map snd (dlayers p) | _ => [] end = [1; 2; 4; 4]) by vmc.
  destruct (hdpath_on_layers _ _ _ _ _ _ _) as [[p|]| | |]; [exact G|discriminate G..].
Qed.

Print Assumptions C44_detailed_any_seed.
Print Assumptions C44_detailed_seeds_agree.
Print Assumptions C44_detailed_get_path_any_seed.
