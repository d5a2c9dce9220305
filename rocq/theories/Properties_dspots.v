(** C91 with `detailed-layers`: unused spots in the list of polygons are not in the way of the detailed search either. *)
From Coq Require Import List NArith ZArith Bool Lia Permutation Reals Lra.
From Verif Require Import Base Arith F32 U32 Mesh Helpers Locate Bake Search AsyncPath Detailed StdLib Spec Spec_detailed Locate_facts Closest_facts
  Search_facts Search_props Search_cost Detailed_facts Detailed_sim Search_safe Properties_locate Properties_contain Finder_gen Checkers F32_finite Properties_detailed RealArith Geometry Heuristic Properties_geometry Properties_heuristic Properties_segment Properties_complete Properties_dsafe Tests Tests_detailed Properties_dsafe32 Properties_spots Properties_spotty.
Import ListNotations.
Open Scope N_scope.

Section Search.
Context {A : Arith}.
Implicit Types (n : DNode A) (st : DState A).
Definition sdnode_ok (c : DCtx A) n : Prop := snode_ok (dctx c) (dnode n) /\ forall a b l, In (a, b, l) (dpoints n) -> l < lengthN (layers (cmesh (dctx c))).
Lemma spot_poly (m : Mesh A) id : spot_ok m id -> poly_ok m id.
Proof. intros (l & p & H & _). now exists l, p. Qed.
Lemma sdnode_dnode c n : sdnode_ok c n -> dnode_ok c n.
Proof. intros [[H1 H2] H3]. split; [split; [now apply spot_poly|exact H2]|exact H3]. Qed.

Context (c : DCtx A) (Hwf : spots_wf (cmesh (dctx c))) (Hv : verts_small (cmesh (dctx c))) (Hd : dists_ok (cmesh (dctx c))) (Hto : spot_ok (cmesh (dctx c)) (cpto (dctx c)))
  (Hsc : scales_ok (cmesh (dctx c)) (dscales c)) (Hfrom : snd (dfrom c) < lengthN (layers (cmesh (dctx c)))).
Notation m := (cmesh (dctx c)).

Lemma sd_layer id : spot_ok m id -> id_layer id < lengthN (layers m).
Proof using. intro H. now apply poly_layer, spot_poly. Qed.
Lemma sd_gen_start_ok from ps n : dgen_start c from ps n -> sdnode_ok c n.
Proof using Hto Hwf.
  intros (l & p & a & b & sv & ev & [H1 H2] & H3 & H4 & H5 & H6 & H7 & HN & _). apply dnew_node_Ok in HN. destruct HN as (g & h & _ & ->).
  assert (HP : spot_ok m (other_side sv ev ps)).
  { destruct H7 as [-> |(Ho & _)]; [exact Hto|]. destruct (other_side_spec sv ev ps) as [E|(_ & _ & E & _)]; [contradiction|].
    apply nthN_In in H1. apply nthN_In in H4. exact (proj2 Hwf l sv _ H1 H4 E Ho). }
  split; [split|].
  - exact HP.
  - exists l. cbn [dnode nprev nedge fst snd empty_node nto]. split; [exact H1|]. split; eapply nthN_Some_lt; eauto.
  - cbn [dpoints app nroot empty_node dnode nto]. intros x y k Hk. apply in_app_or in Hk. destruct Hk as [Hk|Hk].
    + destruct (veq _ _); [destruct Hk|]. destruct Hk as [E|[]]. injection E as _ _ <-. eapply nthN_Some_lt; eauto.
    + destruct (N.eqb _ _); [destruct Hk|]. destruct Hk as [E|[]]. injection E as _ _ <-. now apply sd_layer.
Qed.
Lemma sd_gen_step_ok n n' : sdnode_ok c n -> dgen_step c n n' -> sdnode_ok c n'.
Proof using Hto Hwf.
  intros [Hn Hm'] (s & root & l & ss & sv & ev & H1 & H2 & H3 & H4 & H5 & H6 & H7 & H8 & H9 & H10 & H11 & HN & _).
  apply dnew_node_Ok in HN. destruct HN as (g & h & _ & ->).
  assert (HP : spot_ok m (other_side sv ev (nto (dnode n)))).
  { destruct (other_side_spec sv ev (nto (dnode n))) as [E|(_ & _ & E & _)]; [contradiction|]. apply nthN_In in H1. apply nthN_In in H4. exact (proj2 Hwf l sv _ H1 H4 E H6). }
  split; [split|].
  - exact HP.
  - exists l. cbn [dnode nprev nedge fst snd]. split; [exact H1|]. split; eapply nthN_Some_lt; eauto.
  - cbn [dpoints]. intros x y k Hk. apply in_app_or in Hk. destruct Hk as [Hk|Hk]; [apply in_app_or in Hk; destruct Hk as [Hk|Hk]|].
    + now apply (Hm' x y).
    + destruct (veq _ _); [destruct Hk|]. destruct Hk as [E|[]]. injection E as _ _ <-. apply sd_layer. exact (proj1 Hn).
    + destruct (N.eqb _ _); [destruct Hk|]. destruct Hk as [E|[]]. injection E as _ _ <-. now apply sd_layer.
Qed.
Lemma sd_safe_dexpand n st : sdnode_ok c n -> safe (dexpand c n st).
Proof using Hwf Hv Hd Hsc.
  intros [Hn _]. pose proof Hn as [(l & p & [Hl Hp] & Hne) _]. unfold dexpand.
  apply safe_bind; [now apply sp_safe_edges_between|]. intros ss Hss.
  pose proof Hl as Hl'. apply index_Ok in Hl'. rewrite Hl'. cbn [bind].
  destruct (edges_between_spec (dctx c) (dnode n) ss Hss) as (l0 & p0 & [H1 H2] & HE).
  assert (l0 = l) by congruence. subst l0. assert (p0 = p) by congruence. subst p0.
  assert (HP : poly_ok m (nto (dnode n))) by (apply spot_poly, (proj1 Hn)).
  apply nthN_In in Hl. apply nthN_In in Hp. pose proof (fun v => proj1 Hwf l p v Hl Hp) as Hin.
  apply safe_foldM. intros s x Hx. apply HE in Hx. apply boundary_In in Hx. destruct Hx as [Hx1 Hx2].
  unfold dexpand_one.
  apply safe_bind; [apply safe_unchecked; auto|]. intros sv Hsv. apply get_unchecked_Ok, nthN_In in Hsv.
  apply safe_bind; [apply safe_unchecked; auto|]. intros ev Hev.
  destruct (other_side_spec sv ev (nto (dnode n))) as [Ho|(Ho & _ & Ho2 & _)].
  - rewrite Ho, N.eqb_refl. apply safe_Ok.
  - destruct (N.eqb_spec (other_side sv ev (nto (dnode n))) MAX); [contradiction|].
    destruct (memN _ _); [apply safe_Ok|].
    apply safe_bind.
    + destruct (N.eqb (cpto (dctx c)) (other_side sv ev (nto (dnode n)))); [apply safe_Ok|].
      apply safe_bind; [apply sp_spot_ok_safe; eapply (proj2 Hwf); eauto|]. intros; apply safe_Ok.
    + intros dead _. destruct dead; [apply safe_Ok|].
      destruct (N.eqb (nfrom (dnode n)) (other_side sv ev (nto (dnode n)))); [apply safe_Ok|].
      apply safe_bind.
      * destruct (sty x); try apply safe_Ok; (destruct (fgt _ _); [apply safe_Ok|]);
          (apply safe_bind; [apply sp_safe_corner_ok; auto|intros; apply safe_Ok]).
      * intros [root|] _; [|apply safe_Ok]. destruct (flt _ _); [apply safe_Ok|]. apply (safe_dadd c Hv Hsc l); auto.
Qed.
Lemma sd_safe_dsuccessors : forall fuel vis n st, sdnode_ok c n -> dall (sdnode_ok c) st -> safe (dsuccessors fuel c vis n st).
Proof using Hwf Hv Hd Hsc Hto.
  induction fuel as [|fuel IH]; intros vis n st Hn Hst; [split; discriminate|].
  cbn [dsuccessors]. apply safe_bind; [now apply sd_safe_dexpand|]. intros st' E.
  assert (Ha : dall (sdnode_ok c) st').
  { eapply dexpand_inv with (I := dall (sdnode_ok c)); [|exact Hst|exact E].
    intros st0 n' st1 H1 H2 H3. eapply dall_added; [exact H1| |exact H3]. eapply sd_gen_step_ok; eauto. }
  destruct (dbuffer st') as [|n' [|]] eqn:EB; try apply safe_Ok.
  destruct (N.eqb _ _); [apply safe_Ok|].
  destruct (reverse_of _ _); [apply safe_Ok|]. destruct (memN _ vis); [apply safe_Ok|].
  apply IH; [apply Ha; rewrite EB; now left|]. destruct Ha as [Ha1 Ha2]. split; simpl; [assumption|tauto].
Qed.
Lemma sd_safe_dsetup from ps : spot_ok m ps -> safe (dsetup c from ps).
Proof using Hwf Hv Hsc.
  intros Hps. pose proof Hps as (l & p & [Hl Hp] & Hne). unfold dsetup.
  pose proof Hl as Hl'. apply index_Ok in Hl'. rewrite Hl'. cbn [bind].
  pose proof Hp as Hp'. apply index_Ok in Hp'. rewrite Hp'. cbn [bind].
  apply nthN_In in Hl. apply nthN_In in Hp. pose proof (fun v => proj1 Hwf l p v Hl Hp) as Hin.
  apply safe_bind; [now apply safe_edges_index|]. intros es _.
  apply safe_bind; [|intros; apply safe_Ok]. apply safe_foldM. intros st [a b] _. unfold dsetup_edge. cbn [fst snd].
  destruct (nthN (vertices l) a) as [sv|] eqn:EA; [|apply safe_Ok].
  destruct (nthN (vertices l) b) as [ev|] eqn:EB; [|apply safe_Ok].
  destruct (memN _ _); [apply safe_Ok|]. apply safe_bind.
  - destruct (N.eqb (other_side sv ev ps) (cpto (dctx c))); [apply safe_Ok|].
    destruct (N.eqb_spec (other_side sv ev ps) MAX) as [Ho|Ho]; [apply safe_Ok|].
    destruct (other_side_spec sv ev ps) as [Ho'|(_ & _ & Ho2 & _)]; [contradiction|].
    apply safe_bind; [|intros; apply safe_Ok]. apply sp_spot_ok_safe. apply nthN_In in EA. eapply (proj2 Hwf); eauto.
  - intros [] _; [|apply safe_Ok]. apply (safe_dadd c Hv Hsc l); [now apply spot_poly|exact Hl|cbn [snd]; eapply nthN_Some_lt; eauto..].
Qed.
Lemma sd_safe_dnext lib st : dpop_perm (dpop lib) -> dall (sdnode_ok c) st -> dbuffer st = [] -> safe (dnext lib c st).
Proof using Hwf Hv Hd Hsc Hto Hfrom.
  intros Hpop [H1 H2] HB. unfold dnext. specialize (Hpop (dqueue st)).
  destruct (dpop lib (dqueue st)) as [[n q]|]; [|apply safe_Ok]. cbn [dhist].
  destruct (match hist_get _ _ with Some _ => _ | None => _ end); [apply safe_Ok|].
  assert (Hn : sdnode_ok c n) by (apply H1; eapply Permutation_in; [symmetry; exact Hpop|now left]).
  destruct (N.eqb _ _).
  - apply safe_bind; [now apply safe_dfinal, sdnode_dnode|intros; apply safe_Ok].
  - apply safe_bind; [|intros; apply safe_Ok]. apply sd_safe_dsuccessors; [exact Hn|].
    split; simpl; [|assumption]. intros x Hx. apply H1. eapply Permutation_in; [symmetry; exact Hpop|now right].
Qed.
Lemma sd_dnext_Ok lib st : dpop_perm (dpop lib) -> dall (sdnode_ok c) st -> dbuffer st = [] ->
  exists st' r, dnext lib c st = Ok (st', r) /\ dall (sdnode_ok c) st' /\ dbuffer st' = [].
Proof using Hwf Hv Hd Hsc Hto Hfrom.
  intros Hpop Hst HB. destruct (sd_safe_dnext lib st Hpop Hst HB) as [S1 S2]. pose proof (dnext_nf lib c st HB) as S3. unfold nf in S3.
  destruct (dnext lib c st) as [[st' r]| | |] eqn:E; try contradiction. exists st', r. split; [reflexivity|].
  destruct (dnext_all lib c st st' r (sdnode_ok c) Hpop sd_gen_step_ok Hst HB E) as (G1 & G2 & _). auto.
Qed.
Lemma sd_drun_Ok lib : dpop_perm (dpop lib) -> forall k st paths, dall (sdnode_ok c) st -> dbuffer st = [] -> exists out, drun k lib c st paths = Ok out.
Proof using Hwf Hv Hd Hsc Hto Hfrom.
  intro Hpop. induction k as [|k IH]; intros st paths Hst HB; cbn [drun]; [eauto|].
  destruct (sd_dnext_Ok lib st Hpop Hst HB) as (st' & r & -> & G1 & G2). cbn [bind fst snd]. now apply IH.
Qed.
Lemma sd_dfirst_Ok lib : dpop_perm (dpop lib) -> forall k st, dall (sdnode_ok c) st -> dbuffer st = [] -> exists out, dfirst k lib c st = Ok out.
Proof using Hwf Hv Hd Hsc Hto Hfrom.
  intro Hpop. induction k as [|k IH]; intros st Hst HB; cbn [dfirst]; [eauto|].
  destruct (sd_dnext_Ok lib st Hpop Hst HB) as (st' & r & -> & G1 & G2). cbn [bind fst snd]. destruct r; eauto.
Qed.
Lemma sd_dsetup_Ok from ps : spot_ok m ps -> exists st, dsetup c from ps = Ok st /\ dall (sdnode_ok c) st /\ dbuffer st = [].
Proof using Hwf Hv Hsc Hto.
  intro Hps. destruct (sd_safe_dsetup from ps Hps) as [S1 S2]. pose proof (nf_dsetup c from ps) as S3. unfold nf in S3. destruct (dsetup c from ps) as [st| | |] eqn:E; try contradiction.
  exists st. split; [reflexivity|]. exact (dsetup_all c from ps st (sdnode_ok c) (sd_gen_start_ok from ps) E).
Qed.
End Search.

Section Theorems.
Context {A : Arith}.

(** C91: with `detailed-layers`, on a mesh that may have empty polygons, path_on_layers answers, unless the length of a path found is not a number. *)
Theorem C91_detailed_path_never_fails (lib : DLib A) (m : Mesh A) scales (from to : Coords A) blocked :
  no_box (A:=A) -> finder_exact (dbvh lib) -> dpop_perm (dpop lib) ->
  spots_wf m -> mesh_small m -> verts_small m -> scales_ok m scales -> spots_baked m -> dists_ok m -> 10 * search_steps m < 2^32 ->
  spot_end m from -> spot_end m to ->
  (exists r, dpath_on_layers lib m scales from to blocked = Ok r) \/
  (dpath_on_layers lib m scales from to blocked = Panic /\ exists d, candidate lib m scales from to blocked d /\ fnan (dlength d) = true).
Proof.
  intros HX Hb Hpop Hw Hm Hv Hsc Hbk Hd Hs Hf Ht.
  assert (Hl : layers_locate (dbvh lib) m) by (intros l Hl; apply (spots_locates _ Hb HX), Hbk, Hl).
  assert (LE : forall q, spot_end m q -> exists o, locate_end (dlib_lib lib) m q = Ok o /\ forall id, o = Some id -> spot_ok m id).
  { intros q Hq. destruct (sp_safe_locate (dlib_lib lib) m q Hb Hl Hm Hs Hq) as [[S1 S2] P].
    assert (S3 : nf (locate_end (dlib_lib lib) m q)). { unfold locate_end. destruct (negb _); [apply nf_Ok|]. apply nf_bind; [apply nf_get_closest_point|]. intros; apply nf_Ok. }
    unfold nf in S3. destruct (locate_end (dlib_lib lib) m q) as [o| | |] eqn:E; try contradiction. exists o. split; [reflexivity|]. intros id ->. now apply P. }
  destruct (LE from Hf) as (os & E1 & P1). destruct (LE to Ht) as (oe & E2 & P2).
  unfold dpath_on_layers. rewrite E1. cbn [bind]. destruct os as [ps|]; [|left; eauto]. rewrite E2. cbn [bind]. destruct oe as [pe|]; [|left; eauto].
  pose proof (P1 _ eq_refl) as Hps. pose proof (P2 _ eq_refl) as Hpe.
  assert (exists rej, islands_reject m ps pe = Ok rej) as [rej ->].
  { unfold islands_reject. destruct (N.eqb _ 1); [|eauto]. destruct Hps as (l & p & [H1 _] & _). apply index_Ok in H1. rewrite H1. cbn [bind]. eauto. }
  cbn [bind]. destruct rej; [left; eauto|]. destruct (N.eqb_spec ps pe) as [->|Hne]; [left; eauto|].
  set (c := mkDCtx (mkCtx m (cpos to) pe blocked) scales (cpos from, id_layer ps)).
  assert (Hfrom : snd (dfrom c) < lengthN (layers (cmesh (dctx c)))) by (now apply poly_layer, spot_poly).
  destruct (sd_dsetup_Ok c Hw Hv Hpe Hsc (cpos from) ps Hps) as (st & Es & G1 & G2). rewrite Es. cbn [bind].
  destruct (sd_drun_Ok c Hw Hv Hd Hpe Hsc Hfrom lib Hpop (count_polygons m * 10) st [] G1 G2) as (out & Er). cbv zeta in Er |- *. change (dctx c) with (mkCtx m (cpos to) pe blocked) in *.
  rewrite Er. cbn [bind]. unfold dselect. destruct out as [|p [|p' r]]; [left; eauto|left; eauto|].
  destruct (existsb _ _) eqn:EX; [|left; eauto]. right. split; [reflexivity|]. apply existsb_exists in EX. destruct EX as (d & Hin & Hn). exists d. split; [|exact Hn].
  exists ps, pe. split; [now apply locate_end_located|]. split; [now apply locate_end_located|]. right. split; [exact Hne|].
  destruct (drun_sound lib c d _ _ _ _ Er Hin) as [[]|(k & st1 & st2 & K1 & K2 & K3)]. exists st, k, st1, st2. auto.
Qed.

(** The future never fails. *)
Theorem C91_detailed_future_never_fails (lib : DLib A) (m : Mesh A) scales (a b : vec2 A) steps :
  no_box (A:=A) -> finder_exact (dbvh lib) -> dpop_perm (dpop lib) ->
  spots_wf m -> mesh_small m -> verts_small m -> scales_ok m scales -> spots_baked m -> dists_ok m ->
  exists r, dget_path steps lib m scales a b = Ok r.
Proof.
  intros HX Hb Hpop Hw Hm Hv Hsc Hbk Hd.
  assert (Hl : layers_locate (dbvh lib) m) by (intros l Hl; apply (spots_locates _ Hb HX), Hbk, Hl).
  assert (GL : forall q, exists id, get_point_location (dbvh lib) m (coords_on_mesh q) = Ok id /\ (id <> MAX -> spot_ok m id)).
  { intro q. destruct (spots_get_point_location (dbvh lib) m (coords_on_mesh q) Hl) as [S1 S2]. pose proof (nf_get_point_location (dbvh lib) m (coords_on_mesh q)) as S3. unfold nf in S3.
    destruct (get_point_location (dbvh lib) m (coords_on_mesh q)) as [id| | |] eqn:E; try contradiction. exists id. split; [reflexivity|].
    intro Hid. destruct (get_point_location_found _ _ _ _ Hm E Hid) as (l & p & Hp & (p' & v & Hk & _ & Hc) & _). assert (p' = p) by (destruct Hp as [_ Hp]; congruence). subst p'. exists l, p. split; [assumption|]. eapply contains_not_empty; eassumption. }
  destruct (GL a) as (ps & E1 & P1). destruct (GL b) as (pe & E2 & P2).
  unfold dget_path. rewrite E1. cbn [bind]. destruct (N.eqb_spec ps MAX) as [_|N1]; [eauto|]. rewrite E2. cbn [bind]. destruct (N.eqb_spec pe MAX) as [_|N2]; [eauto|].
  specialize (P1 N1). specialize (P2 N2).
  assert (exists rej, async_islands_reject m ps pe = Ok rej) as [rej ->].
  { unfold async_islands_reject. destruct (N.eqb _ _); [|eauto]. destruct P1 as (l & p & [H1 _] & _). apply index_Ok in H1. rewrite H1. cbn [bind]. eauto. }
  cbn [bind]. destruct rej; [eauto|]. destruct (N.eqb_spec ps pe) as [->|Hne]; [eauto|].
  set (c := mkDCtx (mkCtx m b pe []) scales (a, id_layer ps)).
  assert (Hfrom : snd (dfrom c) < lengthN (layers (cmesh (dctx c)))) by (now apply poly_layer, spot_poly).
  destruct (sd_dsetup_Ok c Hw Hv P2 Hsc a ps P1) as (st & Es & G1 & G2). cbv zeta. rewrite Es. cbn [bind].
  exact (sd_dfirst_Ok c Hw Hv Hd P2 Hsc Hfrom lib Hpop steps st G1 G2).
Qed.
End Theorems.

Lemma RA_no_box : no_box (A:=RA).
Proof.
  intro x. destruct (fle fmaxval x && fle x (fz 0)) eqn:E; [exfalso|reflexivity]. apply andb_prop in E. destruct E as [E1 E2].
  destruct x as [x|]; [|discriminate E1]. rewrite fz_R in E2. cbn [fle fmaxval RA rcmp] in E1, E2. unfold rleb in E1, E2.
  destruct (Rle_dec _ _) as [L1|] in E1; [|discriminate E1]. destruct (Rle_dec _ _) as [L2|] in E2; [|discriminate E2].
  apply (Rle_trans _ _ _ L1) in L2. apply le_IZR in L2. apply L2. reflexivity.
Qed.
(** Exact arithmetic, real coordinates and scales: there is an answer, and its length is a number. *)
Theorem C91_detailed_path_exact (lib : DLib RA) (m : Mesh RA) scales (from to : Coords RA) blocked :
  finder_exact (dbvh lib) -> dpop_perm (dpop lib) ->
  spots_wf m -> mesh_small m -> verts_small m -> scales_ok m scales -> spots_baked m -> real_mesh m -> real_scales scales -> 10 * search_steps m < 2^32 ->
  spot_end m from -> spot_end m to -> real_pt (cpos from) -> real_pt (cpos to) ->
  exists r, dpath_on_layers lib m scales from to blocked = Ok r /\ forall p, r = Some p -> exists t, dlength p = Some t.
Proof.
  intros Hb Hpop Hw Hm Hv Hsc Hbk Hre Hrs Hs Hf Ht Rf Rt.
  assert (C : forall d, candidate lib m scales from to blocked d -> exists t, dlength d = Some t).
  { intros d (ps & pe & L1 & L2 & [[_ ->]|(Hne & st & k & st1 & st2 & G1 & G2 & G3 & G4)]).
    - cbn [dlength]. destruct Rf as [zf ->], Rt as [zt ->]. rewrite vdist_vp. eauto.
    - set (c := mkDCtx (mkCtx m (cpos to) pe blocked) scales (cpos from, id_layer ps)) in *.
      assert (HM : cpto (dctx c) <> MAX) by (exact (located_not_MAX (dlib_lib lib) m to pe Hm L2)).
      destruct (dsetup_all c (cpos from) ps st (dsupported c ps) (fun n Hn => dgen_start_supported c (cpos from) ps n RA_dnan_sane HM Hn) G1) as [A1 A2].
      assert (HP : forall n n', dsupported c ps n -> dgen_step c n n' -> dsupported c ps n') by (intros n n'; apply dgen_step_supported; exact RA_dnan_sane).
      destruct (after_all lib c (dsupported c ps) Hpop HP k st st1 G3 A1 A2) as [B1 B2].
      destruct (dnext_all lib c st1 st2 _ (dsupported c ps) Hpop HP B1 B2 G4) as (_ & _ & B3). destruct (B3 d eq_refl) as (n & N1 & N2 & N3).
      exact (real_final c ps n d Hre Hrs Rf Rt N1 N2 N3). }
  destruct (C91_detailed_path_never_fails lib m scales from to blocked RA_no_box Hb Hpop Hw Hm Hv Hsc Hbk (real_dists m Hre) Hs Hf Ht) as [[r E]|[_ (d & Hd & Hn)]].
  - exists r. split; [exact E|]. intros p ->. apply C. apply (C60_shortest_of_the_found RA_lt_laws) in E. exact (proj1 E).
  - exfalso. destruct (C d Hd) as [t Et]. rewrite Et in Hn. discriminate.
Qed.

(** The mesh with an empty spot meets the hypotheses, and the detailed search finds the way from one square to the other. *)
Example ex_C91_detailed :
  finder_exact (dbvh dlib32) /\ dpop_perm (dpop dlib32) /\ spots_wf (with_finder spotty) /\ mesh_small (with_finder spotty) /\ verts_small (with_finder spotty) /\
  scales_ok (with_finder spotty) [one] /\ spots_baked (with_finder spotty) /\ dists_ok (with_finder spotty) /\ 10 * search_steps (with_finder spotty) < 2^32 /\
  ~ no_empty spotty /\
  exists p, dpath_on_layers dlib32 (with_finder spotty) [one] (at_ (pt10 5 5)) (at_ (pt10 15 5)) [] = Ok (Some p) /\ dpath p = [pt10 15 5].
Proof.
  split; [apply std_finder_exact|]. split; [apply std_dpop_perm|]. split; [apply spots_wfb_ok; vmc|]. split; [apply mesh_smallb_ok; vmc|]. split; [apply verts_smallb_ok; vmc|].
  split; [reflexivity|]. split; [apply spotty_baked|]. split; [apply (finite_dists_ok t_sin t_cos t_acos), finite_meshb_ok; vmc|]. split; [apply N.ltb_lt; vmc|]. split.
  - intro H. refine (H _ (mkPolygon [] false) (or_introl eq_refl) _ eq_refl). now left.
  - assert (G : match dpath_on_layers dlib32 (with_finder spotty) [one] (at_ (pt10 5 5)) (at_ (pt10 15 5)) [] with Ok (Some p) => dpath p | _ => [] end = [pt10 15 5]) by vmc.
    destruct (dpath_on_layers dlib32 _ _ _ _ _) as [[p|]| | |]; try discriminate G. exists p. split; [reflexivity|exact G].
Qed.
Print Assumptions C91_detailed_path_never_fails.
Print Assumptions C91_detailed_future_never_fails.
Print Assumptions C91_detailed_path_exact.
