(** C77: the search with `detailed-layers` neither panics nor reads out of bounds. *)
From Coq Require Import List NArith ZArith Bool Lia Permutation Reals Lra.
From Verif Require Import Base Arith U32 Mesh Helpers Locate Locate_facts Search AsyncPath Detailed StdLib Spec Spec_detailed Search_facts Search_props Search_cost Detailed_facts Detailed_sim Properties_search Search_safe RealArith Geometry Heuristic Properties_geometry Properties_heuristic Properties_complete Properties_segment Properties_detailed Spec_detailed Search_props.
Import ListNotations.
Open Scope N_scope.

Section Dsafe.
Context {A : Arith}.
Implicit Types (c : DCtx A) (n : DNode A) (st : DState A).

(** ** No fuel exhaustion *)
Ltac nf_tac :=
  repeat match goal with
      | |- nf (Ok _) => apply nf_Ok
      | |- nf (index _ _) => apply nf_index
      | |- nf (get_unchecked _ _) => apply nf_get_unchecked
      | |- nf (mesh_polygon _ _) => apply nf_mesh_polygon
      | |- nf (edges_index _) => apply nf_edges_index
      | |- nf (edges_between _ _) => apply nf_edges_between
      | |- nf (corner_ok _ _ _ _) => apply nf_corner_ok
      | |- nf (bind _ _) => apply nf_bind; [|intros]
      | |- nf (foldM _ _ _) => apply nf_foldM; intros
      | |- nf (if ?b then _ else _) => destruct b
      | |- nf (match ?x with _ => _ end) => destruct x
      | |- nf Panic => unfold nf; discriminate
      end.
Lemma nf_dadd_node c st root os s e n : nf (dadd_node c st root os s e n).
Proof. unfold dadd_node, dnew_node. nf_tac. Qed.
Lemma nf_dsetup c from ps : nf (dsetup c from ps).
Proof. unfold dsetup, dsetup_edge. nf_tac; apply nf_dadd_node. Qed.
Lemma nf_dexpand c n st : nf (dexpand c n st).
Proof. unfold dexpand, dexpand_one. nf_tac; apply nf_dadd_node. Qed.
Lemma dgen_step_ids c n n' : dgen_step c n n' -> In (nto (dnode n')) (all_ids (cmesh (dctx c))).
Proof.
  intros (s & root & l & ss & sv & ev & HL & _ & _ & HA & _ & HM & _ & _ & _ & _ & _ & HN & _).
  apply dnew_node_Ok in HN. destruct HN as (g & h & _ & ->). cbn [dnode nto].
  destruct (other_side_spec sv ev (nto (dnode n))) as [H|(_ & _ & H & _)]; [contradiction|].
  apply nthN_In in HL. apply nthN_In in HA. eapply all_ids_In; eauto.
Qed.
Lemma dsuccessors_nf c : forall fuel vis n st,
  dbuffer st = [] -> NoDup vis -> incl vis (all_ids (cmesh (dctx c))) ->
  (length (all_ids (cmesh (dctx c))) < fuel + length vis)%nat ->
  nf (dsuccessors fuel c vis n st).
Proof.
  induction fuel as [|fuel IH]; intros vis n st HB HN HI HF.
  - exfalso. pose proof (NoDup_incl_length HN HI). simpl in HF. lia.
  - cbn [dsuccessors]. apply nf_bind; [apply nf_dexpand|]. intros st' E.
    destruct (dbuffer st') as [|n' [|]] eqn:EB; try apply nf_Ok.
    destruct (N.eqb (nto (dnode n')) (cpto (dctx c))); [apply nf_Ok|].
    destruct (reverse_of (dnode n') (dnode n)); [apply nf_Ok|].
    destruct (memN (nto (dnode n')) vis) eqn:EM; [apply nf_Ok|].
    assert (In (nto (dnode n')) (all_ids (cmesh (dctx c)))) as Hin.
    { assert (forall x, In x (dbuffer st') -> In (nto (dnode x)) (all_ids (cmesh (dctx c)))) as H3.
      { eapply dexpand_inv with (I := fun s => forall x, In x (dbuffer s) -> In (nto (dnode x)) (all_ids (cmesh (dctx c))));
          [|rewrite HB; contradiction|exact E].
        intros st0 n0 st1 H1 Hg Ha x Hx. inversion Ha; subst; simpl in Hx; apply in_app_or in Hx;
        destruct Hx as [Hx|[<-|[]]]; auto; eapply dgen_step_ids; eauto. }
      apply H3. rewrite EB. now left. }
    apply IH.
    + reflexivity.
    + constructor; [now apply memN_false|assumption].
    + intros x [<-|Hx]; auto.
    + simpl. lia.
Qed.
Lemma dnext_nf lib c st : dbuffer st = [] -> nf (dnext lib c st).
Proof.
  intro HB. unfold dnext. destruct (dpop lib (dqueue st)) as [[n q]|]; [|apply nf_Ok].
  cbn [dhist]. destruct (match hist_get _ _ with Some _ => _ | None => _ end); [apply nf_Ok|].
  destruct (N.eqb _ _).
  - unfold dfinal, dsum, dleg. nf_tac.
  - apply nf_bind; [|intros; apply nf_Ok]. apply dsuccessors_nf; [exact HB|constructor|intros x []|]. rewrite succ_fuel_ids. simpl. lia.
Qed.

(** ** No panic *)
(** every layer has a scale *)
Definition scales_ok (m : Mesh A) (scales : list (vec2 A)) : Prop := lengthN scales = lengthN (layers m).
Definition dnode_ok c n : Prop := node_ok (dctx c) (dnode n) /\ forall a b l, In (a, b, l) (dpoints n) -> l < lengthN (layers (cmesh (dctx c))).

Context (c : DCtx A) (Hwf : mesh_wf (cmesh (dctx c))) (Hsm : mesh_small (cmesh (dctx c))) (Hv : verts_small (cmesh (dctx c))) (Hd : dists_ok (cmesh (dctx c))) (Hto : poly_ok (cmesh (dctx c)) (cpto (dctx c)))
  (Hsc : scales_ok (cmesh (dctx c)) (dscales c)) (Hfrom : snd (dfrom c) < lengthN (layers (cmesh (dctx c)))).
Notation m := (cmesh (dctx c)).

Lemma poly_layer id : poly_ok m id -> id_layer id < lengthN (layers m).
Proof using. intros (l & p & H & _). now apply nthN_Some_lt in H. Qed.
Lemma vertex_layer l v : In l (layers m) -> v < lengthN (vertices l) -> id_layer v < lengthN (layers m).
Proof using Hv.
  intros Hl H. specialize (Hv l Hl). assert (id_layer v = 0) as ->. { rewrite id_layer_eq, N.div_small; [reflexivity|]. clear - Hv H. change (2 ^ 24) with 16777216 in *. lia. }
  apply In_nthN in Hl. destruct Hl as [i Hi]. apply nthN_Some_lt in Hi. eapply N.le_lt_trans; [apply N.le_0_l|exact Hi].
Qed.
Lemma safe_scale i : i < lengthN (layers m) -> safe (index (dscales c) i).
Proof using Hsc. intro H. apply safe_index. unfold scales_ok in Hsc. now rewrite Hsc. Qed.

Lemma safe_dadd l st root os s e n : poly_ok m (nto (dnode n)) -> In l (layers m) -> snd s < lengthN (vertices l) -> snd e < lengthN (vertices l) -> safe (dadd_node c st root os s e n).
Proof using Hv Hsc.
  intros Hn Hl H1 H2. unfold dadd_node, dnew_node. apply safe_bind; [|intros; apply safe_Ok]. apply safe_bind.
  - destruct (negb _); [|apply safe_Ok]. apply safe_bind; [|intros; apply safe_Ok]. apply safe_scale. now apply poly_layer.
  - intros. apply safe_bind; [apply safe_scale; now apply (vertex_layer l)|]. intros. apply safe_bind; [apply safe_scale; now apply (vertex_layer l)|]. intros. apply safe_Ok.
Qed.
Lemma dgen_start_ok from ps n : dgen_start c from ps n -> dnode_ok c n.
Proof using Hto.
  intros (l & p & a & b & sv & ev & [H1 H2] & H3 & H4 & H5 & H6 & H7 & HN & _). apply dnew_node_Ok in HN. destruct HN as (g & h & _ & ->).
  assert (HP : poly_ok m (other_side sv ev ps)) by (destruct H7 as [-> |(_ & q & Hq & _)]; [exact Hto|exact (mesh_polygon_Ok _ _ _ Hq)]).
  split; [split|].
  - exact HP.
  - exists l. cbn [dnode nprev nedge fst snd empty_node nto]. split; [exact H1|]. split; eapply nthN_Some_lt; eauto.
  - cbn [dpoints app nroot empty_node dnode nto]. intros x y k Hk. apply in_app_or in Hk. destruct Hk as [Hk|Hk].
    + destruct (veq _ _); [destruct Hk|]. destruct Hk as [E|[]]. injection E as _ _ <-. eapply nthN_Some_lt; eauto.
    + destruct (N.eqb _ _); [destruct Hk|]. destruct Hk as [E|[]]. injection E as _ _ <-. now apply poly_layer.
Qed.
Lemma dgen_step_ok n n' : dnode_ok c n -> dgen_step c n n' -> dnode_ok c n'.
Proof using Hto.
  intros [Hn Hm'] (s & root & l & ss & sv & ev & H1 & H2 & H3 & H4 & H5 & H6 & H7 & H8 & H9 & H10 & H11 & HN & _).
  apply dnew_node_Ok in HN. destruct HN as (g & h & _ & ->).
  assert (HP : poly_ok m (other_side sv ev (nto (dnode n)))) by (destruct H8 as [-> |(q & Hq & _)]; [exact Hto|exact (mesh_polygon_Ok _ _ _ Hq)]).
  split; [split|].
  - exact HP.
  - exists l. cbn [dnode nprev nedge fst snd]. split; [exact H1|]. split; eapply nthN_Some_lt; eauto.
  - cbn [dpoints]. intros x y k Hk. apply in_app_or in Hk. destruct Hk as [Hk|Hk]; [apply in_app_or in Hk; destruct Hk as [Hk|Hk]|].
    + now apply (Hm' x y).
    + destruct (veq _ _); [destruct Hk|]. destruct Hk as [E|[]]. injection E as _ _ <-. apply poly_layer. exact (proj1 Hn).
    + destruct (N.eqb _ _); [destruct Hk|]. destruct Hk as [E|[]]. injection E as _ _ <-. now apply poly_layer.
Qed.
Lemma safe_dexpand n st : dnode_ok c n -> safe (dexpand c n st).
Proof using Hwf Hv Hd Hsc.
  intros [Hn _]. pose proof Hn as [(l & p & Hl & Hp) _]. unfold dexpand.
  apply safe_bind; [now apply safe_edges_between|]. intros ss Hss.
  pose proof Hl as Hl'. apply index_Ok in Hl'. rewrite Hl'. cbn [bind].
  destruct (edges_between_spec (dctx c) (dnode n) ss Hss) as (l0 & p0 & [H1 H2] & HE).
  assert (l0 = l) by congruence. subst l0. assert (p0 = p) by congruence. subst p0.
  pose proof Hn as [HP _].
  apply nthN_In in Hl. apply nthN_In in Hp. destruct (proj1 Hwf l Hl p Hp) as [Hne Hin].
  apply safe_foldM. intros s x Hx. apply HE in Hx. apply boundary_In in Hx. destruct Hx as [Hx1 Hx2].
  unfold dexpand_one.
  apply safe_bind; [apply safe_unchecked; auto|]. intros sv Hsv. apply get_unchecked_Ok, nthN_In in Hsv.
  apply safe_bind; [apply safe_unchecked; auto|]. intros ev Hev.
  destruct (other_side_spec sv ev (nto (dnode n))) as [Ho|(Ho & _ & Ho2 & _)].
  - rewrite Ho, N.eqb_refl. apply safe_Ok.
  - destruct (N.eqb_spec (other_side sv ev (nto (dnode n))) MAX); [contradiction|].
    destruct (memN _ _); [apply safe_Ok|].
    apply safe_bind.
    + destruct (N.eqb (cpto (dctx c)) (other_side sv ev (nto (dnode n)))); [apply safe_Ok|].
      apply safe_bind; [apply poly_ok_safe; eapply (proj2 Hwf); eauto|]. intros; apply safe_Ok.
    + intros dead _. destruct dead; [apply safe_Ok|].
      destruct (N.eqb (nfrom (dnode n)) (other_side sv ev (nto (dnode n)))); [apply safe_Ok|].
      apply safe_bind.
      * destruct (sty x); try apply safe_Ok; (destruct (fgt _ _); [apply safe_Ok|]);
          (apply safe_bind; [apply safe_corner_ok; auto|intros; apply safe_Ok]).
      * intros [root|] _; [|apply safe_Ok]. destruct (flt _ _); [apply safe_Ok|]. apply (safe_dadd l); auto.
Qed.
Lemma safe_dsuccessors : forall fuel vis n st, dnode_ok c n -> dall (dnode_ok c) st -> safe (dsuccessors fuel c vis n st).
Proof using Hwf Hv Hd Hsc Hto.
  induction fuel as [|fuel IH]; intros vis n st Hn Hst; [split; discriminate|].
  cbn [dsuccessors]. apply safe_bind; [now apply safe_dexpand|]. intros st' E.
  assert (Ha : dall (dnode_ok c) st').
  { eapply dexpand_inv with (I := dall (dnode_ok c)); [|exact Hst|exact E].
    intros st0 n' st1 H1 H2 H3. eapply dall_added; [exact H1| |exact H3]. eapply dgen_step_ok; eauto. }
  destruct (dbuffer st') as [|n' [|]] eqn:EB; try apply safe_Ok.
  destruct (N.eqb _ _); [apply safe_Ok|].
  destruct (reverse_of _ _); [apply safe_Ok|]. destruct (memN _ vis); [apply safe_Ok|].
  apply IH; [apply Ha; rewrite EB; now left|]. destruct Ha as [Ha1 Ha2]. split; simpl; [assumption|tauto].
Qed.
Lemma safe_dsetup from ps : poly_ok m ps -> safe (dsetup c from ps).
Proof using Hwf Hv Hsc.
  intros Hps. pose proof Hps as (l & p & Hl & Hp). unfold dsetup.
  pose proof Hl as Hl'. apply index_Ok in Hl'. rewrite Hl'. cbn [bind].
  pose proof Hp as Hp'. apply index_Ok in Hp'. rewrite Hp'. cbn [bind].
  apply nthN_In in Hl. apply nthN_In in Hp. destruct (proj1 Hwf l Hl p Hp) as [Hne Hin].
  apply safe_bind; [now apply safe_edges_index|]. intros es _.
  apply safe_bind; [|intros; apply safe_Ok]. apply safe_foldM. intros st [a b] _. unfold dsetup_edge. cbn [fst snd].
  destruct (nthN (vertices l) a) as [sv|] eqn:EA; [|apply safe_Ok].
  destruct (nthN (vertices l) b) as [ev|] eqn:EB; [|apply safe_Ok].
  destruct (memN _ _); [apply safe_Ok|]. apply safe_bind.
  - destruct (N.eqb (other_side sv ev ps) (cpto (dctx c))); [apply safe_Ok|].
    destruct (N.eqb_spec (other_side sv ev ps) MAX) as [Ho|Ho]; [apply safe_Ok|].
    destruct (other_side_spec sv ev ps) as [Ho'|(_ & _ & Ho2 & _)]; [contradiction|].
    apply safe_bind; [|intros; apply safe_Ok]. apply poly_ok_safe. apply nthN_In in EA. eapply (proj2 Hwf); eauto.
  - intros [] _; [|apply safe_Ok]. apply (safe_dadd l); [exact Hps|exact Hl|cbn [snd]; eapply nthN_Some_lt; eauto..].
Qed.
(** the points of the result are in layers that exist *)
Lemma fill_layers (final : vec2 A) k : forall pts from, (forall a b l, In (a, b, l) pts -> l < k) -> forall q l, In (q, l) (fill final from pts) -> l < k.
Proof using.
  induction pts as [|[[a b] l0] r IH]; intros from H q l Hq; cbn [fill] in Hq; [destruct Hq|].
  assert (Hr : forall a b l, In (a, b, l) r -> l < k) by (intros; eapply H; right; eauto). assert (H0 : l0 < k) by (eapply H; left; reflexivity).
  destruct (veq a b).
  - destruct Hq as [E|Hq]; [injection E as _ <-; exact H0|]. eapply IH; eauto.
  - destruct (line_intersect_segment _ _); [|eapply IH; eauto]. destruct Hq as [E|Hq]; [injection E as _ <-; exact H0|]. eapply IH; eauto.
Qed.
Lemma thin_incl (l : list (vec2 A * N)) : incl (thin l) l.
Proof using.
  induction l as [|p r IH]; [intros x []|]. cbn [thin]. destruct r as [|q r']; [intros x Hx; exact Hx|]. destruct (flt _ _).
  - intros x Hx. right. now apply IH.
  - intros x [<-|Hx]; [now left|right; now apply IH].
Qed.
Lemma safe_dfinal n : dnode_ok c n -> safe (dfinal c n).
Proof using Hsc Hfrom.
  intros [[Hp _] Hk]. unfold dfinal. apply safe_bind; [|intros; apply safe_Ok]. unfold dsum. apply safe_bind; [|intros; apply safe_Ok].
  assert (HL : forall q l, In (q, l) (dwith_layers c n) -> l < lengthN (layers m)).
  { intros q l Hq. unfold dwith_layers in Hq. apply thin_incl, in_app_or in Hq. destruct Hq as [Hq|Hq].
    - exact (fill_layers _ _ _ _ Hk q l Hq).
    - apply in_map_iff in Hq. destruct Hq as (x & E & _). injection E as _ <-. now apply poly_layer. }
  assert (G : forall l acc, snd (snd acc) < lengthN (layers m) -> (forall q k, In (q, k) l -> k < lengthN (layers m)) -> safe (foldM (dleg c) acc l)).
  { induction l as [|[q k] r IH]; intros acc Ha Hr; cbn [foldM]; [apply safe_Ok|]. apply safe_bind.
    - unfold dleg. apply safe_bind; [now apply safe_scale|intros; apply safe_Ok].
    - intros acc' E. unfold dleg in E. inv_bind E. apply Ok_eq in E. subst acc'. apply IH; [cbn [snd]; eapply Hr; left; reflexivity|]. intros; eapply Hr; right; eauto. }
  apply G; [exact Hfrom|exact HL].
Qed.
Lemma safe_dnext lib st : dpop_perm (dpop lib) -> dall (dnode_ok c) st -> dbuffer st = [] -> safe (dnext lib c st).
Proof using Hwf Hv Hd Hsc Hto Hfrom.
  intros Hpop [H1 H2] HB. unfold dnext. specialize (Hpop (dqueue st)).
  destruct (dpop lib (dqueue st)) as [[n q]|]; [|apply safe_Ok]. cbn [dhist].
  destruct (match hist_get _ _ with Some _ => _ | None => _ end); [apply safe_Ok|].
  assert (Hn : dnode_ok c n) by (apply H1; eapply Permutation_in; [symmetry; exact Hpop|now left]).
  destruct (N.eqb _ _).
  - apply safe_bind; [now apply safe_dfinal|intros; apply safe_Ok].
  - apply safe_bind; [|intros; apply safe_Ok]. apply safe_dsuccessors; [exact Hn|].
    split; simpl; [|assumption]. intros x Hx. apply H1. eapply Permutation_in; [symmetry; exact Hpop|now right].
Qed.
Lemma dnext_Ok lib st : dpop_perm (dpop lib) -> dall (dnode_ok c) st -> dbuffer st = [] ->
  exists st' r, dnext lib c st = Ok (st', r) /\ dall (dnode_ok c) st' /\ dbuffer st' = [].
Proof using Hwf Hv Hd Hsc Hto Hfrom.
  intros Hpop Hst HB. destruct (safe_dnext lib st Hpop Hst HB) as [S1 S2]. pose proof (dnext_nf lib c st HB) as S3. unfold nf in S3.
  destruct (dnext lib c st) as [[st' r]| | |] eqn:E; try contradiction. exists st', r. split; [reflexivity|].
  destruct (dnext_all lib c st st' r (dnode_ok c) Hpop dgen_step_ok Hst HB E) as (G1 & G2 & _). auto.
Qed.
Lemma drun_Ok lib : dpop_perm (dpop lib) -> forall k st paths, dall (dnode_ok c) st -> dbuffer st = [] -> exists out, drun k lib c st paths = Ok out.
Proof using Hwf Hv Hd Hsc Hto Hfrom.
  intro Hpop. induction k as [|k IH]; intros st paths Hst HB; cbn [drun]; [eauto|].
  destruct (dnext_Ok lib st Hpop Hst HB) as (st' & r & -> & G1 & G2). cbn [bind fst snd]. now apply IH.
Qed.
Lemma dfirst_Ok lib : dpop_perm (dpop lib) -> forall k st, dall (dnode_ok c) st -> dbuffer st = [] -> exists out, dfirst k lib c st = Ok out.
Proof using Hwf Hv Hd Hsc Hto Hfrom.
  intro Hpop. induction k as [|k IH]; intros st Hst HB; cbn [dfirst]; [eauto|].
  destruct (dnext_Ok lib st Hpop Hst HB) as (st' & r & -> & G1 & G2). cbn [bind fst snd]. destruct r; eauto.
Qed.
Lemma dsetup_Ok from ps : poly_ok m ps -> exists st, dsetup c from ps = Ok st /\ dall (dnode_ok c) st /\ dbuffer st = [].
Proof using Hwf Hv Hsc Hto.
  intro Hps. destruct (safe_dsetup from ps Hps) as [S1 S2]. pose proof (nf_dsetup c from ps) as S3. unfold nf in S3. destruct (dsetup c from ps) as [st| | |] eqn:E; try contradiction.
  exists st. split; [reflexivity|]. exact (dsetup_all c from ps st (dnode_ok c) (dgen_start_ok from ps) E).
Qed.
End Dsafe.

Section Theorems.
Context {A : Arith}.

(** C77: with `detailed-layers`, on a mesh without dangling references whose layers have a scale and at most 2^24 vertices, path_on_layers returns an answer, unless the length of one of
    the paths found is not a number: the paths found are sorted with `partial_cmp().unwrap()`. *)
Theorem C77_detailed_path_never_fails (lib : DLib A) (m : Mesh A) scales (from to : Coords A) blocked :
  bvh_ok (dbvh lib) -> dpop_perm (dpop lib) ->
  mesh_wf m -> mesh_small m -> verts_small m -> scales_ok m scales -> (forall l, In l (layers m) -> baked_ok l) -> dists_ok m -> 10 * search_steps m < 2^32 ->
  end_ok m from -> end_ok m to ->
  (exists r, dpath_on_layers lib m scales from to blocked = Ok r) \/
  (dpath_on_layers lib m scales from to blocked = Panic /\ exists d, candidate lib m scales from to blocked d /\ fnan (dlength d) = true).
Proof.
  intros Hb Hpop Hw Hm Hv Hsc Hbk Hd Hs Hf Ht.
  assert (Hl : layers_ok m) by (intros l Hl; split; [now apply Hw|now apply Hbk]).
  assert (LE : forall q, end_ok m q -> exists o, locate_end (dlib_lib lib) m q = Ok o /\ forall id, o = Some id -> poly_ok m id).
  { intros q Hq. destruct (safe_locate (dlib_lib lib) m q Hb Hl Hm Hs Hq) as [[S1 S2] P].
    assert (S3 : nf (locate_end (dlib_lib lib) m q)). { unfold locate_end. destruct (negb _); [apply nf_Ok|]. apply nf_bind; [apply nf_get_closest_point|]. intros; apply nf_Ok. }
    unfold nf in S3. destruct (locate_end (dlib_lib lib) m q) as [o| | |] eqn:E; try contradiction. exists o. split; [reflexivity|]. intros id ->. now apply P. }
  destruct (LE from Hf) as (os & E1 & P1). destruct (LE to Ht) as (oe & E2 & P2).
  unfold dpath_on_layers. rewrite E1. cbn [bind]. destruct os as [ps|]; [|left; eauto]. rewrite E2. cbn [bind]. destruct oe as [pe|]; [|left; eauto].
  pose proof (P1 _ eq_refl) as Hps. pose proof (P2 _ eq_refl) as Hpe.
  assert (exists rej, islands_reject m ps pe = Ok rej) as [rej ->].
  { unfold islands_reject. destruct (N.eqb _ 1); [|eauto]. destruct Hps as (l & p & H1 & _). apply index_Ok in H1. rewrite H1. cbn [bind]. eauto. }
  cbn [bind]. destruct rej; [left; eauto|]. destruct (N.eqb_spec ps pe) as [->|Hne]; [left; eauto|].
  set (c := mkDCtx (mkCtx m (cpos to) pe blocked) scales (cpos from, id_layer ps)).
  assert (Hfrom : snd (dfrom c) < lengthN (layers (cmesh (dctx c)))) by (now apply poly_layer).
  destruct (dsetup_Ok c Hw Hv Hpe Hsc (cpos from) ps Hps) as (st & Es & G1 & G2). rewrite Es. cbn [bind].
  destruct (drun_Ok c Hw Hv Hd Hpe Hsc Hfrom lib Hpop (count_polygons m * 10) st [] G1 G2) as (out & Er). cbv zeta in Er |- *. change (dctx c) with (mkCtx m (cpos to) pe blocked) in *.
  rewrite Er. cbn [bind]. unfold dselect. destruct out as [|p [|p' r]]; [left; eauto|left; eauto|].
  destruct (existsb _ _) eqn:EX; [|left; eauto]. right. split; [reflexivity|]. apply existsb_exists in EX. destruct EX as (d & Hin & Hn). exists d. split; [|exact Hn].
  exists ps, pe. split; [now apply locate_end_located|]. split; [now apply locate_end_located|]. right. split; [exact Hne|].
  destruct (drun_sound lib c d _ _ _ _ Er Hin) as [[]|(k & st1 & st2 & K1 & K2 & K3)]. exists st, k, st1, st2. auto.
Qed.

(** The future never fails: it takes the first path and compares nothing. *)
Theorem C77_detailed_future_never_fails (lib : DLib A) (m : Mesh A) scales (a b : vec2 A) steps :
  bvh_ok (dbvh lib) -> dpop_perm (dpop lib) ->
  mesh_wf m -> mesh_small m -> verts_small m -> scales_ok m scales -> (forall l, In l (layers m) -> baked_ok l) -> dists_ok m ->
  exists r, dget_path steps lib m scales a b = Ok r.
Proof.
  intros Hb Hpop Hw Hm Hv Hsc Hbk Hd.
  assert (Hl : layers_ok m) by (intros l Hl; split; [now apply Hw|now apply Hbk]).
  assert (GL : forall q, exists id, get_point_location (dbvh lib) m q = Ok id /\ (id <> MAX -> poly_ok m id)).
  { intro q. destruct (safe_get_point_location (dbvh lib) Hb m q Hl) as [S1 S2]. pose proof (nf_get_point_location (dbvh lib) m q) as S3. unfold nf in S3.
    destruct (get_point_location (dbvh lib) m q) as [id| | |] eqn:E; try contradiction. exists id. split; [reflexivity|].
    intro Hid. destruct (get_point_location_found _ _ _ _ Hm E Hid) as (l & p & Hp & _). now exists l, p. }
  destruct (GL (coords_on_mesh a)) as (ps & E1 & P1). destruct (GL (coords_on_mesh b)) as (pe & E2 & P2).
  unfold dget_path. rewrite E1. cbn [bind]. destruct (N.eqb_spec ps MAX) as [_|N1]; [eauto|]. rewrite E2. cbn [bind]. destruct (N.eqb_spec pe MAX) as [_|N2]; [eauto|].
  specialize (P1 N1). specialize (P2 N2).
  assert (exists rej, async_islands_reject m ps pe = Ok rej) as [rej ->].
  { unfold async_islands_reject. destruct (N.eqb _ _); [|eauto]. destruct P1 as (l & p & H1 & _). apply index_Ok in H1. rewrite H1. cbn [bind]. eauto. }
  cbn [bind]. destruct rej; [eauto|]. destruct (N.eqb_spec ps pe) as [->|Hne]; [eauto|].
  set (c := mkDCtx (mkCtx m b pe []) scales (a, id_layer ps)).
  assert (Hfrom : snd (dfrom c) < lengthN (layers (cmesh (dctx c)))) by (now apply poly_layer).
  destruct (dsetup_Ok c Hw Hv P2 Hsc a ps P1) as (st & Es & G1 & G2). cbv zeta. rewrite Es. cbn [bind].
  exact (dfirst_Ok c Hw Hv Hd P2 Hsc Hfrom lib Hpop steps st G1 G2).
Qed.
End Theorems.

(** ** Exact arithmetic: every length is a number, so there is always an answer *)
Definition real_pt (q : vec2 RA) : Prop := exists z, q = vp z.
Definition real_mark (k : Mark RA) : Prop := match k with Turn t _ => real_pt t | Enter a b _ => real_pt a /\ real_pt b end.
Definition real_scales (scales : list (vec2 RA)) : Prop := Forall real_pt scales.
Lemma real_crossing m x t : real_mesh m -> crossing_point m x t -> real_pt t.
Proof.
  intros Hm (l & p & va & vb & [Hl _] & Ha & Hb & H). apply nthN_In in Hl. apply nthN_In in Ha. apply nthN_In in Hb.
  destruct (world_real m l va Hm Hl Ha) as [a Ea]. destruct (world_real m l vb Hm Hl Hb) as [b Eb]. rewrite Ea, Eb in H.
  destruct (edge_point_real a b t H) as (k & -> & _). now exists (lerp a b k).
Qed.
Lemma real_turn m blocked x t : turn_at m blocked x t -> real_pt t.
Proof.
  intros (l & p & v & i & _ & _ & _ & H & _). destruct t as [[tx|] [ty|]].
  - now exists (P tx ty).
  - exfalso. unfold vdist2, vsub, vdot in H. cbn [vx vy] in H. destruct (world l v) as [[wx|] [wy|]]; cbn in H; discriminate.
  - exfalso. unfold vdist2, vsub, vdot in H. cbn [vx vy] in H. destruct (world l v) as [[wx|] [wy|]]; cbn in H; discriminate.
  - exfalso. unfold vdist2, vsub, vdot in H. cbn [vx vy] in H. destruct (world l v) as [[wx|] [wy|]]; cbn in H; discriminate.
Qed.
Lemma real_entry m x e : real_mesh m -> entry m x e -> Forall real_mark e.
Proof.
  intros Hm H. inversion H; subst; [constructor|]. apply Forall_cons; [|constructor]. split; eapply real_crossing; eauto.
Qed.
Lemma real_marks m blocked xs marks turns : real_mesh m -> marks_along m blocked xs marks turns -> Forall real_mark marks.
Proof.
  intros Hm H. induction H.
  - eapply real_entry; eauto.
  - apply Forall_app. split; [assumption|eapply real_entry; eauto].
  - apply Forall_app. split; [assumption|]. apply Forall_cons; [eapply real_turn; eauto|eapply real_entry; eauto].
Qed.
Lemma real_placed final prev marks out : Forall real_mark marks -> placed final prev marks out -> Forall (fun x => real_pt (fst x)) out.
Proof.
  intros Hk H. induction H; [constructor|..]; inversion Hk as [|k0 r0 K1 K2]; subst; cbn [real_mark] in K1.
  - apply Forall_cons; [exact K1|auto].
  - apply Forall_cons; [exact (proj1 K1)|auto].
  - apply Forall_cons; [|auto]. destruct K1 as [[za ->] [zb ->]]. destruct (lis_seg _ _ _ _ H0) as (t & -> & _). cbn [fst]. now exists (lerp za zb t).
  - auto.
Qed.
Lemma thinned_incl {A : Arith} (l out : list (vec2 A * N)) : thinned l out -> incl out l.
Proof.
  induction 1; intros x Hx; [destruct Hx|exact Hx|right; auto|]. destruct Hx as [<-|Hx]; [now left|right; auto].
Qed.
Lemma real_walked scales : real_scales scales -> forall acc p l pts total, walked scales acc p l pts total ->
  (exists a, acc = Some a) -> real_pt p -> Forall (fun x => real_pt (fst x)) pts -> exists t, total = Some t.
Proof.
  intros Hs acc p l pts total H. induction H; intros Ha Hp Hf; [exact Ha|]. inversion Hf as [|x0 r0 F1 F2]; subst. cbn [fst] in F1.
  apply IHwalked; auto. apply nthN_In in H. destruct (proj1 (Forall_forall _ _) Hs sc H) as [zs ->]. destruct Ha as [a ->]. destruct Hp as [zp ->]. destruct F1 as [zq ->].
  destruct zs as [sx sy], zp as [ux uy], zq as [wx wy].
  change (scaled (vp (P ux uy)) (vp (P sx sy))) with (vp (P (ux * sx) (uy * sy))). change (scaled (vp (P wx wy)) (vp (P sx sy))) with (vp (P (wx * sx) (wy * sy))).
  rewrite vdist_vp. eexists. reflexivity.
Qed.
Lemma real_final (c : DCtx RA) ps n d : real_mesh (cmesh (dctx c)) -> real_scales (dscales c) -> real_pt (fst (dfrom c)) -> real_pt (cgoal (dctx c)) ->
  dsupported c ps n -> nto (dnode n) = cpto (dctx c) -> dfinal c n = Ok d -> exists t, dlength d = Some t.
Proof.
  intros Hm Hs Hf Hg H1 H2 H3. destruct (dfinal_spec c ps n d H1 H2 H3) as (xs & x & marks & turns & lt & ent & _ & _ & _ & Hk & Hl & _ & Hp & Ht & Hw).
  refine (real_walked _ Hs _ _ _ _ _ Hw _ Hf _).
  - rewrite fz_R. eauto.
  - apply Forall_forall. intros y Hy. apply (thinned_incl _ _ Ht) in Hy. apply in_app_or in Hy. destruct Hy as [Hy|Hy].
    + exact (proj1 (Forall_forall _ _) (real_placed _ _ _ _ (real_marks _ _ _ _ _ Hm Hk) Hp) y Hy).
    + apply in_map_iff in Hy. destruct Hy as (q & <- & Hq). cbn [fst]. apply in_app_or in Hq. destruct Hq as [Hq|[<-|[]]]; [|exact Hg].
      destruct Hl as [->|(t & -> & Hc)]; [destruct Hq|]. destruct Hq as [<-|[]]. eapply real_crossing; eauto.
Qed.

Lemma after_all {A : Arith} lib (c : DCtx A) (P : DNode A -> Prop) : dpop_perm (dpop lib) -> (forall n n', P n -> dgen_step c n n' -> P n') ->
  forall k st st1, after lib c k st st1 -> dall P st -> dbuffer st = [] -> dall P st1 /\ dbuffer st1 = [].
Proof.
  intros Hpop HP k st st1 H. induction H as [|k st st' o st2 H1 H2 IH]; intros G1 G2; [auto|].
  destruct (dnext_all lib c st st' o P Hpop HP G1 G2 H1) as (G3 & G4 & _). auto.
Qed.
(** C77: in exact arithmetic, with real coordinates and scales, there is an answer and its length is a number. *)
Theorem C77_detailed_path_exact (lib : DLib RA) (m : Mesh RA) scales (from to : Coords RA) blocked :
  bvh_ok (dbvh lib) -> dpop_perm (dpop lib) ->
  mesh_wf m -> mesh_small m -> verts_small m -> scales_ok m scales -> (forall l, In l (layers m) -> baked_ok l) -> real_mesh m -> real_scales scales -> 10 * search_steps m < 2^32 ->
  end_ok m from -> end_ok m to -> real_pt (cpos from) -> real_pt (cpos to) ->
  exists r, dpath_on_layers lib m scales from to blocked = Ok r /\ forall p, r = Some p -> exists t, dlength p = Some t.
Proof.
  intros Hb Hpop Hw Hm Hv Hsc Hbk Hre Hrs Hs Hf Ht Rf Rt.
  assert (C : forall d, candidate lib m scales from to blocked d -> exists t, dlength d = Some t).
  { intros d (ps & pe & L1 & L2 & [[_ ->]|(Hne & st & k & st1 & st2 & G1 & G2 & G3 & G4)]).
    - cbn [dlength]. destruct Rf as [zf ->], Rt as [zt ->]. rewrite vdist_vp. eauto.
    - set (c := mkDCtx (mkCtx m (cpos to) pe blocked) scales (cpos from, id_layer ps)) in *.
      assert (HM : cpto (dctx c) <> MAX) by (exact (located_not_MAX (dlib_lib lib) m to pe Hm L2)).
      destruct (dsetup_all c (cpos from) ps st (dsupported c ps) (fun n Hn => dgen_start_supported c (cpos from) ps n RA_dnan_sane HM Hn) G1) as [A1 A2].
      assert (HP : forall n n', dsupported c ps n -> dgen_step c n n' -> dsupported c ps n') by (intros n n'; apply dgen_step_supported; exact RA_dnan_sane).
      destruct (after_all lib c (dsupported c ps) Hpop HP k st st1 G3 A1 A2) as [B1 B2].
      destruct (dnext_all lib c st1 st2 _ (dsupported c ps) Hpop HP B1 B2 G4) as (_ & _ & B3). destruct (B3 d eq_refl) as (n & N1 & N2 & N3).
      exact (real_final c ps n d Hre Hrs Rf Rt N1 N2 N3). }
  destruct (C77_detailed_path_never_fails lib m scales from to blocked Hb Hpop Hw Hm Hv Hsc Hbk (real_dists m Hre) Hs Hf Ht) as [[r E]|[_ (d & Hd & Hn)]].
  - exists r. split; [exact E|]. intros p ->. apply C. apply (C60_shortest_of_the_found RA_lt_laws) in E. exact (proj1 E).
  - exfalso. destruct (C d Hd) as [t Et]. rewrite Et in Hn. discriminate.
Qed.
(** C59, without assuming that the length is a number: on a mesh with real coordinates and scales, with all scales at least one, it is a number that is not below the straight distance. *)
Theorem C59_number_and_not_shorter (lib : DLib RA) (m : Mesh RA) scales (from to : Coords RA) blocked p (a b : P2) :
  bvh_ok (dbvh lib) -> dpop_perm (dpop lib) ->
  mesh_wf m -> mesh_small m -> verts_small m -> scales_ok m scales -> (forall l, In l (layers m) -> baked_ok l) -> real_mesh m -> real_scales scales -> 10 * search_steps m < 2^32 ->
  end_ok m from -> end_ok m to -> cpos from = vp a -> cpos to = vp b -> scales_at_least 1 scales ->
  dpath_on_layers lib m scales from to blocked = Ok (Some p) ->
  exists t, dlength p = Some t /\ (dist a b <= t)%R.
Proof.
  intros H1 H2 H3 H4 H5 H6 H7 H8 H9 H10 H11 H12 Ha Hb HS H.
  destruct (C77_detailed_path_exact lib m scales from to blocked H1 H2 H3 H4 H5 H6 H7 H8 H9 H10 H11 H12 (ex_intro _ a Ha) (ex_intro _ b Hb)) as (r & E & K).
  rewrite H in E. injection E as <-. destruct (K p eq_refl) as (t & Ht). exists t. split; [exact Ht|].
  exact (C59_not_shorter_than_straight_line lib m scales from to blocked p t a b H2 H4 HS Ha Hb H Ht).
Qed.
Print Assumptions C59_number_and_not_shorter.
