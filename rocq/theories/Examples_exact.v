(** Queries in exact arithmetic that return a path: the theorems about exact lengths are not vacuous. *)
From Coq Require Import List NArith ZArith Bool Lia Reals Lra.
From Verif Require Import Base Arith U32 Mesh Helpers Locate Search StdLib Spec RealArith Geometry Heuristic Search_props Checkers Properties_geometry Detailed Spec_detailed Detailed_facts Tests_detailed Detailed_sim Properties_detailed.
Import ListNotations.
Open Scope N_scope.

Definition rv (x y : R) (ps : list N) : Vertex RA := vertex_new (vp (P x y)) ps.
(** two unit squares side by side *)
Definition two_exact : Mesh RA := mkMesh [mkLayer
  [rv 0 0 [0; MAX]; rv 1 0 [0; 1; MAX]; rv 1 1 [0; 1; MAX]; rv 0 1 [0; MAX]; rv 2 0 [1; MAX]; rv 2 1 [1; MAX]]
  [mkPolygon [0; 1; 2; 3] false; mkPolygon [1; 4; 5; 2] false] (vp (P 0 0)) None None] (Some (1/10)%R) 2.
Definition in_polygon (p : P2) (id : N) : Coords RA := mkCoords (vp p) None id.
Definition ctx_exact (b : P2) : Ctx RA := mkCtx two_exact (vp b) 1 [].

Lemma two_exact_real : real_mesh two_exact.
Proof.
  intros l [<-|[]]. split; [exists (P 0 0); reflexivity|]. intros v Hv.
  repeat (destruct Hv as [<-|Hv]; [eexists; reflexivity|]). destruct Hv.
Qed.
Lemma two_exact_small : mesh_small two_exact.
Proof. apply mesh_smallb_ok. reflexivity. Qed.


(** ** A query whose first step finds the path *)
Section First.
Context {A : Arith}.
Lemma path_first (lib : Lib A) m (from to : Coords A) blocked ps pe k st st' p :
  locate_end lib m from = Ok (Some ps) -> locate_end lib m to = Ok (Some pe) -> islands_reject m ps pe = Ok false ->
  (ps =? pe) = false -> (count_polygons m * 10)%nat = S k ->
  setup (mkCtx m (cpos to) pe blocked) (cpos from) ps = Ok st ->
  next lib (mkCtx m (cpos to) pe blocked) st = Ok (st', Found p) ->
  path_on_layers lib m from to blocked = Ok (Some p).
Proof.
  intros E1 E2 E3 E4 E5 E6 E7. unfold path_on_layers. rewrite E1. cbn [bind]. rewrite E2. cbn [bind]. rewrite E3. cbn [bind].
  rewrite E4. cbv zeta. rewrite E6. cbn [bind]. rewrite E5. cbn [run]. rewrite E7. reflexivity.
Qed.
Lemma dpath_first (lib : DLib A) m scales (from to : Coords A) blocked ps pe k st st' p :
  locate_end (dlib_lib lib) m from = Ok (Some ps) -> locate_end (dlib_lib lib) m to = Ok (Some pe) -> islands_reject m ps pe = Ok false ->
  (ps =? pe) = false -> (count_polygons m * 10)%nat = S k ->
  let c := mkDCtx (mkCtx m (cpos to) pe blocked) scales (cpos from, id_layer ps) in
  dsetup c (cpos from) ps = Ok st ->
  dnext lib c st = Ok (st', DFound p) -> dpop lib (dqueue st') = None ->
  dpath_on_layers lib m scales from to blocked = Ok (Some p).
Proof.
  intros E1 E2 E3 E4 E5 c E6 E7 E8. unfold dpath_on_layers. rewrite E1. cbn [bind]. rewrite E2. cbn [bind]. rewrite E3. cbn [bind].
  rewrite E4. fold c. cbv zeta. rewrite E6. cbn [bind]. rewrite E5. cbn [drun]. rewrite E7. cbn [bind fst snd app].
  assert (H : forall j, drun j lib c st' [p] = Ok [p]).
  { induction j as [|j IH]; [reflexivity|]. cbn [drun]. unfold dnext. rewrite E8. cbn [bind fst snd app]. exact IH. }
  rewrite H. reflexivity.
Qed.
Lemma next_first (lib : Lib A) c st n q :
  lpop lib (squeue st) = Some (n, q) -> (forall o, hist_get (shist st) (nroot n) = Some o -> flt o (ng n) = false) ->
  (nto n =? cpto c) = true -> next lib c st = Ok (mkState q (sbuffer st) (shist st), Found (final_path c n)).
Proof.
  intros H1 H2 H3. unfold next. rewrite H1. cbn [shist]. rewrite H3. destruct (hist_get (shist st) (nroot n)) as [o|]; [|reflexivity].
  rewrite (H2 o eq_refl). reflexivity.
Qed.
Lemma dnext_first (lib : DLib A) c st n q p :
  dpop lib (dqueue st) = Some (n, q) -> (forall o, hist_get (dhist st) (nroot (dnode n)) = Some o -> flt o (ng (dnode n)) = false) ->
  (nto (dnode n) =? cpto (dctx c)) = true -> dfinal c n = Ok p ->
  dnext lib c st = Ok (mkDState q (dbuffer st) (dhist st), DFound p).
Proof.
  intros H1 H2 H3 H4. unfold dnext. rewrite H1. cbn [dhist]. rewrite H3, H4. destruct (hist_get (dhist st) (nroot (dnode n))) as [o|]; [|reflexivity].
  rewrite (H2 o eq_refl). reflexivity.
Qed.
(** the first node: at the start itself *)
Lemma add_node_first (c : Ctx A) (f : vec2 A) pfrom other s e :
  veq f f = true -> fnan (fz 0 : F A) = false -> flt (fz 0 : F A) (fz 0) = false -> fnan (heuristic f (cgoal c) (fst s, fst e)) = false ->
  add_node c (mkState [] [] [(f, fz 0)]) f other s e (empty_node f pfrom) =
  mkState [] [mkNode [] f (fst s, fst e) (snd s, snd e) pfrom other (id_layer pfrom) (fz 0) (heuristic f (cgoal c) (fst s, fst e))] [(f, fz 0)].
Proof.
  intros H1 H2 H3 H4. unfold add_node, new_node. cbn [ng nh empty_node nroot npath nto]. rewrite H1. cbn [negb]. rewrite H2, H4.
  cbn [orb shist hist_get hist_set squeue sbuffer app]. rewrite H1, H3. reflexivity.
Qed.
Lemma dadd_node_first (c : DCtx A) (f : vec2 A) pfrom other s e ss se :
  veq f f = true -> fnan (fz 0 : F A) = false -> flt (fz 0 : F A) (fz 0) = false ->
  index (dscales c) (id_layer (snd s)) = Ok ss -> index (dscales c) (id_layer (snd e)) = Ok se ->
  fnan (heuristic f (cgoal (dctx c)) (vmulv (fst s) ss, vmulv (fst e) se)) = false ->
  dadd_node c (mkDState [] [] [(f, fz 0)]) f other s e (mkDNode (empty_node f pfrom) []) =
  Ok (mkDState [] [mkDNode (mkNode [] f (fst s, fst e) (snd s, snd e) pfrom other (id_layer pfrom) (fz 0)
                              (heuristic f (cgoal (dctx c)) (vmulv (fst s) ss, vmulv (fst e) se)))
                           (if id_layer other =? id_layer pfrom then [] else [(fst s, fst e, id_layer other)])] [(f, fz 0)]).
Proof.
  intros H1 H2 H3 H5 H6 H4. unfold dadd_node, dnew_node. cbn [dnode dpoints empty_node nroot npath nto ng]. rewrite H1. cbn [negb bind].
  rewrite H5, H6. cbn [bind dnode ng nh]. rewrite H2, H4.
  cbn [orb dhist hist_get hist_set dqueue dbuffer app]. rewrite H1, H3. reflexivity.
Qed.
End First.

Lemma zero_not_nan : fnan (fz 0 : F RA) = false.
Proof. reflexivity. Qed.
Lemma zero_not_less : flt (fz 0 : F RA) (fz 0) = false.
Proof. rewrite fz_R. cbn. apply rltb_false. lra. Qed.
Lemma same_root a : veq (vp a) (vp a) = true.
Proof. apply veq_vp. reflexivity. Qed.

Section Query.
Variables a b : P2.
Let i0 : P2 := padd (P 1 0) (P 0 0).
Let i1 : P2 := padd (P 1 1) (P 0 0).
Lemma i_ne : i0 <> i1.
Proof. unfold i0, i1, padd. cbn [px py]. intro H. injection H as H. lra. Qed.

Lemma setup_exact :
  setup (ctx_exact b) (vp a) 0 =
    Ok (flush_nodes (add_node (ctx_exact b) (mkState [] [] [(vp a, fz 0)]) (vp a) 1 (vp i0, 1) (vp i1, 2) (empty_node (vp a) 0))).
Proof. reflexivity. Qed.

(** A query between the two squares returns a path, for any two points. *)
Lemma two_exact_path : exists p,
  path_on_layers std_lib two_exact (in_polygon a 0) (in_polygon b 1) [] = Ok (Some p).
Proof.
  pose proof setup_exact as HS.
  rewrite (add_node_first (ctx_exact b) (vp a) 0 1 (vp i0, 1) (vp i1, 2) (same_root a) zero_not_nan zero_not_less) in HS.
  2:{ cbn [fst cgoal ctx_exact]. rewrite (heuristic_vp a b i0 i1 i_ne). reflexivity. }
  unfold flush_nodes in HS. cbn [squeue sbuffer shist app fst snd] in HS.
  eexists. eapply (path_first std_lib two_exact (in_polygon a 0) (in_polygon b 1) [] 0 1 19).
  - reflexivity.
  - reflexivity.
  - reflexivity.
  - reflexivity.
  - reflexivity.
  - exact HS.
  - eapply next_first.
    + cbn [std_lib lpop squeue std_pop]. reflexivity.
    + cbn [shist hist_get nroot ng]. rewrite same_root. intros o H. injection H as <-. exact zero_not_less.
    + reflexivity.
Qed.
End Query.

(** ** With the feature `detailed-layers`: two layers, with different scales *)
Definition other_id : N := id_make 1 0.
Definition stairs_exact : Mesh RA := mkMesh [
  mkLayer [rv 0 0 [0; MAX]; rv 1 0 [0; other_id; MAX]; rv 1 1 [0; other_id; MAX]; rv 0 1 [0; MAX]]
    [mkPolygon [0; 1; 2; 3] false] (vp (P 0 0)) None None;
  mkLayer [rv 0 0 [0; other_id; MAX]; rv 1 0 [other_id; MAX]; rv 1 1 [other_id; MAX]; rv 0 1 [0; other_id; MAX]]
    [mkPolygon [0; 1; 2; 3] false] (vp (P 1 0)) None None] (Some (1/10)%R) 2.
Definition stairs_scales : list (vec2 RA) := [vp (P 1 1); vp (P 2 3)].
Lemma stairs_small : mesh_small stairs_exact.
Proof. apply mesh_smallb_ok. reflexivity. Qed.
Lemma stairs_scales_ok : scales_at_least 1 stairs_scales.
Proof.
  intros s [<-|[<-|[]]]; eexists; eexists; (split; [reflexivity|]); rewrite !Rabs_pos_eq; lra.
Qed.

Lemma sum_real (c : DCtx RA) : Forall (fun s => exists z, s = vp z) (dscales c) ->
  forall pts acc (p : P2) l, l < lengthN (dscales c) ->
  Forall (fun q : vec2 RA * N => (exists z, fst q = vp z) /\ snd q < lengthN (dscales c)) pts ->
  exists t last, foldM (dleg c) (Some acc : F RA, (vp p, l)) pts = Ok (Some t, last).
Proof.
  intros HS. induction pts as [|[q lq] r IH]; intros acc p l Hl HF; cbn [foldM].
  - eexists. eexists. reflexivity.
  - inversion HF as [|x y [(z & Hz) Hq] Hr]; subst. cbn [fst snd] in *. subst q.
    destruct (nthN_lt_Some (dscales c) l Hl) as (sc & Hsc). pose proof (nthN_In _ _ _ Hsc) as Hin.
    rewrite Forall_forall in HS. destruct (HS _ Hin) as (w & ->).
    unfold dleg at 1. cbn [snd fst]. rewrite (proj2 (index_Ok (dscales c) l (vp w)) Hsc). cbn [bind].
    assert (E : fadd (Some acc : F RA) (vdist (vmulv (vp p) (vp w)) (vmulv (vp z) (vp w))) =
      Some (acc + dist (P (px p * px w) (py p * py w)) (P (px z * px w) (py z * py w)))%R).
    { change (vmulv (vp p) (vp w)) with (vp (P (px p * px w) (py p * py w))).
      change (vmulv (vp z) (vp w)) with (vp (P (px z * px w) (py z * py w))). rewrite vdist_vp. reflexivity. }
    rewrite E. apply IH; assumption.
Qed.
Lemma thin_incl (l : list (vec2 RA * N)) x : In x (thin l) -> In x l.
Proof.
  induction l as [|p [|n r] IH]; [auto|auto|]. intro H. cbn [thin] in H.
  change (In x (if flt (vdist2 (fst p) (fst n)) EPS then thin (n :: r) else p :: thin (n :: r))) in H.
  destruct (flt _ _); [right; auto|]. destruct H as [<-|H]; [now left|right; auto].
Qed.

Section DQuery.
Variables a b : P2.
Let i0 : P2 := padd (P 1 0) (P 0 0).
Let i1 : P2 := padd (P 1 1) (P 0 0).
Let c : DCtx RA := mkDCtx (mkCtx stairs_exact (vp b) other_id []) stairs_scales (vp a, 0).

Lemma dsetup_exact :
  dsetup c (vp a) 0 =
    (let* st := dadd_node c (mkDState [] [] [(vp a, fz 0)]) (vp a) other_id (vp i0, 1) (vp i1, 2) (mkDNode (empty_node (vp a) 0) []) in
     Ok (dflush st)).
Proof. unfold dsetup. cbn -[dadd_node]. destruct (dadd_node _ _ _ _ _ _ _); reflexivity. Qed.
Lemma scaled_one (z : P2) : vmulv (vp z) (vp (P 1 1)) = vp z.
Proof. destruct z as [x y]. unfold vmulv, vp, RealArith.pt. cbn. now rewrite !Rmult_1_r. Qed.

Definition dctx_ok (n : DNode RA) : Prop :=
  dpoints n = [(vp i0, vp i1, 1)] /\ ninterval (dnode n) = (vp i0, vp i1) /\ nto (dnode n) = other_id.
Lemma dfinal_exact n : dctx_ok n -> exists p t, dfinal c n = Ok p /\ dlength p = Some t.
Proof.
  intros (H1 & H2 & H3). unfold dfinal, dsum.
  assert (HR : Forall (fun q : vec2 RA * N => (exists z, fst q = vp z) /\ snd q < lengthN (dscales c)) (dwith_layers c n)).
  { rewrite Forall_forall. intros q Hq. unfold dwith_layers in Hq. apply thin_incl in Hq.
    assert (HE : forall e, In e (dend (dctx c) (dnode n)) -> exists z, e = vp z).
    { intros e He. unfold dend in He. apply in_app_or in He. destruct He as [He|[<-|[]]]; [|exists b; reflexivity].
      destruct (turning_point _ _ _) as [t|] eqn:ET; [|destruct He]. destruct He as [<-|[]].
      apply turning_point_ends in ET. rewrite H2 in ET. cbn [fst snd] in ET. destruct ET as [->| ->]; eauto. }
    rewrite H1 in Hq. apply in_app_or in Hq. destruct Hq as [Hq|Hq].
    - cbn [fill find] in Hq. destruct (veq (vp i0) (vp i1)) eqn:EV; [apply veq_vp in EV; exfalso; exact (i_ne EV)|].
      destruct (line_intersect_segment _ _) as [x|] eqn:EL; [|destruct Hq].
      destruct Hq as [<-|[]]. apply lis_seg in EL. destruct EL as (t & -> & _). cbn [fst snd]. split; [eauto|reflexivity].
    - apply in_map_iff in Hq. destruct Hq as (e & <- & He). cbn [fst snd]. split; [now apply HE|]. rewrite H3. reflexivity. }
  destruct (sum_real c) with (pts := dwith_layers c n) (acc := 0%R) (p := a) (l := 0) as (t & last & E).
  - repeat constructor; eexists; reflexivity.
  - reflexivity.
  - exact HR.
  - change (fz 0 : F RA) with (Some (0 / 1)%R). replace (0 / 1)%R with 0%R by field.
    change (dfrom c) with (vp a, 0). rewrite E. cbn [bind fst]. eexists. exists t. split; reflexivity.
Qed.

(** A query from the first layer to the second returns a path with a real length, for any two points. *)
Lemma stairs_path : exists p t,
  dpath_on_layers std_dlib stairs_exact stairs_scales (in_polygon a 0) (in_polygon b other_id) [] = Ok (Some p) /\
  dlength p = Some t.
Proof.
  pose proof dsetup_exact as HS.
  rewrite (dadd_node_first c (vp a) 0 other_id (vp i0, 1) (vp i1, 2) (vp (P 1 1)) (vp (P 1 1)) (same_root a) zero_not_nan zero_not_less) in HS.
  - cbn [bind] in HS. unfold dflush in HS. cbn [dqueue dbuffer dhist app fst snd] in HS.
    match type of HS with _ = Ok (mkDState [?n0] _ _) => set (n := n0) in * end.
    destruct (dfinal_exact n) as (p & t & Hp & Ht).
    { split; [reflexivity|]. split; reflexivity. }
    exists p, t. split; [|exact Ht].
    eapply (dpath_first std_dlib stairs_exact stairs_scales (in_polygon a 0) (in_polygon b other_id) [] 0 other_id 19).
    + reflexivity.
    + reflexivity.
    + reflexivity.
    + reflexivity.
    + reflexivity.
    + exact HS.
    + eapply dnext_first; [reflexivity| |reflexivity|exact Hp].
      cbn [dhist hist_get]. change (nroot (dnode n)) with (vp a). change (ng (dnode n)) with (fz 0 : F RA). rewrite same_root.
      intros o H. injection H as <-. exact zero_not_less.
    + reflexivity.
  - reflexivity.
  - reflexivity.
  - cbn [fst]. rewrite !scaled_one. change (cgoal (dctx c)) with (vp b). rewrite (heuristic_vp a b i0 i1 i_ne). reflexivity.
Qed.
End DQuery.

(** The hypotheses of C59 are met. *)
Example ex_C59 (a b : P2) : exists p t,
  dpop_perm (dpop (@std_dlib RA)) /\ mesh_small stairs_exact /\ scales_at_least 1 stairs_scales /\
  located (dlib_lib std_dlib) stairs_exact (in_polygon a 0) 0 /\
  located (dlib_lib std_dlib) stairs_exact (in_polygon b other_id) other_id /\ 0 <> other_id /\
  dpath_on_layers std_dlib stairs_exact stairs_scales (in_polygon a 0) (in_polygon b other_id) [] = Ok (Some p) /\
  dlength p = Some t.
Proof.
  destruct (stairs_path a b) as (p & t & H1 & H2). exists p, t. split; [apply std_dpop_perm|]. split; [apply stairs_small|].
  split; [apply stairs_scales_ok|]. split; [left; split; [discriminate|reflexivity]|]. split; [left; split; [discriminate|reflexivity]|].
  split; [discriminate|]. auto.
Qed.
(** The hypotheses of C14_exact_length and C15_not_shorter_than_straight_line_partial are met. *)
Example ex_exact (a b : P2) : exists p,
  pop_perm (lpop (@std_lib RA)) /\ real_mesh two_exact /\ mesh_small two_exact /\
  located std_lib two_exact (in_polygon a 0) 0 /\ located std_lib two_exact (in_polygon b 1) 1 /\
  path_on_layers std_lib two_exact (in_polygon a 0) (in_polygon b 1) [] = Ok (Some p).
Proof.
  destruct (two_exact_path a b) as (p & H). exists p. split; [apply std_pop_perm|]. split; [apply two_exact_real|].
  split; [apply two_exact_small|]. split; [left; split; [discriminate|reflexivity]|]. split; [left; split; [discriminate|reflexivity]|].
  exact H.
Qed.
(** The hypotheses of C61_unit_scales_exact are met. *)
Example ex_C61 : unit_scales stairs_exact [vone; vone] /\ verts_small stairs_exact.
Proof.
  split; [split; [reflexivity|repeat constructor]|]. intros l [<-|[<-|[]]]; cbn; lia.
Qed.

