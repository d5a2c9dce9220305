(** C64 is not vacuous: the mesh of Examples_shortest meets the hypotheses. *)
From Coq Require Import List NArith ZArith Bool Lia Reals Lra Psatz.
From Verif Require Import Base Arith U32 Mesh Helpers Locate Search AsyncPath StdLib Spec RealArith Geometry Heuristic F32_facts Search_props Search_safe Checkers Islands_facts Locate_facts
  Properties_geometry Properties_contain Examples_exact Rings Spec_inside Sight Sight_search Sight_static Examples_inside Spec_shortest Shortest_cover Shortest_run Shortest_end Properties_async Properties_shortest
  Zmesh Examples_shortest Properties_complete.
Import ListNotations.
Open Scope R_scope.

Lemma findM_at {T} (f : T -> res bool) pre x post : (forall y, In y pre -> f y = Ok false) -> f x = Ok true -> findM f (pre ++ x :: post) = Ok (Some x).
Proof.
  intros H1 H2. induction pre as [|y pre IH]; cbn [app findM]; [rewrite H2; reflexivity|]. rewrite (H1 y (or_introl eq_refl)). cbn [bind]. apply IH. intros z Hz. apply H1. now right.
Qed.
Lemma enum_split {T} (l : list T) i x : nthN l i = Some x -> exists pre post, enumerate l = pre ++ (i, x) :: post /\ forall j y, In (j, y) pre -> (j < i)%N /\ nthN l j = Some y.
Proof.
  unfold enumerate. intro H. assert (G : forall (l : list T) k i x, nthN l i = Some x -> exists pre post, enum_from k l = pre ++ ((k + i)%N, x) :: post /\ forall j y, In (j, y) pre -> exists d, j = (k + d)%N /\ (d < i)%N /\ nthN l d = Some y).
  { clear. induction l as [|a l IH]; intros k i x H; [discriminate|]. destruct (N.eq_dec i 0) as [->|Hi].
    - cbn [nthN] in H. exists [], (enum_from (N.succ k) l). cbn [enum_from app]. rewrite N.add_0_r. split; [|intros ? ? []].
      assert (a = x) by (cbn in H; congruence). now subst.
    - assert (E : nthN l (N.pred i) = Some x).
      { rewrite nthN_nth_error in *. replace (N.to_nat i) with (S (N.to_nat (N.pred i))) in H by lia. exact H. }
      destruct (IH (N.succ k) _ x E) as (pre & post & E1 & E2). exists ((k, a) :: pre), post. cbn [enum_from app]. rewrite E1. split.
      + do 3 f_equal. f_equal. lia.
      + intros j y [Q|Q].
        * injection Q as -> ->. exists 0%N. split; [lia|]. split; [lia|reflexivity].
        * destruct (E2 j y Q) as (d & -> & D1 & D2). exists (N.succ d). split; [lia|]. split; [lia|]. rewrite nthN_nth_error in *. rewrite N2Nat.inj_succ. exact D2. }
  destruct (G l 0%N i x H) as (pre & post & E1 & E2). exists pre, post. split; [exact E1|]. intros j y Hj. destruct (E2 j y Hj) as (d & -> & D1 & D2). split; [lia|exact D2].
Qed.

Section Z.
Variables (vs : list (zpt * list N)) (ps : list (list N)).
Let m : Mesh RA := zmesh vs ps.
Notation zat := (zat vs).

Lemma zm_layer_corners p : forallb (fun i => (i <? lengthN vs)%N) p = true -> Properties_contain.corners (zlayer vs ps) (mkPolygon p false) (map zp (map zat p)).
Proof.
  unfold Properties_contain.corners. cbn [pverts]. intro H. induction p as [|i p IH]; [constructor|]. cbn [forallb] in H. apply andb_prop in H. destruct H as [H1 H2]. cbn [map]. constructor; [|now apply IH].
  apply N.ltb_lt in H1. destruct (nthN_lt_Some vs i H1) as ([z nb] & E). exists (zv (z, nb)). cbn [vertices zlayer]. rewrite nthN_map, E. split; [reflexivity|].
  unfold zv, Zmesh.zat. rewrite E. reflexivity.
Qed.
Definition zoutb (z : zpt) (p : list N) : bool :=
  existsb (fun e => (zor (fst e) (snd e) z <? 0)%Z) (zedges (map zat p)) && forallb (fun e => negb (zor (fst e) (snd e) z =? 0)%Z) (zedges (map zat p)).
Definition zinb (z : zpt) (p : list N) : bool := negb (N.eqb (lengthN p) 0) && forallb (fun e => (0 <? zor (fst e) (snd e) z)%Z) (zedges (map zat p)).
(** [z] is strictly inside of polygon [id], and strictly outside of the earlier ones *)
Definition zlocb (z : zpt) (id : N) : bool :=
  match nthN ps id with Some p => zinb z p | None => false end && forallb (fun kp => (id <=? fst kp)%N || zoutb z (snd kp)) (enumerate ps).

Lemma zm_pip_in z p : forallb (fun i => (i <? lengthN vs)%N) p = true -> zinb z p = true -> point_in_polygon (zlayer vs ps) (vp (zp z)) (mkPolygon p false) = Ok true.
Proof.
  intros HW H. unfold zinb in H. apply andb_prop in H. destruct H as [H1 H2]. apply (C06_inside_complete _ _ _ _ (zm_layer_corners p HW)).
  - destruct p; [discriminate H1|discriminate].
  - intros a b He. destruct (poly_edges_z _ _ _ He) as (u & w & Hu & -> & ->). rewrite forallb_forall in H2. specialize (H2 _ Hu). cbn [fst snd] in H2. rewrite zor_R.
    apply Z.ltb_lt in H2. assert (Q : (1 <= zor u w z)%Z) by lia. apply IZR_le in Q. unfold eps. lra.
Qed.
Lemma zm_pip_out z p : forallb (fun i => (i <? lengthN vs)%N) p = true -> zoutb z p = true -> point_in_polygon (zlayer vs ps) (vp (zp z)) (mkPolygon p false) = Ok false.
Proof.
  intros HW H. unfold zoutb in H. apply andb_prop in H. destruct H as [H1 H2]. apply (C06_outside _ _ _ _ (zm_layer_corners p HW)).
  - destruct p; [discriminate H1|discriminate].
  - apply existsb_exists in H1. destruct H1 as ([u w] & Hu & Q). cbn [fst snd] in Q. apply Z.ltb_lt, IZR_lt in Q. exists (zp u), (zp w). split.
    + rewrite zedges_map. apply in_map_iff. exists (u, w). auto.
    + rewrite zor_R. unfold eps. lra.
  - intros a b He _. destruct (poly_edges_z _ _ _ He) as (u & w & Hu & -> & ->). rewrite forallb_forall in H2. specialize (H2 _ Hu). cbn [fst snd] in H2. rewrite zor_R.
    apply negb_true_iff, Z.eqb_neq in H2. assert (Q : (zor u w z <= -1 \/ 1 <= zor u w z)%Z) by lia. unfold eps. unfold Rabs. destruct (Rcase_abs _), Q as [Q|Q]; apply IZR_le in Q; lra.
Qed.
Lemma zm_location bvh z id : zwfb vs ps = true -> (id < 2 ^ 24)%N -> zlocb z id = true -> get_point_location bvh m (coords_on_mesh (vp (zp z))) = Ok id.
Proof.
  intros HW H24 H. unfold zlocb in H. apply andb_prop in H. destruct H as [H1 H2]. destruct (nthN ps id) as [p|] eqn:EP; [|discriminate].
  unfold zwfb in HW. rewrite forallb_forall in HW. rewrite forallb_forall in H2.
  assert (HL : loc_any bvh (zlayer vs ps) (vp (zp z)) = Ok id).
  { unfold loc_any. cbn [baked zlayer]. unfold loc_unit. cbn [polygons zlayer].
    assert (EP' : nthN (map (fun p => mkPolygon p false) ps) id = Some (mkPolygon p false)) by (rewrite nthN_map, EP; reflexivity).
    destruct (enum_split _ _ _ EP') as (pre & post & E1 & E2). rewrite E1. rewrite (findM_at _ pre (id, mkPolygon p false) post).
    - reflexivity.
    - intros [j y] Hj. destruct (E2 j y Hj) as [Hlt Hn]. cbn [snd]. rewrite nthN_map in Hn. destruct (nthN ps j) as [p'|] eqn:EJ; [|discriminate]. cbn [option_map] in Hn.
      assert (y = mkPolygon p' false) by congruence. subst y. apply zm_pip_out; [apply HW; now apply nthN_In in EJ|].
      specialize (H2 (j, p') (proj2 (enumerate_spec _ _ _) EJ)). cbn [fst snd] in H2. apply orb_prop in H2. destruct H2 as [H2|H2]; [apply N.leb_le in H2; lia|exact H2].
    - cbn [snd]. apply zm_pip_in; [apply HW; now apply nthN_In in EP|exact H1]. }
  assert (HP : forall d, layer_get_point_location bvh (zlayer vs ps) (vsub (vp (zp z)) (offset (zlayer vs ps))) d = Ok (Some id)).
  { intro d. unfold layer_get_point_location, probes. cbn [probe_loop].
    assert (EQ : vadd (vsub (vp (zp z)) (offset (zlayer vs ps))) (V (fz 0) (fz 0)) = vp (zp z)).
    { cbn [offset zlayer]. rewrite vsub_vp. rewrite !fz_R. change (@V RA (Some (IZR 0)) (Some (IZR 0))) with (vp (P 0 0)). rewrite vadd_vp. f_equal. apply P2_eq; unfold padd, psub; cbn [px py]; ring. }
    rewrite EQ, HL. cbn [bind]. destruct (N.eqb_spec id MAX) as [E|]; [|reflexivity]. exfalso. rewrite E in H24. vm_compute in H24. discriminate. }
  unfold get_point_location. cbn [clayer coords_on_mesh cpos layers m zmesh]. change (enumerate [zlayer vs ps]) with [(0%N, zlayer vs ps)]. cbn [gpl_loop]. rewrite HP. cbn [bind].
  change (0 mod 256)%N with 0%N. rewrite id_make_zero. destruct (N.eqb_spec id MAX) as [E|]; [|reflexivity]. exfalso. rewrite E in H24. vm_compute in H24. discriminate.
Qed.

(** ** At the border *)
(** there is a chain of [n] crossings around [z] from polygon [id] *)
Definition zhand (right : bool) (z : zpt) (x : Crossing) : bool := zeqb z (zat (if right then cr_a x else cr_b x)).
Fixpoint zturns (n : nat) (right : bool) (z : zpt) (id : N) : bool :=
  match n with
  | O => true
  | S n => existsb (fun x => (cr_from x =? id)%N && zhand right z x && zturns n right z (cr_to x)) (zcross vs ps)
  end.
Definition zborderb (n : nat) : bool := forallb (fun x => forallb (fun right => negb (zturns n right (zat (if right : bool then cr_a x else cr_b x)) (cr_from x))) [true; false]) (zcross vs ps).
Lemma turning_app blocked q right P xs Q ys T : turning m blocked q right P xs Q -> turning m blocked q right Q ys T -> turning m blocked q right P (xs ++ ys) T.
Proof. intros H H2. induction H; cbn [app]; constructor; auto. Qed.
Lemma turning_first blocked q right P xs Q : turning m blocked q right P xs Q ->
  exists x, open_crossing m blocked x /\ cr_from x = P /\ exists o, if right then ends m x q o else ends m x o q.
Proof. destruct 1; exists x; auto. Qed.
Lemma turning_zturns right z : forall xs P Q, turning m [] (zp z) right P xs Q -> forall n, (n <= length xs)%nat -> zturns n right z P = true.
Proof.
  assert (HE : forall x, open_crossing m [] x -> (exists o, if right then ends m x (zp z) o else ends m x o (zp z)) -> In x (zcross vs ps) /\ zhand right z x = true).
  { intros x [HO _] (o & Ho). split; [now apply zm_crossing|]. unfold zhand. apply zeqb_eq. destruct right.
    - apply zm_ends in Ho. destruct Ho as [Ho _]. now apply zp_inj.
    - apply zm_ends in Ho. destruct Ho as [_ Ho]. now apply zp_inj. }
  intros xs P Q H. remember (zp z) as q eqn:Eq. induction H as [right x HO Hx|right x xs Q HO Hx H IH]; intros [|n] Hn; cbn [zturns length] in *; try reflexivity;
    destruct (HE x HO Hx) as [H1 H2]; apply existsb_exists; exists x; (split; [exact H1|]); rewrite N.eqb_refl, H2; cbn [andb].
  - assert (n = 0%nat) by lia. now subst n.
  - apply IH; auto. lia.
Qed.
Lemma zm_border n : zborderb n = true -> at_border m [].
Proof.
  intros HB id v q right P xs Hv _ H.
  assert (HL : forall k, exists ys, turning m [] q right P ys P /\ (k <= length ys)%nat).
  { assert (1 <= length xs)%nat by (destruct H; cbn [length]; lia).
    induction k as [|k (ys & Y1 & Y2)]; [exists xs; split; [exact H|lia]|]. exists (xs ++ ys). split; [now apply (turning_app _ _ _ P xs P ys P)|]. rewrite app_length. lia. }
  destruct (HL n) as (ys & Y1 & Y2).
  assert (HX : exists x, open_crossing m [] x /\ cr_from x = P /\ exists o, if right then ends m x q o else ends m x o q) by exact (turning_first _ _ _ _ _ _ H).
  destruct HX as (x & HO & Ex & o & Ho). pose proof (zm_crossing vs ps x (proj1 HO)) as Hin.
  unfold zborderb in HB. rewrite forallb_forall in HB. specialize (HB x Hin). rewrite forallb_forall in HB. specialize (HB right). rewrite Ex in HB.
  assert (Hq : q = zp (zat (if right then cr_a x else cr_b x))) by (destruct right; apply zm_ends in Ho; now destruct Ho). rewrite Hq in Y1.
  rewrite (turning_zturns right _ ys P P Y1 n Y2) in HB. assert (HR : In right [true; false]) by (destruct right; cbn; auto). specialize (HB HR). discriminate.
Qed.
Lemma zm_real : real_mesh m.
Proof.
  intros l [<-|[]]. split; [eexists; reflexivity|]. intros v Hv. cbn [vertices zlayer] in Hv. apply in_map_iff in Hv. destruct Hv as (z & <- & _). eexists. reflexivity.
Qed.
Lemma zm_wf : zwfb vs ps = true -> zidsb vs ps = true -> forallb (fun p => negb (N.eqb (lengthN p) 0)) ps = true -> mesh_wf m.
Proof.
  intros HW HS HN. split; [|exact (zm_ids vs ps HS)]. intros l [<-|[]] p Hp. cbn [polygons zlayer] in Hp. apply in_map_iff in Hp. destruct Hp as (p' & <- & Hp).
  unfold zwfb in HW. rewrite forallb_forall in HW, HN. specialize (HW p' Hp). specialize (HN p' Hp). cbn [pverts]. split.
  - intros ->. discriminate HN.
  - intros i Hi. rewrite forallb_forall in HW. specialize (HW i Hi). apply N.ltb_lt in HW. cbn [vertices zlayer]. unfold lengthN in *. now rewrite map_length.
Qed.
End Z.

(** The hypotheses of the theorems C64, for a query whose straight line leaves the mesh. *)
Example ex_C64 :
  pop_ok (lpop (@std_lib RA)) /\ mesh_small bent /\ mesh_wf bent /\ real_mesh bent /\ plane_mesh bent /\ u32_ids bent /\
  get_point_location (lbvh (@std_lib RA)) bent (coords_on_mesh (vp bent_start)) = Ok 0%N /\
  get_point_location (lbvh (@std_lib RA)) bent (coords_on_mesh (vp bent_goal)) = Ok 1%N /\
  async_islands_reject bent 0 1 = Ok false /\ islands_reject bent 0 1 = Ok false /\
  generic bent bent_start 0 1 bent_goal /\ faultless bent [] 0 /\ at_border bent [] /\
  exists L, way bent [] 0 bent_start 1 bent_goal L.
Proof.
  split; [apply std_pop_ok, RA_total_ok|]. split; [apply bent_small|].
  split; [apply (zm_wf bent_vs bent_ps); vm_compute; reflexivity|]. split; [apply zm_real|].
  split; [exact (zm_plane _ _ bent_plane_b)|]. split; [exact (zm_u32 _ _ bent_ids_b)|].
  split; [apply (zm_location bent_vs bent_ps); vm_compute; reflexivity|]. split; [apply (zm_location bent_vs bent_ps); vm_compute; reflexivity|].
  split; [reflexivity|]. split; [reflexivity|]. split; [exact bent_generic|]. split; [exact bent_faultless|].
  split; [apply (zm_border bent_vs bent_ps 2); vm_compute; reflexivity|].
  destruct ex_C63 as (p & H1 & H2 & H3 & H4 & H5 & H6 & H7 & H8 & H9 & H10 & H11).
  destruct (C63_shortest std_lib bent (in_polygon bent_start 0) (in_polygon bent_goal 1) [] p bent_start bent_goal 0 1 H1 H2 H3 H4 H5 eq_refl eq_refl eq_refl H6 H7 H8 H9 H10)
    as (pts & xs & d & E1 & _ & _ & _ & _ & E4 & E5 & _). exists d. exact E5.
Qed.
(** The future of get_path answers for these points. *)
Example ex_C64_future : exists k log path, poll_times k std_lib (get_path bent (vp bent_start) (vp bent_goal)) = Ok (Some (Some path), log).
Proof.
  destruct ex_C64 as (H1 & H2 & H3 & H4 & H5 & H6 & H7 & H8 & H9 & _ & H11 & H12 & H13 & L & HL).
  destruct (C64_future_finds_a_shortest_path std_lib bent bent_start bent_goal 0 1 L H1 H3 H4 H5 H6 eq_refl H7 ltac:(discriminate) H8 ltac:(discriminate) H9 H11 H12 H13 HL)
    as (k & log & path & d & E & _). now exists k, log, path.
Qed.

(** Two triangles that do not touch: the future answers "no path". *)
Definition apart_vs : list (zpt * list N) := [((0, 0)%Z, [0; MAX]%N); ((9, -4)%Z, [0; MAX]%N); ((4, 11)%Z, [0; MAX]%N);
  ((-20, 3)%Z, [1; MAX]%N); ((-11, -1)%Z, [1; MAX]%N); ((-12, 10)%Z, [1; MAX]%N)].
Definition apart_ps : list (list N) := [[0; 1; 2]%N; [3; 4; 5]%N].
Definition apart : Mesh RA := zmesh apart_vs apart_ps.
Definition apart_start : P2 := zp (4, 2)%Z.
Definition apart_goal : P2 := zp (-14, 3)%Z.
Example ex_C64_apart : exists k log,
  poll_times k std_lib (get_path apart (vp apart_start) (vp apart_goal)) = Ok (Some None, log).
Proof.
  assert (HNW : forall L, ~ way apart [] 0 apart_start 1 apart_goal L).
  { intros L H. enough (G : forall P x Q y L, way apart [] P x Q y L -> Q = P) by (apply G in H; discriminate).
    clear. intros P x Q y L H. induction H as [P qs x Hc Hi|P x Q y L qs z HW IH Hc Hi|P x cr y L HW IH [Ho _] He]; auto.
    apply (zm_crossing apart_vs apart_ps) in Ho. vm_compute in Ho. destruct Ho. }
  destruct (C64_future_decides std_lib apart apart_start apart_goal 0 1) as (k & log & [(path & d & _ & _ & HW & _)|[H _]]).
  - apply std_pop_ok, RA_total_ok.
  - apply (zm_wf apart_vs apart_ps); vm_compute; reflexivity.
  - apply zm_real.
  - apply (zm_plane apart_vs apart_ps); vm_compute; reflexivity.
  - apply (zm_u32 apart_vs apart_ps); vm_compute; reflexivity.
  - reflexivity.
  - apply (zm_location apart_vs apart_ps); vm_compute; reflexivity.
  - discriminate.
  - apply (zm_location apart_vs apart_ps); vm_compute; reflexivity.
  - discriminate.
  - reflexivity.
  - apply (zm_generic apart_vs apart_ps (4, 2)%Z (-14, 3)%Z 0 1); vm_compute; reflexivity.
  - apply (zm_faultless apart_vs apart_ps 1); vm_compute; reflexivity.
  - apply (zm_border apart_vs apart_ps 1); vm_compute; reflexivity.
  - destruct (HNW d HW).
  - now exists k, log.
Qed.
