(** The hypotheses of C87 are met: a long history over the layers of the tests of stitching.rs; and the conditions are needed. *)
From Coq Require Import List NArith ZArith Bool Reals Lia Lra.
From Coq.Floats Require Import SpecFloat.
From Flocq Require Import Core.
From Flocq Require BinarySingleNaN.
From Verif Require Import Base Arith U32 F32 Mesh Helpers Locate Bake Search AsyncPath Search_facts Search_safe StdLib F32_finite Cleanup Cleanup_facts Merger Stitch Stitch_facts Spec Spec_mesh
  Properties_safe Spec_history History_facts Properties_history Checkers Tests Tests_merge Tests_stitch Properties_stitch Properties_merge F32_real Spec_f32 Examples_f32 Area32.
Import ListNotations.
Open Scope N_scope.

(** ** Checking a history *)
Section Check.
Context {A : Arith}.
Variables (area_of : list (vec2 A) -> F A) (sort_area : list (N * F A) -> list (N * F A)) (convex : list (vec2 A) -> bool).
Variable sort : list (Z * N) -> list (Z * N).
Variable pos_ok : vec2 A -> vec2 A -> Prop.

Definition stitches_tob (m : Mesh A) (t : N) (ss : list ((N * N) * list (N * N))) : bool :=
  forallb (fun s => negb (N.eqb (fst (fst s)) t || N.eqb (snd (fst s)) t) || (negb (N.eqb (fst (fst s)) (snd (fst s))) &&
    forallb (fun fg => has_vertexb m (fst (fst s)) (fst fg) && has_vertexb m (snd (fst s)) (snd fg)) (snd s))) ss.
Lemma stitches_tob_ok m t ss : stitches_tob m t ss = true -> stitches_to_ok m t ss.
Proof using.
  unfold stitches_tob. rewrite forallb_forall. intros H from to ps Hi Ht. specialize (H _ Hi). cbn [fst snd] in H.
  assert (E : N.eqb from t || N.eqb to t = true) by (apply orb_true_iff; destruct Ht as [E|E]; [left|right]; now apply N.eqb_eq).
  rewrite E in H. cbn [negb orb] in H. apply andb_prop in H. destruct H as [H1 H2].
  split; [intro G; rewrite G, N.eqb_refl in H1; discriminate|]. intros f g Hfg. rewrite forallb_forall in H2. specialize (H2 _ Hfg). cbn [fst snd] in H2.
  apply andb_prop in H2. destruct H2. split; now apply has_vertexb_ok.
Qed.

Definition freeb (ph : phase) (li : N) : bool := match ph with Apart => true | Joined => false | Detached t => N.eqb li t end.
Definition layer_permittedb (ph : phase) (li : N) (c : layer_call (A:=A)) : bool :=
  match c with LBake | LBakeIslands | LMerge => freeb ph li | LUnbake | LBakeFinder | LClean => true | _ => false end.
(** Calls that bring in new positions or layers are not checked here. *)
Definition permittedb (ph : phase) (m : Mesh A) (c : call (A:=A)) : bool :=
  match c with
  | Bake | Merge => match ph with Apart => true | _ => false end
  | Unbake | Clean => true
  | Reorder => match ph with Joined => true | Apart => lengthN (layers m) <=? 1 | _ => false end
  | SetDelta d => fge d (fz 0)
  | SetSteps s => negb (N.eqb s 0) && (10 * s <? 2^32)
  | Push _ => false
  | On li c => (li <? lengthN (layers m)) && layer_permittedb ph li c
  | StitchAt ss _ => match ph with Apart => stitches_okb m ss | _ => false end
  | RemoveStitches => match ph with Joined => true | _ => false end
  | RemoveStitchesTo t => match ph with Joined => t <? lengthN (layers m) | _ => false end
  | RestitchAt t ss _ => match ph with Detached t' => N.eqb t' t && stitches_tob m t ss | _ => false end
  end.
Lemma freeb_ok ph li : freeb ph li = true -> free ph li.
Proof using. destruct ph; [intros _; exact I|discriminate|apply N.eqb_eq]. Qed.
Lemma layer_permittedb_ok ph li l c : layer_permittedb ph li c = true -> layer_permitted area_of pos_ok ph li l c.
Proof using. destruct c; cbn [layer_permittedb layer_permitted]; try discriminate; try (intros _; exact I); apply freeb_ok. Qed.
Lemma permittedb_ok ph m c : permittedb ph m c = true -> permitted area_of pos_ok ph m c.
Proof using.
  destruct c; cbn [permittedb permitted]; try discriminate; try (intros _; exact I).
  - destruct ph; [reflexivity|discriminate|discriminate].
  - destruct ph; [reflexivity|discriminate|discriminate].
  - destruct ph; [|now left|discriminate]. intro H. right. split; [reflexivity|now apply N.leb_le].
  - intro H. exact H.
  - intro H. apply andb_prop in H. destruct H as [H1 H2]. split; [intro E; rewrite E in H1; discriminate|now apply N.ltb_lt].
  - intro H. apply andb_prop in H. destruct H as [H1 H2]. apply N.ltb_lt in H1. apply nthN_lt_Some in H1. destruct H1 as [l Hl]. exists l. split; [exact Hl|]. now apply layer_permittedb_ok.
  - destruct ph; [|discriminate|discriminate]. intro H. split; [reflexivity|now apply stitches_okb_ok].
  - destruct ph; [discriminate|reflexivity|discriminate].
  - destruct ph; [discriminate| |discriminate]. intro H. split; [reflexivity|now apply N.ltb_lt].
  - destruct ph as [| |t']; [discriminate|discriminate|]. intro H. apply andb_prop in H. destruct H as [H1 H2]. apply N.eqb_eq in H1.
    split; [now rewrite H1|now apply stitches_tob_ok].
Qed.
Fixpoint legalb (ph : phase) (m : Mesh A) (cs : list (call (A:=A))) : bool :=
  match cs with
  | [] => true
  | c :: r => permittedb ph m c && match apply area_of sort_area convex sort c m with Ok m1 => legalb (next_phase ph c) m1 r | _ => false end
  end.
Lemma legalb_ok cs : forall ph m, legalb ph m cs = true -> legal area_of sort_area convex sort pos_ok ph m cs.
Proof using.
  induction cs as [|c cs IH]; intros ph m H; [exact I|]. cbn [legalb] in H. apply andb_prop in H. destruct H as [H1 H2].
  split; [now apply permittedb_ok|]. intros m1 E. rewrite E in H2. now apply IH.
Qed.

Definition local_idsb (l : Layer A) : bool :=
  forallb (fun v => forallb (fun id => N.eqb id MAX || (id <? lengthN (polygons l))) (vpolys v)) (vertices l) &&
  forallb (fun p => forallb (fun i => match nthN (vertices l) i with Some v => existsb (fun id => negb (N.eqb id MAX)) (vpolys v) | None => true end) (pverts p)) (polygons l).
Lemma local_idsb_ok l : local_idsb l = true -> local_ids l.
Proof using.
  unfold local_idsb. intro H. apply andb_prop in H. destruct H as [H1 H2]. rewrite forallb_forall in H1, H2. split.
  - intros v id Hv Hid. specialize (H1 v Hv). rewrite forallb_forall in H1. specialize (H1 id Hid). apply orb_prop in H1.
    destruct H1 as [E|E]; [left; now apply N.eqb_eq|right; now apply N.ltb_lt].
  - intros p i v Hp Hi Hv. specialize (H2 p Hp). rewrite forallb_forall in H2. specialize (H2 i Hi). rewrite Hv in H2.
    apply existsb_exists in H2. destruct H2 as (id & G1 & G2). exists id. split; [exact G1|]. intro E. rewrite E in G2. discriminate G2.
Qed.
Definition shapedb (l : Layer A) : bool :=
  (lengthN (vertices l) <? 2^32) && (lengthN (polygons l) <=? 2^24 - 1) && layer_wfb l &&
  match baked l with Some boxes => Nat.eqb (length boxes) (length (polygons l)) | None => true end.
Lemma shapedb_ok l : shapedb l = true -> (forall v, In v (vertices l) -> pos_ok (offset l) (coords v)) ->
  (forall cs, incl cs (map (fun v => coords v) (vertices l)) -> fnan (area_of cs) = false) -> shaped area_of pos_ok l.
Proof using.
  unfold shapedb. intros H Hp Ha. apply andb_prop in H. destruct H as [H H4]. apply andb_prop in H. destruct H as [H H3]. apply andb_prop in H. destruct H as [H1 H2].
  split; [now apply N.ltb_lt|]. split; [now apply N.leb_le|]. split; [|split; [|split; assumption]].
  - apply (layers_wfb_ok (mkMesh [l] (fz 0) 0)); [|now left]. unfold layers_wfb. cbn [layers forallb]. now rewrite H3.
  - intros boxes E. rewrite E in H4. now apply Nat.eqb_eq.
Qed.
End Check.

(** ** The example *)
(** coordinates 0, 1 and 2 *)
Lemma n2 : num (q 2 1) 2. Proof. lit false 8388608%positive (-22)%Z (/ 4194304)%R. Qed.

Definition low (x : SpecFloat.spec_float) : Prop := x = q 0 1 \/ x = q 1 1 \/ x = q 2 1.
Lemma low_num x : low x -> exists r, num x r /\ (Rabs r <= 2)%R.
Proof.
  intros [E|[E|E]]; rewrite E.
  - exists 0%R. split; [apply n0|]. rewrite Rabs_R0. lra.
  - exists 1%R. split; [apply n1|]. rewrite Rabs_R1. lra.
  - exists 2%R. split; [apply n2|]. rewrite Rabs_right; lra.
Qed.
Definition lows (v : vec2 F32) : Prop := low (vx v) /\ low (vy v).
Lemma lows_small v : lows v -> small32 (sn:=t_sin) (cs:=t_cos) (ac:=t_acos) v.
Proof.
  intros [H1 H2]. destruct (low_num _ H1) as (a & N1 & A1), (low_num _ H2) as (b & N2 & A2).
  exists (RealArith.P a b). split; [split; [exact N1|exact N2]|]. split; cbn [RealArith.px RealArith.py]; lra.
Qed.
Lemma lows_area (l : Layer F32) : (forall v, In v (vertices l) -> lows (coords v)) ->
  forall cs, incl cs (map (fun v => coords v) (vertices l)) -> fnan (std_area (A:=F32) cs) = false.
Proof.
  intros H cs Hi. apply (area_is_a_number (sn:=t_sin) (cs:=t_cos) (ac:=t_acos)). apply Forall_forall. intros c Hc. apply Hi in Hc.
  apply in_map_iff in Hc. destruct Hc as (v & <- & Hv). now apply lows_small, H.
Qed.
Lemma lows_vtx (x y : Z) ps : low (q x 1) -> low (q y 1) -> lows (coords (vtx x y ps)).
Proof. intros H1 H2. split; [exact H1|exact H2]. Qed.

Definition ok32 := finite_sum t_sin t_cos t_acos.
Definition finite_layerb (l : Layer F32) : bool := finite_meshb (mesh_of [l]).
Lemma finite_layerb_ok l : finite_layerb l = true -> forall v, In v (vertices l) -> ok32 (offset l) (coords v).
Proof. intros H v Hv. apply (finite_meshb_ok _ H l v); [now left|exact Hv]. Qed.

Definition layer_a : Layer F32 := layer0 [vtx 1 0 [0; MAX]; vtx 2 0 [0; MAX]; vtx 1 1 [0; MAX]; vtx 2 1 [0; MAX]] [mkPolygon [0; 1; 3; 2] false].
Definition layer_b : Layer F32 := layer0 [vtx 0 0 [0; MAX]; vtx 1 0 [0; MAX]; vtx 0 1 [0; MAX]; vtx 1 1 [0; MAX]] [mkPolygon [0; 1; 3; 2] true].
(** two triangles, for the merger to join *)
Definition layer_c : Layer F32 := layer0 [vtx 1 1 [0; 1; MAX]; vtx 2 1 [0; MAX]; vtx 1 2 [1; MAX]; vtx 2 2 [1; 0; MAX]]
  [mkPolygon [0; 1; 3] true; mkPolygon [0; 3; 2] true].

Lemma l0 : low (q 0 1). Proof. now left. Qed.
Lemma l1 : low (q 1 1). Proof. right. now left. Qed.
Lemma l2 : low (q 2 1). Proof. right. now right. Qed.
Ltac lowsall := intros v Hv; cbn [vertices layer0] in Hv; repeat (destruct Hv as [<- |Hv]; [apply lows_vtx; first [exact l0|exact l1|exact l2]|]); destruct Hv.
Lemma a_lows v : In v (vertices layer_a) -> lows (coords v). Proof. revert v. unfold layer_a. lowsall. Qed.
Lemma b_lows v : In v (vertices layer_b) -> lows (coords v). Proof. revert v. unfold layer_b. lowsall. Qed.
Lemma c_lows v : In v (vertices layer_c) -> lows (coords v). Proof. revert v. unfold layer_c. lowsall. Qed.

Lemma a_shaped : shaped (std_area (A:=F32)) ok32 layer_a.
Proof. apply shapedb_ok; [vmc|apply finite_layerb_ok; vmc|apply lows_area, a_lows]. Qed.
Lemma b_shaped : shaped (std_area (A:=F32)) ok32 layer_b.
Proof. apply shapedb_ok; [vmc|apply finite_layerb_ok; vmc|apply lows_area, b_lows]. Qed.
Lemma c_shaped : shaped (std_area (A:=F32)) ok32 layer_c.
Proof. apply shapedb_ok; [vmc|apply finite_layerb_ok; vmc|apply lows_area, c_lows]. Qed.

(** Two layers as built; a third one is pushed; all are baked and stitched; layer 2 is taken out, merged, baked again and put back; the
    neighbours are put in order; useless vertices go; then everything is taken apart, merged and baked, and stitched once more. *)
Definition start : Mesh F32 := mesh_of [layer_a; layer_b].
Definition joints : list ((N * N) * list (N * N)) := [((0, 1), [(0, 1); (2, 3)]); ((0, 2), [(2, 0); (3, 1)]); ((1, 2), [(3, 0)])].
Definition later : list (call (A:=F32)) :=
  [Bake; StitchAt joints false; SetSteps 3; RemoveStitchesTo 2; On 2 LUnbake; On 2 LMerge; On 2 LBake; RestitchAt 2 joints false;
   Reorder; On 1 LClean; RemoveStitches; Unbake; Merge; Bake; On 0 LBakeIslands; StitchAt joints false].
Definition story : list (call (A:=F32)) := Push layer_c :: later.
Definition pushed : Mesh F32 := mesh_of [layer_a; layer_b; layer_c].

Lemma start_usable : usable (std_area (A:=F32)) ok32 Apart start.
Proof.
  split; [vm_compute; discriminate|]. split; [vm_compute; reflexivity|]. split; [discriminate|].
  intros li l Hl. apply nthN_In in Hl. destruct Hl as [<- |[<- |[]]].
  - split; [exact a_shaped|apply local_idsb_ok; vmc].
  - split; [exact b_shaped|apply local_idsb_ok; vmc].
Qed.
Lemma story_legal : legal (std_area (A:=F32)) std_sort_area std_convex std_sort ok32 Apart start story.
Proof.
  split.
  - split; [reflexivity|]. split; [vm_compute; reflexivity|]. split; [exact c_shaped|apply local_idsb_ok; vmc].
  - intros m1 E. assert (E1 : m1 = pushed) by (cbn [apply] in E; injection E as <-; reflexivity). rewrite E1. apply legalb_ok. vmc.
Qed.
Definition arrived (r : res (Mesh F32)) : bool :=
  match r with Ok m => N.eqb (lengthN (layers m)) 3 && is_Ok_Some (fun _ => true) (path lib32 m (at_ (pt10 5 5)) (at_ (pt10 15 18))) | _ => false end.
(** The history goes through, the mesh is stitched at its end, and paths lead from the first layer to the others. *)
Example ex_C87 : exists m', run (std_area (A:=F32)) std_sort_area std_convex std_sort story start = Ok m' /\
  usable (std_area (A:=F32)) ok32 (last_phase Apart story) m' /\ last_phase Apart story = Joined /\
  pos_sane ok32 /\ bvh_ok (lbvh lib32) /\ pop_perm (lpop lib32) /\
  lengthN (layers m') = 3 /\ is_Ok_Some (fun _ => true) (path lib32 m' (at_ (pt10 5 5)) (at_ (pt10 15 18))) = true.
Proof.
  destruct (C87_any_history std_area std_sort_area std_convex std_sort ok32 std_sort_area_perm eq_refl std_sort_ok story Apart start start_usable story_legal) as (m' & E & HU).
  exists m'. split; [exact E|]. split; [exact HU|]. split; [reflexivity|]. split; [apply finite_sum_sane|]. split; [apply std_bvh_ok|]. split; [apply std_pop_perm|].
  assert (G : arrived (run (std_area (A:=F32)) std_sort_area std_convex std_sort story start) = true) by vmc.
  assert (G1 : arrived (Ok m') = true) by exact (eq_trans (eq_sym (f_equal arrived E)) G).
  unfold arrived in G1. apply andb_prop in G1. destruct G1 as [G1 G2]. split; [now apply N.eqb_eq|exact G2].
Qed.

(** ** The conditions are needed *)
(** After stitching, the layers cannot be baked, merged or stitched again; a layer that was not taken out cannot be put back. *)
Definition joined_story : list (call (A:=F32)) := [StitchAt joints false].
Definition then_panics (c : call (A:=F32)) : bool :=
  match run (std_area (A:=F32)) std_sort_area std_convex std_sort (joined_story ++ [c]) pushed with Panic => true | _ => false end.
Theorem C87_conditions_needed_refuted :
  (exists m, run (std_area (A:=F32)) std_sort_area std_convex std_sort joined_story pushed = Ok m) /\
  forall c, In c [Bake; Merge; On 0 LBake; On 0 LBakeIslands; StitchAt joints false] ->
    run (std_area (A:=F32)) std_sort_area std_convex std_sort (joined_story ++ [c]) pushed = Panic.
Proof.
  split.
  - assert (G : match run (std_area (A:=F32)) std_sort_area std_convex std_sort joined_story pushed with Ok _ => true | _ => false end = true) by vmc.
    destruct (run (std_area (A:=F32)) std_sort_area std_convex std_sort joined_story pushed) as [m| | |]; try discriminate G. now exists m.
  - assert (G : forallb then_panics [Bake; Merge; On 0 LBake; On 0 LBakeIslands; StitchAt joints false] = true) by vmc.
    rewrite forallb_forall in G. intros c Hc. specialize (G c Hc). unfold then_panics in G.
    destruct (run (std_area (A:=F32)) std_sort_area std_convex std_sort (joined_story ++ [c]) pushed); try discriminate G. reflexivity.
Qed.
Print Assumptions ex_C87.
Print Assumptions C87_conditions_needed_refuted.
