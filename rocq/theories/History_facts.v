(** Facts about sequences of calls on one mesh (Spec_history.v). *)
From Coq Require Import List NArith ZArith Bool Permutation Lia.
From Verif Require Import Base Arith U32 Mesh Helpers Bake Bake_facts Cleanup Cleanup_facts Merger Merger_facts Stitch Stitch_facts Spec Spec_mesh Spec_merge
  Properties_cleanup Properties_merge Spec_history.
Import ListNotations.
Open Scope N_scope.

Lemma nthN_same_length {T U} (xs : list T) (ys : list U) i x : length ys = length xs -> nthN xs i = Some x -> exists y, nthN ys i = Some y.
Proof. intros HL H. apply nthN_Some_lt in H. apply nthN_lt_Some. unfold lengthN in *. now rewrite HL. Qed.
Lemma F2_same_length {T U} (R : T -> U -> Prop) xs ys : Forall2 R xs ys -> length ys = length xs.
Proof. induction 1; simpl; congruence. Qed.

Section Any.
Context {A : Arith}.
Variables (area_of : list (vec2 A) -> F A) (sort_area : list (N * F A) -> list (N * F A)) (convex : list (vec2 A) -> bool).
Variable sort : list (Z * N) -> list (Z * N).
Variable pos_ok : vec2 A -> vec2 A -> Prop.
Hypothesis Harea : forall l, Permutation l (sort_area l).
Hypothesis Hconvex : convex [] = false.
Hypothesis Hsort : sort_ok sort.
Implicit Types (m : Mesh A) (l : Layer A) (v : Vertex A).
Local Notation shaped := (shaped area_of pos_ok).
Local Notation usable := (usable area_of pos_ok).

(** ** Layers *)
(** what a call that may be made on a stitched layer does to it *)
Definition kept l l' : Prop :=
  lengthN (polygons l') = lengthN (polygons l) /\ (shaped l -> shaped l') /\ (local_ids l -> local_ids l') /\
  forall m w li, global_ids m w li l -> global_ids m w li l'.
Lemma kept_refl l : kept l l.
Proof using. unfold kept. auto. Qed.

Lemma kept_content l l' : vertices l' = vertices l -> polygons l' = polygons l ->
  (shaped l -> (forall boxes, baked l' = Some boxes -> length boxes = length (polygons l')) /\ forall v, In v (vertices l') -> pos_ok (offset l') (coords v)) -> kept l l'.
Proof using.
  intros Ev Ep H. unfold kept, Spec_history.shaped, local_ids, global_ids, layer_wf in *. rewrite Ev, Ep in *. split; [reflexivity|]. split; [|split].
  - intros (S1 & S2 & S3 & S4 & S5 & S6). destruct (H (conj S1 (conj S2 (conj S3 (conj S4 (conj S5 S6)))))) as [H1 H2].
    exact (conj S1 (conj S2 (conj S3 (conj H1 (conj H2 S6))))).
  - auto.
  - auto.
Qed.

Lemma kept_unbake l : kept l (layer_unbake l).
Proof using. apply kept_content; [reflexivity|reflexivity|]. intros (_ & _ & _ & _ & H & _). split; [discriminate|exact H]. Qed.
Lemma kept_finder l : kept l (bake_polygon_finder l).
Proof using.
  apply kept_content; [reflexivity|reflexivity|]. intros (_ & _ & _ & _ & H & _). split; [|exact H].
  intros boxes E. cbn [bake_polygon_finder baked polygons] in *. injection E as <-. apply map_length.
Qed.
Lemma kept_islands l isl : kept l (mkLayer (vertices l) (polygons l) (offset l) (baked l) isl).
Proof using. apply kept_content; [reflexivity|reflexivity|]. intros (_ & _ & _ & H4 & H & _). split; [exact H4|exact H]. Qed.
Lemma kept_move l o : (forall v, In v (vertices l) -> pos_ok o (coords v)) -> kept l (mkLayer (vertices l) (polygons l) o (baked l) (islands l)).
Proof using. intro H. apply kept_content; [reflexivity|reflexivity|]. intros (_ & _ & _ & H4 & _). split; [exact H4|exact H]. Qed.

(** what removing unused vertices needs *)
Definition tidy l : Prop := forall p i v, In p (polygons l) -> In i (pverts p) -> nthN (vertices l) i = Some v -> exists id, In id (vpolys v) /\ id <> MAX.
Lemma tidy_consistent l : layer_wf l -> tidy l -> consistent l.
Proof using.
  intros Hw H p i Hp Hi. destruct (nthN_lt_Some (vertices l) i) as [v Hv]; [now apply (Hw p Hp)|]. exists v. split; [assumption|].
  destruct (H p i v Hp Hi Hv) as (id & Hid & Hm). intros [E|E]; rewrite E in Hid; [destruct Hid|destruct Hid as [<-|[]]; now apply Hm].
Qed.
Lemma kept_clean l : shaped l -> tidy l -> exists l' b, layer_remove_useless l = Ok (l', b) /\ kept l l'.
Proof using.
  intros Hs Ht. pose proof Hs as (S1 & S2 & S3 & S4 & S5 & S6).
  destruct (C33_remove_useless l S1 (tidy_consistent l S3 Ht)) as (l' & b & E & Ev & Eo & Eb & Ei & HF & _).
  exists l', b. split; [exact E|].
  assert (Hin : forall v, In v (vertices l') -> In v (vertices l)) by (intros v Hv; rewrite Ev in Hv; apply filter_In in Hv; apply Hv).
  pose proof (F2_same_length _ _ _ HF) as Hlen.
  assert (Hused : forall p' i' v, In p' (polygons l') -> In i' (pverts p') -> nthN (vertices l') i' = Some v ->
     exists p i, In p (polygons l) /\ In i (pverts p) /\ nthN (vertices l) i = Some v).
  { intros p' i' v Hp' Hi' Hv. apply In_nthN in Hp'. destruct Hp' as [k Hk]. destruct (Forall2_nthN_r _ _ _ HF _ _ Hk) as (p & Hp & _ & G).
    apply In_nthN in Hi'. destruct Hi' as [j Hj]. destruct (Forall2_nthN_r _ _ _ G _ _ Hj) as (i & Hi & _ & u & Hu & Hu'). exists p, i.
    split; [eapply nthN_In; eassumption|]. split; [eapply nthN_In; eassumption|]. congruence. }
  split; [unfold lengthN; now rewrite Hlen|]. split; [|split].
  - intros _. split; [|split; [|split; [|split; [|split]]]].
    + rewrite Ev. unfold lengthN in *. pose proof (filter_len (fun v => negb (useless v)) (vertices l)). lia.
    + unfold lengthN in *. now rewrite Hlen.
    + intros p' Hp'. apply In_nthN in Hp'. destruct Hp' as [k Hk]. destruct (Forall2_nthN_r _ _ _ HF _ _ Hk) as (p & Hp & _ & G).
      destruct (S3 p (nthN_In _ _ _ Hp)) as [G1 _]. split.
      * intro E'. rewrite E' in G. inversion G as [E0|]. now apply G1.
      * intros i' Hi'. apply In_nthN in Hi'. destruct Hi' as [j Hj]. destruct (Forall2_nthN_r _ _ _ G _ _ Hj) as (i & _ & _ & u & _ & Hu').
        eapply nthN_Some_lt; eassumption.
    + intros boxes Hb. rewrite Eb in Hb. rewrite Hlen. now apply S4.
    + intros v Hv. rewrite Eo. apply S5. auto.
    + intros cs Hcs. apply S6. intros c Hc. specialize (Hcs c Hc). apply in_map_iff in Hcs. destruct Hcs as (v & <- & Hv). apply (in_map (fun v => coords v)). auto.
  - intros [L1 L2]. split.
    + intros v id Hv Hid. unfold lengthN in *. rewrite Hlen. apply (L1 v); auto.
    + intros p' i' v Hp' Hi' Hv. destruct (Hused _ _ _ Hp' Hi' Hv) as (p & i & G1 & G2 & G3). eapply L2; eassumption.
  - intros m w li [L1 L2]. split.
    + intros v id Hv. apply L1. auto.
    + intros p' i' v Hp' Hi' Hv. destruct (Hused _ _ _ Hp' Hi' Hv) as (p & i & G1 & G2 & G3). eapply L2; eassumption.
Qed.

Lemma local_tidy l : local_ids l -> tidy l.
Proof using. intros [_ H]. exact H. Qed.
Lemma global_tidy m w li l : global_ids m w li l -> tidy l.
Proof using. intros [_ H] p i v H1 H2 H3. destruct (H p i v H1 H2 H3) as (id & G1 & G2 & _). eauto. Qed.

Lemma local_ids_ok l : shaped l -> local_ids l -> layer_ids_ok l.
Proof using.
  intros (_ & _ & S3 & _) [L1 _]. split.
  - intros p Hp vi Hvi. now apply (S3 p Hp).
  - intros v Hv j Hj Hm. destruct (L1 v j Hv Hj); [contradiction|assumption].
Qed.
Lemma islands_kept l : shaped l -> local_ids l -> exists l', bake_islands_detection l = Ok l' /\ kept l l'.
Proof using.
  intros Hs Hl. destruct (bake_islands_spec l (local_ids_ok l Hs Hl)) as (isl & E & _).
  { destruct Hs as (_ & H & _). unfold UMAX. lia. }
  eexists. split; [exact E|]. apply kept_islands.
Qed.
Lemma kept_trans (l1 l2 l3 : Layer A) : kept l1 l2 -> kept l2 l3 -> kept l1 l3.
Proof using.
  intros (K1 & K2 & K3 & K4) (J1 & J2 & J3 & J4). split; [congruence|]. split; [auto|]. split; [auto|]. intros m w li H. apply J4, K4, H.
Qed.
Lemma bake_kept l : shaped l -> local_ids l -> exists l', layer_bake l = Ok l' /\ kept l l'.
Proof using.
  intros Hs Hl. pose proof (kept_finder l) as K. pose proof K as (_ & K2 & K3 & _).
  destruct (islands_kept (bake_polygon_finder l) (K2 Hs) (K3 Hl)) as (l' & E & K'). exists l'. split; [exact E|]. eapply kept_trans; eassumption.
Qed.

Lemma ready_of l : shaped l -> local_ids l -> merge_ready area_of l.
Proof using.
  intros (_ & S2 & S3 & _ & _ & S6) [L1 _]. split; [unfold MAX; lia|]. split; [exact S3|]. split; [exact L1|exact S6].
Qed.
(** the corners of a merged ring are corners of the rings it is made of *)
Lemma merged_corner vs ps c r i : merged convex vs ps c r -> In i r -> exists p, In p ps /\ In i (pverts p).
Proof using.
  intro H. induction H as [k p Hp|c1 r1 c2 r2 a b va vb o cs _ IH1 _ IH2 _ _ _ _ _ _ _ _]; intro Hi.
  - exists p. split; [eapply nthN_In; eassumption|assumption].
  - assert (Harc : forall r x y, In i (arc r x y) -> In i r).
    { intros r x y Hz. unfold arc in Hz. assert (T : forall l : list N, In i (take_until y l) -> In i l).
      { induction l as [|z l IHl]; [auto|]. cbn [take_until]. destruct (N.eqb z y); [intros []|]. intros [->|G]; [now left|right; auto]. }
      assert (S : forall l : list N, In i (skip_until x l) -> In i l).
      { induction l as [|z l IHl]; [auto|]. cbn [skip_until]. destruct (N.eqb z x); [auto|]. intro G. right. auto. }
      apply T, S, in_app_iff in Hz. destruct Hz; assumption. }
    apply in_app_iff in Hi. destruct Hi as [Hi|Hi]; apply Harc in Hi; auto.
Qed.
Lemma merge_local l : shaped l -> local_ids l -> exists l' b, layer_merge area_of sort_area convex l = Ok (l', b) /\ shaped l' /\ local_ids l'.
Proof using Harea Hconvex.
  intros Hs Hl. pose proof (ready_of l Hs Hl) as Hr.
  destruct (C35_merge_never_fails area_of sort_area convex Harea l Hconvex Hr) as (l' & b & E & Hr'). exists l', b. split; [exact E|].
  destruct (C35_merge area_of sort_area convex l l' b (proj1 Hr) E) as (_ & Hle & Eo & Eb & _ & g & G1 & _ & G3 & G4).
  destruct Hs as (S1 & S2 & S3 & S4 & S5 & S6). destruct Hl as [L1 L2]. pose proof (F2_same_length _ _ _ G3) as Hlen.
  destruct Hr' as (_ & R2 & R3 & R4). split.
  - split; [unfold lengthN in *; now rewrite Hlen|]. split; [lia|]. split; [exact R2|]. split; [rewrite Eb; discriminate|]. split; [|exact R4].
    intros v' Hv'. apply In_nthN in Hv'. destruct Hv' as [k Hk]. destruct (Forall2_nthN_r _ _ _ G3 _ _ Hk) as (v & Hv & Ec & _). rewrite Eo, Ec.
    apply S5. eapply nthN_In; eassumption.
  - split; [exact R3|]. intros p' i v' Hp' Hi Hv'. apply In_nthN in Hp'. destruct Hp' as [k Hk]. destruct (G4 k p' Hk) as (c & Hm & _).
    destruct (merged_corner _ _ _ _ _ Hm Hi) as (p & Hp & Hip). destruct (Forall2_nthN_r _ _ _ G3 _ _ Hv') as (v & Hv & _ & _ & Hids & Ep).
    destruct (L2 p i v Hp Hip Hv) as (id & Hid & Hmax). exists (g id). rewrite Ep. destruct (Hids id Hid) as [|Hlt]; [contradiction|]. split.
    + apply dedup_In, in_map_iff. exists id. split; [|assumption]. destruct (N.eqb_spec id MAX); [contradiction|reflexivity].
    + specialize (G1 id Hlt). unfold MAX. lia.
Qed.

(** ** Meshes *)
Definition layer_state (ph : phase) m (li : N) l : Prop :=
  match ph with
  | Apart => local_ids l
  | Joined => global_ids m (fun _ => False) li l
  | Detached t => if N.eqb li t then local_ids l else global_ids m (eq t) li l
  end.
Lemma state_tidy ph m li l : layer_state ph m li l -> tidy l.
Proof using.
  destruct ph as [| |t]; cbn [layer_state]; [apply local_tidy|apply global_tidy|]. destruct (N.eqb li t); [apply local_tidy|apply global_tidy].
Qed.

(** ids stay valid as long as the layers they are in keep their number of polygons *)
Lemma global_mesh m m' w li l :
  (forall i la, ~ w i -> nthN (layers m) i = Some la -> exists lb, nthN (layers m') i = Some lb /\ lengthN (polygons la) <= lengthN (polygons lb)) ->
  global_ids m w li l -> global_ids m' w li l.
Proof using.
  intros H [G1 G2]. split; [|exact G2]. intros v id Hv Hid Hm. destruct (G1 v id Hv Hid Hm) as (H1 & H2 & la & p & HA & HB). split; [assumption|].
  split; [assumption|]. destruct (H _ _ H2 HA) as (lb & Hlb & Hle). apply nthN_Some_lt in HB. destruct (nthN_lt_Some (polygons lb) (id_polygon id)) as [p' Hp']; [lia|].
  exists lb, p'. split; assumption.
Qed.

Lemma usable_kept ph m m' : Forall2 kept (layers m) (layers m') -> 10 * search_steps m' < 2^32 -> usable ph m -> usable ph m'.
Proof using.
  intros HK Hst (U1 & U2 & U3 & U4). pose proof (F2_same_length _ _ _ HK) as Hlen. split; [unfold lengthN in *; now rewrite Hlen|].
  split; [assumption|]. split; [intros t Ht; specialize (U3 t Ht); unfold lengthN in *; now rewrite Hlen|].
  intros li l' Hl'. destruct (Forall2_nthN_r _ _ _ HK _ _ Hl') as (l & Hl & (K1 & K2 & K3 & K4)). destruct (U4 li l Hl) as [Hs Hst']. split; [auto|].
  assert (HM : forall w l0, global_ids m w li l0 -> global_ids m' w li l0).
  { intros w l0. apply global_mesh. intros i la _ Hla. destruct (Forall2_nthN _ _ _ HK _ _ Hla) as (lb & Hlb & (J1 & _)). exists lb. split; [assumption|]. lia. }
  destruct ph as [| |t]; auto. destruct (N.eqb li t); auto.
Qed.

(** a call on one layer *)
Lemma updN_F2 {T} (R : T -> T -> Prop) (xs : list T) i x y : (forall z, R z z) -> nthN xs i = Some x -> R x y -> Forall2 R xs (updN xs i (fun _ => y)).
Proof using.
  intros Hr. revert i. induction xs as [|z xs IH]; intros i Hx Hxy; [discriminate|]. simpl in *. destruct (N.eqb i 0).
  - injection Hx as ->. constructor; [assumption|]. clear -Hr. induction xs; constructor; auto.
  - constructor; [auto|]. now apply IH.
Qed.
Lemma usable_on_kept ph m li l l' : usable ph m -> nthN (layers m) li = Some l -> kept l l' ->
  usable ph (mkMesh (updN (layers m) li (fun _ => l')) (search_delta m) (search_steps m)).
Proof using.
  intros HU Hl HK. eapply usable_kept; [|apply HU|exact HU]. cbn [layers]. eapply updN_F2; [apply kept_refl|exact Hl|exact HK].
Qed.
Lemma usable_on_free ph m li l l' : usable ph m -> nthN (layers m) li = Some l -> free ph li -> shaped l' -> local_ids l' ->
  usable ph (mkMesh (updN (layers m) li (fun _ => l')) (search_delta m) (search_steps m)).
Proof using.
  intros (U1 & U2 & U3 & U4) Hl Hf Hs' Hl'. unfold Spec_history.usable. cbn [layers search_steps]. unfold lengthN in *. rewrite updN_length.
  split; [assumption|]. split; [assumption|]. split; [assumption|]. intros k q Hq. rewrite nthN_updN in Hq. destruct (N.eqb_spec li k) as [E|Hne].
  - rewrite <- E, Hl in Hq. cbn [option_map] in Hq. injection Hq as <-. split; [assumption|]. destruct ph as [| |t]; cbn [free] in Hf; [assumption|destruct Hf|].
    rewrite <- E, Hf, N.eqb_refl. assumption.
  - destruct (U4 k q Hq) as [Q1 Q2]. split; [assumption|]. destruct ph as [| |t]; cbn [free] in Hf; [assumption|destruct Hf|]. subst li.
    destruct (N.eqb_spec k t) as [E|_]; [congruence|]. eapply global_mesh; [|exact Q2]. intros i la Hi Hla. exists la. cbn [layers].
    rewrite nthN_updN. destruct (N.eqb_spec t i); [contradiction|]. split; [assumption|lia].
Qed.

(** calls that go through the layers until one of them changes *)
Lemma until_true_F2 (f : Layer A -> res (Layer A * bool)) (R : Layer A -> Layer A -> Prop) (P : Layer A -> Prop) (ls : list (Layer A)) : (forall l, R l l) ->
  (forall l, In l ls -> exists l' b, f l = Ok (l', b) /\ R l l') -> exists ls' b, until_true f ls = Ok (ls', b) /\ Forall2 R ls ls'.
Proof using.
  intros Hr. induction ls as [|l ls IH]; intro H; cbn [until_true]; [exists [], false; split; [reflexivity|constructor]|].
  destruct (H l (or_introl eq_refl)) as (l' & b & E & HR). rewrite E. cbn [bind fst snd]. destruct b.
  - exists (l' :: ls), true. split; [reflexivity|]. constructor; [assumption|]. clear -Hr. induction ls; constructor; auto.
  - destruct IH as (ls' & b' & E' & F'); [intros; apply H; now right|]. rewrite E'. cbn [bind fst snd]. exists (l' :: ls'), b'. split; [reflexivity|]. now constructor.
Qed.

Lemma mapM_F2 {T} (f : T -> res T) (R : T -> T -> Prop) (xs : list T) : (forall x, In x xs -> exists y, f x = Ok y /\ R x y) ->
  exists ys, mapM f xs = Ok ys /\ Forall2 R xs ys.
Proof using.
  induction xs as [|x xs IH]; intro H; [exists []; split; [reflexivity|constructor]|]. destruct (H x (or_introl eq_refl)) as (y & E & HR).
  destruct IH as (ys & Es & F'); [intros; apply H; now right|]. exists (y :: ys). cbn [mapM]. rewrite E. cbn [bind]. rewrite Es. cbn [bind]. split; [reflexivity|]. now constructor.
Qed.

(** ** Stitching *)
Lemma shaped_same l l' : same_layer l l' -> shaped l -> shaped l'.
Proof using.
  intros (Ep & Eo & Eb & _ & Ev) (S1 & S2 & S3 & S4 & S5 & S6). pose proof (F2_same_length _ _ _ Ev) as Hlen. unfold Spec_history.shaped, layer_wf, lengthN in *.
  rewrite Ep, Eo, Eb, Hlen. split; [assumption|]. split; [assumption|]. split; [assumption|]. split; [assumption|].
  assert (Em : map (fun v => coords v) (vertices l') = map (fun v => coords v) (vertices l)) by (clear -Ev; induction Ev as [|? ? ? ? E]; [reflexivity|]; simpl; unfold same_vertex in E; congruence).
  rewrite Em. split; [|assumption]. intros v Hv. assert (Hc : In (coords v) (map (fun v => coords v) (vertices l'))) by (apply (in_map (fun v => coords v)); assumption).
  rewrite Em in Hc. apply in_map_iff in Hc. destruct Hc as (v0 & <- & H0). auto.
Qed.

Lemma usable_plain m : usable Apart m -> plain m.
Proof using.
  intros (U1 & U2 & _ & U4). split; [assumption|]. split.
  - intros l Hl. apply In_nthN in Hl. destruct Hl as [i Hi]. destruct (U4 i l Hi) as [(_ & H & _) _]. assumption.
  - intros l v id Hl Hv Hid Hm. apply In_nthN in Hl. destruct Hl as [i Hi]. destruct (U4 i l Hi) as [_ [H _]]. destruct (H v id Hv Hid); [contradiction|assumption].
Qed.
Lemma usable_wf ph m : usable ph m -> forall l, In l (layers m) -> layer_wf l.
Proof using. intros (_ & _ & _ & U4) l Hl. apply In_nthN in Hl. destruct Hl as [i Hi]. destruct (U4 i l Hi) as [(_ & _ & H & _) _]. assumption. Qed.

(** the ids of a vertex after stitching: its own polygons, with the layer number, and those of the linked vertices *)
Lemma joined_of m0 m' : plain m0 -> 10 * search_steps m0 < 2^32 -> (forall l, In l (layers m0) -> shaped l) -> same_geometry m0 m' -> mesh_wf m' ->
  (forall li l p i v, nthN (layers m0) li = Some l -> In p (polygons l) -> In i (pverts p) -> nthN (vertices l) i = Some v -> exists id, In id (vpolys v) /\ id <> MAX) ->
  (forall li vi id, own_of m0 li vi id -> lists m' li vi id) ->
  (forall li vi id, lists m' li vi id -> id < 2^32) ->
  usable Joined m'.
Proof using.
  intros Hp Hst Hsh (Hg1 & Hg2 & Hg) [Hwf Hids] Ht Hown Hlt. pose proof Hp as (P1 & P2 & P3). pose proof (F2_same_length _ _ _ Hg) as Hlen.
  split; [unfold lengthN in *; now rewrite Hlen|]. split; [now rewrite Hg2|]. split; [discriminate|]. intros li l' Hl'.
  destruct (Forall2_nthN_r _ _ _ Hg _ _ Hl') as (l & Hl & HS). split; [eapply shaped_same; [exact HS|]; apply Hsh; eapply nthN_In; eassumption|]. split.
  - intros v id Hv Hid Hm. apply In_nthN in Hv. destruct Hv as [vi Hvi]. split; [|split; [auto|]].
    + apply (Hlt li vi). exists v. split; [now exists l'|auto].
    + eapply Hids; try eassumption; eapply nthN_In; eassumption.
  - intros p i v' Hpp Hi Hv'. destruct HS as (Ep & _ & _ & _ & Ev). rewrite Ep in Hpp. destruct (Forall2_nthN_r _ _ _ Ev _ _ Hv') as (v & Hv & _).
    destruct (Ht li l p i v Hl Hpp Hi Hv) as (id & Hid & Hm). assert (HL : lists m0 li i id) by (exists v; split; [now exists l|auto]).
    destruct (plain_lists _ _ _ _ Hp HL) as (H1 & H2 & _). destruct (Hown li i (id_make li id)) as (w & (lw & Hlw & Hw) & Hw1 & Hw2); [exists id; auto|].
    assert (lw = l') by congruence. subst lw. assert (w = v') by congruence. subst w. exists (id_make li id). split; [assumption|]. split; [assumption|]. apply id_layer_make; lia.
Qed.
Lemma own_lt m li vi id : plain m -> own_of m li vi id -> id < 2^32.
Proof using. intros Hp (p & HL & ->). destruct (plain_lists _ _ _ _ Hp HL) as (H1 & H2 & _). apply id_make_lt; lia. Qed.

Lemma step_stitch m ss ow : usable Apart m -> stitches_ok m ss -> exists m', stitch_at_vertices sort m ss ow = Ok m' /\ usable Joined m'.
Proof using Hsort.
  intros HU HS. pose proof (usable_plain m HU) as Hp. destruct (stitch_plain sort m ss ow Hsort Hp (usable_wf _ m HU) HS) as (m' & E & Hg & Hwf & _ & Hl).
  exists m'. split; [exact E|]. destruct HU as (U1 & U2 & _ & U4). apply (joined_of m m' Hp U2); try assumption.
  - intros l Hl0. apply In_nthN in Hl0. destruct Hl0 as [i Hi]. apply (U4 i l Hi).
  - intros li l p i v H1 H2 H3 H4. destruct (U4 li l H1) as [_ [_ G]]. eapply G; eassumption.
  - intros li vi id Ho. apply Hl. now left.
  - intros li vi id H. apply Hl in H. destruct H as [H|(lj & vj & _ & _ & H)]; eapply own_lt; eassumption.
Qed.

(** dropping the links of a layer *)
Lemma drop_local m w li l : global_ids m w li l -> li < 256 -> shaped l -> nthN (layers m) li = Some l -> local_ids (map_vpolys (drop_foreign li) l).
Proof using.
  intros [G1 G2] Hli Hs Hl. split; cbn [map_vpolys set_vertices vertices polygons].
  - intros v' id Hv' Hid. apply in_map_iff in Hv'. destruct Hv' as (v & <- & Hv). cbn [set_vpolys vpolys] in Hid. apply drop_foreign_In in Hid.
    destruct Hid as [[-> _]|(p & Hp & Hm & HL & ->)]; [now left|right]. rewrite N.mod_small in HL by assumption.
    destruct (G1 v p Hv Hp Hm) as (_ & _ & l' & q & [HA HB]). rewrite HL, Hl in HA. injection HA as <-. eapply nthN_Some_lt; eassumption.
  - intros p i v' Hp Hi Hv'. rewrite nthN_map_eq in Hv'. destruct (nthN (vertices l) i) as [v|] eqn:Ev; [|discriminate]. injection Hv' as <-.
    destruct (G2 p i v Hp Hi Ev) as (id & Hid & Hm & HL). exists (id_polygon id). cbn [set_vpolys vpolys]. split.
    + apply drop_foreign_In. right. exists id. rewrite N.mod_small by assumption. auto.
    + destruct (G1 v id (nthN_In _ _ _ Ev) Hid Hm) as (_ & _ & l' & q & [HA HB]). rewrite HL, Hl in HA. injection HA as <-. apply nthN_Some_lt in HB.
      destruct Hs as (_ & S2 & _). unfold MAX. lia.
Qed.

Lemma step_remove m : usable Joined m -> usable Apart (remove_stitches m).
Proof using.
  intros (U1 & U2 & _ & U4). assert (HS : Forall2 same_layer (layers m) (layers (remove_stitches m))) by apply (map_layers_same drop_foreign).
  pose proof (F2_same_length _ _ _ HS) as Hlen. split; [unfold lengthN in *; now rewrite Hlen|]. split; [exact U2|]. split; [discriminate|].
  intros li l' Hl'. pose proof Hl' as Hl2. cbn [remove_stitches set_layers layers] in Hl2. apply map_enumerate in Hl2. destruct Hl2 as (l & Hl & ->). cbn [fst snd].
  destruct (U4 li l Hl) as [Hs Hst]. pose proof (nthN_Some_lt _ _ _ Hl) as Hlt. split; [eapply shaped_same; [apply map_vpolys_same|exact Hs]|].
  eapply drop_local; [exact Hst|lia|exact Hs|exact Hl].
Qed.

Lemma step_detach m t : usable Joined m -> t < lengthN (layers m) -> usable (Detached t) (remove_stitches_to_layer m t).
Proof using.
  intros (U1 & U2 & _ & U4) Ht.
  assert (HS : Forall2 same_layer (layers m) (layers (remove_stitches_to_layer m t))) by (rewrite remove_to_eq; apply map_layers_same).
  pose proof (F2_same_length _ _ _ HS) as Hlen. split; [unfold lengthN in *; now rewrite Hlen|]. split; [exact U2|].
  split; [intros t' E; injection E as <-; unfold lengthN in *; now rewrite Hlen|].
  intros li l' Hl'. pose proof Hl' as Hl2. rewrite remove_to_eq in Hl2. apply map_enumerate in Hl2. destruct Hl2 as (l & Hl & E). cbn [fst snd] in E.
  destruct (U4 li l Hl) as [Hs Hst]. pose proof (nthN_Some_lt _ _ _ Hl) as Hlt. rewrite E.
  split; [eapply shaped_same; [apply map_vpolys_same|exact Hs]|]. destruct (N.eqb_spec li t) as [E2|Hne].
  - assert (Er : map_vpolys (remove_to t li) l = map_vpolys (drop_foreign li) l).
    { unfold map_vpolys, remove_to. rewrite N.mod_small by lia. rewrite E2, N.eqb_refl. reflexivity. }
    rewrite Er. eapply drop_local; [exact Hst|lia|exact Hs|exact Hl].
  - assert (Er : forall ps id, In id (remove_to t li ps) <-> In id ps /\ (id = MAX \/ id_layer id <> t)).
    { intros ps id. unfold remove_to. rewrite N.mod_small by lia. destruct (N.eqb_spec li t); [contradiction|].
      rewrite filter_In, orb_true_iff, negb_true_iff, N.eqb_eq, N.eqb_neq. reflexivity. }
    destruct Hst as [G1 G2]. split; cbn [map_vpolys set_vertices vertices polygons].
    + intros v' id Hv' Hid Hm. apply in_map_iff in Hv'. destruct Hv' as (v & <- & Hv). cbn [set_vpolys vpolys] in Hid. apply Er in Hid.
      destruct Hid as [Hid [|Hn]]; [contradiction|]. destruct (G1 v id Hv Hid Hm) as (H1 & _ & la & p & [HA HB]). split; [assumption|]. split; [congruence|].
      destruct (Forall2_nthN _ _ _ HS _ _ HA) as (lb & Hlb & (Ep & _)). exists lb, p. split; [assumption|]. now rewrite Ep.
    + intros p i v' Hp Hi Hv'. rewrite nthN_map_eq in Hv'. destruct (nthN (vertices l) i) as [v|] eqn:Ev; [|discriminate]. injection Hv' as <-.
      destruct (G2 p i v Hp Hi Ev) as (id & Hid & Hm & HL). exists id. cbn [set_vpolys vpolys]. split; [|auto]. apply Er. split; [assumption|]. right. congruence.
Qed.

Lemma map_vpolys_back f l : same_layer (map_vpolys f l) l.
Proof using. repeat split. cbn [map_vpolys set_vertices vertices]. induction (vertices l); constructor; [reflexivity|assumption]. Qed.

(** joining layer [t] again *)
Definition lower (t : N) (il : N * Layer A) : Layer A := if N.eqb (fst il) t then snd il else map_vpolys (drop_foreign (fst il)) (snd il).
Lemma step_restitch m t ss ow : usable (Detached t) m -> stitches_to_ok m t ss ->
  exists m', restitch_layer_at_vertices sort m t ss ow = Ok m' /\ usable Joined m'.
Proof using Hsort.
  intros HU HSS. pose proof HU as (U1 & U2 & U3 & U4). specialize (U3 t eq_refl).
  set (m0 := set_layers m (map (lower t) (enumerate (layers m)))).
  assert (N0 : forall li l0, nthN (layers m0) li = Some l0 <-> exists l, nthN (layers m) li = Some l /\ l0 = lower t (li, l)) by (intros; apply map_enumerate).
  assert (HS : Forall2 same_layer (layers m0) (layers m)).
  { apply Forall2_of_nthN; [unfold m0; cbn [set_layers layers]; rewrite map_length; unfold enumerate; now rewrite enum_from_length|].
    intros i l0 l Hl0 Hl. apply N0 in Hl0. destruct Hl0 as (l1 & H1 & ->). assert (l1 = l) by congruence. subst l1. unfold lower. cbn [fst snd].
    destruct (N.eqb i t); [apply same_layer_refl|]. apply map_vpolys_back. }
  assert (HS' : Forall2 same_layer (layers m) (layers m0)).
  { apply Forall2_of_nthN; [unfold m0; cbn [set_layers layers]; rewrite map_length; unfold enumerate; now rewrite enum_from_length|].
    intros i l l0 Hl Hl0. apply N0 in Hl0. destruct Hl0 as (l1 & H1 & ->). assert (l1 = l) by congruence. subst l1. unfold lower. cbn [fst snd].
    destruct (N.eqb i t); [apply same_layer_refl|]. apply map_vpolys_same. }
  pose proof (F2_same_length _ _ _ HS') as Hlen.
  assert (Hsmall : forall li l, nthN (layers m) li = Some l -> li < 256) by (intros li l H; apply nthN_Some_lt in H; lia).
  assert (Hloc : forall li l, nthN (layers m) li = Some l -> shaped (lower t (li, l)) /\ local_ids (lower t (li, l))).
  { intros li l Hl. destruct (U4 li l Hl) as [Hs Hst]. unfold lower. cbn [fst snd]. destruct (N.eqb li t); [auto|].
    split; [eapply shaped_same; [apply map_vpolys_same|exact Hs]|]. eapply drop_local; [exact Hst|eauto|exact Hs|exact Hl]. }
  assert (HU0 : usable Apart m0).
  { split; [unfold lengthN in *; now rewrite Hlen|]. split; [exact U2|]. split; [discriminate|]. intros li l0 Hl0. apply N0 in Hl0. destruct Hl0 as (l & Hl & ->). auto. }
  pose proof (usable_plain m0 HU0) as Hp.
  (* vertices of m0 and of m *)
  assert (HV : forall li vi v, vat (layers m) li vi v -> vat (layers m0) li vi (if N.eqb li t then v else set_vpolys v (drop_foreign li (vpolys v)))).
  { intros li vi v (l & Hl & Hv). exists (lower t (li, l)). split; [apply N0; eauto|]. unfold lower. cbn [fst snd]. destruct (N.eqb li t); [assumption|].
    cbn [map_vpolys set_vertices vertices]. rewrite nthN_map_eq, Hv. reflexivity. }
  (* the numbering of the target layer *)
  assert (exists ls1, tag_layers (Some t) (layers m) = Ok ls1) as [ls1 E1].
  { apply mapM_total. intros [li l] Hi. apply enumerate_spec in Hi. cbn [fst snd]. destruct (N.eqb_spec t (li mod 256)) as [Et|Et]; [|eauto].
    pose proof (Hsmall _ _ Hi) as Hli. rewrite N.mod_small in Et by assumption. destruct (U4 li l Hi) as [(_ & S2 & _) Hst].
    rewrite Et, N.eqb_refl in Hst. destruct Hst as [Hst _]. unfold tag_layer.
    match goal with |- exists b, (let* vs := mapM ?f _ in _) = Ok b => destruct (mapM_total f (vertices l)) as [vs ->]; [|cbn [bind]; eauto] end.
    intros v Hv.
    match goal with |- exists b, (let* vs := mapM ?f _ in _) = Ok b => destruct (mapM_total f (vpolys v)) as [ps ->]; [|cbn [bind]; eauto] end.
    intros p Hpp. destruct (N.eqb_spec p MAX); [eauto|]. unfold add_u32. destruct (Hst v p Hv Hpp); [contradiction|]. rewrite N.mod_small by assumption.
    destruct (N.ltb_spec (p + li * 2^24) (2^32)); [eauto|]. exfalso. change (2^32) with (256 * 2^24) in *. nia. }
  destruct (tag_layers_spec _ _ _ E1) as [S1 V1].
  assert (S01 : Forall2 same_layer (layers m0) ls1) by (eapply Forall2_trans; [apply same_layer_trans|exact HS|exact S1]).
  (* what the vertices list then *)
  assert (HB : forall li vi w, vat ls1 li vi w -> forall id, id <> MAX -> In id (vpolys w) ->
     (li = t /\ own_of m0 li vi id) \/ (li <> t /\ id < 2^32 /\ id_layer id <> t /\ exists v, vat (layers m) li vi v /\ In id (vpolys v))).
  { intros li vi w Hwv id Hm Hi. destruct (V1 _ _ _ Hwv) as (v & Hv & _ & Htag). pose proof Hv as (l & Hl & Hvl). pose proof (Hsmall _ _ Hl) as Hli.
    unfold tag_at in Htag. rewrite N.mod_small, N.eqb_sym in Htag by assumption. pose proof (HV _ _ _ Hv) as HV0. destruct (N.eqb_spec li t) as [E|Hne].
    - left. split; [assumption|]. apply In_nthN in Hi. destruct Hi as [k Hk]. destruct (Forall2_nthN_r _ _ _ Htag _ _ Hk) as (p & Hpk & Htg).
      destruct Htg as [[_ ?]|(Hpm & Eid & _)]; [contradiction|]. exists p. split; [exists v; split; [exact HV0|]; split; [eapply nthN_In; eassumption|assumption]|].
      assert (HL : lists m0 li vi p) by (exists v; split; [exact HV0|]; split; [eapply nthN_In; eassumption|assumption]).
      destruct (plain_lists _ _ _ _ Hp HL) as (? & ? & _). rewrite Eid, N.mod_small, id_make_eq by lia. lia.
    - right. split; [assumption|]. rewrite Htag in Hi. destruct (U4 li l Hl) as [_ Hst]. destruct (N.eqb_spec li t); [contradiction|]. destruct Hst as [G1 _].
      destruct (G1 v id (nthN_In _ _ _ Hvl) Hi Hm) as (H1 & H2 & _). split; [assumption|]. split; [congruence|]. exists v. auto. }
  assert (HO : forall li vi w, vat ls1 li vi w -> forall id, own_of m0 li vi id -> In id (vpolys w)).
  { intros li vi w Hwv id Ho. destruct (V1 _ _ _ Hwv) as (v & Hv & _ & Htag). pose proof Hv as (l & Hl & Hvl). pose proof (Hsmall _ _ Hl) as Hli.
    unfold tag_at in Htag. rewrite N.mod_small, N.eqb_sym in Htag by assumption. pose proof (HV _ _ _ Hv) as HV0.
    destruct Ho as (p & HL & ->). destruct (plain_lists _ _ _ _ Hp HL) as (Hx1 & Hx2 & _). destruct HL as (v0 & Hv0 & Hip & Hpm).
    apply vertex_at_vat in Hv0. pose proof (vat_fun _ _ _ _ _ Hv0 HV0) as Ev0. rewrite Ev0 in Hip. clear Ev0 Hv0. destruct (N.eqb_spec li t) as [E|Hne].
    - apply In_nthN in Hip. destruct Hip as [k Hk]. destruct (Forall2_nthN _ _ _ Htag _ _ Hk) as (p' & Hk' & Htg). destruct Htg as [[? _]|(_ & -> & _)]; [contradiction|].
      apply nthN_In in Hk'. rewrite N.mod_small in Hk' by assumption. rewrite id_make_eq by lia. now rewrite N.add_comm.
    - rewrite Htag. cbn [set_vpolys vpolys] in Hip. apply drop_foreign_In in Hip. destruct Hip as [[? _]|(q & Hq & Hqm & HL & ->)]; [contradiction|].
      rewrite N.mod_small in HL by assumption. destruct (U4 li l Hl) as [_ Hst]. destruct (N.eqb_spec li t); [contradiction|]. destruct Hst as [G1 _].
      destruct (G1 v q (nthN_In _ _ _ Hvl) Hq Hqm) as (H1 & _). rewrite <- HL, id_make_layer_polygon by assumption. assumption. }
  destruct (finish sort m0 (Some t) ss ow ls1 Hsort Hp (usable_wf _ m0 HU0)) as (m' & E & Hg & Hwf & Hn).
  - intros [[from to] ps] Hi Hc. cbn [fst snd] in *. unfold concerns in Hc. apply orb_true_iff in Hc. rewrite !N.eqb_eq in Hc.
    apply (HSS from to ps Hi). destruct Hc; [left|right]; congruence.
  - exact S01.
  - intros lj vj w Hwv id. rewrite own_ids_In. split.
    + intros (Hi & Hm & HLj). destruct (HB _ _ _ Hwv id Hm Hi) as [[_ Ho]|(Hne & Hlt & Hnt & v & Hv & Hiv)]; [assumption|].
      pose proof (HV _ _ _ Hv) as HV0. destruct (N.eqb_spec lj t); [contradiction|]. pose proof Hv as (l & Hl & Hvl). pose proof (Hsmall _ _ Hl) as Hli.
      destruct (U4 lj l Hl) as [(_ & S2 & _) Hst]. destruct (N.eqb_spec lj t); [contradiction|]. destruct Hst as [G1 _].
      destruct (G1 v id (nthN_In _ _ _ Hvl) Hiv Hm) as (_ & _ & la & p & [HA HB2]). rewrite HLj, Hl in HA. injection HA as <-. apply nthN_Some_lt in HB2.
      exists (id_polygon id). split.
      * eexists. split; [exact HV0|]. cbn [set_vpolys vpolys]. split; [|unfold MAX; lia]. apply drop_foreign_In. right. exists id. rewrite N.mod_small by assumption. auto.
      * rewrite <- HLj. symmetry. now apply id_make_layer_polygon.
    + intro Ho. destruct (own_of_layer _ _ _ _ Hp Ho) as [G1 G2]. split; [eapply HO; eassumption|auto].
  - intros lj vj w Hwv id Hi Hm. destruct (HB _ _ _ Hwv id Hm Hi) as [[_ Ho]|(Hne & Hlt & Hnt & v & Hv & Hiv)].
    + eapply own_of_valid; [exact Hp| |exact Ho]. apply Forall2_refl, same_layer_refl.
    + destruct Hv as (l & Hl & Hvl). destruct (U4 lj l Hl) as [_ Hst]. destruct (N.eqb_spec lj t); [contradiction|]. destruct Hst as [G1 _].
      destruct (G1 v id (nthN_In _ _ _ Hvl) Hiv Hm) as (_ & _ & la & p & [HA HB2]). destruct (Forall2_nthN _ _ _ HS' _ _ HA) as (lb & Hlb & (Ep & _)).
      exists lb, p. split; [assumption|]. now rewrite Ep.
  - intros from to ps f g Hi Hc Hfg. unfold concerns in Hc. apply orb_true_iff in Hc. rewrite !N.eqb_eq in Hc.
    assert (Hft : from = t \/ to = t) by (destruct Hc; [left|right]; congruence).
    destruct (HSS from to ps Hi Hft) as [_ G]. destruct (G f g Hfg) as [[v1 G1] [v2 G2]].
    split; eexists; eapply HV; eassumption.
  - exists m'. split; [unfold restitch_layer_at_vertices, stitch_internals; rewrite E1; cbn [bind]; exact E|].
    apply (joined_of m0 m' Hp U2); try assumption.
    + intros l0 Hl0. apply In_nthN in Hl0. destruct Hl0 as [i Hi]. destruct HU0 as (_ & _ & _ & H4). apply (H4 i l0 Hi).
    + intros li l p i v H1 H2 H3 H4. destruct HU0 as (_ & _ & _ & H5). destruct (H5 li l H1) as [_ [_ G]]. eapply G; eassumption.
    + intros li vi id Ho. pose proof Ho as (p & (v & Hv & _) & _). destruct Hg as (_ & _ & Hg). destruct (same_layers_vat _ _ li vi Hg) as [G _].
      destruct (G v Hv) as (w & Hwv & _). destruct (own_of_layer _ _ _ _ Hp Ho) as [_ Hm]. exists w. split; [exact Hwv|]. split; [|assumption].
      destruct (Hn _ _ _ Hwv) as (_ & u & Hu & Hiff). apply (Hiff id Hm). left. eapply HO; eassumption.
    + intros li vi id (w & Hwv & Hi & Hm). destruct (Hn _ _ _ Hwv) as (_ & u & Hu & Hiff). apply (Hiff id Hm) in Hi. destruct Hi as [Hi|(lj & vj & _ & _ & Ho)].
      * destruct (HB _ _ _ Hu id Hm Hi) as [[_ Ho]|(_ & Hlt & _)]; [eapply own_lt; eassumption|assumption].
      * eapply own_lt; eassumption.
Qed.

(** ** Neighbour order *)
Lemma joined_wf m : usable Joined m -> mesh_wf m.
Proof using.
  intro HU. split; [exact (usable_wf _ m HU)|]. destruct HU as (_ & _ & _ & U4). intros l v id Hl Hv Hid Hm. apply In_nthN in Hl. destruct Hl as [i Hi].
  destruct (U4 i l Hi) as [_ [G _]]. apply (G v id Hv Hid Hm).
Qed.
Lemma single_wf m : usable Apart m -> lengthN (layers m) <= 1 -> mesh_wf m.
Proof using.
  intros HU H1. split; [exact (usable_wf _ m HU)|]. destruct HU as (_ & _ & _ & U4). intros l v id Hl Hv Hid Hm. apply In_nthN in Hl. destruct Hl as [i Hi].
  destruct (U4 i l Hi) as [(_ & S2 & _) [G _]]. destruct (G v id Hv Hid) as [|Hlt]; [contradiction|]. pose proof (nthN_Some_lt _ _ _ Hi). assert (i = 0) by lia. subst i.
  destruct (nthN_lt_Some _ _ Hlt) as [p Hp]. exists l, p. unfold polygon_at.
  assert (Ei : id = id_make 0 id) by (rewrite id_make_eq by lia; lia). rewrite Ei, id_layer_make, id_polygon_make by lia. auto.
Qed.
Lemma step_reorder ph m : usable ph m -> mesh_wf m -> exists m', reorder sort m = Ok m' /\ usable ph m'.
Proof using Hsort.
  intros HU Hwf. destruct (reorder_total sort Hsort m Hwf) as [m' E]. exists m'. split; [exact E|].
  destruct (reorder_vertices sort Hsort m m' E) as [(G1 & G2 & G3) HV]. eapply usable_kept; [|rewrite G2; apply HU|exact HU].
  apply Forall2_of_nthN; [symmetry; exact (F2_same_length _ _ _ G3)|]. intros i l l' Hl Hl'. destruct (Forall2_nthN _ _ _ G3 _ _ Hl) as (l2 & Hl2 & HS).
  assert (l2 = l') by congruence. subst l2. clear Hl2.
  assert (HI : forall vi v', nthN (vertices l') vi = Some v' -> exists v, nthN (vertices l) vi = Some v /\ forall id, id <> MAX -> (In id (vpolys v') <-> In id (vpolys v))).
  { intros vi v' Hv'. destruct (HV i vi v' (ex_intro _ l' (conj Hl' Hv'))) as (l0 & v & H1 & H2 & _ & H3). assert (l0 = l) by congruence. subst l0. exists v.
    split; [assumption|]. intros id Hm. exact (new_neighbours_In _ _ _ _ _ H3 Hm). }
  assert (Ep : polygons l' = polygons l) by apply HS.
  split; [now rewrite Ep|]. split; [apply shaped_same; assumption|]. split.
  - intros [L1 L2]. split; rewrite Ep.
    + intros v' id Hv' Hid. destruct (N.eq_dec id MAX) as [|Hm]; [now left|]. apply In_nthN in Hv'. destruct Hv' as [vi Hvi]. destruct (HI vi v' Hvi) as (v & Hv & Hiff).
      apply (L1 v id); [eapply nthN_In; eassumption|now apply Hiff].
    + intros p k v' Hp Hk Hv'. destruct (HI k v' Hv') as (v & Hv & Hiff). destruct (L2 p k v Hp Hk Hv) as (id & Hid & Hm). exists id. split; [now apply Hiff|assumption].
  - intros m2 w li [L1 L2]. split.
    + intros v' id Hv' Hid Hm. apply In_nthN in Hv'. destruct Hv' as [vi Hvi]. destruct (HI vi v' Hvi) as (v & Hv & Hiff).
      apply (L1 v id); [eapply nthN_In; eassumption|now apply Hiff|assumption].
    + rewrite Ep. intros p k v' Hp Hk Hv'. destruct (HI k v' Hv') as (v & Hv & Hiff). destruct (L2 p k v Hp Hk Hv) as (id & Hid & Hm & HL). exists id.
      split; [now apply Hiff|auto].
Qed.

(** ** One call *)
Lemma step_layer ph m li l c : usable ph m -> nthN (layers m) li = Some l -> layer_permitted area_of pos_ok ph li l c ->
  exists l', apply_layer area_of sort_area convex c l = Ok l' /\ (kept l l' \/ (free ph li /\ shaped l' /\ local_ids l')).
Proof using Harea Hconvex.
  intros HU Hl Hc. destruct HU as (_ & _ & _ & U4). destruct (U4 li l Hl) as [Hs Hst].
  assert (Hfree : free ph li -> local_ids l).
  { intro Hf. destruct ph as [| |t]; cbn [free] in Hf; [assumption|destruct Hf|]. rewrite Hf, N.eqb_refl in Hst. assumption. }
  assert (Ht : tidy l) by (eapply (state_tidy ph m li); exact Hst).
  destruct c as [| | | | | |o|l2]; cbn [layer_permitted apply_layer] in *.
  - destruct (bake_kept l Hs (Hfree Hc)) as (l' & E & K). exists l'. auto.
  - exists (layer_unbake l). split; [reflexivity|]. left. apply kept_unbake.
  - exists (bake_polygon_finder l). split; [reflexivity|]. left. apply kept_finder.
  - destruct (islands_kept l Hs (Hfree Hc)) as (l' & E & K). exists l'. auto.
  - destruct (merge_local l Hs (Hfree Hc)) as (l' & b & E & H1 & H2). exists l'. rewrite E. cbn [bind fst]. split; [reflexivity|]. right. auto.
  - destruct (kept_clean l Hs Ht) as (l' & b & E & K). exists l'. rewrite E. cbn [bind fst]. split; [reflexivity|]. now left.
  - eexists. split; [reflexivity|]. left. now apply kept_move.
  - exists l2. split; [reflexivity|]. right. destruct Hc as (H1 & H2 & H3). auto.
Qed.

Lemma step_call ph m c : usable ph m -> permitted area_of pos_ok ph m c ->
  exists m', apply area_of sort_area convex sort c m = Ok m' /\ usable (next_phase ph c) m'.
Proof using Harea Hconvex Hsort.
  intros HU Hc. pose proof HU as (U1 & U2 & U3 & U4).
  assert (Hin : forall l, In l (layers m) -> exists li, shaped l /\ layer_state ph m li l).
  { intros l Hl. apply In_nthN in Hl. destruct Hl as [i Hi]. exists i. apply (U4 i l Hi). }
  destruct c as [| | | | |d|s|l|li c|ss ow| |t|t ss ow]; cbn [permitted apply next_phase] in *.
  - subst ph. unfold mesh_bake. destruct (mapM_F2 layer_bake kept (layers m)) as (ls & E & HF).
    { intros l Hl. destruct (Hin l Hl) as (li & H1 & H2). apply bake_kept; assumption. }
    rewrite E. cbn [bind]. eexists. split; [reflexivity|]. eapply usable_kept; [exact HF|exact U2|exact HU].
  - eexists. split; [reflexivity|]. eapply usable_kept; [|exact U2|exact HU]. cbn [mesh_unbake layers]. clear. induction (layers m); constructor; [apply kept_unbake|assumption].
  - subst ph. unfold mesh_merge.
    destruct (until_true_F2 (layer_merge area_of sort_area convex) (fun l l' => shaped l /\ local_ids l -> shaped l' /\ local_ids l') (fun _ => True) (layers m)) as (ls & b & E & HF); [auto| |].
    { intros l Hl. destruct (Hin l Hl) as (li & H1 & H2). destruct (merge_local l H1 H2) as (l' & b & E & H3). eauto. }
    rewrite E. cbn [bind fst]. eexists. split; [reflexivity|]. pose proof (F2_same_length _ _ _ HF) as Hlen. unfold Spec_history.usable. cbn [layers search_steps].
    unfold lengthN in *. rewrite Hlen. split; [assumption|]. split; [assumption|]. split; [discriminate|]. intros li l' Hl'.
    destruct (Forall2_nthN_r _ _ _ HF _ _ Hl') as (l & Hl & HR). apply HR. apply (U4 li l Hl).
  - unfold mesh_remove_useless. destruct (until_true_F2 layer_remove_useless kept (fun _ => True) (layers m)) as (ls & b & E & HF); [apply kept_refl| |].
    { intros l Hl. destruct (Hin l Hl) as (li & H1 & H2). apply kept_clean; [assumption|]. eapply state_tidy; exact H2. }
    rewrite E. cbn [bind fst]. eexists. split; [reflexivity|]. eapply usable_kept; [exact HF|exact U2|exact HU].
  - destruct Hc as [E|[E H1]]; subst ph; apply step_reorder; try assumption; [now apply joined_wf|now apply single_wf].
  - unfold set_search_delta. rewrite Hc. eexists. split; [reflexivity|]. exact HU.
  - destruct Hc as [H1 H2]. unfold set_search_steps. destruct (N.eqb_spec s 0); [contradiction|]. eexists. split; [reflexivity|].
    split; [exact U1|]. split; [exact H2|]. split; [exact U3|exact U4].
  - destruct Hc as (E & H1 & H2 & H3). subst ph. eexists. split; [reflexivity|]. unfold Spec_history.usable. cbn [layers search_steps].
    split; [unfold lengthN in *; rewrite app_length; cbn [length]; lia|]. split; [assumption|]. split; [discriminate|]. intros li l0 Hl0.
    rewrite nthN_nth_error in Hl0. destruct (Nat.lt_ge_cases (N.to_nat li) (length (layers m))) as [Hlt|Hge].
    + rewrite nth_error_app1 in Hl0 by assumption. rewrite <- nthN_nth_error in Hl0. apply (U4 li l0 Hl0).
    + rewrite nth_error_app2 in Hl0 by assumption. destruct (N.to_nat li - length (layers m))%nat as [|k]; [cbn in Hl0; injection Hl0 as <-; auto|].
      cbn in Hl0. destruct k; discriminate.
  - destruct Hc as (l & Hl & Hc). rewrite (proj2 (index_Ok _ _ _) Hl). cbn [bind]. destruct (step_layer ph m li l c HU Hl Hc) as (l' & E & HK).
    rewrite E. cbn [bind]. eexists. split; [reflexivity|]. destruct HK as [HK|(H1 & H2 & H3)]; [eapply usable_on_kept; eassumption|eapply usable_on_free; eassumption].
  - destruct Hc as [E HS]. subst ph. now apply step_stitch.
  - subst ph. eexists. split; [reflexivity|]. now apply step_remove.
  - destruct Hc as [E Ht]. subst ph. eexists. split; [reflexivity|]. now apply step_detach.
  - destruct Hc as [E HS]. subst ph. now apply step_restitch.
Qed.
End Any.
