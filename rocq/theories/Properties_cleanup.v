(** Removing vertices without polygons: C33, C34. *)
From Coq Require Import List NArith ZArith Bool Lia.
From Verif Require Import Base Arith F32 U32 Mesh Helpers Locate Spec Spec_mesh Bake_facts Checkers Tests Cleanup Cleanup_facts Tests_stitch.
Import ListNotations.
Open Scope N_scope.

(** A vertex without polygon, as the documentation says: no neighbour, or only the outside. *)
Definition unused {A : Arith} (v : Vertex A) : Prop := vpolys v = [] \/ vpolys v = [MAX].

(** The number of used vertices before position [i]. *)
Fixpoint used_before {A : Arith} (vs : list (Vertex A)) (i : nat) : N :=
  match vs, i with
  | v :: r, S i => (if useless v then 0 else 1) + used_before r i
  | _, _ => 0
  end.

Section Any.
Context {A : Arith}.
Implicit Types (m : Mesh A) (l : Layer A) (v : Vertex A) (vs : list (Vertex A)).

Lemma useless_spec v : useless v = true <-> unused v.
Proof.
  unfold useless, unused. destruct (vpolys v) as [|p [|q r]].
  - split; auto.
  - rewrite N.eqb_eq. split; [intros ->; auto|intros [H|H]; [discriminate|congruence]].
  - split; [discriminate|intros [H|H]; discriminate].
Qed.

Lemma Forall2_impl_In {S T} (P Q : S -> T -> Prop) xs ys : (forall x y, In x xs -> P x y -> Q x y) -> Forall2 P xs ys -> Forall2 Q xs ys.
Proof. intros H F. induction F; constructor; [apply H; [now left|assumption]|]. apply IHF. intros; apply H; [now right|assumption]. Qed.
Lemma lengthN_cons {T} (x : T) r : lengthN (x :: r) = 1 + lengthN r.
Proof. unfold lengthN. simpl length. lia. Qed.

(** the vertices used by polygons are used vertices *)
Definition consistent l : Prop :=
  forall p i, In p (polygons l) -> In i (pverts p) -> exists v, nthN (vertices l) i = Some v /\ ~ unused v.

Lemma kept_nth vs : forall k i v, nthN vs i = Some v ->
  nthN (kept_indexes vs k) i = Some (if useless v then MAX else k + used_before vs (N.to_nat i)).
Proof.
  induction vs as [|w r IH]; intros k i v H; [discriminate|]. simpl in H. destruct (N.eqb_spec i 0) as [->|Hi].
  - injection H as <-. cbn [kept_indexes]. destruct (useless w); cbn [nthN N.eqb N.to_nat used_before]; [reflexivity|]. now rewrite N.add_0_r.
  - replace (N.to_nat i) with (S (N.to_nat (N.pred i))) by lia. cbn [kept_indexes used_before].
    destruct (useless w); cbn [nthN]; (destruct (N.eqb_spec i 0); [contradiction|]); rewrite (IH _ _ _ H);
      destruct (useless v); try reflexivity; f_equal; lia.
Qed.
Lemma kept_length vs : forall k, length (kept_indexes vs k) = length vs.
Proof. induction vs as [|w r IH]; intro k; [reflexivity|]. cbn [kept_indexes]. destruct (useless w); simpl; now rewrite IH. Qed.

Lemma filter_nth vs : forall i v, nthN vs i = Some v -> useless v = false ->
  nthN (filter (fun v => negb (useless v)) vs) (used_before vs (N.to_nat i)) = Some v.
Proof.
  induction vs as [|w r IH]; intros i v H Hu; [discriminate|]. simpl in H. destruct (N.eqb_spec i 0) as [->|Hi].
  - injection H as <-. cbn [filter]. rewrite Hu. reflexivity.
  - replace (N.to_nat i) with (S (N.to_nat (N.pred i))) by lia. cbn [filter used_before]. destruct (useless w); cbn [negb].
    + rewrite N.add_0_l. now apply IH.
    + cbn [nthN]. destruct (N.eqb_spec (1 + used_before r (N.to_nat (N.pred i))) 0); [lia|]. rewrite <- (IH _ _ H Hu). f_equal. lia.
Qed.
Lemma kept_bound vs : forall i, used_before vs i <= lengthN vs.
Proof.
  induction vs as [|w r IH]; intros [|i]; cbn [used_before]; try (rewrite ?lengthN_cons; lia).
  specialize (IH i). rewrite lengthN_cons. destruct (useless w); lia.
Qed.
Lemma kept_filter vs : forall k, k + lengthN vs <= MAX ->
  map snd (filter (fun iv => negb (N.eqb (fst iv) MAX)) (combine (kept_indexes vs k) vs)) = filter (fun v => negb (useless v)) vs.
Proof.
  induction vs as [|w r IH]; intros k Hk; [reflexivity|]. rewrite lengthN_cons in Hk. cbn [kept_indexes filter].
  destruct (useless w); cbn [combine filter fst negb].
  - rewrite N.eqb_refl. cbn [negb]. apply IH. lia.
  - destruct (N.eqb_spec k MAX); [lia|]. cbn [negb map snd]. f_equal. apply IH. lia.
Qed.

(** C33: on a layer of less than 2^32 vertices, all those of the polygons being used ones: exactly the unused vertices are removed,
    the others keep their order, a polygon has the same vertices as before under their new numbers, nothing else changes, and the
    result tells whether a vertex has been removed. *)
Theorem C33_remove_useless l : lengthN (vertices l) < 2^32 -> consistent l ->
  exists l' b, layer_remove_useless l = Ok (l', b) /\
    vertices l' = filter (fun v => negb (useless v)) (vertices l) /\
    offset l' = offset l /\ baked l' = baked l /\ islands l' = islands l /\
    Forall2 (fun p p' => is_one_way p' = is_one_way p /\
      Forall2 (fun i i' => i' = used_before (vertices l) (N.to_nat i) /\
                           exists v, nthN (vertices l) i = Some v /\ nthN (vertices l') i' = Some v) (pverts p) (pverts p'))
      (polygons l) (polygons l') /\
    (b = true <-> exists v, In v (vertices l) /\ unused v).
Proof.
  intros HL Hc. unfold layer_remove_useless. rewrite kept_filter by (unfold MAX; lia).
  assert (Hp : forall p, In p (polygons l) -> exists qs, mapM (index (kept_indexes (vertices l) 0)) (pverts p) = Ok qs).
  { intros p Hp. apply mapM_total. intros i Hi. destruct (Hc p i Hp Hi) as (v & Hv & _). eexists. apply index_Ok. apply kept_nth. exact Hv. }
  match goal with |- exists l' b, (let* ps := mapM ?f _ in _) = _ /\ _ => destruct (mapM_total f (polygons l)) as [ps E] end.
  { intros p Hpp. destruct (Hp p Hpp) as [qs ->]. cbn [bind]. eauto. }
  rewrite E. cbn [bind]. eexists _, _. split; [reflexivity|]. cbn [vertices offset baked islands polygons].
  split; [reflexivity|]. split; [reflexivity|]. split; [reflexivity|]. split; [reflexivity|]. split.
  - apply mapM_Ok in E. eapply Forall2_impl_In; [|exact E]. intros p p' Hpp H. cbv beta in H. inv_bind H. injection H as <-.
    cbn [pverts is_one_way]. split; [reflexivity|]. apply mapM_Ok in E0. eapply Forall2_impl_In; [|exact E0].
    intros i i' Hi H. cbv beta in H. destruct (Hc p i Hpp Hi) as (v & Hv & Hu). apply index_Ok in H. rewrite (kept_nth _ _ _ _ Hv) in H.
    assert (useless v = false) as Eu by (destruct (useless v) eqn:Eu; [exfalso; apply Hu; now apply useless_spec|reflexivity]).
    rewrite Eu, N.add_0_l in H. injection H as <-. split; [reflexivity|]. exists v. split; [assumption|]. now apply filter_nth.
  - rewrite existsb_exists. split; intros (v & H1 & H2); exists v; (split; [assumption|]); now apply useless_spec.
Qed.

(** Containment is not affected (so neither are the answers to queries, with or without polygon finder). *)
Theorem C33_same_containment l l' b : lengthN (vertices l) < 2^32 -> consistent l -> layer_remove_useless l = Ok (l', b) ->
  forall k p, nthN (polygons l) k = Some p -> exists p', nthN (polygons l') k = Some p' /\ forall x, contains l' p' x <-> contains l p x.
Proof.
  intros HL Hc E k p Hk. destruct (C33_remove_useless l HL Hc) as (l1 & b1 & E1 & Ev & _ & _ & _ & HF & _).
  assert (l1 = l') by congruence. subst l1. clear E E1 b1.
  destruct (Forall2_nthN _ _ _ HF _ _ Hk) as (p' & Hk' & _ & Hvs). exists p'. split; [assumption|]. intro x.
  assert (HE : Forall2 (fun e e' => (left_of l' x e' <-> left_of l x e) /\ (touches l' x e' <-> touches l x e)) (edge_list (pverts p)) (edge_list (pverts p'))).
  { assert (G : Forall2 (fun i i' => nthN (vertices l') i' = nthN (vertices l) i) (pverts p) (pverts p')).
    { eapply Forall2_impl_In; [|exact Hvs]. intros i i' _ (_ & v & H1 & H2). congruence. }
    assert (G2 : Forall2 (fun i i' => nthN (vertices l') i' = nthN (vertices l) i) (tl (pverts p) ++ firstn 1 (pverts p)) (tl (pverts p') ++ firstn 1 (pverts p'))).
    { clear -G. destruct G; [constructor|]. simpl. apply Forall2_app; [assumption|]. now repeat constructor. }
    unfold edge_list. revert G2. generalize (tl (pverts p) ++ firstn 1 (pverts p)) as ys, (tl (pverts p') ++ firstn 1 (pverts p')) as ys'.
    clear -G. induction G as [|a a' r r' Ha _ IH]; intros ys ys' G2; [constructor|]. destruct G2 as [|c c' s s' Hc2 G2]; [constructor|].
    simpl. constructor; [|now apply IH]. unfold left_of, touches. cbn [fst snd]. rewrite Ha, Hc2. split; reflexivity. }
  assert (HN : pverts p' <> [] <-> pverts p <> []) by (clear -Hvs; destruct Hvs; split; congruence).
  clear -HE HN. unfold contains. rewrite HN. apply and_iff_compat_l.
  assert (HFa : forall es es', Forall2 (fun e e' => (left_of l' x e' <-> left_of l x e) /\ (touches l' x e' <-> touches l x e)) es es' ->
     (Forall (left_of l' x) es' <-> Forall (left_of l x) es)).
  { induction 1; split; intro F; constructor; inversion F; subst; tauto. }
  rewrite (HFa _ _ HE). apply or_iff_compat_l.
  generalize dependent (edge_list (pverts p)). generalize (edge_list (pverts p')). clear HN. intros es' es HE. split.
  - intros (pre & e & post & -> & H1 & H2). apply Forall2_app_inv_r in HE. destruct HE as (pre0 & r0 & G1 & G2 & ->). inversion G2; subst.
    exists pre0, x0, l0. split; [reflexivity|]. split; [now apply (HFa _ _ G1)|]. tauto.
  - intros (pre & e & post & -> & H1 & H2). apply Forall2_app_inv_l in HE. destruct HE as (pre0 & r0 & G1 & G2 & ->). inversion G2; subst.
    exists pre0, y, l'0. split; [reflexivity|]. split; [now apply (HFa _ _ G1)|]. tauto.
Qed.

(** Running it again changes nothing and returns false. *)
Theorem C33_idempotent l l' b : lengthN (vertices l) < 2^32 -> consistent l -> layer_remove_useless l = Ok (l', b) ->
  lengthN (vertices l') < 2^32 /\ consistent l' /\ layer_remove_useless l' = Ok (l', false) /\ (b = false -> l' = l).
Proof.
  intros HL Hc E. destruct (C33_remove_useless l HL Hc) as (l1 & b1 & E1 & Ev & Eo & Eb & Ei & HF & Hb).
  assert (l1 = l') by congruence. assert (b1 = b) by congruence. subst l1 b1. clear E1.
  assert (HL' : lengthN (vertices l') < 2^32). { rewrite Ev. unfold lengthN in *. pose proof (filter_len (fun v => negb (useless v)) (vertices l)). lia. }
  assert (Hu : forall v, In v (vertices l') -> useless v = false).
  { intros v Hv. rewrite Ev in Hv. apply filter_In in Hv. now apply negb_true_iff. }
  assert (Hc' : consistent l').
  { intros p' i' Hp' Hi'. apply In_nthN in Hp'. destruct Hp' as [k Hk]. destruct (Forall2_nthN_r _ _ _ HF _ _ Hk) as (p & _ & _ & G).
    apply In_nthN in Hi'. destruct Hi' as [j Hj]. destruct (Forall2_nthN_r _ _ _ G _ _ Hj) as (i & _ & _ & v & _ & Hv). exists v.
    split; [assumption|]. intro Hx. apply useless_spec in Hx. apply nthN_In in Hv. rewrite (Hu v Hv) in Hx. discriminate. }
  assert (Hid : forall vs, (forall v, In v vs -> useless v = false) -> filter (fun v => negb (useless v)) vs = vs /\ existsb useless vs = false /\
      (forall i, i < lengthN vs -> used_before vs (N.to_nat i) = i)).
  { induction vs as [|v vs IH]; intro Hvs; [split; [reflexivity|split; [reflexivity|intros i Hi; unfold lengthN in Hi; simpl in Hi; lia]]|].
    destruct IH as (I1 & I2 & I3); [intros; apply Hvs; now right|]. simpl. rewrite (Hvs v (or_introl eq_refl)). cbn [negb].
    split; [now rewrite I1|]. split; [assumption|]. intros i Hi. rewrite lengthN_cons in Hi. destruct (N.eq_dec i 0) as [->|Hne]; [reflexivity|].
    replace (N.to_nat i) with (S (N.to_nat (N.pred i))) by lia. rewrite I3 by lia. lia. }
  assert (Hsame : forall q : Layer A, lengthN (vertices q) < 2^32 -> consistent q -> (forall v, In v (vertices q) -> useless v = false) -> layer_remove_useless q = Ok (q, false)).
  { intros q HLq Hcq Huq. destruct (C33_remove_useless q HLq Hcq) as (q' & b' & Eq & Q1 & Q2 & Q3 & Q4 & Q5 & Q6). destruct (Hid _ Huq) as (I1 & I2 & I3).
    rewrite Eq. rewrite I1 in Q1. f_equal. f_equal.
    - destruct q as [vs ps o bk isl], q' as [vs' ps' o' bk' isl']. cbn [vertices polygons offset baked islands] in *. subst vs' o' bk' isl'. f_equal.
      clear -Q5 I3 Hcq. symmetry.
      assert (G : forall ps ps', (forall p, In p ps -> forall i, In i (pverts p) -> i < lengthN vs) ->
         Forall2 (fun p p' => is_one_way p' = is_one_way p /\
           Forall2 (fun i i' => i' = used_before vs (N.to_nat i) /\ exists v, nthN vs i = Some v /\ nthN vs i' = Some v) (pverts p) (pverts p')) ps ps' -> ps = ps').
      { clear Q5 Hcq. intros qs qs' Hin HF. induction HF as [|p p' r r' [H1 H2] _ IH]; [reflexivity|]. f_equal; [|apply IH; intros; eapply Hin; [right|]; eassumption].
        destruct p as [a f], p' as [a' f']. cbn [pverts is_one_way] in *. subst f'. f_equal. specialize (Hin _ (or_introl eq_refl)). cbn [pverts] in Hin.
        induction H2 as [|i i' s s' [Hi _] _ IH2]; [reflexivity|]. f_equal; [|apply IH2; intros; apply Hin; now right].
        rewrite Hi. symmetry. apply I3. apply Hin. now left. }
      apply (G ps ps'); [|assumption]. intros p Hp i Hi. destruct (Hcq p i Hp Hi) as (v & Hv & _). eapply nthN_Some_lt; exact Hv.
    - destruct b'; [|reflexivity]. destruct (proj1 Q6 eq_refl) as (v & Hv & Hx). apply useless_spec in Hx. rewrite (Huq v Hv) in Hx. discriminate. }
  split; [assumption|]. split; [assumption|]. split; [now apply Hsame|].
  intros ->. assert (Hall : forall v, In v (vertices l) -> useless v = false).
  { intros v Hv. destruct (useless v) eqn:Eu; [|reflexivity]. apply useless_spec in Eu. assert (false = true) by (apply Hb; eauto). discriminate. }
  rewrite (Hsame l HL Hc Hall) in E. congruence.
Qed.

(** ** C34 *)
(** What the mesh-level calls do: the layers up to and including the first one that changed are treated, the others are
    left as they are. *)
Theorem C34_stops_at_the_first_change (f : Layer A -> res (Layer A * bool)) ls ls' b : until_true f ls = Ok (ls', b) ->
  exists pre pre' rest rest', ls = pre ++ rest /\ ls' = pre' ++ rest' /\ Forall2 (fun l l' => f l = Ok (l', false)) pre pre' /\
    ((b = false /\ rest = [] /\ rest' = []) \/
     (b = true /\ exists l l' post, rest = l :: post /\ rest' = l' :: post /\ f l = Ok (l', true))).
Proof.
  revert ls' b. induction ls as [|l r IH]; intros ls' b H; cbn [until_true] in H.
  - injection H as <- <-. exists [], [], [], []. split; [reflexivity|]. split; [reflexivity|]. split; [constructor|left; auto].
  - inv_bind H. destruct a as [l1 b1]. cbn [fst snd] in H. destruct b1.
    + injection H as <- <-. exists [], [], (l :: r), (l1 :: r). split; [reflexivity|]. split; [reflexivity|]. split; [constructor|].
      right. split; [reflexivity|]. exists l, l1, r. auto.
    + inv_bind H. destruct a as [r' b2]. injection H as <- <-. destruct (IH _ _ E0) as (pre & pre' & rest & rest' & -> & -> & HF & HR). cbn [fst snd] in *.
      exists (l :: pre), (l1 :: pre'), rest, rest'. split; [reflexivity|]. split; [reflexivity|]. split; [constructor; assumption|exact HR].
Qed.

(** `while mesh.remove_useless_vertices() {}` *)
Inductive repeated : Mesh A -> Mesh A -> Prop :=
| repeated_last m m' : mesh_remove_useless m = Ok (m', false) -> repeated m m'
| repeated_more m m1 m' : mesh_remove_useless m = Ok (m1, true) -> repeated m1 m' -> repeated m m'.

Lemma until_true_ok ls : (forall l, In l ls -> lengthN (vertices l) < 2^32 /\ consistent l) ->
  exists ls' b, until_true layer_remove_useless ls = Ok (ls', b) /\
    (forall l, In l ls' -> lengthN (vertices l) < 2^32 /\ consistent l) /\
    (forall R, Forall2 (fun l l' => exists b, layer_remove_useless l = Ok (l', b)) ls' R -> Forall2 (fun l l' => exists b, layer_remove_useless l = Ok (l', b)) ls R) /\
    (b = false -> ls' = ls /\ Forall2 (fun l l' => exists b, layer_remove_useless l = Ok (l', b)) ls ls) /\
    (b = true -> (length (filter (fun l => existsb useless (vertices l)) ls') < length (filter (fun l => existsb useless (vertices l)) ls))%nat).
Proof.
  induction ls as [|l r IH]; intro H.
  - exists [], false. split; [reflexivity|]. split; [intros ? []|]. split; [auto|]. split; [split; [reflexivity|constructor]|discriminate].
  - destruct (H l (or_introl eq_refl)) as [HL Hc]. destruct (C33_remove_useless l HL Hc) as (l1 & b1 & E1 & _).
    destruct (C33_idempotent l l1 b1 HL Hc E1) as (HL1 & Hc1 & Eid & Hb1). cbn [until_true]. rewrite E1. cbn [bind fst snd].
    assert (Eb : b1 = existsb useless (vertices l)). { unfold layer_remove_useless in E1. inv_bind E1. now injection E1. }
    assert (Eb' : existsb useless (vertices l1) = false). { unfold layer_remove_useless in Eid. inv_bind Eid. now injection Eid. }
    destruct b1.
    + exists (l1 :: r), true. split; [reflexivity|]. split; [intros x [<-|Hx]; [auto|apply H; now right]|]. split.
      { intros R HR. inversion HR as [|? l2 ? R' [b3 E3] HR']; subst. constructor; [|assumption]. exists true. congruence. }
      split; [discriminate|]. intros _. cbn [filter]. rewrite Eb', <- Eb. simpl. lia.
    + destruct IH as (r' & b2 & E2 & I1 & I2 & I3 & I4); [intros; apply H; now right|]. rewrite E2. cbn [bind fst snd]. exists (l1 :: r'), b2.
      split; [reflexivity|]. split; [intros x [<-|Hx]; auto|]. specialize (Hb1 eq_refl). subst l1. split.
      { intros R HR. inversion HR; subst. constructor; auto. }
      split; [intro G; destruct (I3 G) as [-> G2]; split; [reflexivity|constructor; eauto]|].
      intro G. cbn [filter]. rewrite <- Eb. auto.
Qed.

(** Repeating it until it returns false does terminate, and treats every layer. *)
Theorem C34_repeating_reaches_all_layers m : (forall l, In l (layers m) -> lengthN (vertices l) < 2^32 /\ consistent l) ->
  exists m', repeated m m' /\ search_delta m' = search_delta m /\ search_steps m' = search_steps m /\
    Forall2 (fun l l' => exists b, layer_remove_useless l = Ok (l', b)) (layers m) (layers m').
Proof.
  remember (length (filter (fun l => existsb useless (vertices l)) (layers m))) as n eqn:En. revert m En.
  induction n as [n IH] using lt_wf_ind. intros m En H.
  destruct (until_true_ok (layers m) H) as (ls' & b & E & I1 & I2 & I3 & I4).
  assert (Em : mesh_remove_useless m = Ok (mkMesh ls' (search_delta m) (search_steps m), b)) by (unfold mesh_remove_useless; rewrite E; reflexivity).
  destruct b.
  - destruct (IH _ ltac:(rewrite En; apply I4; reflexivity) (mkMesh ls' (search_delta m) (search_steps m)) eq_refl I1) as (m' & R1 & R2 & R3 & R4).
    exists m'. split; [eapply repeated_more; eassumption|]. split; [assumption|]. split; [assumption|]. apply I2. exact R4.
  - destruct (I3 eq_refl) as [-> HF]. exists m. split; [constructor; rewrite Em; now destruct m|]. split; [reflexivity|]. split; [reflexivity|assumption].
Qed.
End Any.

(** A layer with an unused vertex in the middle. *)
Definition with_unused : Layer F32 :=
  layer0 [vtx 0 0 [0; MAX]; vtx 9 9 [MAX]; vtx 1 0 [0; MAX]; vtx 1 1 [0; MAX]; vtx 8 8 []] [mkPolygon [0; 2; 3] true].
Lemma with_unused_consistent : lengthN (vertices with_unused) < 2^32 /\ consistent with_unused.
Proof.
  split; [reflexivity|]. intros p i [<-|[]] [<-|[<-|[<-|[]]]]; (eexists; split; [reflexivity|]); intros [H|H]; discriminate H.
Qed.
Example C33_example : exists l', layer_remove_useless with_unused = Ok (l', true) /\
  map pverts (polygons l') = [[0; 1; 2]] /\ vertices l' = [vtx 0 0 [0; MAX]; vtx 1 0 [0; MAX]; vtx 1 1 [0; MAX]].
Proof.
  exists (layer0 [vtx 0 0 [0; MAX]; vtx 1 0 [0; MAX]; vtx 1 1 [0; MAX]] [mkPolygon [0; 1; 2] true]). split; [vmc|]. split; reflexivity.
Qed.

(** C34: one call leaves the unused vertices of the second layer. *)
Theorem C34_refuted : exists (m m' : Mesh F32), mesh_wf m /\ (forall l, In l (layers m) -> lengthN (vertices l) < 2^32 /\ consistent l) /\
  mesh_remove_useless m = Ok (m', true) /\ exists l v, In l (layers m') /\ In v (vertices l) /\ unused v.
Proof.
  exists (mesh_of [with_unused; with_unused]).
  assert (H : match mesh_remove_useless (mesh_of [with_unused; with_unused]) with
              | Ok (m', true) => existsb (fun l => existsb useless (vertices l)) (layers m') | _ => false end = true) by vmc.
  destruct (mesh_remove_useless (mesh_of [with_unused; with_unused])) as [[m' [|]]| | |]; try discriminate H. exists m'.
  split; [apply mesh_wfb_ok; vmc|]. split; [intros l [<-|[<-|[]]]; apply with_unused_consistent|]. split; [reflexivity|].
  apply existsb_exists in H. destruct H as (l & Hl & H). apply existsb_exists in H. destruct H as (v & Hv & H). exists l, v.
  split; [assumption|]. split; [assumption|]. now apply useless_spec.
Qed.

Print Assumptions C33_remove_useless.
Print Assumptions C33_same_containment.
Print Assumptions C33_idempotent.
Print Assumptions C34_stops_at_the_first_change.
Print Assumptions C34_repeating_reaches_all_layers.
Print Assumptions C34_refuted.
