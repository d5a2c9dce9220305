(** Facts about src/merger.rs. *)
From Coq Require Import List NArith ZArith Bool Permutation Lia.
From Verif Require Import Base Arith U32 Mesh Helpers Spec Spec_mesh Cleanup Cleanup_facts Merger Spec_merge Locate_facts Islands_facts Stitch_facts Bake_facts.
Import ListNotations.
Open Scope N_scope.

(** * Union-find *)
(** [r] is reached from [x] in [k] steps along the parents and is its own parent *)
Inductive root_in (par : list N) : nat -> N -> N -> Prop :=
| root_here x : nthN par x = Some x -> root_in par 0 x x
| root_next k x p r : nthN par x = Some p -> p <> x -> root_in par k p r -> root_in par (S k) x r.
Definition root_of par x r : Prop := exists k, root_in par k x r.

Lemma root_in_fun par k x r : root_in par k x r -> forall k' r', root_in par k' x r' -> r' = r /\ k' = k.
Proof.
  induction 1 as [x E|k x p r E H _ IH]; intros k' r' H'; inversion H'; subst; try congruence.
  - now split.
  - assert (p0 = p) by congruence. subst. destruct (IH _ _ H2) as [-> ->]. now split.
Qed.
Lemma root_of_fun par x r r' : root_of par x r -> root_of par x r' -> r' = r.
Proof. intros [k H] [k' H']. eapply root_in_fun; eassumption. Qed.
Lemma root_is_root par k x r : root_in par k x r -> nthN par r = Some r.
Proof. induction 1; assumption. Qed.
Lemma root_of_root par r : nthN par r = Some r -> root_of par r r.
Proof. exists 0%nat. now constructor. Qed.
Lemma root_of_lt par x r : root_of par x r -> x < lengthN par /\ r < lengthN par.
Proof.
  intros [k H]. split; [|eapply nthN_Some_lt, root_is_root, H]. inversion H; subst; eapply nthN_Some_lt; eassumption.
Qed.

Lemma uf_find_ok par k x r : root_in par k x r -> forall f, (k < f)%nat -> uf_find f par x = Ok r.
Proof.
  induction 1 as [x E|k x p r E Hp H IH]; intros f Hf; destruct f as [|f]; try lia; cbn [uf_find];
    apply (proj2 (index_Ok _ _ _)) in E; rewrite E; cbn [bind].
  - now rewrite N.eqb_refl.
  - apply N.eqb_neq in Hp. rewrite Hp. apply IH. lia.
Qed.
Lemma uf_find_root par f : forall x r, uf_find f par x = Ok r -> root_of par x r.
Proof.
  induction f as [|f IH]; intros x r H; [discriminate|]. cbn [uf_find] in H. inv_bind H. apply index_Ok in E.
  destruct (N.eqb_spec a x) as [->|Hne].
  - injection H as <-. now apply root_of_root.
  - destruct (IH _ _ H) as [k Hk]. exists (S k). now apply (root_next _ _ _ a).
Qed.

(** The number of roots, and the invariant: everything has a root, at a distance of at most the number of elements that are no roots *)
Definition nroots (par : list N) : nat := length (filter (fun ip => N.eqb (fst ip) (snd ip)) (enumerate par)).
Definition uf_ok (par : list N) : Prop :=
  forall x, x < lengthN par -> exists k r, root_in par k x r /\ (k + nroots par <= length par)%nat.

Lemma uf_ok_find par x : uf_ok par -> x < lengthN par -> exists r, find par x = Ok r /\ root_of par x r.
Proof.
  intros H Hx. destruct (H x Hx) as (k & r & Hr & Hk). exists r. split; [|now exists k].
  apply (uf_find_ok _ _ _ _ Hr). unfold uf_fuel. lia.
Qed.
Lemma find_root par x r : find par x = Ok r -> root_of par x r.
Proof. apply uf_find_root. Qed.

Lemma nroots_le par : (nroots par <= length par)%nat.
Proof. unfold nroots, enumerate. rewrite <- (enum_from_length par 0). apply filter_len. Qed.

Lemma count_upd (par : list N) : forall k y x, nthN par y = Some (k + y) -> x <> k + y ->
  length (filter (fun ip => N.eqb (fst ip) (snd ip)) (enum_from k par)) =
  S (length (filter (fun ip => N.eqb (fst ip) (snd ip)) (enum_from k (updN par y (fun _ => x))))).
Proof.
  induction par as [|a par IH]; intros k y x H Hx; [discriminate|]. simpl in H. cbn [updN]. destruct (N.eqb_spec y 0) as [->|Hy].
  - injection H as ->. cbn [enum_from filter fst snd]. rewrite N.add_0_r in *. rewrite N.eqb_refl.
    assert ((k =? x) = false) as -> by (apply N.eqb_neq; congruence). reflexivity.
  - cbn [enum_from filter fst snd]. specialize (IH (N.succ k) (N.pred y) x). rewrite H in IH.
    replace (N.succ k + N.pred y) with (k + y) in IH by lia. specialize (IH eq_refl Hx).
    destruct (N.eqb k a); cbn [length]; now rewrite IH.
Qed.
Lemma nroots_union par x y : nthN par y = Some y -> x <> y -> nroots par = S (nroots (updN par y (fun _ => x))).
Proof. intros H Hx. unfold nroots, enumerate. apply count_upd; rewrite ?N.add_0_l; assumption. Qed.

Lemma uf_new_nth {T} (l : list T) i : i < lengthN l -> nthN (uf_new l) i = Some i.
Proof.
  intro H. destruct (nthN_lt_Some l i H) as [t Ht]. unfold uf_new. rewrite nthN_map. 
  assert (forall k (l : list T) i t, nthN l i = Some t -> nthN (enum_from k l) i = Some (k + i, t)) as G.
  { intros k l0. revert k. induction l0 as [|u l0 IH]; intros k j s Hs; [discriminate|]. simpl in *.
    destruct (N.eqb_spec j 0) as [->|Hj]; [injection Hs as <-; now rewrite N.add_0_r|]. rewrite (IH _ _ _ Hs). f_equal. f_equal. lia. }
  unfold enumerate. rewrite (G 0 l i t Ht). simpl. f_equal; lia.
Qed.
Lemma uf_new_length {T} (l : list T) : length (uf_new l) = length l.
Proof. unfold uf_new, enumerate. now rewrite map_length, enum_from_length. Qed.
Lemma uf_new_lengthN {T} (l : list T) : lengthN (uf_new l) = lengthN l.
Proof. unfold lengthN. now rewrite uf_new_length. Qed.
Lemma uf_new_ok {T} (l : list T) : uf_ok (uf_new l).
Proof.
  intros x Hx. rewrite uf_new_lengthN in Hx. exists 0%nat, x. split; [constructor; now apply uf_new_nth|]. apply nroots_le.
Qed.

(** union of two different roots *)
Lemma union_root par x y z k r : nthN par x = Some x -> nthN par y = Some y -> x <> y -> root_in par k z r ->
  exists k', root_in (updN par y (fun _ => x)) k' z (if N.eqb r y then x else r) /\ (k' <= S k)%nat.
Proof.
  intros Hx Hy Hne H. induction H as [z Hz|k z p r Hz Hp H IH].
  - destruct (N.eqb_spec z y) as [->|Hzy].
    + exists 1%nat. split; [|lia]. apply (root_next _ _ _ x); [rewrite nthN_updN, N.eqb_refl, Hy; reflexivity|assumption|].
      constructor. rewrite nthN_updN. destruct (N.eqb_spec y x); [congruence|assumption].
    + exists 0%nat. split; [|lia]. constructor. rewrite nthN_updN. destruct (N.eqb_spec y z); [congruence|assumption].
  - destruct IH as (k' & IH & Hk'). exists (S k'). split; [|lia]. apply (root_next _ _ _ p); [|assumption|assumption].
    rewrite nthN_updN. destruct (N.eqb_spec y z) as [->|]; [congruence|assumption].
Qed.
Lemma union_ok par x y : uf_ok par -> nthN par x = Some x -> nthN par y = Some y -> x <> y ->
  uf_ok (updN par y (fun _ => x)) /\
  forall z r, root_of par z r -> root_of (updN par y (fun _ => x)) z (if N.eqb r y then x else r).
Proof.
  intros H Hx Hy Hne. split.
  - intros z Hz. unfold lengthN in Hz. rewrite updN_length in Hz. destruct (H z Hz) as (k & r & Hr & Hk).
    destruct (union_root par x y z k r Hx Hy Hne Hr) as (k' & Hr' & Hk'). exists k', (if N.eqb r y then x else r). split; [assumption|].
    rewrite (nroots_union par x y Hy Hne) in Hk. rewrite updN_length. lia.
  - intros z r [k Hr]. destruct (union_root par x y z k r Hx Hy Hne Hr) as (k' & Hr' & _). now exists k'.
Qed.
Lemma uf_union_eq par x y : nthN par x = Some x -> nthN par y = Some y -> uf_union par x y = Ok (updN par y (fun _ => x)).
Proof.
  intros Hx Hy. unfold uf_union, uf_fuel. cbn [uf_find_update]. apply (proj2 (index_Ok _ _ _)) in Hx, Hy.
  rewrite Hx. cbn [bind]. rewrite N.eqb_refl. cbn [bind fst snd]. rewrite Hy. cbn [bind]. rewrite N.eqb_refl. cbn [bind fst snd].
  rewrite Hy. reflexivity.
Qed.

Section Facts.
Context {A : Arith}.
Variable area_of : list (vec2 A) -> F A.
Variable sort_area : list (N * F A) -> list (N * F A).
Variable convex : list (vec2 A) -> bool.
Implicit Types (vs : list (Vertex A)) (ps : list Polygon) (par : list N).

Lemma mapM_positions vs js vts : mapM (index vs) js = Ok vts -> at_positions vs js (map (fun v => coords v) vts).
Proof.
  intro H. apply mapM_Ok in H. induction H as [|i v js vts E H IH]; constructor; [|assumption].
  apply index_Ok in E. eauto.
Qed.
Lemma at_positions_fun vs js cs cs' : at_positions vs js cs -> at_positions vs js cs' -> cs = cs'.
Proof.
  intro H. revert cs'. induction H as [|i c js cs (v & E & <-) H IH]; intros cs' H'; inversion H'; subst; [reflexivity|].
  destruct H2 as (v' & E' & <-). f_equal; [congruence|]. now apply IH.
Qed.

Definition loop_ok vs ps0 ps par : Prop :=
  length ps = length ps0 /\ length par = length ps0 /\ uf_ok par /\ (nroots par = length ps0 -> ps = ps0) /\
  forall r p, nthN par r = Some r -> nthN ps r = Some p ->
    exists c, merged convex vs ps0 c (pverts p) /\ NoDup c /\ (forall i, In i c <-> root_of par i r) /\
      ((c = [r] /\ nthN ps0 r = Some p) \/ ((2 <= length c)%nat /\ is_one_way p = false)).

Lemma NoDup_app_intro {T} (l1 l2 : list T) : NoDup l1 -> NoDup l2 -> (forall x, In x l1 -> In x l2 -> False) -> NoDup (l1 ++ l2).
Proof.
  intros H1 H2 H. induction H1 as [|x l1 Hx H1 IH]; [assumption|]. simpl. constructor.
  - rewrite in_app_iff. intros [G|G]; [contradiction|]. apply (H x); [now left|assumption].
  - apply IH. intros y G1 G2. apply (H y); [now right|assumption].
Qed.
Lemma nroots_new {T} (l : list T) : nroots (uf_new l) = length l.
Proof.
  unfold nroots, uf_new, enumerate. generalize 0 as k. induction l as [|t l IH]; intro k; [reflexivity|].
  cbn [enum_from map fst filter snd]. rewrite N.eqb_refl. cbn [length]. now rewrite IH.
Qed.

Lemma loop_start vs ps : loop_ok vs ps ps (uf_new ps).
Proof.
  split; [reflexivity|]. split; [apply uf_new_length|]. split; [apply uf_new_ok|]. split; [reflexivity|].
  intros r p Hr Hp. exists [r]. split; [now constructor|]. split; [repeat constructor; tauto|]. split; [|now left].
  intro i. split.
  - intros [<-|[]]. now apply root_of_root.
  - intros [k H]. left. inversion H; subst; [reflexivity|]. exfalso. apply H1.
    assert (i < lengthN ps) as Hi by (apply nthN_Some_lt in H0; now rewrite uf_new_lengthN in H0).
    rewrite (uf_new_nth ps i Hi) in H0. congruence.
Qed.

Lemma edges_index_In p es : edges_index p = Ok es -> es = edge_list (pverts p).
Proof. intro H. exact (proj2 (edges_index_Ok p es H)). Qed.

(** one merge *)
Lemma merge_edge_ok vs ps0 ps par pi poly e s : loop_ok vs ps0 ps par -> nthN par pi = Some pi -> nthN ps pi = Some poly ->
  In e (edge_list (pverts poly)) -> merge_edge convex vs ps par pi poly e = Ok (Some s) ->
  loop_ok vs ps0 (fst s) (snd s) /\ (nroots (snd s) < nroots par)%nat.
Proof.
  intros (L1 & L2 & Hu & Hid & Hr) Hpi Hpoly He H. unfold merge_edge in H.
  destruct (nthN vs (fst e)) as [va|] eqn:Ea; [|discriminate]. destruct (nthN vs (snd e)) as [vb|] eqn:Eb; [|discriminate].
  destruct (other_side pi va vb) as [o|] eqn:Eo; [|discriminate]. inv_bind H. apply find_root in E.
  destruct (N.eqb_spec a o) as [->|]; [|discriminate]. cbn [negb] in H. inv_bind H. apply index_Ok in E0.
  destruct (_ <? 2) in H; [discriminate|]. inv_bind H. destruct (convex (map _ a0)) eqn:Ec; [|discriminate]. inv_bind H.
  injection H as <-. cbn [fst snd].
  unfold other_side in Eo. apply List.find_some in Eo. destruct Eo as [Hin Ho]. apply andb_true_iff in Ho. destruct Ho as [Ho Hmem].
  apply andb_true_iff in Ho. destruct Ho as [Hmax Hopi]. apply negb_true_iff, N.eqb_neq in Hopi, Hmax. apply memN_In in Hmem.
  assert (Hoo : nthN par o = Some o) by (destruct E as [k Hk]; exact (root_is_root _ _ _ _ Hk)).
  rewrite (uf_union_eq par pi o Hpi Hoo) in E2. injection E2 as <-.
  destruct (union_ok par pi o Hu Hpi Hoo) as [Hu' Hroots]; [congruence|].
  pose proof (nroots_union par pi o Hoo) as Hn. rewrite Hn by congruence. split; [|lia].
  assert (Hroots' : forall z s, root_of (updN par o (fun _ => pi)) z s -> exists r, root_of par z r /\ s = if N.eqb r o then pi else r).
  { intros z s Hs. pose proof (root_of_lt _ _ _ Hs) as [Hz _]. unfold lengthN in Hz. rewrite updN_length in Hz.
    destruct (Hu z Hz) as (k & r & Hk & _). exists r. split; [now exists k|]. exact (root_of_fun _ _ _ _ (Hroots z r (ex_intro _ k Hk)) Hs). }
  split; [now rewrite updN_length|]. split; [now rewrite updN_length|]. split; [assumption|]. split.
  { intro Hn'. pose proof (nroots_le par) as Hle. rewrite (Hn ltac:(congruence)) in Hle. lia. }
  intros r p Hrr Hp. rewrite nthN_updN in Hrr. destruct (N.eqb_spec o r) as [<-|Hor].
  { rewrite Hoo in Hrr. simpl in Hrr. congruence. }
  rewrite nthN_updN in Hp. destruct (N.eqb_spec pi r) as [<-|Hpr].
  - rewrite Hpoly in Hp. injection Hp as <-. cbn [pverts is_one_way].
    destruct (Hr pi poly Hpi Hpoly) as (c1 & M1 & N1 & I1 & _). destruct (Hr o _ Hoo E0) as (c2 & M2 & N2 & I2 & _).
    exists (c1 ++ c2). split; [|split; [|split]].
    + destruct e as [x y]. cbn [fst snd] in *. eapply merged_two; try eassumption.
      * apply I2. now apply root_of_root.
      * apply (mapM_positions _ _ _ E1).
    + apply NoDup_app_intro; [assumption|assumption|]. intros i H1 H2. apply I1 in H1. apply I2 in H2. apply Hopi. eapply root_of_fun; eassumption.
    + intro i. rewrite in_app_iff, I1, I2. split.
      * intros [H|H]; apply Hroots in H.
        -- destruct (N.eqb_spec pi o); congruence.
        -- now rewrite N.eqb_refl in H.
      * intro H. destruct (Hroots' _ _ H) as (r & H1 & H2). destruct (N.eqb_spec r o) as [->|]; [now right|left; now subst].
    + right. split; [|reflexivity]. rewrite app_length. 
      assert (In pi c1) by (apply I1; now apply root_of_root). assert (In o c2) by (apply I2; now apply root_of_root).
      destruct c1, c2; simpl in *; try tauto; lia.
  - destruct (Hr r p Hrr Hp) as (c & M1 & N1 & I1 & F1). exists c. repeat split; try assumption.
    + intro H. apply I1 in H. apply Hroots in H. now destruct (N.eqb_spec r o); [congruence|].
    + intro H. apply I1. destruct (Hroots' _ _ H) as (s & H1 & H2). destruct (N.eqb_spec s o); congruence.
Qed.

Lemma merge_edges_ok vs ps0 ps par pi poly es s : loop_ok vs ps0 ps par -> nthN par pi = Some pi -> nthN ps pi = Some poly ->
  incl es (edge_list (pverts poly)) -> merge_edges convex vs ps par pi poly es = Ok s ->
  loop_ok vs ps0 (fst s) (snd s) /\
  ((s = (ps, par) /\ forall e, In e es -> merge_edge convex vs ps par pi poly e = Ok None) \/ (nroots (snd s) < nroots par)%nat).
Proof.
  intros HI Hpi Hpoly. induction es as [|e es IH]; intros Hes H; cbn [merge_edges] in H.
  - injection H as <-. split; [assumption|]. left. split; [reflexivity|]. intros ? [].
  - inv_bind H. destruct a as [s'|].
    + injection H as ->. destruct (merge_edge_ok vs ps0 ps par pi poly e s HI Hpi Hpoly) as [G1 G2]; auto. apply Hes. now left.
    + destruct IH as [G1 G2]; [intros x Hx; apply Hes; now right|assumption|]. split; [assumption|].
      destruct G2 as [[-> G2]|G2]; [left|now right]. split; [reflexivity|]. intros x [<-|Hx]; auto.
Qed.

Lemma merge_step_ok vs ps0 s pi s' : loop_ok vs ps0 (fst s) (snd s) -> merge_step convex vs s pi = Ok s' ->
  loop_ok vs ps0 (fst s') (snd s') /\ (s' = s \/ (nroots (snd s') < nroots (snd s))%nat).
Proof.
  intros HI H. unfold merge_step in H. inv_bind H. apply find_root in E. destruct (N.eqb_spec a pi) as [->|]; cbn [negb] in H.
  - inv_bind H. apply index_Ok in E0. inv_bind H. apply edges_index_In in E1. subst.
    assert (nthN (snd s) pi = Some pi) as Hpi by (destruct E as [k Hk]; exact (root_is_root _ _ _ _ Hk)).
    destruct (merge_edges_ok vs ps0 _ _ pi _ _ s' HI Hpi E0 (incl_refl _) H) as [G1 [[G2 _]|G2]]; (split; [assumption|]); [|now right].
    left. rewrite G2. now destruct s.
  - injection H as <-. auto.
Qed.

Lemma merge_loop_ok vs ps0 order : forall s s', loop_ok vs ps0 (fst s) (snd s) -> foldM (merge_step convex vs) s order = Ok s' ->
  loop_ok vs ps0 (fst s') (snd s') /\
  ((s' = s /\ forall x, In x order -> merge_step convex vs s x = Ok s) \/ (nroots (snd s') < nroots (snd s))%nat).
Proof.
  induction order as [|x order IH]; intros s s' HI H; cbn [foldM] in H.
  - injection H as <-. split; [assumption|]. left. split; [reflexivity|]. intros ? [].
  - inv_bind H. destruct (merge_step_ok vs ps0 s x a HI E) as [G1 G2]. destruct (IH a s' G1 H) as [G3 G4]. split; [assumption|].
    destruct G2 as [->|G2].
    + destruct G4 as [[-> G4]|G4]; [left|now right]. split; [reflexivity|]. intros y [<-|Hy]; auto.
    + right. destruct G4 as [[-> _]|G4]; lia.
Qed.

(** * Renumbering *)
(** After the first [i] polygons: [R] lists the roots seen so far in the order of their new numbers. *)
Definition renumbered par ps0 (i : N) (R : list N) (s : (list N * N) * list Polygon) : Prop :=
  let ni := fst (fst s) in
  let kept := snd (fst s) in
  let ps := snd s in
  length ni = length par /\ length ps = length ps0 /\ kept = lengthN R /\ kept <= i /\ NoDup R /\
  (forall k r, nthN R k = Some r -> root_of par r r /\ nthN ni r = Some k /\ exists j, j < i /\ root_of par j r) /\
  (forall j, j < i -> exists k r, root_of par j r /\ nthN R k = Some r /\ nthN ni j = Some k) /\
  (forall r, root_of par r r -> ~ In r R -> nthN ni r = Some MAX) /\
  (forall r, root_of par r r -> i <= r -> nthN ps r = nthN ps0 r) /\
  (forall k r, nthN R k = Some r -> r < i -> nthN ps k = nthN ps0 r).

Lemma nthN_app_l {T} (l1 l2 : list T) k : k < lengthN l1 -> nthN (l1 ++ l2) k = nthN l1 k.
Proof. intro H. rewrite !nthN_nth_error. apply nth_error_app1. unfold lengthN in H. lia. Qed.
Lemma nthN_snoc {T} (l : list T) x k y : nthN (l ++ [x]) k = Some y -> (k < lengthN l /\ nthN l k = Some y) \/ (k = lengthN l /\ y = x).
Proof.
  intro H. destruct (N.lt_ge_cases k (lengthN l)) as [Hk|Hk]; [left; split; [assumption|now rewrite nthN_app_l in H]|].
  right. pose proof (nthN_Some_lt _ _ _ H) as Hl. unfold lengthN in *. rewrite app_length in Hl. simpl in Hl.
  assert (k = N.of_nat (length l)) by lia. subst. split; [reflexivity|].
  rewrite nthN_of_nat, nth_error_app2, Nat.sub_diag in H by lia. simpl in H. congruence.
Qed.
Lemma nthN_snoc_last {T} (l : list T) x : nthN (l ++ [x]) (lengthN l) = Some x.
Proof. unfold lengthN. rewrite nthN_of_nat, nth_error_app2, Nat.sub_diag by lia. reflexivity. Qed.
Lemma nthN_NoDup {T} (l : list T) i j x : NoDup l -> nthN l i = Some x -> nthN l j = Some x -> i = j.
Proof.
  intros H Hi Hj. pose proof (nthN_Some_lt _ _ _ Hi) as Hl. unfold lengthN in Hl. rewrite nthN_nth_error in *. rewrite NoDup_nth_error in H.
  assert (N.to_nat i = N.to_nat j) by (apply H; [lia|congruence]). lia.
Qed.
Lemma swapN_spec {T} (l : list T) i j l' : swapN l i j = Ok l' ->
  length l' = length l /\ forall k, nthN l' k = if N.eqb k j then nthN l i else if N.eqb k i then nthN l j else nthN l k.
Proof.
  unfold swapN. intro H. inv_bind H. inv_bind H. injection H as <-. apply index_Ok in E, E0. split; [now rewrite !updN_length|].
  intro k. rewrite !nthN_updN. rewrite (N.eqb_sym k j), (N.eqb_sym k i). destruct (N.eqb_spec j k) as [<-|].
  - destruct (N.eqb_spec i j) as [->|]; rewrite E0; simpl; congruence.
  - destruct (N.eqb_spec i k) as [<-|]; [|reflexivity]. rewrite E. simpl. congruence.
Qed.

Lemma renumber_step_ok par ps0 i R s s' p : uf_ok par -> length ps0 = length par -> lengthN par <= MAX -> nthN par i = Some p ->
  renumbered par ps0 i R s -> renumber_step par s (i, p) = Ok s' -> exists R', renumbered par ps0 (i + 1) R' s'.
Proof.
  intros Hu HL Hmax Hp HR H. destruct s as [[ni kept] ps]. unfold renumber_step in H. cbn [fst snd] in H.
  inv_bind H. rename a into r. apply find_root in E. inv_bind H. rename a into nr. apply index_Ok in E0.
  assert (Hir : root_of par i r).
  { destruct (N.eq_dec p i) as [->|Hne]; [exact E|]. destruct E as [k Hk]. exists (S k). now apply (root_next _ _ _ p). }
  clear E. assert (Hrr : root_of par r r) by (destruct Hir as [k Hk]; apply root_of_root; exact (root_is_root _ _ _ _ Hk)).
  unfold renumbered in HR. cbn [fst snd] in HR. destruct HR as (L1 & L2 & Ek & Hk & ND & H1 & H2 & H3 & H4 & H5).
  pose proof (nthN_Some_lt _ _ _ Hp) as Hi.
  assert (Hset : exists R', 
     let ni1 := if N.eqb nr MAX then updN ni r (fun _ => kept) else ni in
     let kept1 := if N.eqb nr MAX then kept + 1 else kept in
     length ni1 = length par /\ kept1 = lengthN R' /\ kept1 <= i + 1 /\ NoDup R' /\ In r R' /\
     (forall k q, nthN R' k = Some q -> root_of par q q /\ nthN ni1 q = Some k /\ exists j, j < i + 1 /\ root_of par j q) /\
     (forall j, j < i -> exists k q, root_of par j q /\ nthN R' k = Some q /\ nthN ni1 j = Some k) /\
     (forall q, root_of par q q -> ~ In q R' -> nthN ni1 q = Some MAX) /\
     (forall k q, nthN R' k = Some q -> q < i -> nthN ps k = nthN ps0 q /\ k < kept)).
  { destruct (N.eqb_spec nr MAX) as [->|Hnr].
    - assert (HrR : ~ In r R).
      { intro G. apply In_nthN in G. destruct G as [k G]. destruct (H1 _ _ G) as (_ & G' & _). rewrite E0 in G'. injection G' as <-.
        apply nthN_Some_lt in G. unfold lengthN in *. lia. }
      exists (R ++ [r]). cbn zeta. rewrite updN_length. split; [assumption|]. split; [unfold lengthN in *; rewrite app_length; simpl; lia|].
      split; [lia|]. split; [apply NoDup_app_intro; [assumption|repeat constructor; tauto|intros x G [<-|[]]; contradiction]|].
      split; [apply in_app_iff; right; now left|]. split; [|split; [|split]].
      + intros k q Hq. apply nthN_snoc in Hq. destruct Hq as [[Hlt Hq]|[-> ->]].
        * destruct (H1 _ _ Hq) as (G1 & G2 & j & Hj & G3). split; [assumption|]. split; [|exists j; split; [lia|assumption]].
          rewrite nthN_updN. destruct (N.eqb_spec r q) as [->|]; [exfalso; apply HrR; eapply nthN_In; eassumption|assumption].
        * split; [assumption|]. split; [rewrite nthN_updN, N.eqb_refl, E0; simpl; congruence|]. exists i. split; [lia|assumption].
      + intros j Hj. destruct (H2 j Hj) as (k & q & G1 & G2 & G3). exists k, q. split; [assumption|]. pose proof (nthN_Some_lt _ _ _ G2) as Hkl.
        split; [now rewrite nthN_app_l|]. rewrite nthN_updN. destruct (N.eqb_spec r j) as [->|]; [|assumption]. exfalso.
        apply HrR. rewrite (root_of_fun _ _ _ _ G1 Hrr). eapply nthN_In; eassumption.
      + intros q Hq HqR. rewrite in_app_iff in HqR. rewrite nthN_updN. destruct (N.eqb_spec r q) as [->|]; [exfalso; apply HqR; right; now left|].
        apply H3; [assumption|tauto].
      + intros k q Hq Hqi. apply nthN_snoc in Hq. destruct Hq as [[Hlt Hq]|[-> ->]].
        * split; [now apply H5|unfold lengthN in *; lia].
        * exfalso. destruct (H2 r Hqi) as (k & q & G1 & G2 & _). apply HrR. rewrite (root_of_fun _ _ _ _ G1 Hrr). eapply nthN_In; eassumption.
    - exists R. cbn zeta. split; [assumption|]. split; [assumption|]. split; [lia|]. split; [assumption|].
      assert (In r R) as HrR. { destruct (in_dec N.eq_dec r R) as [G|G]; [assumption|]. exfalso. rewrite (H3 r Hrr G) in E0. congruence. }
      split; [assumption|]. split; [|split; [assumption|split; [assumption|]]].
      + intros k q Hq. destruct (H1 _ _ Hq) as (G1 & G2 & j & Hj & G3). split; [assumption|]. split; [assumption|]. exists j. split; [lia|assumption].
      + intros k q Hq Hqi. split; [now apply H5|]. apply nthN_Some_lt in Hq. unfold lengthN in *. lia. }
  cbn zeta in Hset. destruct Hset as [R' Hset]. set (ni1 := if N.eqb nr MAX then updN ni r (fun _ => kept) else ni) in *.
  set (kept1 := if N.eqb nr MAX then kept + 1 else kept) in *. destruct Hset as (S1 & S2 & S3 & S4 & S5 & S6 & S7 & S8 & S9).
  inv_bind H. rename a into j. apply index_Ok in E. apply In_nthN in S5. destruct S5 as [jr S5].
  assert (j = jr) by (destruct (S6 _ _ S5) as (_ & G & _); congruence). subst jr.
  assert (Hj : j <= i). { apply nthN_Some_lt in S5. unfold lengthN in *. lia. }
  exists R'. destruct (N.eqb_spec i r) as [<-|Hne].
  - inv_bind H. injection H as <-. rename a into ps1. cbn [fst snd].
    assert (Hps : length ps1 = length ps /\ nthN ps1 j = nthN ps i /\ (forall k, k <> j -> k <> i -> nthN ps1 k = nthN ps k)).
    { destruct (N.eqb_spec i j) as [->|Hij].
      - injection E1 as <-. auto.
      - destruct (swapN_spec _ _ _ _ E1) as [G1 G2]. split; [assumption|]. split; [now rewrite G2, N.eqb_refl|].
        intros k K1 K2. rewrite G2. destruct (N.eqb_spec k j); [congruence|]. destruct (N.eqb_spec k i); congruence. }
    destruct Hps as (P1 & P2 & P3). unfold renumbered. cbn [fst snd]. split; [assumption|]. split; [congruence|]. split; [assumption|]. split; [assumption|].
    split; [assumption|]. split; [assumption|]. split; [|split; [assumption|split]].
    + intros q Hq. destruct (N.eq_dec q i) as [->|]; [exists j, i; auto|]. apply S7. lia.
    + intros q Hq Hqi. rewrite P3 by lia. apply H4; [assumption|lia].
    + intros k q Hq Hqi. destruct (N.eq_dec q i) as [->|Hqn].
      * assert (k = j) by (eapply nthN_NoDup; eassumption). subst. rewrite P2. apply H4; [assumption|lia].
      * destruct (S9 k q Hq) as [G1 G2]; [lia|]. rewrite P3; [assumption| |lia]. intros ->. apply Hqn. congruence.
  - injection H as <-. unfold renumbered. cbn [fst snd]. rewrite updN_length. split; [assumption|]. split; [assumption|]. split; [assumption|]. split; [assumption|].
    assert (Hnroot : forall q, root_of par q q -> q <> i) by (intros q Hq ->; apply Hne; exact (root_of_fun _ _ _ _ Hir Hq)).
    assert (Hupd : forall q, q <> i -> nthN (updN ni1 i (fun _ => j)) q = nthN ni1 q).
    { intros q Hq. rewrite nthN_updN. destruct (N.eqb_spec i q); [congruence|reflexivity]. }
    split; [assumption|]. split; [|split; [|split; [|split]]].
    + intros k q Hq. destruct (S6 _ _ Hq) as (G1 & G2 & G3). split; [assumption|]. split; [|assumption]. rewrite Hupd; [assumption|now apply Hnroot].
    + intros q Hq. destruct (N.eq_dec q i) as [->|Hqi].
      * exists j, r. split; [assumption|]. split; [assumption|]. rewrite nthN_updN, N.eqb_refl.
        destruct (nthN_lt_Some ni1 i) as [z ->]; [unfold lengthN in *; lia|]. reflexivity.
      * destruct (S7 q) as (k & z & G1 & G2 & G3); [lia|]. exists k, z. rewrite Hupd by assumption. auto.
    + intros q Hq HqR. rewrite Hupd by now apply Hnroot. now apply S8.
    + intros q Hq Hqi. apply H4; [assumption|lia].
    + intros k q Hq Hqi. assert (q <> i) by (apply Hnroot; apply (S6 _ _ Hq)). apply S9; [assumption|lia].
Qed.

Lemma enum_from_app {T} (l1 l2 : list T) k : enum_from k (l1 ++ l2) = enum_from k l1 ++ enum_from (k + lengthN l1) l2.
Proof.
  revert k. induction l1 as [|x l1 IH]; intro k; simpl; [unfold lengthN; simpl; now rewrite N.add_0_r|]. f_equal. rewrite IH. f_equal. f_equal.
  unfold lengthN. simpl length. lia.
Qed.

Lemma renumber_ok par ps0 s : uf_ok par -> length ps0 = length par -> lengthN par <= MAX -> renumber par ps0 = Ok s ->
  exists R, renumbered par ps0 (lengthN par) R s.
Proof.
  intros Hu HL Hmax H. unfold renumber, enumerate in H.
  assert (G : forall post pre R s0, par = pre ++ post -> renumbered par ps0 (lengthN pre) R s0 ->
     foldM (renumber_step par) s0 (enum_from (lengthN pre) post) = Ok s -> exists R, renumbered par ps0 (lengthN par) R s).
  { induction post as [|p post IH]; intros pre R s0 Hpar HR HF.
    - rewrite app_nil_r in Hpar. subst pre. simpl in HF. injection HF as <-. eauto.
    - cbn [enum_from foldM] in HF. inv_bind HF.
      assert (nthN par (lengthN pre) = Some p) as Hp.
      { rewrite Hpar. unfold lengthN. rewrite nthN_of_nat, nth_error_app2, Nat.sub_diag by lia. reflexivity. }
      destruct (renumber_step_ok par ps0 _ R s0 a p Hu HL Hmax Hp HR E) as [R' HR'].
      apply (IH (pre ++ [p]) R' a); [rewrite <- app_assoc; exact Hpar| |].
      + unfold lengthN in *. rewrite app_length. simpl length. replace (N.of_nat (length pre + 1)) with (N.of_nat (length pre) + 1) by lia. exact HR'.
      + unfold lengthN in *. rewrite app_length. simpl length. replace (N.of_nat (length pre + 1)) with (N.succ (N.of_nat (length pre))) by lia. exact HF. }
  apply (G par [] [] ((map (fun _ => MAX) ps0, 0), ps0)); [reflexivity| |exact H].
  unfold renumbered. cbn [fst snd]. rewrite map_length. split; [congruence|]. split; [reflexivity|]. split; [reflexivity|]. split; [unfold lengthN; simpl; lia|].
  split; [constructor|]. split; [intros k r; discriminate|]. split; [intros j Hj; unfold lengthN in Hj; simpl in Hj; lia|].
  split; [|split; [reflexivity|intros k r; discriminate]].
  intros r Hr _. destruct (root_of_lt _ _ _ Hr) as [Hl _]. rewrite nthN_map. destruct (nthN_lt_Some ps0 r) as [z ->]; [unfold lengthN in *; lia|]. reflexivity.
Qed.

(** * Renumbering never fails *)
Lemma swapN_total {T} (l : list T) i j : i < lengthN l -> j < lengthN l -> exists l', swapN l i j = Ok l'.
Proof.
  intros Hi Hj. destruct (nthN_lt_Some l i Hi) as [a Ha]. destruct (nthN_lt_Some l j Hj) as [b Hb].
  unfold swapN. apply (proj2 (index_Ok _ _ _)) in Ha, Hb. rewrite Ha. cbn [bind]. rewrite Hb. cbn [bind]. eauto.
Qed.
Lemma renumber_step_total par ps0 i R s p : uf_ok par -> length ps0 = length par -> lengthN par <= MAX -> nthN par i = Some p ->
  renumbered par ps0 i R s -> exists s', renumber_step par s (i, p) = Ok s'.
Proof.
  intros Hu HL Hmax Hp HR. destruct s as [[ni kept] ps]. unfold renumbered in HR. cbn [fst snd] in HR.
  destruct HR as (L1 & L2 & Ek & Hk & ND & H1 & H2 & H3 & H4 & H5). pose proof (nthN_Some_lt _ _ _ Hp) as Hi.
  unfold renumber_step. cbn [fst snd]. destruct (Hu i Hi) as (k & r & Hr & _).
  assert (Hpl : p < lengthN par). { inversion Hr as [x Hx|k0 x p0 r0 Hx Hne Hk0]; subst; rewrite Hx in Hp; injection Hp as <-; [assumption|]. exact (proj1 (root_of_lt _ _ r (ex_intro _ k0 Hk0))). }
  destruct (uf_ok_find par p Hu Hpl) as (r' & -> & Hr'). cbn [bind]. destruct (root_of_lt _ _ _ Hr') as [_ Hrl].
  destruct (nthN_lt_Some ni r') as [nr Enr]; [unfold lengthN in *; lia|]. rewrite (proj2 (index_Ok _ _ _) Enr). cbn [bind].
  assert (Hrr : root_of par r' r') by (destruct Hr' as [k' Hk']; apply root_of_root; exact (root_is_root _ _ _ _ Hk')).
  assert (Hnr : nr = MAX \/ nr < kept).
  { destruct (in_dec N.eq_dec r' R) as [G|G]; [|left; rewrite (H3 r' Hrr G) in Enr; congruence]. right.
    apply In_nthN in G. destruct G as [kk G]. destruct (H1 _ _ G) as (_ & G2 & _). assert (kk = nr) by congruence. subst kk.
    apply nthN_Some_lt in G. rewrite Ek. exact G. }
  assert (exists j, index (if nr =? MAX then updN ni r' (fun _ => kept) else ni) r' = Ok j /\ j <= i) as (j & Ej & Hj).
  { destruct (N.eqb_spec nr MAX) as [->|Hne].
    - exists kept. split; [|assumption]. apply index_Ok. rewrite nthN_updN, N.eqb_refl, Enr. reflexivity.
    - exists nr. split; [now apply index_Ok|]. destruct Hnr as [Hnr|Hnr]; [contradiction|]. lia. }
  rewrite Ej. cbn [bind]. destruct (i =? r'); [|eauto]. destruct (i =? j); [cbn [bind]; eauto|].
  destruct (swapN_total ps i j) as [ps' ->]; [unfold lengthN in *; lia|unfold lengthN in *; lia|]. cbn [bind]. eauto.
Qed.
Lemma renumber_total par ps0 : uf_ok par -> length ps0 = length par -> lengthN par <= MAX -> exists s, renumber par ps0 = Ok s.
Proof.
  intros Hu HL Hmax. unfold renumber, enumerate.
  assert (G : forall post pre R s0, par = pre ++ post -> renumbered par ps0 (lengthN pre) R s0 ->
     exists s, foldM (renumber_step par) s0 (enum_from (lengthN pre) post) = Ok s).
  { induction post as [|p post IH]; intros pre R s0 Hpar HR; [simpl; eauto|].
    cbn [enum_from foldM].
    assert (nthN par (lengthN pre) = Some p) as Hp.
    { rewrite Hpar. unfold lengthN. rewrite nthN_of_nat, nth_error_app2, Nat.sub_diag by lia. reflexivity. }
    destruct (renumber_step_total par ps0 _ R s0 p Hu HL Hmax Hp HR) as [s1 Es]. rewrite Es. cbn [bind].
    destruct (renumber_step_ok par ps0 _ R s0 s1 p Hu HL Hmax Hp HR Es) as [R' HR'].
    destruct (IH (pre ++ [p]) R' s1) as [s Hs]; [rewrite <- app_assoc; exact Hpar| |].
    + unfold lengthN in *. rewrite app_length. simpl length. replace (N.of_nat (length pre + 1)) with (N.of_nat (length pre) + 1) by lia. exact HR'.
    + exists s. unfold lengthN in *. rewrite app_length in Hs. simpl length in Hs. replace (N.of_nat (length pre + 1)) with (N.succ (N.of_nat (length pre))) in Hs by lia. exact Hs. }
  apply (G par [] [] ((map (fun _ => MAX) ps0, 0), ps0)); [reflexivity|].
  unfold renumbered. cbn [fst snd]. rewrite map_length. split; [congruence|]. split; [reflexivity|]. split; [reflexivity|]. split; [unfold lengthN; simpl; lia|].
  split; [constructor|]. split; [intros k r; discriminate|]. split; [intros j Hj; unfold lengthN in Hj; simpl in Hj; lia|].
  split; [|split; [reflexivity|intros k r; discriminate]].
  intros r Hr _. destruct (root_of_lt _ _ _ Hr) as [Hl _]. rewrite nthN_map. destruct (nthN_lt_Some ps0 r) as [z ->]; [unfold lengthN in *; lia|]. reflexivity.
Qed.

(** * Nothing merged *)
Lemma list_eq_nthN {T} (l1 l2 : list T) : length l1 = length l2 -> (forall i, i < lengthN l1 -> nthN l1 i = nthN l2 i) -> l1 = l2.
Proof.
  revert l2. induction l1 as [|x l1 IH]; intros [|y l2] HL H; try discriminate; [reflexivity|].
  assert (x = y) by (specialize (H 0); simpl in H; unfold lengthN in H; simpl in H; assert (Some x = Some y) by (apply H; lia); congruence). subst. f_equal.
  apply IH; [simpl in HL; lia|]. intros i Hi. specialize (H (N.succ i)). simpl in H. destruct (N.eqb_spec (N.succ i) 0); [lia|].
  rewrite N.pred_succ in H. apply H. unfold lengthN in *. simpl length. lia.
Qed.
Lemma nroots_full par : nroots par = length par -> forall i, i < lengthN par -> nthN par i = Some i.
Proof.
  unfold nroots, enumerate. intros H i Hi.
  assert (G : forall (l : list N) k, length (filter (fun ip => N.eqb (fst ip) (snd ip)) (enum_from k l)) = length l ->
    forall i, i < lengthN l -> nthN l i = Some (k + i)).
  { clear. induction l as [|x l IH]; intros k H i Hi; [unfold lengthN in Hi; simpl in Hi; lia|]. cbn [enum_from filter fst snd] in H.
    pose proof (filter_len (fun ip => N.eqb (fst ip) (snd ip)) (enum_from (N.succ k) l)) as Hf. rewrite enum_from_length in Hf.
    destruct (N.eqb_spec k x) as [Ekx|]; simpl length in H; [subst x|lia]. simpl. destruct (N.eqb_spec i 0) as [Ei|]; [subst i; now rewrite N.add_0_r|].
    rewrite (IH (N.succ k)); [f_equal; lia|lia|]. unfold lengthN in *. simpl length in Hi. lia. }
  rewrite (G par 0 H i Hi). f_equal.
Qed.
Lemma nroots_full_new {T} par (l : list T) : length par = length l -> nroots par = length par -> par = uf_new l.
Proof.
  intros HL H. apply list_eq_nthN; [now rewrite uf_new_length|]. intros i Hi. rewrite (nroots_full par H i Hi), uf_new_nth; [reflexivity|].
  unfold lengthN in *. lia.
Qed.
Lemma enum_from_nth {T} (l : list T) : forall k i t, nthN l i = Some t -> nthN (enum_from k l) i = Some (k + i, t).
Proof.
  induction l as [|u l IH]; intros k j s Hs; [discriminate|]. simpl in *.
  destruct (N.eqb_spec j 0) as [->|Hj]; [injection Hs as <-; now rewrite N.add_0_r|]. rewrite (IH _ _ _ Hs). f_equal. f_equal. lia.
Qed.
Lemma roots_length par R : NoDup R -> (forall r, In r R -> nthN par r = Some r) -> (length R <= nroots par)%nat.
Proof.
  intros ND H. unfold nroots. rewrite <- (map_length fst (filter _ _)). apply NoDup_incl_length; [assumption|].
  intros r Hr. apply in_map_iff. exists (r, r). split; [reflexivity|]. apply filter_In. cbn [fst snd]. rewrite N.eqb_refl. split; [|reflexivity].
  apply enumerate_spec. now apply H.
Qed.
Lemma uf_new_snoc {T} (l : list T) x : uf_new (l ++ [x]) = uf_new l ++ [lengthN l].
Proof. unfold uf_new, enumerate. rewrite enum_from_app, map_app. reflexivity. Qed.
Lemma updN_app_r {T} (f : T -> T) (l1 : list T) x l2 : updN (l1 ++ x :: l2) (lengthN l1) f = l1 ++ f x :: l2.
Proof.
  induction l1 as [|y l1 IH]; [reflexivity|]. cbn [app updN]. destruct (N.eqb_spec (lengthN (y :: l1)) 0) as [E|_]; [unfold lengthN in E; simpl in E; lia|].
  f_equal. replace (N.pred (lengthN (y :: l1))) with (lengthN l1) by (unfold lengthN; simpl length; lia). exact IH.
Qed.
Lemma renumber_id ps : lengthN ps <= MAX -> renumber (uf_new ps) ps = Ok ((uf_new ps, lengthN ps), ps).
Proof.
  intro Hmax. unfold renumber.
  assert (G : forall post pre, ps = pre ++ post ->
     foldM (renumber_step (uf_new ps)) ((uf_new pre ++ map (fun _ => MAX) post, lengthN pre), ps)
       (map (fun i => (i, i)) (map fst (enum_from (lengthN pre) post))) = Ok ((uf_new ps, lengthN ps), ps)).
  { induction post as [|p post IH]; intros pre Hps.
    - rewrite app_nil_r in Hps. subst pre. simpl. now rewrite app_nil_r.
    - cbn [enum_from map foldM fst]. set (i := lengthN pre).
      assert (Hi : i < lengthN ps) by (subst ps i; unfold lengthN; rewrite app_length; simpl; lia).
      unfold renumber_step at 1. cbn [fst snd].
      assert (find (uf_new ps) i = Ok i) as ->.
      { apply (uf_find_ok _ 0); [constructor; now apply uf_new_nth|unfold uf_fuel; lia]. }
      cbn [bind]. assert (Hl : lengthN (uf_new pre) = i) by apply uf_new_lengthN.
      assert (nthN (uf_new pre ++ MAX :: map (fun _ => MAX) post) i = Some MAX) as En.
      { rewrite <- Hl. unfold lengthN. rewrite nthN_of_nat, nth_error_app2, Nat.sub_diag by lia. reflexivity. }
      rewrite (proj2 (index_Ok _ _ _) En). cbn [bind]. rewrite N.eqb_refl. 
      assert (updN (uf_new pre ++ MAX :: map (fun _ => MAX) post) i (fun _ => i) = uf_new pre ++ i :: map (fun _ => MAX) post) as ->.
      { rewrite <- Hl at 1. rewrite updN_app_r. reflexivity. }
      assert (nthN (uf_new pre ++ i :: map (fun _ => MAX) post) i = Some i) as Ei.
      { rewrite <- Hl at 2. unfold lengthN. rewrite nthN_of_nat, nth_error_app2, Nat.sub_diag by lia. reflexivity. }
      rewrite (proj2 (index_Ok _ _ _) Ei). cbn [bind]. rewrite !N.eqb_refl. cbn [bind].
      specialize (IH (pre ++ [p])). rewrite <- app_assoc in IH. specialize (IH Hps). rewrite uf_new_snoc, <- app_assoc in IH. cbn [app] in IH.
      replace (lengthN (pre ++ [p])) with (i + 1) in IH by (unfold i, lengthN; rewrite app_length; simpl; lia).
      rewrite <- N.add_1_r. exact IH. }
  specialize (G ps []). simpl in G. specialize (G eq_refl). rewrite <- G. f_equal.
  unfold uf_new, enumerate. change (lengthN (@nil Polygon)) with 0. clear G Hmax.
  generalize 0 as k. induction ps as [|p r IH]; intro k; [reflexivity|]. cbn [enum_from map fst]. f_equal. apply IH.
Qed.

(** * Merging never fails *)
Definition rings_ok vs ps : Prop := forall p, In p ps -> pverts p <> [] /\ forall i, In i (pverts p) -> i < lengthN vs.
Definition ids_ok vs (n : N) : Prop := forall v id, In v vs -> In id (vpolys v) -> id = MAX \/ id < n.

Lemma skip_until_incl x l : incl (skip_until x l) l.
Proof. induction l as [|y l IH]; [easy|]. simpl. destruct (N.eqb y x); [apply incl_refl|]. now apply incl_tl. Qed.
Lemma take_until_incl x l : incl (take_until x l) l.
Proof. induction l as [|y l IH]; [easy|]. simpl. destruct (N.eqb y x); [easy|]. intros z [<-|Hz]; [now left|right; now apply IH]. Qed.
Lemma arc_incl r x y : incl (arc r x y) r.
Proof. intros z Hz. unfold arc in Hz. apply take_until_incl, skip_until_incl in Hz. apply in_app_iff in Hz. tauto. Qed.

Lemma edges_index_total p : pverts p <> [] -> edges_index p = Ok (edge_list (pverts p)).
Proof. apply edges_index_edge_list. Qed.

Lemma In_updN {T} (f : T -> T) l i z : In z (updN l i f) -> In z l \/ exists y, nthN l i = Some y /\ z = f y.
Proof.
  intro H. apply In_nthN in H. destruct H as [k H]. rewrite nthN_updN in H. destruct (N.eqb_spec i k) as [->|].
  - destruct (nthN l k) as [y|] eqn:E; [|discriminate]. injection H as <-. right. eauto.
  - left. eapply nthN_In; eassumption.
Qed.

Lemma merge_edge_total vs ps0 ps par pi poly e : convex [] = false -> ids_ok vs (lengthN ps0) -> loop_ok vs ps0 ps par -> rings_ok vs ps ->
  nthN par pi = Some pi -> nthN ps pi = Some poly ->
  exists o, merge_edge convex vs ps par pi poly e = Ok o /\ (forall s, o = Some s -> rings_ok vs (fst s)).
Proof.
  intros Hc Hids (L1 & L2 & Hu & _) Hps Hpi Hpoly. unfold merge_edge.
  destruct (nthN vs (fst e)) as [va|] eqn:Ea; [|exists None; split; [reflexivity|discriminate]].
  destruct (nthN vs (snd e)) as [vb|] eqn:Eb; [|exists None; split; [reflexivity|discriminate]].
  destruct (other_side pi va vb) as [o|] eqn:Eo; [|exists None; split; [reflexivity|discriminate]].
  unfold other_side in Eo. apply List.find_some in Eo. destruct Eo as [Hin Ho]. apply andb_true_iff in Ho. destruct Ho as [Ho _].
  apply andb_true_iff in Ho. destruct Ho as [Hmax Hopi]. apply negb_true_iff, N.eqb_neq in Hmax.
  assert (Hol : o < lengthN ps0). { destruct (Hids va o (nthN_In _ _ _ Ea) Hin); [contradiction|assumption]. }
  destruct (uf_ok_find par o Hu) as (ro & -> & Hro); [unfold lengthN in *; lia|]. cbn [bind].
  destruct (N.eqb_spec ro o) as [->|]; cbn [negb]; [|exists None; split; [reflexivity|discriminate]].
  destruct (nthN_lt_Some ps o) as [op Hop]; [unfold lengthN in *; lia|]. rewrite (proj2 (index_Ok _ _ _) Hop). cbn [bind].
  destruct (Hps poly (nthN_In _ _ _ Hpoly)) as [N1 R1]. destruct (Hps op (nthN_In _ _ _ Hop)) as [N2 R2].
  destruct (N.ltb_spec (lengthN (pverts poly) + lengthN (pverts op)) 2) as [Hlt|_].
  { exfalso. destruct (pverts poly), (pverts op); try congruence. unfold lengthN in Hlt. simpl length in Hlt. lia. }
  set (js := joined (pverts poly) (pverts op) (fst e) (snd e)).
  assert (Hjs : forall j, In j js -> j < lengthN vs).
  { intros j Hj. unfold js, joined in Hj. apply in_app_iff in Hj. destruct Hj as [Hj|Hj]; apply arc_incl in Hj; auto. }
  destruct (mapM_total (index vs) js) as [cs Ecs].
  { intros j Hj. destruct (nthN_lt_Some vs j (Hjs j Hj)) as [v Hv]. exists v. now apply index_Ok. }
  rewrite Ecs. cbn [bind]. destruct (convex (map _ cs)) eqn:Ec; [|exists None; split; [reflexivity|discriminate]].
  assert (Hoo : nthN par o = Some o) by (destruct Hro as [k Hk]; exact (root_is_root _ _ _ _ Hk)).
  rewrite (uf_union_eq par pi o Hpi Hoo). cbn [bind]. eexists. split; [reflexivity|]. intros s [= <-]. cbn [fst].
  intros p Hp. apply In_updN in Hp. destruct Hp as [Hp|(y & _ & ->)]; [now apply Hps|]. cbn [pverts]. split; [|assumption].
  intro E. rewrite E in Ecs. simpl in Ecs. injection Ecs as <-. simpl in Ec. congruence.
Qed.

Lemma merge_edges_total vs ps0 ps par pi poly es : convex [] = false -> ids_ok vs (lengthN ps0) -> loop_ok vs ps0 ps par -> rings_ok vs ps ->
  nthN par pi = Some pi -> nthN ps pi = Some poly ->
  exists s, merge_edges convex vs ps par pi poly es = Ok s /\ rings_ok vs (fst s).
Proof.
  intros Hc Hids HI Hps Hpi Hpoly. induction es as [|e es IH]; cbn [merge_edges]; [exists (ps, par); auto|].
  destruct (merge_edge_total vs ps0 ps par pi poly e Hc Hids HI Hps Hpi Hpoly) as (o & -> & Ho). cbn [bind].
  destruct o as [s|]; [exists s; auto|exact IH].
Qed.
Lemma merge_step_total vs ps0 s pi : convex [] = false -> ids_ok vs (lengthN ps0) -> loop_ok vs ps0 (fst s) (snd s) -> rings_ok vs (fst s) ->
  pi < lengthN ps0 -> exists s', merge_step convex vs s pi = Ok s' /\ rings_ok vs (fst s').
Proof.
  intros Hc Hids HI Hps Hpi. pose proof HI as (L1 & L2 & Hu & _). unfold merge_step.
  destruct (uf_ok_find (snd s) pi Hu) as (r & -> & Hr); [unfold lengthN in *; lia|]. cbn [bind].
  destruct (N.eqb_spec r pi) as [->|]; cbn [negb]; [|eauto].
  destruct (nthN_lt_Some (fst s) pi) as [poly Hpoly]; [unfold lengthN in *; lia|]. rewrite (proj2 (index_Ok _ _ _) Hpoly). cbn [bind].
  rewrite edges_index_total by (apply (Hps poly); eapply nthN_In; eassumption). cbn [bind].
  apply merge_edges_total with ps0; try assumption. destruct Hr as [k Hk]. exact (root_is_root _ _ _ _ Hk).
Qed.
Lemma merge_loop_total vs ps0 order : convex [] = false -> ids_ok vs (lengthN ps0) -> (forall x, In x order -> x < lengthN ps0) ->
  forall s, loop_ok vs ps0 (fst s) (snd s) -> rings_ok vs (fst s) -> exists s', foldM (merge_step convex vs) s order = Ok s' /\ rings_ok vs (fst s').
Proof.
  intros Hc Hids. induction order as [|x order IH]; intros Hord s HI Hps; cbn [foldM]; [eauto|].
  destruct (merge_step_total vs ps0 s x Hc Hids HI Hps) as (s' & E & Hps'); [apply Hord; now left|]. rewrite E. cbn [bind].
  destruct (merge_step_ok vs ps0 s x s' HI E) as [HI' _]. apply IH; auto. intros y Hy. apply Hord. now right.
Qed.
End Facts.
