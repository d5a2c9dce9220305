(** Island detection (C21) and the polygon finder: proofs. *)
From Coq Require Import List NArith ZArith Bool Lia Relations.
From Verif Require Import Base Arith U32 Mesh Helpers Locate Bake Spec Locate_facts.
Import ListNotations.
Open Scope N_scope.

Lemma filter_len {T} (f : T -> bool) l : (length (filter f l) <= length l)%nat.
Proof. induction l as [|x r IH]; simpl; [lia|]. destruct (f x); simpl; lia. Qed.

Section Bake.
Context {A : Arith}.
Implicit Types l : Layer A.

(** Polygon [j] is a neighbour of polygon [i]: it is listed by a vertex of [i]. *)
Definition neighbour l (i j : N) : Prop :=
  exists p vi v, nthN (polygons l) i = Some p /\ In vi (pverts p) /\ nthN (vertices l) vi = Some v /\
                 In j (vpolys v) /\ j <> MAX.

(** Every index of the layer exists (untagged ids, as before stitching). *)
Definition layer_ids_ok l : Prop :=
  (forall p, In p (polygons l) -> forall vi, In vi (pverts p) -> vi < lengthN (vertices l)) /\
  (forall v, In v (vertices l) -> forall j, In j (vpolys v) -> j <> MAX -> j < lengthN (polygons l)).

Definition deg l (p : Polygon) : nat :=
  fold_right (fun i k => match nthN (vertices l) i with Some v => length (vpolys v) + k | None => k end)%nat 0%nat (pverts p).

Lemma island_neighbours_ok l i p :
  layer_ids_ok l -> nthN (polygons l) i = Some p ->
  exists ns, island_neighbours l p = Ok ns /\ (length ns <= deg l p)%nat /\
    (forall j, In j ns <-> neighbour l i j).
Proof.
  intros [H1 _] Hp. unfold island_neighbours.
  assert (Hin : forall vi, In vi (pverts p) -> vi < lengthN (vertices l)) by (apply H1; eapply nthN_In; eauto).
  assert (Hm : exists vs, mapM (index (vertices l)) (pverts p) = Ok vs).
  { apply mapM_total. intros vi Hvi. destruct (nthN_lt_Some (vertices l) vi (Hin vi Hvi)) as [v Hv].
    exists v. now apply index_Ok. }
  destruct Hm as [vs Hvs]. rewrite Hvs. cbn [bind]. eexists. split; [reflexivity|].
  apply mapM_Ok in Hvs. split.
  - eapply Nat.le_trans; [apply filter_len|].
    unfold deg. clear Hin Hp. induction Hvs as [|vi v ps vs Hv HF IH]; simpl; [lia|].
    apply index_Ok in Hv. rewrite Hv, app_length. lia.
  - intro j. rewrite filter_In, in_flat_map. unfold neighbour. split.
    + intros [(v & Hv & Hj) Hn]. apply negb_true_iff, N.eqb_neq in Hn.
      assert (exists vi, In vi (pverts p) /\ nthN (vertices l) vi = Some v) as (vi & G1 & G2).
      { clear - Hvs Hv. induction Hvs as [|vi w ps vs Hw HF IH]; [destruct Hv|].
        destruct Hv as [<-|Hv]; [exists vi; split; [now left|now apply index_Ok]|].
        destruct (IH Hv) as (vi' & G1 & G2). exists vi'. split; [now right|assumption]. }
      exists p, vi, v. auto.
    + intros (p' & vi & v & G1 & G2 & G3 & G4 & G5). assert (p' = p) by congruence. subst p'.
      split; [|apply negb_true_iff, N.eqb_neq; assumption]. exists v. split; [|assumption].
      clear - Hvs G2 G3. induction Hvs as [|vi' w ps vs Hw HF IH]; [destruct G2|].
      destruct G2 as [<-|G2]; [left; apply index_Ok in Hw; congruence|right; auto].
Qed.

Lemma neighbour_range l i j : layer_ids_ok l -> neighbour l i j -> i < lengthN (polygons l) /\ j < lengthN (polygons l).
Proof.
  intros [_ H2] (p & vi & v & G1 & G2 & G3 & G4 & G5). split; [eapply nthN_Some_lt; eauto|].
  eapply H2; eauto. eapply nthN_In; eauto.
Qed.

(** Weight still to be pushed *)
Fixpoint unl (ws : list nat) (isl : list N) : nat :=
  match ws, isl with
  | w :: ws, x :: isl => ((if N.eqb x UMAX then w else 0) + unl ws isl)%nat
  | _, _ => 0%nat
  end.
Lemma unl_upd r ws : r <> UMAX -> forall isl i w, nthN isl i = Some UMAX -> nthN ws i = Some w ->
  unl ws isl = (w + unl ws (updN isl i (fun _ => r)))%nat.
Proof.
  intro Hr. induction ws as [|w0 ws IH]; intros isl i w H1 H2; [discriminate|].
  destruct isl as [|x isl]; [discriminate|]. rewrite !nthN_nth_error in *.
  destruct i as [|i].
  - simpl in H1, H2. inversion H1; inversion H2; subst. simpl.
    rewrite (proj2 (N.eqb_neq r UMAX) Hr). reflexivity.
  - assert (Ei : N.to_nat (N.pos i) = S (N.to_nat (N.pred (N.pos i)))) by lia.
    rewrite Ei in H1, H2. simpl in H1, H2.
    rewrite <- !nthN_nth_error in *. specialize (IH isl (N.pred (N.pos i)) w H1 H2).
    simpl. simpl in IH. rewrite IH. destruct (N.eqb x UMAX); lia.
Qed.

Definition labelled (isl : list N) (i : N) : Prop := exists r, nthN isl i = Some r /\ r <> UMAX.

Lemma upd_other (isl : list N) i r k : k <> i -> nthN (updN isl i (fun _ => r)) k = nthN isl k.
Proof. intro H. rewrite nthN_updN. destruct (N.eqb_spec i k); [congruence|reflexivity]. Qed.

(** ** The inner loop *)
Record fstate l (r : N) (isl0 isl : list N) (stack : list N) : Prop := {
  fs_len : length isl = length (polygons l);
  fs_keep : forall i x, nthN isl0 i = Some x -> x <> UMAX -> nthN isl i = Some x;
  fs_new : forall i, nthN isl0 i = Some UMAX -> nthN isl i = Some UMAX \/
             (nthN isl i = Some r /\ clos_refl_trans _ (neighbour l) r i /\
              forall j, neighbour l i j -> labelled isl j \/ In j stack);
  fs_stack : forall j, In j stack -> j < lengthN (polygons l) /\ clos_refl_trans _ (neighbour l) r j
}.

Lemma updN_nth (isl : list N) i r x : nthN isl i = Some x -> nthN (updN isl i (fun _ => r)) i = Some r.
Proof. intro H. rewrite nthN_updN, N.eqb_refl, H. reflexivity. Qed.

Lemma flood_spec l r isl0 : layer_ids_ok l -> r <> UMAX -> length isl0 = length (polygons l) ->
  forall fuel stack isl, fstate l r isl0 isl stack ->
  (length stack + unl (map (deg l) (polygons l)) isl < fuel)%nat ->
  exists isl', flood fuel l r stack isl = Ok isl' /\ fstate l r isl0 isl' [] /\
    (forall j, In j stack -> labelled isl' j) /\
    (forall j x, nthN isl j = Some x -> x <> UMAX -> nthN isl' j = Some x).
Proof.
  intros Hok Hr Hl0. induction fuel as [|fuel IH]; intros stack isl HS HF; [lia|].
  simpl. destruct stack as [|nx rest].
  - exists isl. split; [reflexivity|]. split; [exact HS|]. split; [intros j []|auto].
  - destruct (fs_stack _ _ _ _ _ HS nx (or_introl eq_refl)) as [Hnx Hreach].
    assert (Hlen : lengthN isl = lengthN (polygons l)) by (unfold lengthN; now rewrite (fs_len _ _ _ _ _ HS)).
    destruct (nthN_lt_Some isl nx) as [lab Hlab]; [lia|].
    rewrite (proj2 (index_Ok isl nx lab) Hlab). cbn [bind].
    destruct (N.eqb_spec lab UMAX) as [->|Hne].
    + destruct (nthN_lt_Some (polygons l) nx Hnx) as [p Hp].
      rewrite (proj2 (index_Ok _ _ _) Hp). cbn [bind].
      destruct (island_neighbours_ok l nx p Hok Hp) as (ns & Hns & Hdeg & Hiff). rewrite Hns. cbn [bind].
      assert (Hw : nthN (map (deg l) (polygons l)) nx = Some (deg l p)).
      { rewrite nthN_nth_error, nth_error_map, <- nthN_nth_error, Hp. reflexivity. }
      pose proof (unl_upd r _ Hr isl nx _ Hlab Hw) as HU.
      assert (Hlk : forall j, labelled isl j -> labelled (updN isl nx (fun _ => r)) j).
      { intros j (x & Hj & Hx). exists x. split; [|assumption]. rewrite upd_other; [assumption|congruence]. }
      destruct (IH (rev ns ++ rest) (updN isl nx (fun _ => r))) as (isl' & E & HS' & HL & HK).
      * constructor.
        -- rewrite updN_length. apply HS.
        -- intros i x Hi Hx. pose proof (fs_keep _ _ _ _ _ HS i x Hi Hx) as Hk.
           rewrite upd_other; [assumption|congruence].
        -- intros i Hi. destruct (N.eq_dec i nx) as [->|Hi'].
           ++ right. split; [eapply updN_nth; eauto|]. split; [assumption|]. intros j Hj. right.
              apply in_or_app. left. apply in_rev. rewrite rev_involutive. now apply Hiff.
           ++ destruct (fs_new _ _ _ _ _ HS i Hi) as [G|(G1 & G2 & G3)].
              ** left. now rewrite upd_other.
              ** right. rewrite upd_other by assumption. split; [assumption|]. split; [assumption|].
                 intros j Hj. destruct (G3 j Hj) as [G|[<-|G]].
                 --- left. now apply Hlk.
                 --- left. exists r. split; [eapply updN_nth; eauto|assumption].
                 --- right. apply in_or_app. now right.
        -- intros j Hj. apply in_app_or in Hj. destruct Hj as [Hj|Hj].
           ++ apply in_rev in Hj. apply Hiff in Hj. split; [eapply neighbour_range; eauto|].
              eapply rt_trans; [exact Hreach|]. now apply rt_step.
           ++ apply (fs_stack _ _ _ _ _ HS). now right.
      * rewrite app_length, rev_length. simpl in HF. lia.
      * exists isl'. split; [assumption|]. split; [assumption|]. split.
        -- intros j [<-|Hj]; [|apply HL; apply in_or_app; now right].
           exists r. split; [|assumption]. apply HK; [eapply updN_nth; eauto|assumption].
        -- intros j x Hj Hx. apply HK; [|assumption]. rewrite upd_other; [assumption|congruence].
    + destruct (IH rest isl) as (isl' & E & HS' & HL & HK).
      * constructor; try apply HS.
        -- intros i Hi. destruct (fs_new _ _ _ _ _ HS i Hi) as [G|(G1 & G2 & G3)]; [now left|right].
           split; [assumption|]. split; [assumption|]. intros j Hj. destruct (G3 j Hj) as [G|[<-|G]]; auto.
           left. exists lab. auto.
        -- intros j Hj. apply (fs_stack _ _ _ _ _ HS). now right.
      * simpl in HF. lia.
      * exists isl'. split; [assumption|]. split; [assumption|]. split; [|assumption].
        intros j [<-|Hj]; [|now apply HL]. exists lab. split; [now apply HK|assumption].
Qed.

(** ** The outer loop *)
Record ostate l (isl : list N) : Prop := {
  os_len : length isl = length (polygons l);
  os_reach : forall i r, nthN isl i = Some r -> r <> UMAX -> clos_refl_trans _ (neighbour l) r i;
  os_closed : forall i j, labelled isl i -> neighbour l i j -> labelled isl j
}.
(** with symmetric adjacency, neighbours have equal labels *)
Definition same_labels l (isl : list N) : Prop :=
  forall i j r, nthN isl i = Some r -> r <> UMAX -> neighbour l i j -> nthN isl j = Some r.

Fixpoint count_unl (isl : list N) : nat :=
  match isl with [] => 0 | x :: r => (if N.eqb x UMAX then 1 else 0) + count_unl r end%nat.

Lemma first_unlabelled_Some isl r : first_unlabelled isl = Some r -> nthN isl r = Some UMAX.
Proof.
  unfold first_unlabelled. destruct (find _ _) as [[i x]|] eqn:E; [|discriminate]. simpl.
  intro H. inversion H; subst. apply find_some in E. destruct E as [E1 E2]. apply enumerate_spec in E1.
  simpl in E2. apply N.eqb_eq in E2. congruence.
Qed.
Lemma first_unlabelled_None isl : first_unlabelled isl = None -> forall i x, nthN isl i = Some x -> x <> UMAX.
Proof.
  unfold first_unlabelled. destruct (find _ _) as [[i x]|] eqn:E; [discriminate|]. intros _ i x Hi.
  pose proof (find_none _ _ E (i, x)) as H. simpl in H. apply enumerate_spec in Hi. specialize (H Hi).
  now apply N.eqb_neq.
Qed.

Lemma count_unl_le a : forall b, length a = length b ->
  (forall i x, nthN a i = Some x -> x <> UMAX -> nthN b i = Some x) -> (count_unl b <= count_unl a)%nat.
Proof.
  induction a as [|x a IH]; intros [|y b] HL H; simpl; try discriminate; [lia|].
  assert (count_unl b <= count_unl a)%nat.
  { apply IH; [simpl in HL; lia|]. intros i z Hi Hz. specialize (H (N.succ i) z).
    rewrite !nthN_nth_error in *. rewrite N2Nat.inj_succ in H. simpl in H. auto. }
  destruct (N.eqb_spec x UMAX) as [->|Hx]; destruct (N.eqb_spec y UMAX) as [->|Hy]; try lia.
  exfalso. specialize (H 0 x eq_refl Hx). simpl in H. congruence.
Qed.
Lemma count_unl_lt a : forall b, length a = length b ->
  (forall i x, nthN a i = Some x -> x <> UMAX -> nthN b i = Some x) ->
  forall r, nthN a r = Some UMAX -> labelled b r -> (count_unl b < count_unl a)%nat.
Proof.
  induction a as [|x a IH]; intros [|y b] HL H r Hr Hb; simpl; try discriminate.
  assert (HT : forall i z, nthN a i = Some z -> z <> UMAX -> nthN b i = Some z).
  { intros i z Hi Hz. specialize (H (N.succ i) z).
    rewrite !nthN_nth_error in *. rewrite N2Nat.inj_succ in H. simpl in H. auto. }
  rewrite nthN_nth_error in Hr. destruct Hb as (z & Hb & Hz). rewrite nthN_nth_error in Hb.
  destruct (N.to_nat r) as [|k] eqn:Ek.
  - simpl in Hr, Hb. inversion Hr; inversion Hb; subst. simpl. rewrite (proj2 (N.eqb_neq z UMAX) Hz).
    assert (count_unl b <= count_unl a)%nat by (apply count_unl_le; auto). lia.
  - simpl in Hr, Hb.
    assert (count_unl b < count_unl a)%nat.
    { apply (IH b) with (r := N.of_nat k); auto.
      - rewrite nthN_of_nat. assumption.
      - exists z. rewrite nthN_of_nat. auto. }
    destruct (N.eqb_spec x UMAX) as [->|Hx]; destruct (N.eqb_spec y UMAX) as [->|Hy]; try lia.
    exfalso. specialize (H 0 x eq_refl Hx). simpl in H. congruence.
Qed.

Lemma unl_le ws : forall isl, (unl ws isl <= fold_right Nat.add 0 ws)%nat.
Proof.
  induction ws as [|w ws IH]; intros [|x isl]; simpl; try lia.
  specialize (IH isl). destruct (N.eqb x UMAX); lia.
Qed.

Lemma flood_fuel_ok l isl : (1 + unl (map (deg l) (polygons l)) isl < flood_fuel l)%nat.
Proof.
  pose proof (unl_le (map (deg l) (polygons l)) isl) as H.
  assert (fold_right Nat.add 0 (map (deg l) (polygons l)) =
    fold_right (fun p n => fold_right (fun i k => match nthN (vertices l) i with
                                                | Some v => length (vpolys v) + k
                                                | None => k end) 0 (pverts p) + n) 0 (polygons l))%nat as E.
  { clear. induction (polygons l) as [|p r IH]; simpl; [reflexivity|]. rewrite IH. reflexivity. }
  unfold flood_fuel. rewrite <- E. lia.
Qed.

Lemma nodup_range l (isl : list N) i x : length isl = length (polygons l) -> nthN isl i = Some x ->
  i < lengthN (polygons l).
Proof. intros H1 H2. apply nthN_Some_lt in H2. unfold lengthN in *. now rewrite <- H1. Qed.

Lemma flood_all_spec l : layer_ids_ok l -> lengthN (polygons l) < UMAX ->
  forall fuel isl, ostate l isl -> (count_unl isl < fuel)%nat ->
  exists isl', flood_all fuel (flood_fuel l) l isl = Ok isl' /\ ostate l isl' /\
    (forall i, i < lengthN (polygons l) -> labelled isl' i) /\
    ((forall i j, neighbour l i j -> neighbour l j i) -> same_labels l isl -> same_labels l isl').
Proof.
  intros Hok HU. induction fuel as [|fuel IH]; intros isl HO HF; [lia|].
  cbn [flood_all]. destruct (first_unlabelled isl) as [r|] eqn:EF.
  - apply first_unlabelled_Some in EF.
    assert (Hr : r < lengthN (polygons l)) by (eapply nodup_range; eauto; apply HO).
    assert (HrU : r <> UMAX) by lia.
    destruct (flood_spec l r isl Hok HrU (os_len _ _ HO) (flood_fuel l) [r] isl) as (isl1 & E1 & HS & HL & HK).
    { constructor; auto.
      - apply HO.
      - intros j [<-|[]]. split; [assumption|]. apply rt_refl. }
    { apply flood_fuel_ok. }
    rewrite E1. cbn [bind].
    assert (HO1 : ostate l isl1).
    { constructor.
      - apply HS.
      - intros i x Hi Hx. assert (i < lengthN isl) as Hlt.
        { unfold lengthN. rewrite (os_len _ _ HO), <- (fs_len _ _ _ _ _ HS). apply nthN_Some_lt in Hi. exact Hi. }
        destruct (nthN_lt_Some _ _ Hlt) as [y Hy]. destruct (N.eq_dec y UMAX) as [->|Hy'].
        + destruct (fs_new _ _ _ _ _ HS i Hy) as [G|(G1 & G2 & G3)]; [congruence|].
          assert (x = r) by congruence. subst. assumption.
        + pose proof (HK i y Hy Hy'). assert (x = y) by congruence. subst. eapply os_reach; eauto.
      - intros i j (x & Hi & Hx) Hij. assert (i < lengthN isl) as Hlt.
        { unfold lengthN. rewrite (os_len _ _ HO), <- (fs_len _ _ _ _ _ HS). apply nthN_Some_lt in Hi. exact Hi. }
        destruct (nthN_lt_Some _ _ Hlt) as [y Hy]. destruct (N.eq_dec y UMAX) as [->|Hy'].
        + destruct (fs_new _ _ _ _ _ HS i Hy) as [G|(G1 & G2 & G3)]; [congruence|].
          destruct (G3 j Hij) as [G|[]]. assumption.
        + destruct (os_closed _ _ HO i j) as (z & Hz & Hz'); [exists y; auto|assumption|].
          exists z. split; [now apply HK|assumption]. }
    assert (Hrlab : labelled isl1 r) by (apply HL; now left).
    destruct (IH isl1 HO1) as (isl' & E & HO' & Hall & Hsame).
    { assert (count_unl isl1 < count_unl isl)%nat; [|lia].
      apply count_unl_lt with (r := r); auto. rewrite (os_len _ _ HO), (fs_len _ _ _ _ _ HS). reflexivity. }
    exists isl'. split; [assumption|]. split; [assumption|]. split; [assumption|].
    intros Hsym Hs. apply Hsame; [assumption|].
    intros i j x Hi Hx Hij.
    destruct (neighbour_range l i j Hok Hij) as [Hri Hrj].
    assert (Hli : forall k, k < lengthN (polygons l) -> exists y, nthN isl k = Some y).
    { intros k Hk. apply nthN_lt_Some. unfold lengthN in *. rewrite (os_len _ _ HO). assumption. }
    destruct (Hli i Hri) as [y Hy]. destruct (Hli j Hrj) as [z Hz].
    destruct (N.eq_dec y UMAX) as [->|Hy'].
    + destruct (fs_new _ _ _ _ _ HS i Hy) as [G|(G1 & G2 & G3)]; [congruence|].
      assert (x = r) by congruence. subst x.
      destruct (N.eq_dec z UMAX) as [->|Hz'].
      * destruct (fs_new _ _ _ _ _ HS j Hz) as [G|(G4 & _)]; [|assumption].
        destruct (G3 j Hij) as [(w & Hw & Hw')|[]]. congruence.
      * exfalso. pose proof (Hs j i z Hz Hz' (Hsym _ _ Hij)). congruence.
    + pose proof (HK i y Hy Hy'). assert (x = y) by congruence. subst y.
      apply HK; [|assumption]. eapply Hs; eauto.
  - exists isl. split; [reflexivity|]. split; [assumption|]. split; [|auto].
    intros i Hi. destruct (nthN_lt_Some isl i) as [x Hx].
    { unfold lengthN in *. rewrite (os_len _ _ HO). assumption. }
    exists x. split; [assumption|]. eapply first_unlabelled_None; eauto.
Qed.

Lemma nth_repeat_UMAX n i x : nthN (repeat UMAX n) i = Some x -> x = UMAX.
Proof. intro H. apply nthN_In in H. now apply repeat_spec in H. Qed.

Lemma count_unl_repeat n : count_unl (repeat UMAX n) = n.
Proof. induction n; simpl; [reflexivity|]. now rewrite IHn. Qed.

Lemma bake_islands_spec l : layer_ids_ok l -> lengthN (polygons l) < UMAX ->
  exists isl, bake_islands_detection l = Ok (mkLayer (vertices l) (polygons l) (offset l) (baked l) (Some isl)) /\
    length isl = length (polygons l) /\
    (forall i, i < lengthN (polygons l) -> exists r, nthN isl i = Some r /\ r <> UMAX /\
        clos_refl_trans _ (neighbour l) r i) /\
    ((forall i j, neighbour l i j -> neighbour l j i) ->
     forall i j a b, nthN isl i = Some a -> nthN isl j = Some b ->
       (a = b <-> clos_refl_trans _ (neighbour l) i j)).
Proof.
  intros Hok HU.
  destruct (flood_all_spec l Hok HU (S (length (polygons l))) (repeat UMAX (length (polygons l))))
    as (isl & E & HO & Hall & Hsame).
  { constructor.
    - apply repeat_length.
    - intros i r Hi Hr. apply nth_repeat_UMAX in Hi. contradiction.
    - intros i j (r & Hi & Hr). apply nth_repeat_UMAX in Hi. contradiction. }
  { rewrite count_unl_repeat. lia. }
  exists isl. unfold bake_islands_detection. rewrite E. cbn [bind]. split; [reflexivity|].
  split; [apply HO|]. split.
  - intros i Hi. destruct (Hall i Hi) as (r & H1 & H2). exists r. repeat split; auto. eapply os_reach; eauto.
  - intros Hsym i j a b Hi Hj.
    assert (HS : same_labels l isl).
    { apply Hsame; [assumption|]. intros i0 j0 r H. apply nth_repeat_UMAX in H. subst. congruence. }
    assert (Ha : a <> UMAX).
    { destruct (Hall i) as (r & H1 & H2); [eapply nodup_range; eauto; apply HO|congruence]. }
    assert (Hb : b <> UMAX).
    { destruct (Hall j) as (r & H1 & H2); [eapply nodup_range; eauto; apply HO|congruence]. }
    assert (Hrsym : forall x y, clos_refl_trans _ (neighbour l) x y -> clos_refl_trans _ (neighbour l) y x).
    { intros x y H. induction H; [apply rt_step; auto|apply rt_refl|eapply rt_trans; eauto]. }
    split.
    + intros <-. eapply rt_trans; [apply Hrsym|]; eapply os_reach; eauto.
    + intro H. apply clos_rt_rt1n in H. revert a Hi Ha. induction H as [|x y z Hxy H IH]; intros a Hi Ha; [congruence|].
      eapply IH; eauto.
Qed.

End Bake.
