(** A layer cut into several layers that are stitched together: the neighbour lists are the same (C72). *)
From Coq Require Import List NArith ZArith Bool Lia Permutation Sorted.
From Verif Require Import Base Arith U32 Mesh Helpers Cleanup Stitch Spec Spec_mesh Spec_relayer Spec_split Cleanup_facts Stitch_facts File_facts Properties_mesh Properties_stitch.
Import ListNotations.
Open Scope N_scope.

(** *** strictly increasing lists *)
Definition increasing (f : N -> Z) (s : list N) : Prop := StronglySorted (fun a b => (f a < f b)%Z) s.
Lemma dedup_increasing f s : StronglySorted (fun a b => (f a <= f b)%Z) s -> (forall a b, In a s -> In b s -> f a = f b -> a = b) -> increasing f (dedup s).
Proof.
  intros HS HI. induction s as [|a r IH]; [constructor|]. inversion_clear HS as [|? ? H1 H2]. destruct r as [|b r]; [repeat constructor|].
  change (dedup (a :: b :: r)) with (if N.eqb a b then dedup (b :: r) else a :: dedup (b :: r)).
  assert (HR : increasing f (dedup (b :: r))) by (apply IH; [exact H1|intros x y Hx Hy; apply HI; now right]).
  destruct (N.eqb_spec a b) as [E|E]; [exact HR|]. constructor; [exact HR|]. apply Forall_forall. intros x Hx. rewrite dedup_In in Hx.
  rewrite Forall_forall in H2.
  assert (Hb : (f a < f b)%Z). { pose proof (H2 b (or_introl eq_refl)). destruct (Z.eq_dec (f a) (f b)) as [Q|Q]; [|lia]. exfalso. apply E, HI; [now left|right; now left|exact Q]. }
  destruct Hx as [<- |Hx]; [exact Hb|]. inversion_clear H1 as [|? ? H3 H4]. rewrite Forall_forall in H4. specialize (H4 x Hx). lia.
Qed.
Lemma increasing_eq f : forall s t, increasing f s -> increasing f t -> (forall x, In x s <-> In x t) -> s = t.
Proof.
  induction s as [|a s IH]; intros t HS HT HI.
  - destruct t as [|b t]; [reflexivity|]. destruct (proj2 (HI b) (or_introl eq_refl)).
  - destruct t as [|b t]; [destruct (proj1 (HI a) (or_introl eq_refl))|]. inversion_clear HS as [|? ? S1 S2]. inversion_clear HT as [|? ? T1 T2].
    rewrite Forall_forall in S2, T2.
    assert (E : a = b).
    { destruct (proj1 (HI a) (or_introl eq_refl)) as [E|Ha]; [now symmetry|]. destruct (proj2 (HI b) (or_introl eq_refl)) as [E|Hb]; [exact E|]. specialize (S2 b Hb). specialize (T2 a Ha). lia. }
    subst b. f_equal. apply IH; [exact S1|exact T1|]. intro x. specialize (HI x). split; intro Hx.
    + destruct (proj1 HI (or_intror Hx)) as [E|H]; [|exact H]. subst x. specialize (S2 a Hx). lia.
    + destruct (proj2 HI (or_intror Hx)) as [E|H]; [|exact H]. subst x. specialize (T2 a Hx). lia.
Qed.
Lemma increasing_map f g (new : N -> N) s : (forall x, In x s -> g (new x) = f x) -> increasing f s -> increasing g (map new s).
Proof.
  intros HG HS. induction HS as [|a r HS IH HF]; [constructor|]. cbn [map]. constructor; [apply IH; intros x Hx; apply HG; now right|].
  apply Forall_forall. intros y Hy. apply in_map_iff in Hy. destruct Hy as (x & <- & Hx). rewrite Forall_forall in HF. rewrite (HG a (or_introl eq_refl)), (HG x (or_intror Hx)). now apply HF.
Qed.
Definition key_of (key : N -> res Z) (x : N) : Z := match key x with Ok k => k | _ => 0%Z end.
Lemma sorted_key key s : ((2 <= length s)%nat -> sorted_by key s) -> StronglySorted (fun a b => (key_of key a <= key_of key b)%Z) s.
Proof.
  intro H. destruct s as [|a [|b r]]; [constructor|repeat constructor|]. destruct H as (ks & HF & HS); [cbn; lia|].
  revert ks HF HS. generalize (a :: b :: r). clear. induction l as [|x l IH]; intros ks HF HS; [constructor|]. inversion HF as [|? k ? ks' Ek HF']; subst. inversion_clear HS as [|? ? S1 S2].
  constructor; [now apply (IH ks')|]. apply Forall_forall. intros y Hy. rewrite Forall_forall in S2.
  destruct (File_facts.Forall2_In_l _ _ _ _ HF' Hy) as (k' & Hk & Ey). unfold key_of. rewrite Ek, Ey. now apply S2.
Qed.

Section Lists.
Context {A : Arith}.
Implicit Types (m : Mesh A).

Lemma map_last {X Y} (f : X -> Y) r d : last (map f r) (f d) = f (last r d).
Proof. induction r as [|x r IH]; [reflexivity|]. destruct r; [reflexivity|]. exact IH. Qed.
Lemma map_windows2 (f : N -> N) l : windows2 (map f l) = map (fun ab => (f (fst ab), f (snd ab))) (windows2 l).
Proof. induction l as [|a r IH]; [reflexivity|]. destruct r as [|b r]; [reflexivity|]. cbn [map windows2] in *. now rewrite IH. Qed.
Lemma map_cyclic (f : N -> N) l : cyclic_pairs (map f l) = map (fun ab => (f (fst ab), f (snd ab))) (cyclic_pairs l).
Proof.
  destruct l as [|a r]; [reflexivity|]. cbn [map cyclic_pairs]. etransitivity; [|symmetry; apply map_app]. f_equal; [apply (map_windows2 f (a :: r))|].
  cbn [map fst snd]. now rewrite map_last.
Qed.
Lemma cyclic_In l a b : In (a, b) (cyclic_pairs l) -> In a l /\ In b l.
Proof.
  destruct l as [|x r]; [intros []|]. intro H. unfold cyclic_pairs in H. apply in_app_or in H. destruct H as [H|[H|[]]].
  - apply windows2_In in H. exact H.
  - inversion H; subst. split; [|now left]. clear. assert (G : forall (q : list N) x, In (last q x) (x :: q)).
    { induction q as [|y q IH]; intro x; [now left|]. destruct q as [|z q]; [right; now left|]. destruct (IH x) as [E|E]; [left; exact E|right; right; exact E]. }
    apply G.
Qed.

Lemma neighbours_new m m' pos (new : N -> N) old old' nw nw' :
  new_neighbours m pos old nw -> new_neighbours m' pos old' nw' -> new MAX = MAX -> (forall k, In k old -> k <> MAX -> new k <> MAX) ->
  (forall a b, In a old -> In b old -> a <> MAX -> b <> MAX -> new a = new b -> a = b) ->
  (forall id, id <> MAX -> (In id old' <-> exists k, In k old /\ k <> MAX /\ id = new k)) ->
  (forall k, In k old -> k <> MAX -> exists z, angle_key m pos k = Ok z /\ angle_key m' pos (new k) = Ok z) ->
  (forall a b, In a old -> In b old -> a <> MAX -> b <> MAX -> angle_key m pos a = angle_key m pos b -> a = b) ->
  (forall a b, In a old -> In b old -> a <> MAX -> b <> MAX -> (glued m' pos (new a) (new b) <-> glued m pos a b)) ->
  nw' = map new nw.
Proof.
  intros (s & P1 & S1 & C1) (t & P2 & S2 & C2) HN HX HJ HI HK HD HG.
  assert (Is : forall x, In x s <-> In x old /\ x <> MAX).
  { intro x. split.
    - intro H. apply (Permutation_in _ (Permutation_sym P1)) in H. apply filter_In in H. destruct H as [H1 H2]. split; [exact H1|]. intros ->. rewrite N.eqb_refl in H2. discriminate.
    - intros [H1 H2]. apply (Permutation_in _ P1). apply filter_In. split; [exact H1|]. apply N.eqb_neq in H2. now rewrite H2. }
  assert (It : forall x, In x t <-> In x old' /\ x <> MAX).
  { intro x. split.
    - intro H. apply (Permutation_in _ (Permutation_sym P2)) in H. apply filter_In in H. destruct H as [H1 H2]. split; [exact H1|]. intros ->. rewrite N.eqb_refl in H2. discriminate.
    - intros [H1 H2]. apply (Permutation_in _ P2). apply filter_In. split; [exact H1|]. apply N.eqb_neq in H2. now rewrite H2. }
  assert (Ist : forall x, In x t <-> exists k, In k s /\ x = new k).
  { intro x. rewrite It. split.
    - intros [H1 H2]. apply (HI x H2) in H1. destruct H1 as (k & K1 & K2 & ->). exists k. split; [apply Is; auto|reflexivity].
    - intros (k & K & ->). apply Is in K. destruct K as [K1 K2]. split; [|now apply HX]. apply HI; [now apply HX|]. exists k. auto. }
  set (f := key_of (angle_key m pos)). set (g := key_of (angle_key m' pos)).
  assert (FG : forall x, In x s -> g (new x) = f x).
  { intros x Hx. apply Is in Hx. destruct (HK x (proj1 Hx) (proj2 Hx)) as (z & Z1 & Z2). unfold f, g, key_of. now rewrite Z1, Z2. }
  assert (Fi : forall a b, In a s -> In b s -> f a = f b -> a = b).
  { intros a b Ha Hb E. apply Is in Ha, Hb. destruct (HK a (proj1 Ha) (proj2 Ha)) as (z & Z1 & _). destruct (HK b (proj1 Hb) (proj2 Hb)) as (y & Y1 & _).
    unfold f, key_of in E. rewrite Z1, Y1 in E. apply (HD a b); [apply Ha|apply Hb|apply Ha|apply Hb|]. rewrite Z1, Y1. now f_equal. }
  assert (D1 : increasing f (dedup s)) by (apply dedup_increasing; [now apply sorted_key|exact Fi]).
  assert (D2 : increasing g (dedup t)).
  { apply dedup_increasing; [now apply sorted_key|]. intros x y Hx Hy E. apply Ist in Hx, Hy. destruct Hx as (a & Ha & ->), Hy as (b & Hb & ->). f_equal. rewrite (FG a Ha), (FG b Hb) in E. now apply Fi. }
  assert (DD : dedup t = map new (dedup s)).
  { apply (increasing_eq g); [exact D2| |].
    - apply (increasing_map f); [|exact D1]. intros x Hx. rewrite dedup_In in Hx. now apply FG.
    - intro x. rewrite dedup_In, Ist, in_map_iff. split; intros (k & K1 & K2); exists k; rewrite dedup_In in *; auto. }
  rewrite DD in C2. set (ds := dedup s) in *.
  assert (Ids : forall x, In x ds -> In x old /\ x <> MAX) by (intros x Hx; apply Is; unfold ds in Hx; now rewrite dedup_In in Hx).
  destruct C1 as [[Z1 ->]|[(a & r & E1 & L1 & ->)|(a & r & h & E1 & L1 & H1 & ->)]].
  - subst s. cbn in ds. subst ds. destruct C2 as [[_ ->]|[(a & r & E1 & _)|(a & r & h & E1 & _)]]; [cbn [map]; now rewrite HN|discriminate E1|discriminate E1].
  - destruct C2 as [[Z2 ->]|[(a' & r' & E2 & L2 & ->)|(a' & r' & h & E2 & L2 & _)]].
    + exfalso. subst t. cbn in DD. rewrite E1 in DD. discriminate DD.
    + etransitivity; [|symmetry; apply map_app]. cbn [map]. now rewrite HN.
    + exfalso. apply L2. rewrite E1 in E2. cbn [map] in E2. inversion E2; subst. now rewrite map_last, L1.
  - destruct C2 as [[Z2 ->]|[(a' & r' & E2 & L2 & ->)|(a' & r' & h' & E2 & L2 & H2 & ->)]].
    + exfalso. subst t. cbn in DD. rewrite E1 in DD. discriminate DD.
    + exfalso. rewrite E1 in E2. cbn [map] in E2. inversion E2; subst. rewrite map_last in L2.
      assert (In a ds) by (rewrite E1; now left). assert (In (last r a) ds).
      { assert (G : In (last r a, a) (cyclic_pairs ds)) by (rewrite E1; apply in_or_app; right; now left). apply cyclic_In in G. apply G. }
      apply L1. apply HJ; try (now apply Ids); exact L2.
    + unfold with_markers. rewrite map_cyclic. rewrite flat_map_concat_map, flat_map_concat_map, map_map, concat_map, map_map. f_equal. apply map_ext_in.
      intros [x y] Hxy. cbn [fst snd]. pose proof (cyclic_In _ _ _ Hxy) as [Hx Hy].
      assert (E : h' (new x, new y) = h (x, y)).
      { assert (Hn : In (new x, new y) (cyclic_pairs (map new ds))) by (rewrite map_cyclic; apply in_map_iff; exists (x, y); auto).
        specialize (H1 x y Hxy). specialize (H2 _ _ Hn). destruct (Ids x Hx) as [X1 X2], (Ids y Hy) as [Y1 Y2]. rewrite (HG x y X1 Y1 X2 Y2) in H2.
        destruct (h (x, y)), (h' (new x, new y)); try reflexivity; exfalso; [assert (true = false) by (apply H1, H2; reflexivity)|assert (true = false) by (apply H2, H1; reflexivity)]; discriminate. }
      rewrite E. destruct (h (x, y)); cbn [map]; [now rewrite HN|reflexivity].
Qed.
End Lists.

Section Geometry.
Context {A : Arith}.
Implicit Types (m : Mesh A) (l : Layer A).

Lemma point_sym l l' i i' : same_point l l' i i' -> same_point l' l i' i.
Proof. intros (v & v' & H1 & H2 & H3). exists v', v. auto. Qed.
Lemma point_trans l1 l2 l3 i j k : same_point l1 l2 i j -> same_point l2 l3 j k -> same_point l1 l3 i k.
Proof. intros (v & v' & H1 & H2 & H3) (w & w' & G1 & G2 & G3). exists v, w'. split; [exact H1|]. split; [exact G2|]. assert (w = v') by congruence. subst w. congruence. Qed.
Lemma point_world l l' i i' : offset l' = offset l -> same_point l l' i i' -> exists v v', nthN (vertices l) i = Some v /\ nthN (vertices l') i' = Some v' /\ world l' v' = world l v.
Proof. intros E (v & v' & H1 & H2 & H3). exists v, v'. split; [exact H1|]. split; [exact H2|]. unfold world. now rewrite E, H3. Qed.

(** Polygon [b] of mesh [m'] looks like polygon [a] of mesh [m]. *)
Definition looks m m' (a b : N) : Prop := exists l p l' p', polygon_at m a l p /\ polygon_at m' b l' p' /\ offset l' = offset l /\ Forall2 (same_point l l') (pverts p) (pverts p').
Lemma Forall2_flip {X Y} (R : X -> Y -> Prop) (Q : Y -> X -> Prop) xs ys : (forall x y, R x y -> Q y x) -> Forall2 R xs ys -> Forall2 Q ys xs.
Proof. intros H F. induction F; constructor; auto. Qed.
Lemma looks_sym m m' a b : looks m m' a b -> looks m' m b a.
Proof.
  intros (l & p & l' & p' & H1 & H2 & H3 & H4). exists l', p', l, p. split; [exact H2|]. split; [exact H1|]. split; [now symmetry|]. revert H4. apply Forall2_flip. intros; now apply point_sym.
Qed.
Lemma near_point l l' pos i i' : offset l' = offset l -> same_point l l' i i' -> near l pos i -> near l' pos i'.
Proof. intros E H (v & V1 & V2). destruct (point_world l l' i i' E H) as (w & w' & W1 & W2 & W3). exists w'. split; [exact W2|]. rewrite W3. assert (w = v) by congruence. now subst. Qed.
Lemma next_near_point l l' pos vs vs' w : offset l' = offset l -> Forall2 (same_point l l') vs vs' -> next_near l pos vs w -> exists w', next_near l' pos vs' w' /\ same_point l l' w w'.
Proof.
  intros E HF (pre & v & post & Q & HN & HP). assert (HF2 : Forall2 (same_point l l') (vs ++ vs) (vs' ++ vs')) by (apply Forall2_app; assumption). rewrite Q in HF2.
  apply Forall2_app_inv_l in HF2. destruct HF2 as (pre' & rest' & G1 & G2 & Q'). inversion G2 as [|? v' ? r1 Hv G3]; subst. inversion G3 as [|? w' ? post' Hw G4]; subst.
  exists w'. split; [|exact Hw]. exists pre', v', post'. split; [exact Q'|]. split; [exact (near_point l l' pos v v' E Hv HN)|].
  intros u' Hu' HN'. destruct (Forall2_In_l (fun a b => same_point l' l a b) pre' pre u') as (u & Hu & HS); [revert G1; apply Forall2_flip; intros; now apply point_sym|exact Hu'|].
  apply (HP u Hu). exact (near_point l' l pos u' u (eq_sym E) HS HN').
Qed.
Lemma Forall2_rev {X Y} (R : X -> Y -> Prop) xs ys : Forall2 R xs ys -> Forall2 R (rev xs) (rev ys).
Proof. intro H. induction H; [constructor|]. cbn [rev]. apply Forall2_app; [assumption|]. constructor; [assumption|constructor]. Qed.
Lemma glued_looks m m' pos a b a' b' : looks m m' a a' -> looks m m' b b' -> glued m pos a b -> glued m' pos a' b'.
Proof.
  intros (la & pa & la' & pa' & A1 & A2 & A3 & A4) (lb & pb & lb' & pb' & B1 & B2 & B3 & B4) (xa & qa & xb & qb & w0 & w1 & v0 & v1 & G1 & G2 & G3 & G4 & G5 & G6 & G7).
  assert (xa = la /\ qa = pa) as [-> ->] by (destruct A1, G1; assert (xa = la) by congruence; subst; split; congruence).
  assert (xb = lb /\ qb = pb) as [-> ->] by (destruct B1, G2; assert (xb = lb) by congruence; subst; split; congruence).
  destruct (next_near_point la la' pos _ _ w0 A3 (Forall2_rev _ _ _ A4) G3) as (w0' & N0 & P0).
  destruct (next_near_point lb lb' pos _ _ w1 B3 B4 G4) as (w1' & N1 & P1).
  destruct (point_world la la' w0 w0' A3 P0) as (u0 & u0' & U1 & U2 & U3). destruct (point_world lb lb' w1 w1' B3 P1) as (u1 & u1' & W1 & W2 & W3).
  assert (u0 = v0) by congruence. assert (u1 = v1) by congruence. subst u0 u1.
  exists la', pa', lb', pb', w0', w1', u0', u1'. rewrite U3, W3. repeat (split; [assumption|]). exact G7.
Qed.
Lemma key_looks m m' pos a b : looks m m' a b -> angle_key m' pos b = angle_key m pos a.
Proof.
  intros (l & p & l' & p' & H1 & H2 & H3 & H4). unfold angle_key. apply polygon_of_Ok in H1, H2. rewrite H1, H2. cbn [bind fst snd]. rewrite H3.
  assert (EL : lengthN (pverts p') = lengthN (pverts p)) by (unfold lengthN; f_equal; symmetry; clear -H4; induction H4; cbn; congruence). rewrite EL.
  assert (HM : exists vs vs', mapM (index (vertices l)) (pverts p) = Ok vs /\ mapM (index (vertices l')) (pverts p') = Ok vs' /\ map (fun v => coords v) vs' = map (fun v => coords v) vs).
  { clear -H4. induction H4 as [|i i' r r' H H4 IH]; [exists [], []; auto|]. destruct IH as (vs & vs' & E1 & E2 & E3). destruct H as (v & v' & V1 & V2 & V3).
    exists (v :: vs), (v' :: vs'). cbn [mapM]. rewrite (proj2 (index_Ok _ _ _) V1), (proj2 (index_Ok _ _ _) V2), E1, E2. cbn [bind map]. rewrite V3, E3. auto. }
  destruct HM as (vs & vs' & E1 & E2 & E3). rewrite E1, E2. cbn [bind]. now rewrite E3.
Qed.
Lemma looks_geometry m m' m2 a b : looks m m' a b -> same_geometry m' m2 -> looks m m2 a b.
Proof.
  intros (l & p & l' & p' & H1 & [H2 H2'] & H3 & H4) (_ & _ & HG). destruct (Forall2_nthN _ _ _ HG _ _ H2) as (l2 & L2 & E1 & E2 & _ & _ & E3).
  exists l, p, l2, p'. split; [exact H1|]. split; [split; [exact L2|now rewrite E1]|]. split; [now rewrite E2|]. revert H4. clear -E3. intro H.
  induction H as [|i i' r r' H _ IH]; constructor; [|exact IH]. destruct H as (v & v' & V1 & V2 & V3). destruct (Forall2_nthN _ _ _ E3 _ _ V2) as (v2 & W1 & W2).
  exists v, v2. split; [exact V1|]. split; [exact W1|]. unfold same_vertex in W2. congruence.
Qed.
End Geometry.

Section Cut.
Context {A : Arith}.
Variables (W parts : Mesh A) (lw : Layer A) (new : N -> N).
Hypotheses (HW : layers W = [lw]) (HC : cut lw parts new).

Lemma cut_plain : plain parts.
Proof using HC.
  destruct (cu_small _ _ _ HC) as [_ [H1 H2]]. split; [exact H1|]. split; [exact H2|]. intros l v id Hl Hv Hid Hm. destruct (cu_parts _ _ _ HC l Hl) as [[[_ HI] _ _] _].
  apply In_nthN in Hv. destruct Hv as [vi Hv]. apply (HI vi v id Hv Hm) in Hid. destruct Hid as (p & Hp & _). exact (nthN_Some_lt _ _ _ Hp).
Qed.
Lemma sound_wf (l : Layer A) : sound l -> layer_wf l.
Proof. intros [[H _] H2 _] p Hp. split; [now apply H2|]. intros v Hv. exact (H p Hp v Hv). Qed.
Lemma cut_wf : forall l, In l (layers parts) -> layer_wf l.
Proof using HC. intros l Hl. apply sound_wf. apply (cu_parts _ _ _ HC l Hl). Qed.
Lemma part_small li (l : Layer A) pi p : nthN (layers parts) li = Some l -> nthN (polygons l) pi = Some p -> li < 256 /\ pi < 2^24 - 1.
Proof using HC.
  intros H1 H2. destruct cut_plain as (P1 & P2 & _). pose proof (nthN_Some_lt _ _ _ H1). pose proof (P2 l (nthN_In _ _ _ H1)). pose proof (nthN_Some_lt _ _ _ H2). lia.
Qed.
Lemma make_inj li pi lj pj : li < 256 -> pi < 2^24 -> lj < 256 -> pj < 2^24 -> id_make li pi = id_make lj pj -> li = lj /\ pi = pj.
Proof. intros H1 H2 H3 H4 E. split; [rewrite <- (id_layer_make li pi H1 H2), E; now apply id_layer_make|rewrite <- (id_polygon_make li pi H2), E; now apply id_polygon_make]. Qed.
Lemma whole_small k p : nthN (polygons lw) k = Some p -> k < 2^24 - 1.
Proof using HC. intro H. apply nthN_Some_lt in H. destruct (cu_small _ _ _ HC) as [H1 _]. lia. Qed.
Lemma whole_at k p : nthN (polygons lw) k = Some p -> polygon_at W k lw p.
Proof using HW HC.
  intro H. pose proof (whole_small k p H) as HK. split; [rewrite HW|]; rewrite ?id_layer_eq, ?id_polygon_eq, ?N.div_small, ?N.mod_small by lia; [reflexivity|exact H].
Qed.
Lemma at_whole id (l : Layer A) p : id < 2^32 -> polygon_at W id l p -> l = lw /\ nthN (polygons lw) id = Some p.
Proof using HW HC.
  intros HI [H1 H2]. rewrite HW in H1. pose proof (nthN_Some_lt _ _ _ H1) as HL. cbn in HL. assert (Z : id_layer id = 0) by lia. rewrite Z in H1. cbn in H1. inversion H1; subst l.
  split; [reflexivity|]. rewrite id_polygon_eq in H2. rewrite id_layer_eq in Z. assert (id / 2^24 < 256) by (apply N.div_lt_upper_bound; [lia|]; change (2^24 * 256) with (2^32); assumption).
  rewrite N.mod_small in Z by assumption. apply N.div_small_iff in Z; [|lia]. now rewrite N.mod_small in H2.
Qed.

Lemma part_of k p : nthN (polygons lw) k = Some p -> exists li pi (l : Layer A) p', new k = id_make li pi /\ li < 256 /\ pi < 2^24 - 1 /\ nthN (layers parts) li = Some l /\ nthN (polygons l) pi = Some p' /\
  is_one_way p' = is_one_way p /\ Forall2 (same_point lw l) (pverts p) (pverts p') /\ polygon_at parts (new k) l p'.
Proof using HC.
  intro H. destruct (cu_polygon _ _ _ HC k p H) as (li & pi & l & p' & E & H1 & H2 & H3 & H4). destruct (part_small li l pi p' H1 H2) as [S1 S2].
  exists li, pi, l, p'. repeat (split; [assumption|]). rewrite E. split; [rewrite id_layer_make by lia; exact H1|rewrite id_polygon_make by lia; exact H2].
Qed.
Lemma cut_looks k : k < lengthN (polygons lw) -> looks W parts k (new k).
Proof using HW HC.
  intro H. destruct (nthN_lt_Some _ _ H) as [p Hp]. destruct (part_of k p Hp) as (li & pi & l & p' & E & S1 & S2 & H1 & H2 & H3 & H4 & H5).
  exists lw, p, l, p'. split; [now apply whole_at|]. split; [exact H5|]. split; [|exact H4]. apply (cu_parts _ _ _ HC l (nthN_In _ _ _ H1)).
Qed.
Lemma new_small k : k < lengthN (polygons lw) -> new k < 2^32 /\ new k <> MAX.
Proof using HC.
  intro H. destruct (nthN_lt_Some _ _ H) as [p Hp]. destruct (part_of k p Hp) as (li & pi & l & p' & E & S1 & S2 & _). rewrite E. split; [apply id_make_lt; lia|].
  rewrite id_make_eq by lia. unfold MAX. lia.
Qed.

(** Vertex [i] of the whole layer lists polygon [k] *)
Definition has (i k : N) : Prop := exists v, nthN (vertices lw) i = Some v /\ In k (vpolys v) /\ k <> MAX.
Lemma has_polygon i k : has i k -> exists p, nthN (polygons lw) k = Some p /\ In i (pverts p).
Proof using HC. intros (v & H1 & H2 & H3). destruct (cu_whole _ _ _ HC) as [[_ HI] _ _]. now apply (HI i v k H1 H3). Qed.
Lemma lists_new li (l : Layer A) i vi : nthN (layers parts) li = Some l -> same_point lw l i vi ->
  forall pi, lists parts li vi pi -> exists k, has i k /\ new k = id_make li pi.
Proof using HC.
  intros Hl HP pi (v' & (l' & L1 & V1) & Hi & Hm). assert (l' = l) by congruence. subst l'. destruct (cu_parts _ _ _ HC l (nthN_In _ _ _ Hl)) as [[[_ HI] _ HD] _].
  apply (HI vi v' pi V1 Hm) in Hi. destruct Hi as (p' & P1 & P2). destruct (cu_onto _ _ _ HC li pi l p' Hl P1) as (k & K1 & K2). destruct (nthN_lt_Some _ _ K1) as [p Hp].
  destruct (part_of k p Hp) as (lj & pj & l2 & p2 & E & S1 & S2 & H1 & H2 & H3 & H4 & _). destruct (part_small li l pi p' Hl P1) as [S3 S4].
  rewrite E in K2. destruct (make_inj lj pj li pi) as [-> ->]; try lia. assert (l2 = l) by congruence. subst l2. assert (p2 = p') by congruence. subst p2.
  destruct (Forall2_In_l (fun a b => same_point l lw a b) (pverts p') (pverts p) vi) as (j & J1 & J2); [revert H4; apply Forall2_flip; intros; now apply point_sym|exact P2|].
  assert (i = j). { destruct (cu_whole _ _ _ HC) as [_ _ HD']. apply HD'. exact (point_trans _ _ _ _ _ _ HP J2). } subst j.
  exists k. split; [|rewrite E; reflexivity]. destruct HP as (v & _ & V & _ & _). exists v. split; [exact V|]. assert (KM : k <> MAX) by (pose proof (whole_small k p Hp); unfold MAX; lia). split; [|exact KM].
  destruct (cu_whole _ _ _ HC) as [[_ HI'] _ _]. apply (HI' i v k V KM). eauto.
Qed.
Lemma new_lists i k : has i k -> exists li pi (l : Layer A) vi, new k = id_make li pi /\ nthN (layers parts) li = Some l /\ same_point lw l i vi /\ lists parts li vi pi.
Proof using HC.
  intro H. destruct (has_polygon i k H) as (p & Hp & Hi). destruct (part_of k p Hp) as (li & pi & l & p' & E & S1 & S2 & H1 & H2 & H3 & H4 & _).
  destruct (File_facts.Forall2_In_l _ _ _ _ H4 Hi) as (vi & Hv & HP). exists li, pi, l, vi. split; [exact E|]. split; [exact H1|]. split; [exact HP|].
  pose proof HP as (v & v' & V1 & V2 & _). exists v'. split; [exists l; auto|]. assert (PM : pi <> MAX) by (unfold MAX; lia). split; [|exact PM].
  destruct (cu_parts _ _ _ HC l (nthN_In _ _ _ H1)) as [[[_ HI] _ _] _]. apply (HI vi v' pi V2 PM). eauto.
Qed.

Variables (sort : list (Z * N) -> list (Z * N)) (S : list ((N * N) * list (N * N))) (m m' : Mesh A).
Hypotheses (Hsort : sort_ok sort) (HS : sewn parts S) (HD : directions_differ W).
Hypotheses (E1 : reorder sort W = Ok m) (E2 : stitch_at_vertices sort parts S false = Ok m').

Lemma stitched : same_geometry parts m' /\ mesh_wf m' /\ forall li vi id, lists m' li vi id <->
      (exists p, lists parts li vi p /\ id = id_make li p) \/
      (exists lj vj p, linked S false li vi lj vj /\ lists parts lj vj p /\ id = id_make lj p).
Proof using HC Hsort HS E2.
  destruct (C28_stitch_adds_exactly sort parts S false Hsort cut_plain cut_wf (proj1 HS)) as (m1 & E & H1 & H2 & _ & H3). assert (m1 = m') by congruence. subst m1. auto.
Qed.
Lemma stitched_lists li (l : Layer A) i vi : nthN (layers parts) li = Some l -> same_point lw l i vi -> forall id, lists m' li vi id <-> exists k, has i k /\ id = new k.
Proof using HC Hsort HS E2.
  intros Hl HP id. destruct stitched as (_ & _ & HL). rewrite HL. split.
  - intros [(p & H1 & ->)|(lj & vj & p & H1 & H2 & ->)].
    + destruct (lists_new li l i vi Hl HP p H1) as (k & K1 & K2). exists k. auto.
    + apply HS in H1. destruct H1 as (_ & l1 & l2 & L1 & L2 & HP2). assert (l1 = l) by congruence. subst l1.
      destruct (lists_new lj l2 i vj L2 (point_trans _ _ _ _ _ _ HP HP2) p H2) as (k & K1 & K2). exists k. auto.
  - intros (k & K & ->). destruct (new_lists i k K) as (lj & pj & l2 & vj & E & L2 & HP2 & HL2). destruct (N.eq_dec li lj) as [D|D].
    + subst lj. assert (l2 = l) by congruence. subst l2. left. exists pj. split; [|exact E].
      assert (vi = vj). { destruct (cu_parts _ _ _ HC l (nthN_In _ _ _ Hl)) as [[_ _ HD'] _]. apply HD'. exact (point_trans _ _ _ _ _ _ (point_sym _ _ _ _ HP) HP2). } now subst.
    + right. exists lj, vj, pj. split; [|auto]. apply HS. split; [exact D|]. exists l, l2. split; [exact Hl|]. split; [exact L2|]. exact (point_trans _ _ _ _ _ _ (point_sym _ _ _ _ HP) HP2).
Qed.
Lemma geometry_sym (a b : Mesh A) : same_geometry a b -> same_geometry b a.
Proof.
  intros (H1 & H2 & H3). split; [now symmetry|]. split; [now symmetry|]. revert H3. apply Forall2_flip. intros l l' (G1 & G2 & G3 & G4 & G5).
  split; [now symmetry|]. split; [now symmetry|]. split; [now symmetry|]. split; [now symmetry|]. revert G5. apply Forall2_flip. unfold same_vertex. intros; now symmetry.
Qed.
Lemma middle : exists mid, reorder sort mid = Ok m' /\ same_geometry mid m' /\ (forall li vi p, lists m' li vi p <-> lists mid li vi p).
Proof using Hsort E2.
  unfold stitch_at_vertices, stitch_internals in E2. pose proof E2 as H. inv_bind H. inv_bind H. exists (set_layers parts a0). split; [exact H|].
  destruct (C29_reorder_keeps_neighbours sort _ m' Hsort H) as (G1 & G2 & _). auto.
Qed.

Lemma vertex_new li (l : Layer A) i vi (lw1 l1 : Layer A) : nthN (layers parts) li = Some l -> same_point lw l i vi -> nthN (layers m) 0 = Some lw1 -> nthN (layers m') li = Some l1 ->
  vertex_same new lw1 l1 i vi.
Proof using HW HC Hsort HS HD E1 E2.
  intros Hl HP L1 L2. destruct (reorder_vertices sort Hsort W m E1) as [Gm Hm]. destruct middle as (mid & E3 & Gmid & HLm). destruct (reorder_vertices sort Hsort mid m' E3) as [_ Hm'].
  destruct stitched as (Gp & Wf & _). pose proof HP as (v & vp & V1 & V2 & V3).
  (* the vertex of the whole mesh *)
  destruct Gm as (_ & _ & Gm). destruct (Forall2_nthN_r _ _ _ Gm _ _ L1) as (lw0 & Q1 & Q2 & Q3 & _ & _ & Q4). rewrite HW in Q1. cbn in Q1. inversion Q1; subst lw0. clear Q1.
  destruct (Forall2_nthN _ _ _ Q4 _ _ V1) as (v1 & W1 & W2). unfold same_vertex in W2.
  destruct (Hm 0 i v1 (ex_intro _ lw1 (conj L1 W1))) as (lx & vx & X1 & X2 & X3 & X4). rewrite HW in X1. cbn in X1. inversion X1; subst lx. clear X1. assert (vx = v) by congruence. subst vx.
  (* the vertex of the part *)
  pose proof Gp as (_ & _ & Gpl). destruct (Forall2_nthN _ _ _ Gpl _ _ Hl) as (l1' & R1 & R2 & R3 & _ & _ & R4). assert (l1' = l1) by congruence. subst l1'.
  destruct (Forall2_nthN _ _ _ R4 _ _ V2) as (w1 & U1 & U2). unfold same_vertex in U2.
  destruct (Hm' li vi w1 (ex_intro _ l1 (conj L2 U1))) as (lm & vm & Y1 & Y2 & Y3 & Y4).
  pose proof Gmid as (_ & _ & Gmid'). destruct (Forall2_nthN _ _ _ Gmid' _ _ Y1) as (l1' & R1' & R2' & R3' & _ & _ & R4'). assert (l1' = l1) by congruence. subst l1'.
  destruct (Forall2_nthN _ _ _ R4' _ _ Y2) as (w1' & U1' & U2'). unfold same_vertex in U2'. assert (w1' = w1) by congruence. subst w1'.
  assert (HO : offset l = offset lw) by apply (cu_parts _ _ _ HC l (nthN_In _ _ _ Hl)).
  assert (EW : world lm vm = world lw v) by (unfold world; f_equal; congruence). rewrite EW in Y4.
  assert (Wm : mesh_wf W).
  { split; [intros x Hx; rewrite HW in Hx; destruct Hx as [<- |[]]; apply sound_wf, (cu_whole _ _ _ HC)|]. intros x y id Hx Hy Hid Hmx. rewrite HW in Hx. destruct Hx as [<- |[]].
    apply In_nthN in Hy. destruct Hy as [iy Hy]. destruct (has_polygon iy id) as (p & Hp & _); [exists y; auto|]. exists lw, p. now apply whole_at. }
  assert (HH : forall k, In k (vpolys v) -> k <> MAX -> has i k) by (intros k K1 K2; exists v; auto).
  assert (HB : forall k, In k (vpolys v) -> k <> MAX -> k < lengthN (polygons lw)).
  { intros k K1 K2. destruct (has_polygon i k (HH k K1 K2)) as (p & Hp & _). exact (nthN_Some_lt _ _ _ Hp). }
  assert (HLk : forall k, In k (vpolys v) -> k <> MAX -> looks W mid k (new k)).
  { intros k K1 K2. apply (looks_geometry W m' mid); [|now apply geometry_sym]. apply (looks_geometry W parts m'); [|exact Gp]. apply cut_looks. now apply HB. }
  assert (EN : vpolys w1 = map new (vpolys v1)).
  { apply (neighbours_new W mid (world lw v) new (vpolys v) (vpolys vm) (vpolys v1) (vpolys w1) X4 Y4 (cu_none _ _ _ HC)).
    - intros k K1 K2. apply (new_small k). now apply HB.
    - intros a b A1 B1 A2 B2. apply (cu_inj _ _ _ HC); now apply HB.
    - intros id Hid. split.
      + intro H. assert (G : lists mid li vi id) by (exists vm; split; [exists lm; auto|auto]). apply HLm in G. apply (stitched_lists li l i vi Hl HP) in G.
        destruct G as (k & (vk & K1 & K2 & K3) & ->). assert (vk = v) by congruence. subst vk. exists k. auto.
      + intros (k & K1 & K2 & ->). assert (G : lists m' li vi (new k)) by (apply (stitched_lists li l i vi Hl HP); exists k; auto).
        apply HLm in G. destruct G as (vk & (lk & G1 & G2) & G3 & _). assert (lk = lm) by congruence. subst lk. assert (vk = vm) by congruence. now subst vk.
    - intros k K1 K2. destruct (angle_key_total W (world lw v) k Wm) as [z Z]; [destruct (HLk k K1 K2) as (x & p & _ & _ & X & _); eauto|]. exists z. split; [exact Z|].
      rewrite (key_looks W mid _ k (new k) (HLk k K1 K2)). exact Z.
    - intros a b A1 B1 A2 B2. apply (HD lw v a b); [rewrite HW; now left|exact (nthN_In _ _ _ V1)|assumption..].
    - intros a b A1 B1 A2 B2. split; apply glued_looks; try (now apply HLk); apply looks_sym; now apply HLk. }
  exists v1, w1. split; [exact W1|]. split; [exact U1|]. split; [unfold world; congruence|]. split; [exact EN|]. rewrite X3, Y3, EN.
  assert (NM : forall k, In k (vpolys v1) -> new k = MAX -> k = MAX).
  { intros k K1 K2. destruct (N.eq_dec k MAX) as [K3|K3]; [exact K3|]. exfalso. apply (new_neighbours_In _ _ _ _ _ X4 K3) in K1. apply (new_small k (HB k K1 K3)), K2. }
  clear -NM HC. unfold memN. induction (vpolys v1) as [|k r IH]; [reflexivity|]. cbn [map existsb]. rewrite IH by (intros x Hx; apply NM; now right). f_equal.
  destruct (N.eqb_spec MAX k) as [<- |D]; [rewrite (cu_none _ _ _ HC); reflexivity|]. apply N.eqb_neq. intro Q. apply D. symmetry. apply NM; [now left|now symmetry].
Qed.
End Cut.
