(** Facts about find_stitch_points and stitch_at_points. *)
From Coq Require Import List NArith ZArith Bool Permutation Sorted Lia.
From Verif Require Import Base Arith U32 Mesh Helpers Spec Spec_mesh Cleanup Cleanup_facts Stitch Stitch_facts.
Import ListNotations.
Open Scope N_scope.

(** lexicographic order of pairs of layer numbers *)
Definition pair_lt (a b : N * N) : Prop := fst a < fst b \/ (fst a = fst b /\ snd a < snd b).
Lemma key_le_spec a b : key_le a b = true <-> pair_lt a b \/ a = b.
Proof.
  unfold key_le, pair_lt. rewrite orb_true_iff, andb_true_iff, N.ltb_lt, N.eqb_eq, N.leb_le. destruct a as [a1 a2], b as [b1 b2]. cbn [fst snd].
  split; [intros [H|[H1 H2]]; [auto|]|intros [[H|[H1 H2]]|H]].
  - destruct (N.eq_dec a2 b2); [right; congruence|left; right; lia].
  - auto.
  - right. lia.
  - injection H as -> ->. right. lia.
Qed.
Lemma pair_lt_total a b : pair_lt a b \/ a = b \/ pair_lt b a.
Proof. unfold pair_lt. destruct a as [a1 a2], b as [b1 b2]. cbn [fst snd]. destruct (N.lt_trichotomy a1 b1) as [?|[->|?]]; auto.
  destruct (N.lt_trichotomy a2 b2) as [?|[->|?]]; auto. Qed.
Lemma pair_lt_trans a b c : pair_lt a b -> pair_lt b c -> pair_lt a c.
Proof. unfold pair_lt. lia. Qed.

Section Facts.
Context {A : Arith}.
Implicit Types (m : Mesh A) (l : Layer A) (v : Vertex A) (ls : list (Layer A)) (h : list ((N * N) * list (vec2 A))).

Lemma skipn_enum {T} (xs : list T) : forall k s, skipn k (enum_from s xs) = enum_from (s + N.of_nat k) (skipn k xs).
Proof.
  induction xs as [|x xs IH]; intros [|k] s; simpl; [reflexivity|reflexivity|now rewrite N.add_0_r|].
  rewrite IH. f_equal. lia.
Qed.
Lemma nthN_skipn {T} (xs : list T) k i : nthN (skipn k xs) i = nthN xs (N.of_nat k + i).
Proof.
  rewrite !nthN_nth_error. replace (N.to_nat (N.of_nat k + i)) with (k + N.to_nat i)%nat by lia.
  revert xs. induction k as [|k IH]; intro xs; [reflexivity|]. destruct xs; simpl; [destruct (N.to_nat i); reflexivity|apply IH].
Qed.
Lemma skipn_enumerate_In {T} (xs : list T) n j x : In (j, x) (skipn (N.to_nat n) (enumerate xs)) <-> n <= j /\ nthN xs j = Some x.
Proof.
  unfold enumerate. rewrite skipn_enum, enum_from_spec, N2Nat.id, N.add_0_l, nthN_skipn, N2Nat.id.
  split; intros [H1 H2]; (split; [assumption|]); replace (n + (j - n)) with j in * by lia; assumption.
Qed.

Lemma common_points_In ls a b p : lengthN ls <= 256 -> (In ((a, b), p) (common_points ls) <->
  a < b /\ exists v w la lb, nthN ls a = Some la /\ nthN ls b = Some lb /\ In v (vertices la) /\ In w (vertices lb) /\
    veq (coords v) (coords w) = true /\ p = coords v).
Proof.
  intro HL. unfold common_points. rewrite in_flat_map. split.
  - intros ([i l] & Hi & H). apply enumerate_spec in Hi. rewrite in_flat_map in H. destruct H as (v & Hv & H). cbn [fst snd] in *.
    rewrite in_flat_map in H. destruct H as ([j l'] & Hj & H). apply skipn_enumerate_In in Hj. destruct Hj as [Hij Hj].
    rewrite in_flat_map in H. destruct H as (w & Hw & H). cbn [fst snd] in *. destruct (veq (coords v) (coords w)) eqn:E; [|destruct H].
    destruct H as [H|[]]. injection H as <- <- <-. pose proof (nthN_Some_lt _ _ _ Hi). pose proof (nthN_Some_lt _ _ _ Hj).
    rewrite !N.mod_small by lia. split; [lia|]. exists v, w, l, l'. auto 10.
  - intros (Hab & v & w & la & lb & Ha & Hb & Hv & Hw & E & ->). pose proof (nthN_Some_lt _ _ _ Ha). pose proof (nthN_Some_lt _ _ _ Hb).
    exists (a, la). split; [now apply enumerate_spec|]. apply in_flat_map. exists v. split; [assumption|]. apply in_flat_map. exists (b, lb).
    split; [apply skipn_enumerate_In; cbn [fst]; split; [lia|assumption]|]. apply in_flat_map. exists w. split; [assumption|]. cbn [fst snd].
    rewrite E, !N.mod_small by lia. now left.
Qed.

(** the map *)
Definition has h (k : N * N) (p : vec2 A) : Prop := exists ps, In (k, ps) h /\ In p ps.
Lemma entry_push_fst k p h x : In x (map fst (entry_push k p h)) <-> x = k \/ In x (map fst h).
Proof.
  induction h as [|[k' ps] h IH]; simpl; [intuition|]. destruct k as [k1 k2], k' as [k1' k2']. cbn [fst snd].
  destruct (N.eqb_spec k1 k1') as [<-|D]; destruct (N.eqb_spec k2 k2') as [<-|D2]; simpl; rewrite ?IH; intuition.
Qed.
Lemma entry_push_NoDup k p h : NoDup (map fst h) -> NoDup (map fst (entry_push k p h)).
Proof.
  induction h as [|[k' ps] h IH]; simpl; intro H; [constructor; auto; constructor|]. inversion H; subst.
  destruct (N.eqb (fst k) (fst k') && N.eqb (snd k) (snd k')) eqn:E; simpl; constructor; auto.
  rewrite entry_push_fst. intros [->|G]; [|contradiction]. rewrite !N.eqb_refl in E. discriminate.
Qed.
Lemma entry_push_has k p h k' q : has (entry_push k p h) k' q <-> has h k' q \/ (k' = k /\ q = p).
Proof.
  unfold has. induction h as [|[k0 ps] h IH]; simpl.
  - split.
    + intros (qs & [E|[]] & Hq). injection E as <- <-. destruct Hq as [<-|[]]. auto.
    + intros [(qs & [] & _)|[-> ->]]. exists [p]. split; [now left|now left].
  - destruct (N.eqb_spec (fst k) (fst k0)) as [E1|D]; [destruct (N.eqb_spec (snd k) (snd k0)) as [E2|D]|]; cbn [andb].
    + assert (k0 = k) by (destruct k, k0; cbn [fst snd] in *; congruence). subst k0. split.
      * intros (qs & [E|Hi] & Hq); [|left; eauto]. injection E as <- <-. apply in_app_iff in Hq. destruct Hq as [Hq|[<-|[]]]; [left; eauto|auto].
      * intros [(qs & [E|Hi] & Hq)|[-> ->]].
        -- injection E as <- <-. exists (ps ++ [p]). split; [now left|]. apply in_app_iff. now left.
        -- exists qs. split; [now right|assumption].
        -- exists (ps ++ [p]). split; [now left|]. apply in_app_iff. right. now left.
    + split.
      * intros (qs & [E|Hi] & Hq); [injection E as <- <-; left; exists ps; auto|].
        assert (exists qs, In (k', qs) (entry_push k p h) /\ In q qs) as G by eauto. apply IH in G. destruct G as [(qs' & G1 & G2)|G]; [left; eauto|auto].
      * intros [(qs & [E|Hi] & Hq)|G]; [exists qs; split; [now left|assumption]|..].
        -- destruct (proj2 IH) as (qs' & G1 & G2); [left; eauto|]. exists qs'. split; [now right|assumption].
        -- destruct (proj2 IH) as (qs' & G1 & G2); [auto|]. exists qs'. split; [now right|assumption].
    + split.
      * intros (qs & [E|Hi] & Hq); [injection E as <- <-; left; exists ps; auto|].
        assert (exists qs, In (k', qs) (entry_push k p h) /\ In q qs) as G by eauto. apply IH in G. destruct G as [(qs' & G1 & G2)|G]; [left; eauto|auto].
      * intros [(qs & [E|Hi] & Hq)|G]; [exists qs; split; [now left|assumption]|..].
        -- destruct (proj2 IH) as (qs' & G1 & G2); [left; eauto|]. exists qs'. split; [now right|assumption].
        -- destruct (proj2 IH) as (qs' & G1 & G2); [auto|]. exists qs'. split; [now right|assumption].
Qed.
Lemma entry_push_nonempty k p h : (forall x, In x h -> snd x <> []) -> forall x, In x (entry_push k p h) -> snd x <> [].
Proof.
  induction h as [|[k0 ps] h IH]; simpl; intros H x Hx.
  - destruct Hx as [<-|[]]. discriminate.
  - destruct (N.eqb (fst k) (fst k0) && N.eqb (snd k) (snd k0)).
    + destruct Hx as [<-|Hx]; [cbn [snd]; destruct ps; discriminate|apply H; auto].
    + destruct Hx as [<-|Hx]; [apply (H (k0, ps)); auto|]. apply IH; auto.
Qed.

Definition collect (kps : list ((N * N) * vec2 A)) h : list ((N * N) * list (vec2 A)) :=
  fold_left (fun h kp => entry_push (fst kp) (snd kp) h) kps h.
Lemma collect_spec kps : forall h, NoDup (map fst h) -> (forall x, In x h -> snd x <> []) ->
  NoDup (map fst (collect kps h)) /\ (forall x, In x (collect kps h) -> snd x <> []) /\
  forall k p, has (collect kps h) k p <-> has h k p \/ In (k, p) kps.
Proof.
  induction kps as [|[k0 p0] kps IH]; intros h H1 H2; simpl.
  - split; [assumption|]. split; [assumption|]. intros. intuition.
  - destruct (IH (entry_push k0 p0 h)) as (G1 & G2 & G3); [now apply entry_push_NoDup|now apply entry_push_nonempty|].
    split; [assumption|]. split; [assumption|]. intros k p. rewrite G3, entry_push_has. 
    split; [intros [[G|[-> ->]]|G]|intros [G|[G|G]]]; auto. injection G as -> ->. auto.
Qed.

Lemma insert_key_perm (x : (N * N) * list (vec2 A)) h : Permutation (x :: h) (insert_key x h).
Proof.
  induction h as [|y h IH]; simpl; [reflexivity|]. destruct (key_le (fst x) (fst y)); [reflexivity|].
  rewrite perm_swap. now constructor.
Qed.
Lemma sort_keys_perm h : Permutation h (sort_keys h).
Proof. induction h as [|x h IH]; simpl; [constructor|]. rewrite <- insert_key_perm. now constructor. Qed.
Lemma insert_key_sorted (x : (N * N) * list (vec2 A)) h : StronglySorted (fun a b => pair_lt (fst a) (fst b)) h -> ~ In (fst x) (map fst h) ->
  StronglySorted (fun a b => pair_lt (fst a) (fst b)) (insert_key x h).
Proof.
  induction 1 as [|y h Hh IH Hy]; simpl; intro Hn; [constructor; constructor|].
  destruct (key_le (fst x) (fst y)) eqn:E.
  - apply key_le_spec in E. destruct E as [E|E]; [|exfalso; auto]. constructor; [constructor; assumption|]. constructor; [assumption|].
    eapply Forall_impl; [|exact Hy]. intros z Hz. eapply pair_lt_trans; eassumption.
  - assert (pair_lt (fst y) (fst x)) as Hyx.
    { destruct (pair_lt_total (fst x) (fst y)) as [G|[G|G]]; [|exfalso; auto|assumption].
      assert (key_le (fst x) (fst y) = true) by (apply key_le_spec; auto). congruence. }
    constructor; [apply IH; tauto|]. apply Forall_forall. intros z Hz. eapply Permutation_in in Hz; [|symmetry; apply insert_key_perm].
    destruct Hz as [<-|Hz]; [assumption|]. rewrite Forall_forall in Hy. now apply Hy.
Qed.
Lemma sort_keys_sorted h : NoDup (map fst h) -> StronglySorted (fun a b => pair_lt (fst a) (fst b)) (sort_keys h).
Proof.
  induction h as [|x h IH]; simpl; intro H; [constructor|]. inversion H; subst. apply insert_key_sorted; [now apply IH|].
  intro G. apply H2. eapply Permutation_in; [|exact G]. apply Permutation_map. symmetry. apply sort_keys_perm.
Qed.

Lemma find_spec m : lengthN (layers m) <= 256 ->
  StronglySorted (fun a b => pair_lt (fst a) (fst b)) (find_stitch_points m) /\
  (forall k ps, In (k, ps) (find_stitch_points m) -> ps <> []) /\
  forall k p, (exists ps, In (k, ps) (find_stitch_points m) /\ In p ps) <-> In (k, p) (common_points (layers m)).
Proof.
  intro HL. unfold find_stitch_points. change (fold_left _ (common_points (layers m)) []) with (collect (common_points (layers m)) []).
  destruct (collect_spec (common_points (layers m)) []) as (G1 & G2 & G3); [constructor|intros ? []|].
  assert (HP : forall x, In x (sort_keys (collect (common_points (layers m)) [])) <-> In x (collect (common_points (layers m)) [])).
  { intro x. split; intro H; (eapply Permutation_in; [|exact H]); [symmetry|]; apply sort_keys_perm. }
  split; [now apply sort_keys_sorted|]. split.
  - intros k ps H. apply HP in H. apply (G2 _ H).
  - intros k p. specialize (G3 k p). unfold has in G3. split.
    + intros (ps & H & Hp). apply HP in H. destruct (proj1 G3) as [(? & [] & _)|G]; eauto.
    + intro H. destruct (proj2 G3) as (ps & Hi & Hp); [auto|]. exists ps. split; [now apply HP|assumption].
Qed.

(** *** positions *)
Definition eq_laws : Prop :=
  (forall x y : F A, feq x y = true -> feq y x = true) /\ (forall x y : F A, feq x y = true -> feq x x = true).

Lemma position_spec (vs : list (Vertex A)) p : forall i k, position vs p i = Some k ->
  i <= k /\ (exists v, nthN vs (k - i) = Some v /\ veq (coords v) p = true) /\ forall j w, j < k - i -> nthN vs j = Some w -> veq (coords w) p = false.
Proof.
  induction vs as [|v r IH]; intros i k H; simpl in H; [discriminate|]. destruct (veq (coords v) p) eqn:E.
  - injection H as <-. split; [lia|]. rewrite N.sub_diag. split; [exists v; auto|]. intros; lia.
  - apply IH in H. destruct H as (H1 & (w & H2 & H3) & H4). split; [lia|].
    assert (N.pred (k - i) = k - (i + 1)) as EP by lia. split.
    + exists w. split; [|assumption]. simpl. destruct (N.eqb_spec (k - i) 0); [lia|]. now rewrite EP.
    + intros j u Hj Hu. simpl in Hu. destruct (N.eqb_spec j 0); [injection Hu as <-; assumption|]. apply (H4 (N.pred j)); [lia|assumption].
Qed.
Lemma position_total (vs : list (Vertex A)) p v : In v vs -> veq (coords v) p = true -> forall i, exists k, position vs p i = Some k.
Proof.
  induction vs as [|w r IH]; intros Hv E i; [destruct Hv|]. simpl. destruct (veq (coords w) p) eqn:Ew; [eauto|].
  destruct Hv as [->|Hv]; [congruence|]. now apply IH.
Qed.

(** [f] is the first vertex of the layer at position [p] *)
Definition first_at m (li : N) (p : vec2 A) (f : N) : Prop :=
  exists l v, nthN (layers m) li = Some l /\ nthN (vertices l) f = Some v /\ veq (coords v) p = true /\
    forall j w, j < f -> nthN (vertices l) j = Some w -> veq (coords w) p = false.

Lemma points_to_vertices_spec m S sv : points_to_vertices m S = Ok sv ->
  Forall2 (fun s s' => fst s' = fst s /\
    Forall2 (fun p ft => first_at m (fst (fst s)) p (fst ft) /\ first_at m (snd (fst s)) p (snd ft)) (snd s) (snd s')) S sv.
Proof.
  unfold points_to_vertices. intro H. apply mapM_Ok in H. induction H; constructor; [|assumption]. inv_bind H. injection H as <-.
  cbn [fst snd]. split; [reflexivity|]. apply mapM_Ok in E. clear -E. induction E; constructor; [|assumption].
  inv_bind H. inv_bind H. inv_bind H. inv_bind H. injection H as <-. cbn [fst snd].
  apply index_Ok in E0, E2. apply unwrap_Ok in E1, E3. apply position_spec in E1, E3. destruct E1 as (_ & (v & G1 & G2) & G3). destruct E3 as (_ & (w & K1 & K2) & K3).
  rewrite N.sub_0_r in *. split; [exists a, v|exists a1, w]; auto.
Qed.

Lemma points_to_vertices_total m S :
  (forall k ps p, In (k, ps) S -> In p ps ->
     (exists l v, nthN (layers m) (fst k) = Some l /\ In v (vertices l) /\ veq (coords v) p = true) /\
     (exists l v, nthN (layers m) (snd k) = Some l /\ In v (vertices l) /\ veq (coords v) p = true)) ->
  exists sv, points_to_vertices m S = Ok sv.
Proof.
  intro H. apply mapM_total. intros [k qs] Hs. cbn [fst snd].
  match goal with |- exists b, (let* vs := mapM ?f _ in _) = Ok b => destruct (mapM_total f qs) as [vs ->]; [|cbn [bind]; eauto] end.
  intros p Hp. destruct (H k qs p Hs Hp) as [(l & v & H1 & H2 & H3) (l' & w & K1 & K2 & K3)].
  unfold index. rewrite H1. cbn [unwrap bind]. destruct (position_total _ p v H2 H3 0) as [f ->]. cbn [unwrap bind].
  rewrite K1. cbn [unwrap bind]. destruct (position_total _ p w K2 K3 0) as [g ->]. cbn [unwrap bind]. eauto.
Qed.

Lemma points_stitches_ok m S sv : (forall k ps, In (k, ps) S -> ps <> [] -> fst k <> snd k) ->
  points_to_vertices m S = Ok sv -> (forall k ps, In (k, ps) S -> ps <> []) -> stitches_ok m sv.
Proof.
  intros Hne H Hps. apply points_to_vertices_spec in H. intros from to ps Hi. apply In_nthN in Hi. destruct Hi as [i Hi].
  destruct (Forall2_nthN_r _ _ _ H _ _ Hi) as ([k qs] & Hk & E & Hf). cbn [fst snd] in *. subst k. apply nthN_In in Hk.
  pose proof (Hps _ _ Hk) as Hq. split; [apply (Hne _ _ Hk Hq)|].
  destruct Hf as [|q ft qs' ps' (F1 & F2) Hf]; [congruence|].
  destruct F1 as (l1 & v1 & A1 & A2 & _). destruct F2 as (l2 & v2 & B1 & B2 & _). cbn [fst snd] in *. split; [eauto|]. split; [eauto|].
  intros f t [->|Hin].
  - cbn [fst snd] in *. split; [exists v1, l1; auto|exists v2, l2; auto].
  - clear -Hf Hin. induction Hf; [destruct Hin|]. destruct Hin as [->|Hin]; [|now apply IHHf].
    destruct H as ((l1 & v1 & A1 & A2 & _) & (l2 & v2 & B1 & B2 & _)). cbn [fst snd] in *. split; [exists v1, l1; auto|exists v2, l2; auto].
Qed.
End Facts.
