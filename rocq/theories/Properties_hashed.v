(** C44: the answers do not depend on the hash tables, that is on their random seed, capacity and growth. *)
From Coq Require Import List NArith ZArith Bool Lia.
From Verif Require Import Base Arith F32 RealArith U32 Mesh Helpers Locate Search AsyncPath Spec Closest_facts Search_facts
  Search_hist Search_props Detailed_sim F32_facts Properties_mesh Hashed.
From Verif Require Tests.
Import ListNotations.
Open Scope N_scope.

Section Any.
Context {A : Arith} (OL : order_laws A) (seed : Seed).
Context (HK : forall a b : vec2 A, veq a b = true -> hash_key a = hash_key b).
Implicit Types (t : table (A := A)) (b : bucket (A := A)) (r q : vec2 A) (x : F A).

Lemma slot_eq n r q : veq r q = true -> slot seed n r = slot seed n q.
Proof using HK. intro H. unfold slot. now rewrite (HK _ _ H). Qed.

(** *** tables: every root is in its slot *)
Definition well_placed t : Prop :=
  t <> [] /\ forall i b e, nthN t i = Some b -> In e b -> slot seed (lengthN t) (fst e) = i.

Lemma change_length t i f : lengthN (change t i f) = lengthN t.
Proof.
  revert i. induction t as [|b t IH]; intro i; cbn [change]; [reflexivity|].
  destruct (N.eqb i 0); [reflexivity|]. unfold lengthN in *. cbn [length]. specialize (IH (N.pred i)). lia.
Qed.
Lemma change_same t i f b : nthN t i = Some b -> nthN (change t i f) i = Some (f b).
Proof.
  revert i. induction t as [|b0 t IH]; intros i H; [discriminate|]. cbn [nthN change] in *.
  destruct (N.eqb i 0) eqn:E; cbn [nthN]; rewrite E; [congruence|]. now apply IH.
Qed.
Lemma change_other t i j f : i <> j -> nthN (change t i f) j = nthN t j.
Proof.
  revert i j. induction t as [|b0 t IH]; intros i j H; [reflexivity|]. cbn [change].
  destruct (N.eqb_spec i 0) as [E|E]; cbn [nthN].
  - destruct (N.eqb_spec j 0); [congruence|reflexivity].
  - destruct (N.eqb_spec j 0); [reflexivity|]. apply IH. lia.
Qed.

Lemma slot_lt t r : t <> [] -> slot seed (lengthN t) r < lengthN t.
Proof. intro H. unfold slot. apply N.mod_lt. destruct t; [congruence|]. unfold lengthN. cbn [length]. lia. Qed.
Lemma slot_bucket t r : t <> [] -> exists b, nthN t (slot seed (lengthN t) r) = Some b.
Proof. intro H. apply nthN_lt_Some. now apply slot_lt. Qed.

Lemma hist_get_none b q : (forall e, In e b -> veq (fst e) q = false) -> hist_get b q = None.
Proof.
  induction b as [|[k v] b IH]; intro H; [reflexivity|]. cbn [hist_get].
  pose proof (H (k, v) (or_introl eq_refl)) as H1. cbn [fst] in H1. rewrite H1. apply IH. intros e He. apply H. now right.
Qed.
Lemma hist_get_app b b' q : hist_get (b ++ b') q = match hist_get b q with Some v => Some v | None => hist_get b' q end.
Proof. induction b as [|[k v] b IH]; [reflexivity|]. cbn [app hist_get]. destruct (veq k q); [reflexivity|exact IH]. Qed.
Lemma hist_get_filter p b q : (forall e, In e b -> veq (fst e) q = true -> p e = true) ->
  hist_get (filter p b) q = hist_get b q.
Proof.
  induction b as [|[k v] b IH]; intro H; [reflexivity|]. cbn [filter hist_get].
  assert (IH' := IH (fun e He => H e (or_intror He))).
  destruct (veq k q) eqn:E.
  - rewrite (H (k, v) (or_introl eq_refl) E). cbn [hist_get]. now rewrite E.
  - destruct (p (k, v)); [cbn [hist_get]; now rewrite E|exact IH'].
Qed.

(** the whole content of the table, looked up by equality *)
Lemma get_concat t q : well_placed t -> hist_get (concat t) q = table_get seed t q.
Proof using HK.
  intros [H0 H]. unfold table_get. destruct (slot_bucket t q H0) as (b & Hb). rewrite Hb.
  set (n := lengthN t) in *. set (s := slot seed n q) in *. 
  assert (G : forall t' k, (forall i b e, nthN t' i = Some b -> In e b -> slot seed n (fst e) = k + i) ->
     (s < k -> hist_get (concat t') q = None) /\
     (forall i b', s = k + i -> nthN t' i = Some b' -> hist_get (concat t') q = hist_get b' q)).
  { clear - HK. induction t' as [|b0 t' IH]; intros k H.
    - split; [reflexivity|]. intros i b' _ H1. discriminate H1.
    - assert (H' : forall i b e, nthN t' i = Some b -> In e b -> slot seed n (fst e) = (N.succ k) + i).
      { intros i b e H1 H2. rewrite (H (N.succ i) b e); [lia| |exact H2]. cbn [nthN].
        destruct (N.eqb_spec (N.succ i) 0); [lia|]. now rewrite N.pred_succ. }
      specialize (IH _ H'). destruct IH as [IH1 IH2].
      assert (Hb0 : s <> k -> hist_get b0 q = None).
      { intro Hn. apply hist_get_none. intros e He. destruct (veq (fst e) q) eqn:E; [|reflexivity]. exfalso. apply Hn.
        unfold s. rewrite <- (slot_eq n _ _ E). rewrite (H 0 b0 e eq_refl He). lia. }
      split.
      + intro Hs. cbn [concat]. rewrite hist_get_app, Hb0 by lia. apply IH1. lia.
      + intros i b' Hs Hn. cbn [concat]. rewrite hist_get_app. cbn [nthN] in Hn. destruct (N.eqb_spec i 0) as [E|E].
        * rewrite E in *. injection Hn as <-. rewrite (IH1 ltac:(lia)). destruct (hist_get b0 q); reflexivity.
        * rewrite Hb0 by lia. apply (IH2 (N.pred i)); [lia|exact Hn]. }
  destruct (G t 0) as [_ G2].
  { intros i b0 e H1 H2. rewrite (H i b0 e H1 H2). lia. }
  apply (G2 s b); [lia|exact Hb].
Qed.

Lemma new_placed : well_placed (table_new seed).
Proof.
  split; [discriminate|]. intros i b e H1 H2. exfalso. apply nthN_In in H1. destruct H1 as [<-|H1]; [exact H2|].
  apply repeat_spec in H1. subst b. exact H2.
Qed.
Lemma new_get q : table_get seed (table_new seed) q = None.
Proof.
  unfold table_get. destruct (nthN _ _) as [b|] eqn:E; [|reflexivity]. apply nthN_In in E.
  assert (b = []) as ->; [|reflexivity]. destruct E as [<-|E]; [reflexivity|]. now apply repeat_spec in E.
Qed.

Lemma hist_set_keys b r x e : In e (hist_set b r x) -> exists e', In e' b /\ fst e' = fst e.
Proof.
  induction b as [|[k v] b IH]; cbn [hist_set]; [intros []|]. destruct (veq k r).
  - intros [<-|H]; [exists (k, v); now split; [left|]|]. exists e. split; [now right|reflexivity].
  - intros [<-|H]; [exists (k, v); now split; [left|]|]. destruct (IH H) as (e' & H1 & H2). exists e'. split; [now right|exact H2].
Qed.

Lemma set_placed t r x : well_placed t -> well_placed (table_set seed t r x).
Proof.
  intros [H0 H]. unfold table_set. split.
  - intro E. apply (f_equal lengthN) in E. rewrite change_length in E. destruct t; [congruence|]. unfold lengthN in E. cbn in E. lia.
  - intros i b e H1 H2. rewrite change_length. set (s := slot seed (lengthN t) r) in *.
    destruct (N.eq_dec s i) as [<-|Hn].
    + destruct (slot_bucket t r H0) as (b0 & Hb0). fold s in Hb0. rewrite (change_same _ _ _ _ Hb0) in H1. injection H1 as <-.
      apply hist_set_keys in H2. destruct H2 as (e' & H2 & H3). rewrite <- H3. exact (H _ _ _ Hb0 H2).
    + rewrite (change_other _ _ _ _ Hn) in H1. exact (H _ _ _ H1 H2).
Qed.
Lemma set_get t r x o q : well_placed t -> table_get seed t r = Some o ->
  table_get seed (table_set seed t r x) q = if veq r q then Some x else table_get seed t q.
Proof using HK OL.
  intros [H0 H] Hg. unfold table_get in *. unfold table_set. rewrite change_length.
  destruct (slot_bucket t r H0) as (b0 & Hb0). rewrite Hb0 in Hg.
  set (s := slot seed (lengthN t) r) in *. set (s' := slot seed (lengthN t) q) in *.
  destruct (N.eq_dec s s') as [E|Hn].
  - rewrite <- E, (change_same _ _ _ _ Hb0), Hb0. exact (hist_get_set OL _ _ _ _ _ Hg).
  - rewrite (change_other _ _ _ _ Hn). destruct (veq r q) eqn:E; [|reflexivity]. exfalso. apply Hn. exact (slot_eq _ _ _ E).
Qed.

Lemma rangeN_length n : lengthN (rangeN n) = n.
Proof. unfold rangeN, lengthN. rewrite map_length, seq_length. lia. Qed.
Lemma rangeN_nth n i : i < n -> nthN (rangeN n) i = Some i.
Proof.
  intro H. unfold rangeN. rewrite nthN_nth_error. rewrite nth_error_map.
  rewrite (nth_error_nth' _ 0%nat) by (rewrite seq_length; lia). rewrite seq_nth by lia. cbn. f_equal. lia.
Qed.
Lemma rehash_length t n : lengthN (rehash seed t n) = n.
Proof. unfold rehash, lengthN. rewrite map_length. fold (lengthN (rangeN n)). apply rangeN_length. Qed.
Lemma rehash_nth t n i : i < n ->
  nthN (rehash seed t n) i = Some (filter (fun e => N.eqb (slot seed n (fst e)) i) (concat t)).
Proof. intro H. unfold rehash. rewrite nthN_nth_error, nth_error_map, <- nthN_nth_error, (rangeN_nth _ _ H). reflexivity. Qed.
Lemma rehash_placed t n : 0 < n -> well_placed (rehash seed t n).
Proof.
  intro Hn. split.
  - intro E. apply (f_equal lengthN) in E. rewrite rehash_length in E. cbn in E. lia.
  - intros i b e H1 H2. pose proof (nthN_Some_lt _ _ _ H1) as Hi. rewrite rehash_length in *. rewrite (rehash_nth _ _ _ Hi) in H1.
    injection H1 as <-. apply filter_In in H2. destruct H2 as [_ H2]. now apply N.eqb_eq.
Qed.
Lemma rehash_get t n q : 0 < n -> well_placed t -> table_get seed (rehash seed t n) q = table_get seed t q.
Proof using HK.
  intros Hn H. rewrite <- (get_concat _ _ H). unfold table_get at 1. rewrite rehash_length, rehash_nth.
  - apply hist_get_filter. intros e _ He. apply N.eqb_eq. exact (slot_eq _ _ _ He).
  - unfold slot. apply N.mod_lt. lia.
Qed.

Lemma push_placed t r x : well_placed t -> well_placed (change t (slot seed (lengthN t) r) (fun b => (r, x) :: b)).
Proof.
  intros [H0 H]. split.
  - intro E. apply (f_equal lengthN) in E. rewrite change_length in E. destruct t; [congruence|]. unfold lengthN in E. cbn in E. lia.
  - intros i b e H1 H2. rewrite change_length. set (s := slot seed (lengthN t) r) in *.
    destruct (N.eq_dec s i) as [<-|Hn].
    + destruct (slot_bucket t r H0) as (b0 & Hb0). fold s in Hb0. rewrite (change_same _ _ _ _ Hb0) in H1. injection H1 as <-.
      destruct H2 as [<-|H2]; [reflexivity|]. exact (H _ _ _ Hb0 H2).
    + rewrite (change_other _ _ _ _ Hn) in H1. exact (H _ _ _ H1 H2).
Qed.
Lemma push_get t r x q : well_placed t ->
  table_get seed (change t (slot seed (lengthN t) r) (fun b => (r, x) :: b)) q = if veq r q then Some x else table_get seed t q.
Proof using HK.
  intros [H0 H]. unfold table_get. rewrite change_length.
  destruct (slot_bucket t r H0) as (b0 & Hb0).
  set (s := slot seed (lengthN t) r) in *. set (s' := slot seed (lengthN t) q) in *.
  destruct (N.eq_dec s s') as [E|Hn].
  - rewrite <- E, (change_same _ _ _ _ Hb0), Hb0. reflexivity.
  - rewrite (change_other _ _ _ _ Hn). destruct (veq r q) eqn:E; [|reflexivity]. exfalso. apply Hn. exact (slot_eq _ _ _ E).
Qed.

Lemma add_placed t r x : well_placed t -> well_placed (table_add seed t r x).
Proof.
  intro H. unfold table_add. destruct (growth _ _ _) as [n|]; apply push_placed; [apply rehash_placed; lia|exact H].
Qed.
Lemma add_get t r x q : well_placed t ->
  table_get seed (table_add seed t r x) q = if veq r q then Some x else table_get seed t q.
Proof using HK.
  intro H. unfold table_add. destruct (growth _ _ _) as [n|].
  - rewrite push_get by (apply rehash_placed; lia). destruct (veq r q); [reflexivity|]. apply rehash_get; [lia|exact H].
  - now apply push_get.
Qed.

(** *** the search *)
Definition same_table (h : list (vec2 A * F A)) t : Prop := well_placed t /\ forall q, hist_get h q = table_get seed t q.
Definition hsim (st : State A) (ht : HState) : Prop :=
  squeue st = hqueue ht /\ sbuffer st = hbuffer ht /\ same_table (shist st) (htable ht).

Lemma hadd_node_sim c st ht root os s e n :
  hsim st ht -> hsim (add_node c st root os s e n) (hadd_node seed c ht root os s e n).
Proof using HK OL.
  intros (S1 & S2 & S3 & S4). unfold add_node, hadd_node. set (nn := new_node c root os s e n).
  destruct (fnan _ || fnan _); [repeat split; try assumption; apply S3|].
  destruct (hist_get (shist st) root) as [o|] eqn:E; rewrite S4 in E; rewrite E.
  - destruct (flt _ _); [repeat split; try assumption; apply S3|].
    split; [exact S1|]. split; [cbn [sbuffer hbuffer]; now rewrite S2|]. cbn [shist htable]. split; [now apply set_placed|].
    intro q. rewrite <- S4 in E. rewrite (hist_get_set OL _ _ _ _ _ E). rewrite S4 in E. rewrite (set_get _ _ _ _ _ S3 E). now rewrite S4.
  - split; [exact S1|]. split; [cbn [sbuffer hbuffer]; now rewrite S2|]. cbn [shist htable]. split; [now apply add_placed|].
    intro q. rewrite (add_get _ _ _ _ S3). cbn [hist_get]. now rewrite S4.
Qed.
Lemma hflush_sim st ht : hsim st ht -> hsim (flush_nodes st) (hflush ht).
Proof. intros (S1 & S2 & S3). unfold hsim, flush_nodes, hflush. cbn [squeue sbuffer shist hqueue hbuffer htable]. rewrite S1, S2. auto. Qed.

Lemma hsetup_sim c from ps : rsim hsim (setup c from ps) (hsetup seed c from ps).
Proof using HK OL.
  unfold setup, hsetup. apply rsim_same. intros l _. apply rsim_same. intros p _. apply rsim_same. intros es _.
  apply (rsim_bind hsim).
  - apply rsim_foldM.
    + intros x s s' _ HS. unfold setup_edge, hsetup_edge.
      destruct (nthN (vertices l) (fst x)) as [sv|]; [|exact HS]. destruct (nthN (vertices l) (snd x)) as [ev|]; [|exact HS].
      destruct (memN _ _); [exact HS|]. apply rsim_same. intros [] _; [|exact HS]. now apply hadd_node_sim.
    + split; [reflexivity|]. split; [reflexivity|]. cbn [shist htable]. split; [apply add_placed, new_placed|].
      intro q. rewrite (add_get _ _ _ _ new_placed), new_get. reflexivity.
  - intros s s' _ HS. now apply hflush_sim.
Qed.

Lemma hexpand_sim c n st ht : hsim st ht -> rsim hsim (expand c n st) (hexpand seed c n ht).
Proof using HK OL.
  intro HS0. unfold expand, hexpand. apply rsim_same. intros ss _. apply rsim_same. intros l _.
  apply rsim_foldM; [|exact HS0]. intros x s s' _ HS. unfold expand_one, hexpand_one.
  apply rsim_same. intros sv _. apply rsim_same. intros ev _.
  destruct (N.eqb _ _); [exact HS|]. destruct (memN _ _); [exact HS|].
  apply rsim_same. intros [] _; [exact HS|]. destruct (N.eqb _ _); [exact HS|].
  apply rsim_same. intros [root|] _; [|exact HS]. destruct (flt _ _); [exact HS|]. now apply hadd_node_sim.
Qed.

Lemma hsuccessors_sim fuel c : forall visited n st ht, hsim st ht ->
  rsim hsim (successors fuel c visited n st) (hsuccessors seed fuel c visited n ht).
Proof using HK OL.
  induction fuel as [|fuel IH]; intros visited n st ht HS; cbn [successors hsuccessors]; [exact I|].
  apply (rsim_bind hsim); [now apply hexpand_sim|]. intros s s' _ H. pose proof H as (S1 & S2 & S3). rewrite <- S2.
  destruct (sbuffer s) as [|n' [|n'' r]]; try (apply hflush_sim; exact H).
  destruct (N.eqb _ _); [apply hflush_sim; exact H|].
  assert (H' : hsim (mkState (squeue s) [] (shist s)) (mkHState (hqueue s') [] (htable s'))) by (split; [exact S1|split; [reflexivity|exact S3]]).
  destruct (reverse_of _ _); [apply hflush_sim; exact H'|]. destruct (memN _ _); [apply hflush_sim; exact H'|]. now apply IH.
Qed.

Definition step_sim (a : State A * Step A) (b : HState * Step A) : Prop := hsim (fst a) (fst b) /\ snd a = snd b.
Lemma hnext_sim lib c st ht : hsim st ht -> rsim step_sim (next lib c st) (hnext seed lib c ht).
Proof using HK OL.
  intros (S1 & S2 & S3). unfold next, hnext. rewrite S1. destruct (lpop lib (hqueue ht)) as [[n q]|].
  - cbn [shist htable sbuffer hbuffer]. rewrite (proj2 S3).
    assert (H : hsim (mkState q (sbuffer st) (shist st)) (mkHState q (hbuffer ht) (htable ht))) by (split; [reflexivity|split; [exact S2|exact S3]]).
    destruct (match table_get seed (htable ht) (nroot n) with Some o => flt o (ng n) | None => false end); [split; [exact H|reflexivity]|].
    destruct (N.eqb _ _); [split; [exact H|reflexivity]|].
    apply (rsim_bind hsim); [now apply hsuccessors_sim|]. intros s s' _ HS. split; [exact HS|reflexivity].
  - split; [|reflexivity]. split; [exact S1|]. split; [exact S2|exact S3].
Qed.

Lemma hrun_eq k lib c : forall st ht, hsim st ht -> hrun seed k lib c ht = run k lib c st.
Proof using HK OL.
  induction k as [|k IH]; intros st ht H; cbn [run hrun]; [reflexivity|]. apply (hnext_sim lib c) in H.
  destruct (next lib c st) as [[s1 p1]| | |], (hnext seed lib c ht) as [[s2 p2]| | |]; cbn [rsim] in H; try contradiction; try reflexivity.
  destruct H as [H1 H2]. cbn [fst snd bind] in *. subst p2. destruct p1; [reflexivity|now apply IH|now apply IH].
Qed.

Lemma hpath_eq lib (m : Mesh A) from to blocked : hpath_on_layers seed lib m from to blocked = path_on_layers lib m from to blocked.
Proof using HK OL.
  unfold hpath_on_layers, path_on_layers. destruct (locate_end lib m from) as [[ps|]| | |]; try reflexivity. cbn [bind].
  destruct (locate_end lib m to) as [[pe|]| | |]; try reflexivity. cbn [bind].
  destruct (islands_reject m ps pe) as [[]| | |]; try reflexivity. cbn [bind]. destruct (N.eqb ps pe); [reflexivity|].
  pose proof (hsetup_sim (mkCtx m (cpos to) pe blocked) (cpos from) ps) as H.
  destruct (setup _ _ _) as [s| | |], (hsetup _ _ _ _) as [s'| | |]; cbn [rsim] in H; try contradiction; try reflexivity.
  cbn [bind]. now apply hrun_eq.
Qed.

(** the future *)
Definition fsim (f : Future A) (g : HFuture) : Prop :=
  ffrom f = hffrom g /\ fto f = hfto g /\ fmesh f = hfmesh g /\
  match finst f, hfinst g with
  | None, None => True
  | Some (c, st), Some (c', ht) => c = c' /\ hsim st ht
  | _, _ => False
  end.
Definition three_sim (a : State A * option (option (Path A))) (b : HState * option (option (Path A))) : Prop :=
  hsim (fst a) (fst b) /\ snd a = snd b.
Lemma hthree_sim k lib c : forall st ht, hsim st ht -> rsim three_sim (three k lib c st) (hthree seed k lib c ht).
Proof using HK OL.
  induction k as [|k IH]; intros st ht H; cbn [three hthree]; [split; [exact H|reflexivity]|]. apply (hnext_sim lib c) in H.
  apply (rsim_bind step_sim); [exact H|]. intros [s1 p1] [s2 p2] _ [H1 H2]. cbn [fst snd] in *. subst p2.
  destruct p1; [split; [exact H1|reflexivity]|split; [exact H1|reflexivity]|now apply IH].
Qed.
Definition poll_sim (a : Future A * bool * Poll A) (b : HFuture * bool * Poll A) : Prop :=
  fsim (fst (fst a)) (fst (fst b)) /\ snd (fst a) = snd (fst b) /\ snd a = snd b.
Lemma hpoll_sim lib f g : fsim f g -> rsim poll_sim (poll lib f) (hpoll seed lib g).
Proof using HK OL.
  intros (F1 & F2 & F3 & F4). unfold poll, hpoll. destruct (finst f) as [[c st]|] eqn:E1, (hfinst g) as [[c' ht]|] eqn:E2; try contradiction.
  - destruct F4 as [<- F4]. apply (rsim_bind three_sim); [now apply hthree_sim|]. intros [s1 o1] [s2 o2] _ [H1 H2].
    cbn [fst snd] in *. subst o2. assert (G : fsim (mkFuture (ffrom f) (fto f) (fmesh f) (Some (c, s1))) (mkHFuture (hffrom g) (hfto g) (hfmesh g) (Some (c, s2)))).
    { unfold fsim. cbn. repeat split; try assumption; apply H1. }
    destruct o1; (split; [exact G|split; reflexivity]).
  - assert (G : fsim f g) by (unfold fsim; rewrite E1, E2; auto).
    rewrite F1, F2, F3. apply rsim_same. intros ps _. destruct (N.eqb ps MAX); [split; [exact G|split; reflexivity]|].
    apply rsim_same. intros pe _. destruct (N.eqb pe MAX); [split; [exact G|split; reflexivity]|].
    apply rsim_same. intros [] _; [split; [exact G|split; reflexivity]|].
    destruct (N.eqb ps pe); [split; [exact G|split; reflexivity]|].
    apply (rsim_bind hsim); [apply hsetup_sim|]. intros s s' _ HS. split; [|split; reflexivity]. unfold fsim. cbn. auto.
Qed.
Lemma hpoll_times_eq lib k : forall f g, fsim f g -> hpoll_times seed k lib g = poll_times k lib f.
Proof using HK OL.
  induction k as [|k IH]; intros f g H; cbn [poll_times hpoll_times]; [reflexivity|]. apply (hpoll_sim lib) in H.
  destruct (poll lib f) as [[[f1 w1] p1]| | |], (hpoll seed lib g) as [[[g1 w2] p2]| | |]; cbn [rsim] in H; try contradiction; try reflexivity.
  destruct H as (H1 & H2 & H3). cbn [fst snd bind] in *. subst w2 p2. destruct p1; [reflexivity|]. now rewrite (IH _ _ H1).
Qed.
End Any.

(** C44, whole searches in binary32 (whatever sin, cos, acos): for every seed of the hash tables, every first capacity
    and every growth policy, path_on_layers answers as with a lookup by equality; no panic, no missing root. *)
Theorem C44_any_seed sin cos acos seed lib (m : Mesh (F32with sin cos acos)) from to blocked :
  hpath_on_layers seed lib m from to blocked = path_on_layers lib m from to blocked.
Proof. apply hpath_eq; [apply F32_order_laws|]. apply C44_equal_roots_hash_equally. Qed.

(** so that two processes with different random seeds answer alike *)
Corollary C44_seeds_agree sin cos acos seed seed' lib (m : Mesh (F32with sin cos acos)) from to blocked :
  hpath_on_layers seed lib m from to blocked = hpath_on_layers seed' lib m from to blocked.
Proof. now rewrite !C44_any_seed. Qed.

(** and so for the future, for every number of polls, the wakings included *)
Theorem C44_future_any_seed sin cos acos seed lib (m : Mesh (F32with sin cos acos)) from to k :
  hpoll_times seed k lib (hget_path m from to) = poll_times k lib (get_path m from to).
Proof.
  apply hpoll_times_eq; [apply F32_order_laws|apply C44_equal_roots_hash_equally|]. unfold fsim. cbn. auto.
Qed.

(** A table that starts with one bucket, in which all roots collide at first, and doubles: the U grid, from one leg to
    the other. *)
Definition ex_seed : Seed :=
  mkSeed (fun k => Z.to_N (Z.abs (fst k * 31 + snd k))) 1 (fun count buckets => if buckets <=? count then Some (2 * buckets) else None).
Example ex_hashed :
  match hpath ex_seed Tests.lib32 Tests.mesh_u_grid (Tests.at_ (Tests.pt10 1 19)) (Tests.at_ (Tests.pt10 29 19)) with
  | Ok (Some p) => lengthN (ppath p) = 3
  | _ => False
  end.
Proof.
  assert (G : match hpath ex_seed Tests.lib32 Tests.mesh_u_grid (Tests.at_ (Tests.pt10 1 19)) (Tests.at_ (Tests.pt10 29 19)) with
    | Ok (Some p) => lengthN (ppath p) | _ => 0 end = 3) by vmc.
  destruct (hpath _ _ _ _ _) as [[p|]| | |]; [exact G|discriminate G..].
Qed.
(** what the hash must respect: with a key that tells 0 from -0, a root would be missed *)
Definition signed_key (v : vec2 F32) : Z * Z :=
  (match vx v with SpecFloat.S754_zero s => if s then 1 else 0 | _ => 0 end, 0)%Z.
Example ex_signed_key : exists a b : vec2 F32, veq a b = true /\ signed_key a <> signed_key b.
Proof.
  exists (V (SpecFloat.S754_zero true : F F32) (SpecFloat.S754_zero true)), (V (SpecFloat.S754_zero false : F F32) (SpecFloat.S754_zero true)).
  split; [vmc|]. unfold signed_key. cbn. discriminate.
Qed.

Print Assumptions C44_any_seed.
Print Assumptions C44_seeds_agree.
Print Assumptions C44_future_any_seed.
