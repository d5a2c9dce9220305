(** The search finds a way, if there is one: the queue cannot go on for ever. *)
From Coq Require Import List NArith ZArith Bool Lia Reals Lra Psatz Permutation Wf_nat.
From Verif Require Import Base Arith U32 Mesh Helpers Search StdLib Spec RealArith Geometry Heuristic Search_facts Search_props Search_safe Search_cost Search_hist F32_facts
  AsyncPath Properties_async Properties_geometry Properties_heuristic Spec_inside Sight Sight_search Sight_static Spec_shortest Shortest_exists Shortest_routes Shortest_bend
  Shortest_nodes Shortest_search Shortest_run Shortest_end.
Import ListNotations.
Open Scope nat_scope.

(** ** Counting by depth *)
Fixpoint lexlt (u v : list nat) : Prop :=
  match u, v with x :: u, y :: v => x < y \/ (x = y /\ lexlt u v) | _, _ => False end.
Definition lower (u v : list nat) : Prop := length u = length v /\ lexlt u v.
Lemma lower_acc : forall k v, length v = k -> Acc lower v.
Proof.
  induction k as [|k IH]; intros v Hv.
  - destruct v; [|discriminate]. constructor. intros u [_ H]. destruct u; destruct H.
  - assert (G : forall x w, length w = k -> Acc lower (x :: w)).
    { intro x. induction (lt_wf x) as [x _ IHx]. intros w Hw. specialize (IH w Hw). induction IH as [w _ IHw]. constructor. intros u [Hl Hu].
      destruct u as [|y u]; [destruct Hu|]. cbn [length] in Hl. injection Hl as Hl. cbn [lexlt] in Hu. destruct Hu as [Hu|[-> Hu]].
      - apply IHx; [exact Hu|congruence].
      - apply IHw; [split; assumption|congruence]. }
    destruct v as [|x v]; [discriminate|]. apply G. now injection Hv.
Qed.
Definition counts (D : nat) (ds : list nat) : list nat := map (count_occ Nat.eq_dec ds) (seq 0 (S D)).
Lemma lexlt_map (f g : nat -> nat) d : forall len s, s <= d < s + len -> (forall i, s <= i < d -> f i = g i) -> f d < g d -> lexlt (map f (seq s len)) (map g (seq s len)).
Proof.
  induction len as [|len IH]; intros s Hd He Hl; [lia|]. cbn [seq map lexlt]. destruct (Nat.eq_dec s d) as [->|Hn]; [left; exact Hl|].
  right. split; [apply He; lia|]. apply IH; [lia| |exact Hl]. intros i Hi. apply He. lia.
Qed.
Lemma count_perm (l k : list nat) x : Permutation l k -> count_occ Nat.eq_dec l x = count_occ Nat.eq_dec k x.
Proof. intro H. apply (Permutation_count_occ Nat.eq_dec); assumption. Qed.
Lemma counts_lower D d ds rest extra : d <= D -> Permutation ds (d :: rest) -> (forall e, In e extra -> d < e) -> lower (counts D (rest ++ extra)) (counts D ds).
Proof.
  intros Hd HP He. split; [unfold counts; now rewrite !map_length|]. unfold counts.
  assert (Z : forall i, i <= d -> count_occ Nat.eq_dec extra i = 0).
  { intros i Hi. apply count_occ_not_In. intro H. specialize (He i H). lia. }
  apply (lexlt_map _ _ d); [lia| |].
  - intros i Hi. rewrite (count_perm _ _ i HP), count_occ_app, Z by lia. rewrite count_occ_cons_neq by lia. lia.
  - rewrite (count_perm _ _ d HP), count_occ_app, Z by lia. rewrite count_occ_cons_eq by reflexivity. lia.
Qed.

(** ** What one step does to the queue *)
Section Step.
Context {A : Arith} (c : Ctx A) (from : vec2 A) (ps : N).
Definition deep (n : Node A) (d : nat) : Prop := exists h, reach c from ps (n :: h) /\ length h = d.
Definition after (n n' : Node A) : Prop := forall d, deep n d -> exists d', deep n' d' /\ d < d'.
Lemma step_after n n' : gen_step c n n' -> after n n'.
Proof. intros H d (h & Hh & <-). exists (S (length h)). split; [|lia]. exists (n :: h). split; [now constructor|reflexivity]. Qed.
Lemma after_trans n1 n2 n3 : after n1 n2 -> after n2 n3 -> after n1 n3.
Proof. intros H1 H2 d Hd. destruct (H1 d Hd) as (d1 & D1 & L1). destruct (H2 d1 D1) as (d2 & D2 & L2). exists d2. split; [exact D2|lia]. Qed.

Lemma expand_after n st st' : sbuffer st = [] -> expand c n st = Ok st' -> squeue st' = squeue st /\ forall x, In x (sbuffer st') -> after n x.
Proof.
  intros HB H. eapply (expand_inv c n st st' (fun s => squeue s = squeue st /\ forall x, In x (sbuffer s) -> after n x)); [| |exact H].
  - intros s n' s' [Q1 Q2] Hg Ha. inversion Ha; subst; cbn [squeue sbuffer]; (split; [exact Q1|]); intros x Hx; apply in_app_or in Hx; destruct Hx as [Hx|[<-|[]]]; auto; now apply step_after.
  - split; [reflexivity|]. rewrite HB. intros x [].
Qed.
Lemma successors_after fuel : forall vis n st st', sbuffer st = [] -> successors fuel c vis n st = Ok st' ->
  exists extra, squeue st' = squeue st ++ extra /\ forall x, In x extra -> after n x.
Proof.
  induction fuel as [|fuel IH]; intros vis n st st' HB H; cbn [successors] in H; [discriminate|]. inv_bind H. destruct (expand_after n st a HB E) as [Q1 Q2].
  assert (F : exists extra, squeue (flush_nodes a) = squeue st ++ extra /\ forall x, In x extra -> after n x) by (exists (sbuffer a); cbn [flush_nodes squeue]; rewrite Q1; auto).
  destruct (sbuffer a) as [|n' [|x y]] eqn:EB; try (inversion H; subst; exact F).
  destruct (N.eqb (nto n') (cpto c)); [inversion H; subst; exact F|].
  assert (F2 : exists extra, squeue (flush_nodes (mkState (squeue a) [] (shist a))) = squeue st ++ extra /\ forall x, In x extra -> after n x)
    by (exists []; cbn [flush_nodes squeue sbuffer]; rewrite Q1; split; [reflexivity|intros x []]).
  destruct (reverse_of n' n); [inversion H; subst; exact F2|]. destruct (memN (nto n') vis); [inversion H; subst; exact F2|].
  apply IH in H; [|reflexivity]. destruct H as (extra & H1 & H2). cbn [squeue] in H1. exists extra. split; [congruence|]. intros x Hx. eapply after_trans; [apply Q2; now left|auto].
Qed.
Lemma next_after lib st st' : sbuffer st = [] -> next lib c st = Ok (st', Continue) ->
  exists n q extra, lpop lib (squeue st) = Some (n, q) /\ squeue st' = q ++ extra /\ forall x, In x extra -> after n x.
Proof.
  intros HB H. unfold next in H. destruct (lpop lib (squeue st)) as [[n q]|] eqn:EP; [|discriminate]. cbn [shist] in H. exists n, q.
  destruct (match hist_get (shist st) (nroot n) with Some o => flt o (ng n) | None => false end).
  - exists []. assert (st' = mkState q (sbuffer st) (shist st)) by congruence. subst st'. cbn [squeue]. split; [reflexivity|]. split; [now rewrite app_nil_r|intros x []].
  - destruct (N.eqb (nto n) (cpto c)); [discriminate|]. inv_bind H. assert (st' = a) by congruence. subst st'.
    apply successors_after in E; [|exact HB]. destruct E as (extra & H1 & H2). cbn [squeue] in H1. exists extra. auto.
Qed.
End Step.

Section Finish.
Context (m : Mesh RA) (blocked : list N) (start goal : P2) (ps pe : N).
Context (HM : plane_mesh m) (HI : ids_wf m) (HG : generic m start ps pe goal) (HF : faultless m blocked ps).
Context (c : Ctx RA) (Ec : cmesh c = m) (Eb : cblocked c = blocked) (Ep : cpto c = pe) (Eg : cgoal c = vp goal).
Context (HU : u32_ids m) (HP32 : (ps < 2 ^ 32)%N) (HMAX : pe <> MAX) (HBo : at_border m blocked).
Context (Hwf : mesh_wf m) (Hd : dists_ok m).
Notation promising := (promising m blocked start goal ps pe c).
Notation best := (best m blocked ps pe start goal).
Notation reachable := (reachable c (vp start) ps).
Notation deep := (deep c (vp start) ps).

Lemma end_poly_ok : poly_ok (cmesh c) (cpto c).
Proof using HM HG Ec Ep.
  rewrite Ec, Ep. destruct (ge_in _ _ _ _ _ HG) as (qs & (l & p & HP & _) & _). exists l, p. exact HP.
Qed.
Lemma reachable_ok n : reachable n -> node_ok c n.
Proof using HM HG Ec Ep Hwf Hd.
  pose proof end_poly_ok as HE. intros [h Hh]. inversion_clear Hh as [x Hx|x y k Hx Hy].
  - exact (gen_start_ok c HE _ _ _ Hx).
  - exact (gen_step_ok c HE _ _ Hy).
Qed.
Lemma next_ok lib st : pop_ok (lpop lib) -> promising st -> exists r, next lib c st = Ok r.
Proof using HM HG Ec Ep Hwf Hd.
  intros Hpop (Hh & HB & _). assert (HS : safe (next lib c st)).
  { apply safe_next; try (rewrite Ec; assumption); auto using end_poly_ok, pop_ok_perm. split; [|rewrite HB; intros n []].
    intros n Hn. apply reachable_ok. apply (hi_reach _ _ _ _ Hh). now left. }
  pose proof (next_nf lib c st HB) as HN. destruct HS as [S1 S2]. unfold nf in HN. destruct (next lib c st) as [r| | |]; try congruence. now exists r.
Qed.
(** the node taken is not worse than the best way *)
Lemma pop_low lib A st n q : pop_ok (lpop lib) -> best A -> promising st -> lpop lib (squeue st) = Some (n, q) -> exists v, node_f n = Some v /\ (v <= len start A goal)%R.
Proof using HM HI HG HF Ec Eb Ep Eg HU HP32 HMAX.
  intros Hpop HA (Hh & HB & (Y1 & Y2 & n1 & Hgood & Hin)) EP. pose proof (Hpop (squeue st)) as HP. rewrite EP in HP. destruct HP as [HPerm _].
  destruct (good_low m blocked start goal ps pe HM HI HG c Ec Eb Ep Eg HU HP32 HMAX Y1 Y2 n1 A Hgood HA) as (v & Hv & Hle).
  assert (HR : reachable n) by (apply (hi_reach _ _ _ _ Hh); left; eapply Permutation_in; [symmetry; exact HPerm|now left]).
  destruct (node_values m blocked start goal ps pe HM HI HG c Ec Eb Ep Eg HU HP32 HMAX n HR) as (g & h & Hg & Hhh & _).
  exists (g + h)%R. assert (Hf : node_f n = Some (g + h)%R) by (unfold node_f; rewrite Hg, Hhh; reflexivity). split; [exact Hf|].
  apply (Permutation_in _ HPerm) in Hin. destruct Hin as [E|Hq]; [assert (Some (g + h)%R = Some v) by congruence; assert (g + h = v)%R by congruence; lra|].
  assert (g + h <= v)%R; [|lra]. apply total_le. rewrite <- Hf, <- Hv. exact (pop_best (lpop lib) _ _ _ _ RA_total_ok Hpop EP Hq).
Qed.

Lemma finds lib A D : pop_ok (lpop lib) -> best A -> (forall n h v, reach c (vp start) ps (n :: h) -> node_f n = Some v -> (v <= len start A goal)%R -> length h <= D) ->
  forall ds st, promising st -> (exists nds, Permutation (squeue st) (map fst nds) /\ map snd nds = ds /\ forall n d, In (n, d) nds -> deep n d) ->
  exists k p, answers lib c st k (Some p).
Proof using HM HI HG HF Ec Eb Ep Eg HU HP32 HMAX Hwf Hd.
  intros Hpop HA HD ds. pose proof (lower_acc _ (counts D ds) eq_refl) as HAcc. remember (counts D ds) as v eqn:Ev. revert ds Ev.
  induction HAcc as [v _ IH]. intros ds Ev st HPr (nds & N1 & N2 & N3). subst v.
  destruct (next_ok lib st Hpop HPr) as ([st' r] & Hn).
  pose proof (next_promising m blocked start goal ps pe HM HI HG HF c Ec Eb Ep Eg HU HP32 HMAX lib A st st' r Hpop HA HPr Hn) as Q. destruct r as [p| |].
  - exists 1, p. eapply answers_found. exact Hn.
  - destruct Q.
  - destruct (next_after c (vp start) ps lib st st' (proj1 (proj2 HPr)) Hn) as (n & q & extra & EP & Eq & Hex).
    destruct (pop_low lib A st n q Hpop HA HPr EP) as (v & Hv & Hle).
    pose proof (Hpop (squeue st)) as HP. rewrite EP in HP. destruct HP as [HPerm _].
    assert (HPm : Permutation (map fst nds) (n :: q)) by (rewrite <- N1; exact HPerm).
    apply Permutation_sym in HPm. apply Permutation_map_inv in HPm. destruct HPm as (nds' & E1 & E2). destruct nds' as [|[n' d] rest]; [discriminate|]. cbn [map fst] in E1. injection E1 as <- Er.
    assert (Hdn : deep n d) by (apply N3; eapply Permutation_in; [symmetry; exact E2|now left]).
    destruct Hdn as (h & Hh & Hlen). assert (HdD : d <= D) by (rewrite <- Hlen; exact (HD n h v Hh Hv Hle)).
    assert (HX : exists nx, map fst nx = extra /\ forall x e, In (x, e) nx -> deep x e /\ d < e).
    { clear - Hex Hh Hlen. induction extra as [|x extra IHx]; [exists []; split; [reflexivity|intros ? ? []]|].
      destruct IHx as (nx & X1 & X2); [intros y Hy; apply Hex; now right|]. destruct (Hex x (or_introl eq_refl) d) as (e & H1 & H2); [exists h; auto|].
      exists ((x, e) :: nx). split; [cbn [map fst]; congruence|]. intros y f [E|Hy]; [injection E as <- <-; auto|auto]. }
    destruct HX as (nx & X1 & X2).
    assert (Hrec : exists k p, answers lib c st' k (Some p)).
    { apply (IH (counts D (map snd rest ++ map snd nx))) with (ds := map snd rest ++ map snd nx).
      - apply (counts_lower D d); [exact HdD| |].
        + rewrite <- N2. apply (Permutation_map snd) in E2. exact E2.
        + intros e He. apply in_map_iff in He. destruct He as ([x e'] & <- & He). now apply (X2 x e').
      - reflexivity.
      - exact Q.
      - exists (rest ++ nx). rewrite !map_app. split; [|split; [reflexivity|]].
        + rewrite Eq, X1, Er. apply Permutation_refl.
        + intros x e Hx. apply in_app_or in Hx. destruct Hx as [Hx|Hx]; [|now apply X2]. apply N3. eapply Permutation_in; [symmetry; exact E2|now right]. }
    destruct Hrec as (k & p & Hk). exists (S k), p. eapply answers_later; eauto.
Qed.

(** If there is a way, the search answers with a path. *)
Lemma search_finds lib A st : pop_ok (lpop lib) -> best A -> promising st -> exists k p, answers lib c st k (Some p).
Proof using HM HI HG HF Ec Eb Ep Eg HU HP32 HMAX HBo Hwf Hd.
  intros Hpop HA HPr. destruct (depth_bound m blocked start goal ps pe HM HI HG c Ec Eb Ep Eg HU HP32 HMAX HBo (len start A goal)) as (D & HD).
  assert (HX : exists nds, map fst nds = squeue st /\ forall n d, In (n, d) nds -> deep n d).
  { assert (HR : forall n, In n (squeue st) -> exists d, deep n d).
    { intros n Hn. destruct HPr as (Hh & _). assert (reachable n) as [h Hh1] by (apply (hi_reach _ _ _ _ Hh); now left). exists (length h), h. auto. }
    clear - HR. induction (squeue st) as [|n q IH]; [exists []; split; [reflexivity|intros ? ? []]|].
    destruct IH as (nds & N1 & N2); [intros x Hx; apply HR; now right|]. destruct (HR n (or_introl eq_refl)) as (d & Hdn).
    exists ((n, d) :: nds). split; [cbn [map fst]; congruence|]. intros x e [E|Hx]; [injection E as <- <-; exact Hdn|auto]. }
  destruct HX as (nds & N1 & N2). apply (finds lib A D Hpop HA HD (map snd nds) st HPr). exists nds. rewrite N1. auto.
Qed.
End Finish.
