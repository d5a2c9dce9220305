(** The search always comes to an end, also if there is no way: no chain of nodes turns twice at the same point. *)
From Coq Require Import List NArith ZArith Bool Lia Reals Lra Psatz Permutation Wf_nat.
From Verif Require Import Base Arith U32 Mesh Helpers Search StdLib Spec RealArith Geometry Heuristic Search_facts Search_props Search_safe Search_cost Search_hist F32_facts
  AsyncPath Properties_async Properties_geometry Properties_heuristic Spec_inside Sight Sight_search Sight_static Spec_shortest Shortest_exists Shortest_routes Shortest_bend
  Shortest_nodes Shortest_search Shortest_run Shortest_end Shortest_finish.
Import ListNotations.
Open Scope nat_scope.

(** The roots of a chain of nodes (the last node first), without repetitions: every turn is at a new point. *)
Inductive kept : list (Node RA) -> list (vec2 RA) -> Prop :=
| kept_start n : kept [n] [nroot n]
| kept_same n' n h R : kept (n :: h) R -> nroot n' = nroot n -> kept (n' :: n :: h) R
| kept_turn n' n h R : kept (n :: h) R -> ~ In (nroot n') R -> kept (n' :: n :: h) (nroot n' :: R).
Lemma kept_In l R : kept l R -> (forall x, In x l -> In (nroot x) R) /\ forall r, In r R -> exists x, In x l /\ nroot x = r.
Proof.
  induction 1 as [n|n' n h R H [I1 I2] E|n' n h R H [I1 I2] E]; split.
  - intros x [<-|[]]. now left.
  - intros r [<-|[]]. exists n. split; [now left|reflexivity].
  - intros x [<-|Hx]; [rewrite E; apply I1; now left|auto].
  - intros r Hr. destruct (I2 r Hr) as (x & Hx & Ex). exists x. split; [now right|exact Ex].
  - intros x [<-|Hx]; [now left|right; auto].
  - intros r [<-|Hr]; [exists n'; split; [now left|reflexivity]|]. destruct (I2 r Hr) as (x & Hx & Ex). exists x. split; [now right|exact Ex].
Qed.
Lemma kept_NoDup l R : kept l R -> NoDup R.
Proof. induction 1 as [n| |]; auto; constructor; auto. constructor. Qed.

Section Always.
Context (m : Mesh RA) (blocked : list N) (start goal : P2) (ps pe : N).
Context (HM : plane_mesh m) (HI : ids_wf m) (HG : generic m start ps pe goal).
Context (c : Ctx RA) (Ec : cmesh c = m) (Eb : cblocked c = blocked) (Ep : cpto c = pe) (Eg : cgoal c = vp goal).
Context (HU : u32_ids m) (HP32 : (ps < 2 ^ 32)%N) (HMAX : pe <> MAX) (HBo : at_border m blocked).
Context (Hwf : mesh_wf m) (Hd : dists_ok m).
Notation reachable := (reachable c (vp start) ps).
Notation reach := (reach c (vp start) ps).
Notation node_at := (node_at m start).
Notation hist := (hist_inv c (vp start) ps).

Lemma at_node n : reachable n -> exists a b r t0 t1, node_at n a b r t0 t1.
Proof using HM HI HG Ec Ep HU HP32 HMAX. apply (reachable_at m start goal ps pe HM HI HG c Ec HU HP32). rewrite Ep. exact HMAX. Qed.
Lemma step_values n n' : reachable n -> reachable n' -> gen_step c n n' -> exists g g', ng n = Some g /\ ng n' = Some g' /\ (g <= g')%R /\ (nroot n' = nroot n \/ (g < g')%R).
Proof using HM HI HG Ec Eb Ep Eg HU HP32 HMAX.
  intros HR HR' (s & root & Hvia). destruct (at_node n HR) as (a & b & r & t0 & t1 & HN). destruct (at_node n' HR') as (a' & b' & r' & u0 & u1 & HN').
  destruct (node_values m blocked start goal ps pe HM HI HG c Ec Eb Ep Eg HU HP32 HMAX n HR) as (g & h & Hg & _).
  destruct (step_edge m start goal ps pe HM HI HG c Ec n n' s root a b r t0 t1 a' b' r' u0 u1 HN HN' Hvia) as (_ & _ & _ & _ & _ & _ & _ & _ & _ & _ & _ & _ & _ & Hg' & _).
  specialize (Hg' g Hg). exists g, (g + dist r r')%R. split; [exact Hg|]. split; [exact Hg'|]. pose proof (dist_nonneg r r') as D. split; [lra|].
  destruct (P2_dec r r') as [E|E].
  - left. rewrite (na_root _ _ _ _ _ _ _ _ HN), (na_root _ _ _ _ _ _ _ _ HN'), E. reflexivity.
  - right. pose proof (dist_pos r r' E). lra.
Qed.
Lemma chain_values l : reach l -> forall n h x, l = n :: h -> In x l -> exists g g', ng x = Some g /\ ng n = Some g' /\ (g <= g')%R.
Proof using HM HI HG Ec Eb Ep Eg HU HP32 HMAX.
  induction 1 as [n0 H|n0 n1 h0 Hh IH H]; intros n h x E Hx; injection E as <- <-.
  - destruct Hx as [<-|[]]. assert (HR : reachable n0) by (exists []; now constructor).
    destruct (node_values m blocked start goal ps pe HM HI HG c Ec Eb Ep Eg HU HP32 HMAX n0 HR) as (g & h & Hg & _). exists g, g. repeat (split; [exact Hg|]). lra.
  - assert (HR0 : reachable n0) by (exists h0; exact Hh). assert (HR1 : reachable n1) by (exists (n0 :: h0); now constructor).
    destruct (step_values n0 n1 HR0 HR1 H) as (g & g' & G1 & G2 & G3 & _). destruct Hx as [<-|Hx].
    + exists g', g'. repeat (split; [exact G2|]). lra.
    + destruct (IH n0 h0 x eq_refl Hx) as (gx & g2 & X1 & X2 & X3). exists gx, g'. split; [exact X1|]. split; [exact G2|]. assert (g2 = g) by congruence. subst g2. lra.
Qed.

(** ** A bound for such chains *)
Definition spots : list (vec2 RA) := vp start :: flat_map (fun l => map (world l) (vertices l)) (layers m).
Lemma root_spot n : reachable n -> In (nroot n) spots.
Proof using HM HI HG Ec Ep HU HP32 HMAX.
  intro HR. destruct (at_node n HR) as (a & b & r & t0 & t1 & HN). rewrite (na_root _ _ _ _ _ _ _ _ HN).
  destruct (na_place _ _ _ _ _ _ _ _ HN) as [->|(id & qs & (l & p & HP & HF2) & Hin)]; [now left|]. right. apply in_flat_map. exists l. split; [destruct HP as [HP _]; now apply nthN_In in HP|].
  assert (HX : exists i, at_world l i r).
  { clear HP. induction HF2 as [|i q is qs Hi HF2 IH]; [destruct Hin|]. destruct Hin as [<-|Hin]; [now exists i|auto]. }
  destruct HX as (i & v & Hv & E). rewrite <- E. apply in_map. now apply nthN_In in Hv.
Qed.
Lemma kept_stage : exists K : nat, forall n h R, reach (n :: h) -> kept (n :: h) R -> exists a b r t0 t1 F S,
  node_at n a b r t0 t1 /\ stage m blocked n a b r t0 t1 F S /\ (length F + length S <= 2 * K)%nat /\
  (length h + (2 * K + 1) <= length R * (2 * K + 1) + (length F + length S))%nat.
Proof using HM HI HG Ec Eb Ep Eg HU HP32 HMAX HBo.
  assert (HK : exists K : nat, forall l : list N, NoDup l -> (forall x, In x l -> (x < 2 ^ 32)%N) -> (length l <= K)%nat) by (eexists; intros l; apply nodup_small).
  destruct HK as (K & HK). exists K.
  assert (Size : forall n a b r t0 t1 F S, stage m blocked n a b r t0 t1 F S -> (length F + length S <= 2 * K)%nat).
  { intros n a b r t0 t1 F S (H1 & H2 & H3 & H4 & _). pose proof (HK S H2 H4) as Q1. pose proof (HK (map cr_to F) H1) as Q2. rewrite map_length in Q2.
    assert (length F <= K)%nat; [|lia]. apply Q2. intros x Hx. apply in_map_iff in Hx. destruct Hx as (y & <- & Hy). rewrite Forall_forall in H3. apply (to_u32 m blocked HU). auto. }
  intros n h R Hh. remember (n :: h) as nh eqn:E. revert n h R E. induction Hh as [n0 H|n0 n1 h0 Hh IH H]; intros n h R E HKp; injection E as <- <-.
  - assert (HR : reachable n0) by (exists []; now constructor). destruct (at_node n0 HR) as (a & b & r & t0 & t1 & HN).
    destruct (stage_fresh m blocked start goal ps pe HM HI HG c Ec Eb Ep HU HP32 HMAX n0 a b r t0 t1 HR HN) as (F & S & HS & HL). exists a, b, r, t0, t1, F, S. pose proof (Size _ _ _ _ _ _ _ _ HS).
    split; [exact HN|]. split; [exact HS|]. split; [assumption|]. inversion_clear HKp. cbn [length]. lia.
  - assert (HR0 : reachable n0) by (exists h0; exact Hh). assert (HR1 : reachable n1) by (exists (n0 :: h0); now constructor).
    destruct (at_node n1 HR1) as (a' & b' & r' & u0 & u1 & HN'). destruct H as (s & root & Hvia).
    inversion_clear HKp as [|? ? ? ? HK0 Er|? ? ? R0 HK0 Er].
    + destruct (IH n0 h0 R eq_refl HK0) as (a & b & r & t0 & t1 & F & S & HN & HS & HL & Hlen).
      assert (E : r' = r). { apply vp_inj. rewrite <- (na_root _ _ _ _ _ _ _ _ HN), <- (na_root _ _ _ _ _ _ _ _ HN'). exact Er. }
      rewrite E in HN'. destruct (stage_step m blocked start goal ps pe HM HI HG c Ec Eb Ep HU HP32 HMAX HBo n0 n1 s root a b r t0 t1 a' b' u0 u1 F S HR0 HR1 HN HN' Hvia HS) as (F' & S' & HS' & HL').
      exists a', b', r, u0, u1, F', S'. pose proof (Size _ _ _ _ _ _ _ _ HS'). repeat (split; [assumption|]). cbn [length]. lia.
    + destruct (IH n0 h0 R0 eq_refl HK0) as (a & b & r & t0 & t1 & F & S & HN & HS & HL & Hlen).
      destruct (stage_fresh m blocked start goal ps pe HM HI HG c Ec Eb Ep HU HP32 HMAX n1 a' b' r' u0 u1 HR1 HN') as (F' & S' & HS' & HL'). exists a', b', r', u0, u1, F', S'.
      pose proof (Size _ _ _ _ _ _ _ _ HS'). repeat (split; [assumption|]). cbn [length]. nia.
Qed.
Lemma reach_tail l : reach l -> forall x, In x l -> reachable x.
Proof using.
  induction 1 as [n0 H|n0 n1 h0 Hh IH H]; intros x [<-|Hx].
  - exists []. now constructor.
  - destruct Hx.
  - exists (n0 :: h0). now constructor.
  - auto.
Qed.
Lemma kept_bound : exists D : nat, forall n h R, reach (n :: h) -> kept (n :: h) R -> length h <= D.
Proof using HM HI HG Ec Eb Ep Eg HU HP32 HMAX HBo.
  destruct kept_stage as (K & HK). exists (length spots * (2 * K + 1) + 2 * K). intros n h R Hh HR.
  destruct (HK n h R Hh HR) as (a & b & r & t0 & t1 & F & S & _ & _ & H1 & H2).
  assert (length R <= length spots).
  { apply NoDup_incl_length; [now apply (kept_NoDup (n :: h))|]. intros q Hq. destruct (proj2 (kept_In _ _ HR) q Hq) as (x & Hx & <-). apply root_spot. exact (reach_tail _ Hh x Hx). }
  nia.
Qed.

(** ** What one step does *)
Definition low (st : State RA) (l : list (Node RA)) : Prop := forall x, In x l -> exists o g, hist_get (shist st) (nroot x) = Some (Some o) /\ ng x = Some g /\ (o <= g)%R.
Definition kdeep (st : State RA) (n : Node RA) (d : nat) : Prop := exists h R, reach (n :: h) /\ kept (n :: h) R /\ low st (n :: h) /\ length h = d.
Lemma low_added st (n' : Node RA) st' (g : R) l : ng n' = Some g -> added st n' st' -> low st l -> low st' l.
Proof using.
  intros Hg Ha HL x Hx. destruct (HL x Hx) as (o & gx & H1 & H2 & H3). inversion_clear Ha as [HG0|o0 HG0 HF0]; cbn [shist].
  - cbn [hist_get]. destruct (veq (nroot n') (nroot x)) eqn:E; [|exists o, gx; auto].
    rewrite <- (hist_get_veq RA_order_laws (shist st) _ _ E), HG0 in H1. discriminate.
  - rewrite (hist_get_set RA_order_laws _ _ _ _ _ HG0). destruct (veq (nroot n') (nroot x)) eqn:E; [|exists o, gx; auto].
    rewrite <- (hist_get_veq RA_order_laws (shist st) _ _ E), HG0 in H1. assert (o0 = Some o) by congruence. subst o0.
    exists g, gx. split; [exact (f_equal Some Hg)|]. split; [exact H2|]. rewrite Hg in HF0. cbn in HF0. apply rltb_false in HF0. lra.
Qed.
Lemma root_self n : reachable n -> veq (nroot n) (nroot n) = true.
Proof using. apply (reachable_root RA_order_laws). Qed.
Lemma low_new st (n' : Node RA) st' (g : R) : ng n' = Some g -> reachable n' -> added st n' st' -> low st' [n'].
Proof using.
  intros Hg HR Ha x [<-|[]]. pose proof (root_self n' HR) as E. inversion_clear Ha as [HG0|o0 HG0 HF0]; cbn [shist].
  - cbn [hist_get]. rewrite E. exists g, g. split; [exact (f_equal Some Hg)|]. split; [exact Hg|lra].
  - rewrite (hist_get_set RA_order_laws _ _ _ _ _ HG0), E. exists g, g. split; [exact (f_equal Some Hg)|]. split; [exact Hg|lra].
Qed.
Lemma kdeep_step st n n' st' d : gen_step c n n' -> added st n' st' -> kdeep st n d -> kdeep st' n' (S d).
Proof using HM HI HG Ec Eb Ep Eg HU HP32 HMAX.
  intros Hs Ha (h & R & H1 & H2 & H3 & H4).
  assert (HR : reachable n) by (exists h; exact H1). assert (Hr' : reach (n' :: n :: h)) by now constructor. assert (HR' : reachable n') by (eexists; exact Hr').
  destruct (step_values n n' HR HR' Hs) as (g & g' & G1 & G2 & G3 & G4).
  assert (HL : low st' (n' :: n :: h)).
  { intros x [<-|Hx]; [apply (low_new st n' st' g' G2 HR' Ha); now left|]. exact (low_added st n' st' g' _ G2 Ha H3 x Hx). }
  assert (HKp : exists R', kept (n' :: n :: h) R').
  { destruct G4 as [E|Hlt]; [exists R; now constructor|]. exists (nroot n' :: R). constructor; [exact H2|]. intro Hin.
    destruct (proj2 (kept_In _ _ H2) _ Hin) as (x & Hx & Ex). destruct (chain_values _ H1 n h x eq_refl Hx) as (gx & gn & X1 & X2 & X3).
    destruct (H3 x Hx) as (o & gx' & Y1 & Y2 & Y3). rewrite Ex in Y1. assert (gx' = gx) by congruence. assert (gn = g) by congruence. subst gx' gn.
    inversion_clear Ha as [HG0|o0 HG0 HF0]; [congruence|]. assert (o0 = Some o) by congruence. subst o0. rewrite G2 in HF0. cbn in HF0. apply rltb_false in HF0. lra. }
  destruct HKp as (R' & HK'). exists (n :: h), R'. cbn [length]. auto.
Qed.
(** later states know better *)
Definition later (st st' : State RA) : Prop := forall l, low st l -> low st' l.
Lemma kdeep_later st st' n d : later st st' -> kdeep st n d -> kdeep st' n d.
Proof using. intros HL (h & R & H1 & H2 & H3 & H4). exists h, R. auto. Qed.
Lemma later_hist st st' : shist st = shist st' -> later st st'.
Proof using. intros E l H x Hx. rewrite <- E. auto. Qed.
Definition deeper (st : State RA) (n : Node RA) (d : nat) (st' : State RA) (x : Node RA) : Prop := exists e, d < e /\ kdeep st' x e.

Lemma expand_kept n st st' d : sbuffer st = [] -> kdeep st n d -> expand c n st = Ok st' ->
  squeue st' = squeue st /\ later st st' /\ forall x, In x (sbuffer st') -> exists e, d < e /\ kdeep st' x e.
Proof using HM HI HG Ec Eb Ep Eg HU HP32 HMAX.
  intros HB HD H. eapply (expand_inv c n st st' (fun s => squeue s = squeue st /\ later st s /\ forall x, In x (sbuffer s) -> exists e, d < e /\ kdeep s x e)); [| |exact H].
  - intros s n' s' (Q1 & Q2 & Q3) Hg Ha. pose proof (kdeep_later _ _ _ _ Q2 HD) as HD'. pose proof (kdeep_step s n n' s' d Hg Ha HD') as HD2.
    assert (Eg' : exists g', ng n' = Some g').
    { destruct HD2 as (h & R & H1 & _). destruct (node_values m blocked start goal ps pe HM HI HG c Ec Eb Ep Eg HU HP32 HMAX n' (ex_intro _ h H1)) as (g' & hh & Hg' & _). now exists g'. }
    destruct Eg' as (g' & Hg'). assert (HL : later s s') by (intros l Hl; exact (low_added s n' s' g' l Hg' Ha Hl)).
    assert (E1 : squeue s' = squeue s /\ sbuffer s' = sbuffer s ++ [n']) by (inversion_clear Ha; auto). destruct E1 as [E1 E2].
    split; [congruence|]. split; [intros l Hl; apply HL, Q2, Hl|]. intros x Hx. rewrite E2 in Hx. apply in_app_or in Hx. destruct Hx as [Hx|[<-|[]]].
    + destruct (Q3 x Hx) as (e & He & Hk). exists e. split; [exact He|]. exact (kdeep_later _ _ _ _ HL Hk).
    + exists (S d). split; [lia|exact HD2].
  - split; [reflexivity|]. split; [intros l Hl; exact Hl|]. rewrite HB. intros x [].
Qed.
Lemma successors_kept fuel : forall vis n st st' d, sbuffer st = [] -> kdeep st n d -> successors fuel c vis n st = Ok st' ->
  exists extra, squeue st' = squeue st ++ extra /\ later st st' /\ forall x, In x extra -> exists e, d < e /\ kdeep st' x e.
Proof using HM HI HG Ec Eb Ep Eg HU HP32 HMAX.
  induction fuel as [|fuel IH]; intros vis n st st' d HB HD H; cbn [successors] in H; [discriminate|]. inv_bind H. destruct (expand_kept n st a d HB HD E) as (Q1 & Q2 & Q3).
  assert (F : exists extra, squeue (flush_nodes a) = squeue st ++ extra /\ later st (flush_nodes a) /\ forall x, In x extra -> exists e, d < e /\ kdeep (flush_nodes a) x e).
  { exists (sbuffer a). cbn [flush_nodes squeue]. rewrite Q1. split; [reflexivity|]. assert (HL : later a (flush_nodes a)) by now apply later_hist.
    split; [intros l Hl; apply HL, Q2, Hl|]. intros x Hx. destruct (Q3 x Hx) as (e & He & Hk). exists e. split; [exact He|]. exact (kdeep_later _ _ _ _ HL Hk). }
  destruct (sbuffer a) as [|n' [|x y]] eqn:EB; try (assert (Es : st' = flush_nodes a) by congruence; rewrite Es; exact F).
  destruct (N.eqb (nto n') (cpto c)); [assert (Es : st' = flush_nodes a) by congruence; rewrite Es; exact F|].
  assert (HL : later a (mkState (squeue a) [] (shist a))) by now apply later_hist.
  assert (F2 : exists extra, squeue (flush_nodes (mkState (squeue a) [] (shist a))) = squeue st ++ extra /\ later st (flush_nodes (mkState (squeue a) [] (shist a))) /\
    forall x, In x extra -> exists e, d < e /\ kdeep (flush_nodes (mkState (squeue a) [] (shist a))) x e).
  { exists []. cbn [flush_nodes squeue sbuffer]. rewrite Q1. split; [reflexivity|]. split; [|intros x []]. intros l Hl. exact (Q2 l Hl). }
  destruct (reverse_of n' n); [assert (Es : st' = flush_nodes (mkState (squeue a) [] (shist a))) by congruence; rewrite Es; exact F2|].
  destruct (memN (nto n') vis); [assert (Es : st' = flush_nodes (mkState (squeue a) [] (shist a))) by congruence; rewrite Es; exact F2|].
  destruct (Q3 n' (or_introl eq_refl)) as (e & He & Hk).
  apply (IH _ n' _ st' e) in H; [|reflexivity|exact (kdeep_later _ _ _ _ HL Hk)]. destruct H as (extra & H1 & H2 & H3). cbn [squeue] in H1. exists extra. split; [congruence|].
  split; [intros l Hl; apply H2, HL, Q2, Hl|]. intros x Hx. destruct (H3 x Hx) as (e' & He' & Hk'). exists e'. split; [lia|exact Hk'].
Qed.
Lemma next_kept lib st st' : sbuffer st = [] -> next lib c st = Ok (st', Continue) -> (forall n q, lpop lib (squeue st) = Some (n, q) -> exists d, kdeep st n d) ->
  exists n q extra, lpop lib (squeue st) = Some (n, q) /\ squeue st' = q ++ extra /\ later st st' /\
    forall d, kdeep st n d -> forall x, In x extra -> exists e, d < e /\ kdeep st' x e.
Proof using HM HI HG Ec Eb Ep Eg HU HP32 HMAX.
  intros HB H HD. unfold next in H. destruct (lpop lib (squeue st)) as [[n q]|] eqn:EP; [|discriminate]. cbn [shist] in H. exists n, q.
  destruct (match hist_get (shist st) (nroot n) with Some o => flt o (ng n) | None => false end).
  - exists []. assert (st' = mkState q (sbuffer st) (shist st)) by congruence. subst st'. cbn [squeue]. split; [reflexivity|]. split; [now rewrite app_nil_r|]. split; [now apply later_hist|].
    intros d _ x [].
  - destruct (N.eqb (nto n) (cpto c)); [discriminate|]. inv_bind H. assert (st' = a) by congruence. subst st'.
    assert (HL : later st (mkState q (sbuffer st) (shist st))) by now apply later_hist.
    destruct (HD n q eq_refl) as (d0 & HD0).
    destruct (successors_kept _ _ n (mkState q (sbuffer st) (shist st)) a d0 HB (kdeep_later _ _ _ _ HL HD0) E) as (extra & H1 & H2 & _). cbn [squeue] in H1. exists extra. split; [reflexivity|]. split; [exact H1|].
    split; [intros l Hl; apply H2, HL, Hl|]. intros d HDd x Hx.
    destruct (successors_kept _ _ n (mkState q (sbuffer st) (shist st)) a d HB (kdeep_later _ _ _ _ HL HDd) E) as (extra' & H1' & _ & H3'). cbn [squeue] in H1'.
    assert (extra' = extra) by (rewrite H1 in H1'; now apply app_inv_head in H1'). subst extra'. auto.
Qed.

(** ** The end *)
Lemma next_ok_hist lib st : pop_ok (lpop lib) -> hist st -> sbuffer st = [] -> exists r, next lib c st = Ok r.
Proof using HM HG Ec Ep Hwf Hd.
  intros Hpop Hh HB. assert (HE : poly_ok (cmesh c) (cpto c)) by exact (end_poly_ok m start goal ps pe HM HG c Ec Ep).
  assert (HS : safe (next lib c st)).
  { apply safe_next; try (rewrite Ec; assumption); auto using pop_ok_perm. split; [|rewrite HB; intros n []].
    intros n Hn. apply (reachable_ok m start goal ps pe HM HG c Ec Ep Hwf Hd). apply (hi_reach _ _ _ _ Hh). now left. }
  pose proof (next_nf lib c st HB) as HN. destruct HS as [S1 S2]. unfold nf in HN. destruct (next lib c st) as [r| | |]; try congruence. now exists r.
Qed.
Lemma ends_soon lib D : pop_ok (lpop lib) -> (forall n h R, reach (n :: h) -> kept (n :: h) R -> length h <= D) ->
  forall ds st, hist st -> sbuffer st = [] -> (exists nds, Permutation (squeue st) (map fst nds) /\ map snd nds = ds /\ forall n d, In (n, d) nds -> kdeep st n d) ->
  exists k o, answers lib c st k o.
Proof using HM HI HG Ec Eb Ep Eg HU HP32 HMAX Hwf Hd.
  intros Hpop HD ds. pose proof (lower_acc _ (counts D ds) eq_refl) as HAcc. remember (counts D ds) as v eqn:Ev. revert ds Ev.
  induction HAcc as [v _ IH]. intros ds Ev st Hh HB (nds & N1 & N2 & N3). subst v.
  destruct (next_ok_hist lib st Hpop Hh HB) as ([st' r] & Hn).
  pose proof (next_hist RA_order_laws lib c (vp start) ps st st' r (pop_ok_perm _ Hpop) Hh Hn) as Hh'.
  destruct (next_all lib c st st' r (fun n => reachable n) (pop_ok_perm _ Hpop)) as (_ & HB' & _); auto.
  { intros u w Hu Hw. eapply reachable_step; eauto. }
  { split; [intros u Hu; apply (hi_reach _ _ _ _ Hh); now left|rewrite HB; intros u []]. }
  destruct r as [p| |].
  - exists 1, (Some p). eapply answers_found. exact Hn.
  - exists 1, None. eapply answers_none. exact Hn.
  - assert (HX : forall n q, lpop lib (squeue st) = Some (n, q) -> exists nds', map fst nds' = n :: q /\ Permutation nds nds').
    { intros n q EP. pose proof (Hpop (squeue st)) as HP. rewrite EP in HP. destruct HP as [HPerm _].
      assert (HPm : Permutation (map fst nds) (n :: q)) by (rewrite <- N1; exact HPerm).
      apply Permutation_sym in HPm. apply Permutation_map_inv in HPm. destruct HPm as (nds' & E1 & E2). exists nds'. auto. }
    destruct (next_kept lib st st' HB Hn) as (n & q & extra & EP & Eq & Hl & Hex).
    { intros n q EP. destruct (HX n q EP) as ([|[n' d] rest] & E1 & E2); [discriminate|]. cbn [map fst] in E1. injection E1 as <- _. exists d. apply N3. eapply Permutation_in; [symmetry; exact E2|now left]. }
    destruct (HX n q EP) as (nds' & E1 & E2). destruct nds' as [|[n' d] rest]; [discriminate|]. cbn [map fst] in E1. injection E1 as <- Er.
    assert (Hdn : kdeep st n' d) by (apply N3; eapply Permutation_in; [symmetry; exact E2|now left]).
    assert (HdD : d <= D) by (destruct Hdn as (h & R & H1 & H2 & _ & <-); exact (HD n' h R H1 H2)).
    assert (HY : exists nx, map fst nx = extra /\ forall x e, In (x, e) nx -> kdeep st' x e /\ d < e).
    { specialize (Hex d Hdn). clear - Hex. induction extra as [|x extra IHx]; [exists []; split; [reflexivity|intros ? ? []]|].
      destruct IHx as (nx & X1 & X2); [intros y Hy; apply Hex; now right|]. destruct (Hex x (or_introl eq_refl)) as (e & H1 & H2).
      exists ((x, e) :: nx). split; [cbn [map fst]; congruence|]. intros y f [E|Hy]; [injection E as <- <-; auto|auto]. }
    destruct HY as (nx & X1 & X2).
    assert (Hrec : exists k o, answers lib c st' k o).
    { apply (IH (counts D (map snd rest ++ map snd nx))) with (ds := map snd rest ++ map snd nx).
      - apply (counts_lower D d); [exact HdD| |].
        + rewrite <- N2. apply (Permutation_map snd) in E2. exact E2.
        + intros e He. apply in_map_iff in He. destruct He as ([x e'] & <- & He). now apply (X2 x e').
      - reflexivity.
      - exact Hh'.
      - exact HB'.
      - exists (rest ++ nx). rewrite !map_app. split; [|split; [reflexivity|]].
        + rewrite Eq, X1, Er. apply Permutation_refl.
        + intros x e Hx. apply in_app_or in Hx. destruct Hx as [Hx|Hx]; [|now apply X2]. apply (kdeep_later _ _ _ _ Hl). apply N3. eapply Permutation_in; [symmetry; exact E2|now right]. }
    destruct Hrec as (k & o & Hk). exists (S k), o. eapply answers_later; eauto.
Qed.

Lemma setup_kept st : setup c (vp start) ps = Ok st -> forall n, In n (squeue st) -> kdeep st n 0.
Proof using HM HI HG Ec Eb Ep Eg HU HP32 HMAX.
  intro H. apply (setup_inv c (vp start) ps st (fun s => squeue s = [] /\ forall n, In n (sbuffer s) -> kdeep s n 0)) in H.
  - destruct H as (s & (Q1 & Q2) & ->). intros n Hn. cbn [flush_nodes squeue] in Hn. rewrite Q1 in Hn. cbn [app] in Hn. apply (kdeep_later s); [now apply later_hist|auto].
  - intros s n' s' (Q1 & Q2) Hs Ha. assert (Hr : reach [n']) by now constructor. assert (HR : reachable n') by (eexists; exact Hr).
    destruct (node_values m blocked start goal ps pe HM HI HG c Ec Eb Ep Eg HU HP32 HMAX n' HR) as (g & h & Hg & _).
    assert (HL : later s s') by (intros l Hl; exact (low_added s n' s' g l Hg Ha Hl)).
    assert (E1 : squeue s' = squeue s /\ sbuffer s' = sbuffer s ++ [n']) by (inversion_clear Ha; auto). destruct E1 as [E1 E2].
    split; [congruence|]. intros n Hn. rewrite E2 in Hn. apply in_app_or in Hn. destruct Hn as [Hn|[<-|[]]].
    + apply (kdeep_later s); auto.
    + exists [], [nroot n']. split; [exact Hr|]. split; [constructor|]. split; [|reflexivity]. exact (low_new s n' s' g Hg HR Ha).
  - split; [reflexivity|]. intros n [].
Qed.

(** The search that starts here answers. *)
Lemma search_ends lib st : pop_ok (lpop lib) -> setup c (vp start) ps = Ok st -> exists k o, answers lib c st k o.
Proof using HM HI HG Ec Eb Ep Eg HU HP32 HMAX HBo Hwf Hd.
  intros Hpop Hs. destruct kept_bound as (D & HD). pose proof (setup_kept st Hs) as HK.
  assert (HB : sbuffer st = []) by (destruct (setup_all _ _ _ _ (fun _ => True) (fun _ _ => I) Hs) as [_ E]; exact E).
  apply (ends_soon lib D Hpop HD (map snd (map (fun n => (n, 0)) (squeue st))) st (setup_hist RA_order_laws _ _ _ _ Hs) HB).
  exists (map (fun n => (n, 0)) (squeue st)). split; [|split; [reflexivity|]].
  - rewrite map_map. cbn [fst]. rewrite map_id. apply Permutation_refl.
  - intros n d Hn. apply in_map_iff in Hn. destruct Hn as (x & E & Hx). injection E as <- <-. auto.
Qed.
End Always.
