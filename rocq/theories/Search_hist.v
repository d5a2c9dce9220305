(** The history of roots (C23). *)
From Coq Require Import List NArith ZArith Bool Lia Permutation.
From Verif Require Import Base Arith U32 Mesh Helpers Locate Search StdLib Spec Search_facts Search_props Search_cost.
Import ListNotations.
Open Scope N_scope.

Section Hist.
Context {A : Arith}.

(** Laws: [==] on points is symmetric and transitive, [not <] is transitive on numbers, and a distance that is a
    number is a distance to a point equal to itself. *)
Record order_laws : Prop := {
  ol_sym : forall a b : vec2 A, veq a b = true -> veq b a = true;
  ol_trans : forall a b c : vec2 A, veq a b = true -> veq b c = true -> veq a c = true;
  ol_ge_trans : forall x y z : F A, fnan x = false -> fnan y = false -> fnan z = false ->
     flt x y = false -> flt y z = false -> flt x z = false;
  ol_irrefl : forall x : F A, flt x x = false;
  ol_dist : forall (g : F A) (a b : vec2 A), fnan (fadd g (vdist a b)) = false -> veq b b = true;
  ol_zero : fnan (fz 0 : F A) = false
}.
Context (OL : order_laws).

Lemma hist_get_veq (h : list (vec2 A * F A)) a b : veq a b = true -> hist_get h a = hist_get h b.
Proof.
  intro H. induction h as [|[k v] t IH]; simpl; [reflexivity|].
  assert (veq k a = veq k b) as ->.
  { destruct (veq k a) eqn:E1, (veq k b) eqn:E2; auto.
    - rewrite (ol_trans OL _ _ _ E1 H) in E2. discriminate.
    - rewrite (ol_trans OL _ _ _ E2 (ol_sym OL _ _ H)) in E1. discriminate. }
  destruct (veq k b); auto.
Qed.

Lemma hist_get_set (h : list (vec2 A * F A)) r o x k : hist_get h r = Some o ->
  hist_get (hist_set h r x) k = if veq r k then Some x else hist_get h k.
Proof.
  induction h as [|[k' v] t IH]; simpl; intro H; [discriminate|].
  destruct (veq k' r) eqn:E1; simpl.
  - assert (veq k' k = veq r k) as ->.
    { destruct (veq k' k) eqn:E2, (veq r k) eqn:E3; auto.
      - rewrite (ol_trans OL _ _ _ (ol_sym OL _ _ E1) E2) in E3. discriminate.
      - rewrite (ol_trans OL _ _ _ E1 E3) in E2. discriminate. }
    destruct (veq r k); reflexivity.
  - destruct (veq k' k) eqn:E2.
    + destruct (veq r k) eqn:E3; [|reflexivity].
      rewrite (ol_trans OL _ _ _ E2 (ol_sym OL _ _ E3)) in E1. discriminate.
    + apply IH; assumption.
Qed.

(** Somebody reached this root with this cost: the start itself, or a generated node. *)
Definition attained (c : Ctx A) (from : vec2 A) ps (root : vec2 A) (o : F A) : Prop :=
  (veq from root = true /\ o = fz 0) \/
  exists n, reachable c from ps n /\ veq (nroot n) root = true /\ ng n = o.

Record hist_inv (c : Ctx A) (from : vec2 A) ps (st : State A) : Prop := {
  hi_att : forall k o, hist_get (shist st) k = Some o -> attained c from ps k o;
  hi_low : forall n, In n (squeue st) \/ In n (sbuffer st) ->
     exists o, hist_get (shist st) (nroot n) = Some o /\ flt (ng n) o = false;
  hi_reach : forall n, In n (squeue st) \/ In n (sbuffer st) -> reachable c from ps n
}.

Lemma attained_not_nan c from ps k o : attained c from ps k o -> fnan o = false.
Proof.
  intros [[_ ->]|(n & H & _ & <-)]; [apply (ol_zero OL)|]. eapply reachable_not_nan; eauto.
Qed.

Lemma attained_veq c from ps a b o : veq a b = true -> attained c from ps a o -> attained c from ps b o.
Proof.
  intros H [[H1 ->]|(n & H1 & H2 & <-)].
  - left. split; [|reflexivity]. eapply (ol_trans OL); eauto.
  - right. exists n. repeat split; auto. eapply (ol_trans OL); eauto.
Qed.

(** roots of generated nodes are points *)
Lemma new_node_root (c : Ctx A) root os s e n :
  fnan (ng (new_node c root os s e n)) = false -> veq root root = true.
Proof.
  unfold new_node. simpl. destruct (veq root (nroot n)) eqn:E; simpl.
  - intros _. eapply (ol_trans OL); [exact E|]. now apply (ol_sym OL).
  - apply (ol_dist OL).
Qed.
Lemma reachable_root (c : Ctx A) from ps n : reachable c from ps n -> veq (nroot n) (nroot n) = true.
Proof.
  intros [h Hh]. inversion Hh; subst.
  - destruct H0 as (l & p & a & b & sv & ev & _ & _ & _ & _ & _ & _ & -> & H & _). simpl.
    eapply new_node_root; exact H.
  - destruct H2 as (s & root & l & ss & sv & ev & _ & _ & _ & _ & _ & _ & _ & _ & _ & _ & _ & -> & H & _). simpl.
    eapply new_node_root; exact H.
Qed.

Lemma hist_inv_added c from ps st n' st' :
  hist_inv c from ps st -> reachable c from ps n' -> added st n' st' -> hist_inv c from ps st'.
Proof.
  intros [Ha Hl Hr] Hn Hadd.
  pose proof (reachable_root _ _ _ _ Hn) as Hroot.
  destruct (reachable_not_nan _ _ _ _ Hn) as [Hg _].
  inversion Hadd as [HG|o HG HF]; subst; constructor; cbn [shist squeue sbuffer] in *.
  - intros k o. simpl. destruct (veq (nroot n') k) eqn:E; [|apply Ha].
    intro H. inversion H; subst. right. exists n'. auto.
  - intros n H. assert (In n (squeue st) \/ In n (sbuffer st) \/ n = n') as H'.
    { destruct H as [H|H]; [auto|]. apply in_app_or in H. destruct H as [H|[<-|[]]]; auto. }
    simpl. destruct (veq (nroot n') (nroot n)) eqn:E.
    + exists (ng n'). split; [reflexivity|]. destruct H' as [H'|[H'|H']]; try (subst; apply (ol_irrefl OL)).
      * exfalso. destruct (Hl n (or_introl H')) as (o & H1 & _).
        rewrite <- (hist_get_veq (shist st) _ _ E), HG in H1. discriminate.
      * exfalso. destruct (Hl n (or_intror H')) as (o & H1 & _).
        rewrite <- (hist_get_veq (shist st) _ _ E), HG in H1. discriminate.
    + destruct H' as [H'|[H'|H']]; auto. subst. congruence.
  - intros n [H|H]; [auto|]. apply in_app_or in H. destruct H as [H|[<-|[]]]; auto.
  - intros k o1. rewrite (hist_get_set _ _ _ _ _ HG). destruct (veq (nroot n') k) eqn:E; [|apply Ha].
    intro H. inversion H; subst. right. exists n'. auto.
  - intros n H. assert (In n (squeue st) \/ In n (sbuffer st) \/ n = n') as H'.
    { destruct H as [H|H]; [auto|]. apply in_app_or in H. destruct H as [H|[<-|[]]]; auto. }
    rewrite (hist_get_set _ _ _ _ _ HG). destruct (veq (nroot n') (nroot n)) eqn:E.
    + exists (ng n'). split; [reflexivity|].
      assert (Hold : In n (squeue st) \/ In n (sbuffer st) -> flt (ng n) (ng n') = false).
      { intro H0. destruct (Hl n H0) as (o1 & H1 & H2).
        rewrite <- (hist_get_veq (shist st) _ _ E), HG in H1. inversion H1; subst o1.
        apply (ol_ge_trans OL) with o; auto.
        - eapply reachable_not_nan; eauto.
        - eapply attained_not_nan; eauto. }
      destruct H' as [H'|[H'|H']]; auto. subst. apply (ol_irrefl OL).
    + destruct H' as [H'|[H'|H']]; auto. subst. congruence.
  - intros n [H|H]; [auto|]. apply in_app_or in H. destruct H as [H|[<-|[]]]; auto.
Qed.

Lemma hist_inv_flush c from ps st : hist_inv c from ps st -> hist_inv c from ps (flush_nodes st).
Proof.
  intros [Ha Hl Hr]. constructor; simpl; auto.
  - intros n [H|[]]. apply in_app_or in H. destruct H; auto.
  - intros n [H|[]]. apply in_app_or in H. destruct H; auto.
Qed.

Lemma hist_inv_less c from ps st q b :
  hist_inv c from ps st -> incl q (squeue st) -> incl b (sbuffer st) -> hist_inv c from ps (mkState q b (shist st)).
Proof.
  intros [Ha Hl Hr] Hq Hb. constructor; simpl; auto.
  - intros n [H|H]; auto.
  - intros n [H|H]; auto.
Qed.

Lemma setup_hist c from ps st : setup c from ps = Ok st -> hist_inv c from ps st.
Proof.
  intro H. eapply setup_inv with (I := hist_inv c from ps) in H.
  - destruct H as (st0 & H0 & ->). now apply hist_inv_flush.
  - intros st0 n' st1 H1 H2 H3. eapply hist_inv_added; [exact H1| |exact H3]. exists []. now constructor.
  - constructor; simpl.
    + intros k o. destruct (veq from k) eqn:E; [|discriminate]. intro H1. inversion H1; subst. left. auto.
    + intros n [[]|[]].
    + intros n [[]|[]].
Qed.

Lemma successors_hist c from ps : forall fuel vis n st st',
  reachable c from ps n -> hist_inv c from ps st -> successors fuel c vis n st = Ok st' -> hist_inv c from ps st'.
Proof.
  induction fuel as [|fuel IH]; intros vis n st st' Hn Hst H; simpl in H; [discriminate|].
  inv_bind H.
  assert (Ha : hist_inv c from ps a).
  { eapply expand_inv with (I := hist_inv c from ps); [|exact Hst|exact E].
    intros st0 n' st1 H1 H2 H3. eapply hist_inv_added; [exact H1| |exact H3]. eapply reachable_step; eauto. }
  destruct (sbuffer a) as [|n' [|x y]] eqn:EB; try (inversion H; subst; now apply hist_inv_flush).
  assert (Hn' : reachable c from ps n') by (apply (hi_reach _ _ _ _ Ha); right; rewrite EB; now left).
  assert (Ha' : hist_inv c from ps (mkState (squeue a) [] (shist a))).
  { apply hist_inv_less; [assumption|intros ? ?; assumption|intros ? []]. }
  destruct (N.eqb _ _); [inversion H; subst; now apply hist_inv_flush|].
  destruct (reverse_of _ _); [inversion H; subst; now apply hist_inv_flush|].
  destruct (memN _ _); [inversion H; subst; now apply hist_inv_flush|].
  eapply IH; [| |exact H]; assumption.
Qed.

Lemma next_hist lib c from ps st st' r :
  pop_perm (lpop lib) -> hist_inv c from ps st -> next lib c st = Ok (st', r) -> hist_inv c from ps st'.
Proof.
  intros Hpop Hst H. unfold next in H. specialize (Hpop (squeue st)).
  destruct (lpop lib (squeue st)) as [[n q]|]; [|inversion H; subst; assumption].
  assert (Hst1 : hist_inv c from ps (mkState q (sbuffer st) (shist st))).
  { apply hist_inv_less; [assumption| |intros ? ?; assumption].
    intros x Hx. eapply Permutation_in; [symmetry; exact Hpop|now right]. }
  cbn [shist] in H. destruct (match hist_get _ _ with Some _ => _ | None => _ end); [inversion H; subst; assumption|].
  destruct (N.eqb (nto n) (cpto c)); [inversion H; subst; assumption|].
  inv_bind H. inversion H; subst. eapply successors_hist; [|exact Hst1|exact E].
  apply (hi_reach _ _ _ _ Hst). left. eapply Permutation_in; [symmetry; exact Hpop|now left].
Qed.

(** The states the search goes through. *)
Inductive search_state (lib : Lib A) (c : Ctx A) (from : vec2 A) (ps : N) : State A -> Prop :=
| ss_start st : setup c from ps = Ok st -> search_state lib c from ps st
| ss_next st st' r : search_state lib c from ps st -> next lib c st = Ok (st', r) -> search_state lib c from ps st'.

Lemma search_state_hist lib c from ps st :
  pop_perm (lpop lib) -> search_state lib c from ps st -> hist_inv c from ps st.
Proof.
  intros Hpop H. induction H; [now apply setup_hist|]. eapply next_hist; eauto.
Qed.

End Hist.
Arguments order_laws A : clear implicits.
