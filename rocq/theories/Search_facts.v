(** The search generates nodes by [gen_start] and [gen_step] only; invariants of the queue. *)
From Coq Require Import List NArith ZArith Bool Lia Permutation.
From Verif Require Import Base Arith U32 Mesh Helpers Locate Search StdLib Spec.
Import ListNotations.
Open Scope N_scope.

Section Search_facts.
Context {A : Arith}.
Implicit Types (c : Ctx A) (n : Node A) (st : State A).

(** ** other_side *)
Lemma other_side_spec (sv ev : Vertex A) p :
  let os := other_side sv ev p in
  os = MAX \/ (os <> MAX /\ os <> p /\ In os (vpolys sv) /\ In os (vpolys ev)).
Proof.
  simpl. unfold other_side.
  destruct (find _ _) as [i|] eqn:E; [|now left].
  apply find_some in E. destruct E as [E1 E2]. apply filter_In in E1. destruct E1 as [E1 E3].
  apply andb_prop in E3. destruct E3 as [E3 E4].
  right. apply negb_true_iff, N.eqb_neq in E2. apply negb_true_iff, N.eqb_neq in E3.
  apply memN_In in E4. auto.
Qed.

(** ** edges *)
Lemma windows2_spec l : forall a b,
  In (a, b) (windows2 l) <-> exists i, nth_error l i = Some a /\ nth_error l (S i) = Some b.
Proof.
  induction l as [|x [|y r] IH]; intros a b.
  - simpl. split; [tauto|]. intros ([|i] & H & _); discriminate.
  - simpl. split; [tauto|]. intros (i & _ & H). destruct i; discriminate.
  - change (windows2 (x :: y :: r)) with ((x, y) :: windows2 (y :: r)). simpl In. rewrite IH. split.
    + intros [H|(i & H1 & H2)].
      * inversion H; subst. exists 0%nat. split; reflexivity.
      * exists (S i). split; assumption.
    + intros (i & H1 & H2). destruct i.
      * left. simpl in *. congruence.
      * right. exists i. split; assumption.
Qed.

Lemma last_nth_error {T} (r : list T) : forall a, nth_error (a :: r) (length r) = Some (last r a).
Proof.
  induction r as [|x r IH]; intros a; [reflexivity|].
  change (nth_error (x :: r) (length r) = Some (last (x :: r) a)). rewrite IH.
  f_equal. destruct r; [reflexivity|]. simpl. clear. 
  revert t. induction r; intros; [reflexivity|]. simpl. apply IHr.
Qed.

Lemma edges_index_spec p es : edges_index p = Ok es ->
  pverts p <> [] /\ forall a b, In (a, b) es <-> boundary_edge (pverts p) a b.
Proof.
  unfold edges_index. destruct (pverts p) as [|x r] eqn:E; [discriminate|].
  intro H. assert (es = windows2 (x :: r) ++ [(last r x, x)]) by congruence. subst es. clear H.
  split; [discriminate|]. intros a b.
  rewrite in_app_iff, windows2_spec. unfold boundary_edge.
  assert (HL : length (x :: r) = S (length r)) by reflexivity.
  split.
  - intros [(i & H1 & H2)|[H|[]]].
    + exists i. split; [assumption|].
      assert (S i < length (x :: r))%nat by (apply nth_error_Some; congruence).
      rewrite Nat.mod_small by assumption. assumption.
    + inversion H; subst. exists (length r). split; [apply last_nth_error|].
      rewrite HL, Nat.mod_same by lia. reflexivity.
  - intros (i & H1 & H2).
    assert (i < length (x :: r))%nat by (apply nth_error_Some; congruence).
    destruct (Nat.eq_dec (S i) (length (x :: r))) as [Hi|Hi].
    + right. left. rewrite Hi, Nat.mod_same in H2 by lia. simpl in H2.
      assert (i = length r) by lia. subst i. rewrite last_nth_error in H1.
      congruence.
    + left. exists i. split; [assumption|]. rewrite Nat.mod_small in H2 by lia. assumption.
Qed.

Lemma edges_index_length p es : edges_index p = Ok es -> length es = length (pverts p).
Proof.
  unfold edges_index. destruct (pverts p) as [|x r]; [discriminate|].
  intro H. assert (es = windows2 (x :: r) ++ [(last r x, x)]) by congruence. subst es. clear H.
  rewrite app_length. change (length [(last r x, x)]) with 1%nat.
  assert (forall (l : list N) y, length (windows2 (y :: l)) = length l) as W.
  { clear. induction l; intros; [reflexivity|].
    change (windows2 (y :: a :: l)) with ((y, a) :: windows2 (a :: l)). 
    change (S (length (windows2 (a :: l))) = S (length l)). now rewrite IHl. }
  rewrite W. simpl. lia.
Qed.

Lemma In_firstn {T} (x : T) (n : nat) l : In x (firstn n l) -> In x l.
Proof. revert l. induction n; intros [|y l]; simpl; try tauto. intros [H|H]; auto. Qed.
Lemma In_skipn {T} (x : T) (n : nat) l : In x (skipn n l) -> In x l.
Proof. revert l. induction n; intros [|y l]; simpl; try tauto. intros H. right. auto. Qed.

Lemma circular_edges_In p lo hi es a b :
  circular_edges_index p lo hi = Ok es -> In (a, b) es -> boundary_edge (pverts p) a b.
Proof.
  unfold circular_edges_index. intros H Hin. inv_bind H.
  inversion H; subst. apply In_firstn, In_skipn in Hin.
  apply in_app_or in Hin. destruct (edges_index_spec _ _ E) as [_ HS].
  destruct Hin as [Hin|Hin]; now apply HS.
Qed.

(** ** cut_edge and edges_between: the successors carry the edge they come from *)
Lemma cut_right_edges (root r : vec2 A) e ty sp ep s :
  In s (fst (fst (cut_right root r e ty sp ep))) -> sedge s = e.
Proof.
  unfold cut_right. destruct (side _ _); simpl; try tauto.
  destruct (line_intersect_segment _ _); simpl; try tauto.
  destruct (_ && _); simpl; [intros [<-|[]]; reflexivity|tauto].
Qed.

Lemma cut_edge_edges (root : vec2 A) i e ty sp ep out ty' :
  cut_edge root i e ty sp ep = (out, ty') -> forall s, In s out -> sedge s = e.
Proof.
  unfold cut_edge. intros H s Hs.
  destruct (fst (cut_left _ _ _ _)); inversion H; subst; clear H;
    apply in_app_or in Hs; destruct Hs as [Hs|Hs]; try (eapply cut_right_edges; exact Hs);
    simpl in Hs; repeat destruct Hs as [<-|Hs]; try reflexivity; try destruct Hs.
Qed.

Lemma cut_edges_edges (l : Layer A) root i es : forall ty ss,
  cut_edges l root i es ty = Ok ss ->
  forall s, In s ss -> In (sedge s) es /\
    (exists va, nthN (vertices l) (fst (sedge s)) = Some va) /\
    (exists vb, nthN (vertices l) (snd (sedge s)) = Some vb).
Proof.
  induction es as [|[a b] r IH]; intros ty ss H s Hs; simpl in H.
  - inversion H; subst. destruct Hs.
  - destruct (_ <? _).
    + destruct (IH _ _ H _ Hs) as [H1 H2]. split; [now right|assumption].
    + inv_bind H. inv_bind H.
      destruct (cut_edge _ _ _ _ _ _) as [out ty'] eqn:EC.
      inv_bind H. inversion H; subst; clear H.
      apply in_app_or in Hs. destruct Hs as [Hs|Hs].
      * rewrite (cut_edge_edges _ _ _ _ _ _ _ _ EC _ Hs).
        split; [now left|]. simpl. apply get_unchecked_Ok in E. apply get_unchecked_Ok in E0. eauto.
      * destruct (IH _ _ E1 _ Hs) as [H1 H2]. split; [now right|assumption].
Qed.

Lemma edges_between_spec c n ss : edges_between c n = Ok ss ->
  exists l p, polygon_at (cmesh c) (nto n) l p /\
    forall s, In s ss -> boundary_edge (pverts p) (fst (sedge s)) (snd (sedge s)).
Proof.
  unfold edges_between. intro H.
  inv_bind H. inv_bind H. inv_bind H. inv_bind H.
  exists a, a0. split.
  - split; apply index_Ok; assumption.
  - intros s Hs. destruct (cut_edges_edges _ _ _ _ _ _ H s Hs) as [H1 _].
    eapply circular_edges_In; [exact E2|].
    destruct (sedge s); exact H1.
Qed.

(** ** Generated nodes *)

(** [n'] is generated by [setup] (instance.rs 175-213) *)
Definition gen_start c (from : vec2 A) (ps : N) (n' : Node A) : Prop :=
  exists l p a b sv ev,
    polygon_at (cmesh c) ps l p /\ boundary_edge (pverts p) a b /\
    nthN (vertices l) a = Some sv /\ nthN (vertices l) b = Some ev /\
    let os := other_side sv ev ps in
    memN (id_layer os) (cblocked c) = false /\
    (os = cpto c \/ (os <> MAX /\ exists q, mesh_polygon (cmesh c) os = Ok q /\ is_one_way q = false)) /\
    n' = new_node c from os (vadd (coords sv) (offset l), a) (vadd (coords ev) (offset l), b)
                  (empty_node from ps) /\
    fnan (ng n') = false /\ fnan (nh n') = false.

(** the root chosen for successor [s] of [n] (instance.rs 770-841) *)
Definition root_choice c n (l : Layer A) (sv ev : Vertex A) (s : Successor A) (root : vec2 A) : Prop :=
  match sty s with
  | Obs => root = nroot n
  | RightNonObs =>
      fgt (vdist2 (fst (sinterval s)) (vadd (coords sv) (offset l))) c1em10 = false /\
      corner_ok c n (fst (nedge n)) (fst (ninterval n)) = Ok true /\ root = fst (ninterval n)
  | LeftNonObs =>
      fgt (vdist2 (snd (sinterval s)) (vadd (coords ev) (offset l))) c1em10 = false /\
      corner_ok c n (snd (nedge n)) (snd (ninterval n)) = Ok true /\ root = snd (ninterval n)
  end.

(** [n'] is generated from [n] through successor [s] (instance.rs 688-864) *)
Definition gen_step_via c n (s : Successor A) (root : vec2 A) n' : Prop :=
  exists l ss sv ev,
    nthN (layers (cmesh c)) (id_layer (nto n)) = Some l /\
    edges_between c n = Ok ss /\ In s ss /\
    nthN (vertices l) (fst (sedge s)) = Some sv /\ nthN (vertices l) (snd (sedge s)) = Some ev /\
    let os := other_side sv ev (nto n) in
    os <> MAX /\ memN (id_layer os) (cblocked c) = false /\
    (os = cpto c \/ exists q, mesh_polygon (cmesh c) os = Ok q /\ is_one_way q = false) /\
    nfrom n <> os /\
    root_choice c n l sv ev s root /\
    flt (vdist2 (fst (sinterval s)) (snd (sinterval s))) c1em10 = false /\
    n' = new_node c root os (fst (sinterval s), fst (sedge s)) (snd (sinterval s), snd (sedge s)) n /\
    fnan (ng n') = false /\ fnan (nh n') = false.

Definition gen_step c n n' : Prop := exists s root, gen_step_via c n s root n'.

(** Histories of generated nodes, most recent first. *)
Inductive reach c (from : vec2 A) (ps : N) : list (Node A) -> Prop :=
| reach_start n : gen_start c from ps n -> reach c from ps [n]
| reach_step n n' h : reach c from ps (n :: h) -> gen_step c n n' -> reach c from ps (n' :: n :: h).

Definition reachable c from ps n : Prop := exists h, reach c from ps (n :: h).

(** How add_node changes the state. *)
Inductive added st n' : State A -> Prop :=
| added_new : hist_get (shist st) (nroot n') = None ->
    added st n' (mkState (squeue st) (sbuffer st ++ [n']) ((nroot n', ng n') :: shist st))
| added_better o : hist_get (shist st) (nroot n') = Some o -> flt o (ng n') = false ->
    added st n' (mkState (squeue st) (sbuffer st ++ [n']) (hist_set (shist st) (nroot n') (ng n'))).

Lemma add_node_spec c st root os s e n :
  let nn := new_node c root os s e n in
  let st' := add_node c st root os s e n in
  (st' = st /\ (fnan (ng nn) = true \/ fnan (nh nn) = true \/
                exists o, hist_get (shist st) root = Some o /\ flt o (ng nn) = true))
  \/ (fnan (ng nn) = false /\ fnan (nh nn) = false /\ added st nn st').
Proof.
  intros nn st'. subst st'. unfold add_node. fold nn.
  destruct (fnan (ng nn)) eqn:E1; cbn [orb]; [left; auto|].
  destruct (fnan (nh nn)) eqn:E2; [left; auto|].
  destruct (hist_get (shist st) root) as [o|] eqn:E3.
  - destruct (flt o (ng nn)) eqn:E4.
    + left. split; [reflexivity|]. right. right. eauto.
    + right. repeat split; auto. apply (added_better st nn o); assumption.
  - right. repeat split; auto. apply (added_new st nn). assumption.
Qed.

Lemma expand_one_spec c n l ss st s st' :
  nthN (layers (cmesh c)) (id_layer (nto n)) = Some l ->
  edges_between c n = Ok ss -> In s ss ->
  expand_one c n l st s = Ok st' ->
  st' = st \/ exists n', gen_step c n n' /\ added st n' st'.
Proof.
  intros Hl Hss Hs H. unfold expand_one in H.
  inv_bind H. inv_bind H.
  apply get_unchecked_Ok in E. apply get_unchecked_Ok in E0.
  set (os := other_side a a0 (nto n)) in *.
  destruct (N.eqb_spec os MAX); [left; inversion H; auto|].
  destruct (memN (id_layer os) (cblocked c)) eqn:EB; [left; inversion H; auto|].
  inv_bind H. destruct a1 eqn:EA; [left; inversion H; auto|].
  assert (HD : os = cpto c \/ exists q, mesh_polygon (cmesh c) os = Ok q /\ is_one_way q = false).
  { destruct (N.eqb_spec (cpto c) os); [left; auto|]. inv_bind E1. inversion E1. right. eauto. }
  destruct (N.eqb_spec (nfrom n) os); [left; inversion H; auto|].
  inv_bind H. destruct a2 as [root|]; [|left; inversion H; auto].
  destruct (flt _ _) eqn:EL in H; [left; inversion H; auto|].
  inversion H; subst st'; clear H.
  assert (HR : root_choice c n l a a0 s root).
  { unfold root_choice. destruct (sty s).
    - destruct (fgt _ _) eqn:EG in E2; [discriminate|]. inv_bind E2. destruct a2; inversion E2; subst. auto.
    - inversion E2. reflexivity.
    - destruct (fgt _ _) eqn:EG in E2; [discriminate|]. inv_bind E2. destruct a2; inversion E2; subst. auto. }
  destruct (add_node_spec c st root os (fst (sinterval s), fst (sedge s)) (snd (sinterval s), snd (sedge s)) n)
    as [[H _]|(H1 & H2 & H3)]; [left; exact H|].
  right. eexists. split; [|exact H3].
  exists s, root, l, ss, a, a0. repeat split; auto.
Qed.

(** A state invariant kept by adding generated nodes is kept by the expansion. *)
Lemma expand_inv c n st st' (I : State A -> Prop) :
  (forall st n' st', I st -> gen_step c n n' -> added st n' st' -> I st') ->
  I st -> expand c n st = Ok st' -> I st'.
Proof.
  intros HI H0 H. unfold expand in H. inv_bind H. inv_bind H.
  apply index_Ok in E0.
  eapply foldM_inv with (P := I); [|exact H0|exact H].
  intros s x s' Hx Hs Hstep.
  destruct (expand_one_spec c n a0 a s x s' E0 E Hx Hstep) as [->|(n' & Hg & Ha)]; eauto.
Qed.

Lemma setup_inv c from ps st (I : State A -> Prop) :
  (forall st n' st', I st -> gen_start c from ps n' -> added st n' st' -> I st') ->
  I (mkState [] [] [(from, fz 0)]) ->
  setup c from ps = Ok st -> exists st0, I st0 /\ st = flush_nodes st0.
Proof.
  intros HI H0 H. unfold setup in H.
  inv_bind H. inv_bind H. inv_bind H. inv_bind H. inversion H; subst; clear H.
  exists a2. split; [|reflexivity].
  eapply foldM_inv with (P := I); [|exact H0|exact E2].
  intros s [a3 b] s' Hx Hs Hstep. unfold setup_edge in Hstep. simpl in Hstep.
  destruct (nthN (vertices a) a3) as [sv|] eqn:EV1; [|inversion Hstep; subst; auto].
  destruct (nthN (vertices a) b) as [ev|] eqn:EV2; [|inversion Hstep; subst; auto].
  destruct (memN _ _) eqn:EB; [inversion Hstep; subst; auto|].
  set (os := other_side sv ev ps) in *.
  inv_bind Hstep. destruct a4; [|inversion Hstep; subst; auto].
  inversion Hstep; subst; clear Hstep.
  destruct (add_node_spec c s from os (vadd (coords sv) (offset a), a3) (vadd (coords ev) (offset a), b)
                          (empty_node from ps)) as [[H _]|(H1 & H2 & H3)].
  - simpl in *. rewrite H. assumption.
  - eapply HI; [exact Hs| |exact H3].
    exists a, a0, a3, b, sv, ev. repeat split; auto.
    + apply index_Ok; assumption.
    + apply index_Ok; assumption.
    + destruct (edges_index_spec _ _ E1) as [_ HS]. now apply HS.
    + fold os. destruct (N.eqb_spec os (cpto c)); [left; auto|]. right.
      destruct (N.eqb_spec os MAX); [discriminate|]. inv_bind E3. inversion E3.
      split; [assumption|]. exists a4. split; [assumption|].
      now apply negb_true_iff.
Qed.

(** ** Reachability of everything queued *)
Definition all_nodes (P : Node A -> Prop) st : Prop :=
  (forall x, In x (squeue st) -> P x) /\ (forall x, In x (sbuffer st) -> P x).

Lemma all_nodes_added P st n' st' : all_nodes P st -> P n' -> added st n' st' -> all_nodes P st'.
Proof.
  intros [H1 H2] Hn Ha. inversion Ha; subst; split; simpl; auto;
  intros x Hx; apply in_app_or in Hx; destruct Hx as [Hx|[<-|[]]]; auto.
Qed.

Lemma all_nodes_flush P st : all_nodes P st -> all_nodes P (flush_nodes st).
Proof.
  intros [H1 H2]. split; simpl; [|tauto]. intros x Hx. apply in_app_or in Hx. destruct Hx; auto.
Qed.

Lemma setup_all c from ps st (P : Node A -> Prop) :
  (forall n, gen_start c from ps n -> P n) -> setup c from ps = Ok st ->
  all_nodes P st /\ sbuffer st = [].
Proof.
  intros HP H. eapply setup_inv with (I := all_nodes P) in H.
  - destruct H as (st0 & H0 & ->). split; [now apply all_nodes_flush|reflexivity].
  - intros st0 n' st1 H1 H2 H3. eapply all_nodes_added; [exact H1| |exact H3]; auto.
  - split; simpl; tauto.
Qed.

Lemma successors_all c (P : Node A -> Prop) :
  (forall n n', P n -> gen_step c n n' -> P n') ->
  forall fuel vis n st st', P n -> all_nodes P st -> successors fuel c vis n st = Ok st' ->
  all_nodes P st' /\ sbuffer st' = [].
Proof.
  intro HP. induction fuel as [|fuel IH]; intros vis n st st' Hn Hst H; simpl in H; [discriminate|].
  inv_bind H.
  assert (Ha : all_nodes P a).
  { eapply expand_inv with (I := all_nodes P); [|exact Hst|exact E].
    intros st0 n' st1 H1 H2 H3. eapply all_nodes_added; [exact H1| |exact H3]; eauto. }
  destruct (sbuffer a) as [|n' [|x y]] eqn:EB.
  - inversion H; subst. split; [now apply all_nodes_flush|reflexivity].
  - assert (Hn' : P n') by (apply Ha; rewrite EB; now left).
    assert (Ha' : all_nodes P (mkState (squeue a) [] (shist a))).
    { split; simpl; [apply Ha|tauto]. }
    destruct (N.eqb _ _); [inversion H; subst; split; [now apply all_nodes_flush|reflexivity]|].
    destruct (reverse_of _ _); [inversion H; subst; split; [now apply all_nodes_flush|reflexivity]|].
    destruct (memN _ _); [inversion H; subst; split; [now apply all_nodes_flush|reflexivity]|].
    eapply IH; [| |exact H]; auto.
  - inversion H; subst. split; [now apply all_nodes_flush|reflexivity].
Qed.

Lemma next_all lib c st st' r (P : Node A -> Prop) :
  pop_perm (lpop lib) ->
  (forall n n', P n -> gen_step c n n' -> P n') ->
  all_nodes P st -> sbuffer st = [] ->
  next lib c st = Ok (st', r) ->
  all_nodes P st' /\ sbuffer st' = [] /\
  (forall p, r = Found p -> exists n, P n /\ nto n = cpto c /\ p = final_path c n).
Proof.
  intros Hpop HP [HQ HB] HB0 H. unfold next in H.
  specialize (Hpop (squeue st)). destruct (lpop lib (squeue st)) as [[n q]|].
  2:{ inversion H; subst. split; [split; auto|split; [auto|discriminate]]. }
  assert (Hn : P n) by (apply HQ; eapply Permutation_in; [symmetry; exact Hpop|now left]).
  assert (Hq : forall x, In x q -> P x).
  { intros x Hx. apply HQ. eapply Permutation_in; [symmetry; exact Hpop|now right]. }
  assert (Hst : all_nodes P (mkState q (sbuffer st) (shist st))) by (split; simpl; auto).
  cbn [shist] in H. destruct (match hist_get _ _ with Some _ => _ | None => _ end).
  - inversion H; subst. split; [assumption|split; [assumption|discriminate]].
  - destruct (N.eqb_spec (nto n) (cpto c)).
    + inversion H; subst. split; [assumption|split; [assumption|]].
      intros p Hp. inversion Hp; subst. eauto.
    + inv_bind H. inversion H; subst.
      destruct (successors_all c P HP _ _ _ _ _ Hn Hst E) as [H1 H2].
      split; [assumption|split; [assumption|discriminate]].
Qed.

Lemma run_found lib c (P : Node A -> Prop) :
  pop_perm (lpop lib) ->
  (forall n n', P n -> gen_step c n n' -> P n') ->
  forall k st p, all_nodes P st -> sbuffer st = [] ->
  run k lib c st = Ok (Some p) -> exists n, P n /\ nto n = cpto c /\ p = final_path c n.
Proof.
  intros Hpop HP. induction k as [|k IH]; intros st p Hst HB H; simpl in H; [discriminate|].
  inv_bind H. destruct a as [st1 r]. simpl in H.
  destruct (next_all lib c st st1 r P Hpop HP Hst HB E) as (H1 & H2 & H3).
  destruct r.
  - inversion H; subst. apply H3; reflexivity.
  - eapply IH; [| |exact H]; assumption.
  - eapply IH; [| |exact H]; assumption.
Qed.

Lemma reachable_step c from ps n n' : reachable c from ps n -> gen_step c n n' -> reachable c from ps n'.
Proof. intros [h Hh] Hg. exists (n :: h). constructor; assumption. Qed.

(** Everything about a path found by the search follows from the node it was read from. *)
Lemma search_found lib c from ps st k p :
  pop_perm (lpop lib) ->
  setup c from ps = Ok st -> run k lib c st = Ok (Some p) ->
  exists n, reachable c from ps n /\ nto n = cpto c /\ p = final_path c n.
Proof.
  intros Hpop Hs Hr.
  destruct (setup_all c from ps st (reachable c from ps)) as [H1 H2].
  - intros n Hn. exists []. now constructor.
  - assumption.
  - eapply run_found; [exact Hpop| |exact H1|exact H2|exact Hr].
    intros. eapply reachable_step; eauto.
Qed.

(** Case analysis of path_on_layers *)
Lemma path_on_layers_cases lib m from to blocked p :
  path_on_layers lib m from to blocked = Ok (Some p) ->
  exists ps pe, locate_end lib m from = Ok (Some ps) /\ locate_end lib m to = Ok (Some pe) /\
    islands_reject m ps pe = Ok false /\
    ((ps = pe /\ p = mkPath (vdist (cpos from) (cpos to)) [cpos to]) \/
     (ps <> pe /\ exists st, setup (mkCtx m (cpos to) pe blocked) (cpos from) ps = Ok st /\
        run (count_polygons m * 10) lib (mkCtx m (cpos to) pe blocked) st = Ok (Some p))).
Proof.
  unfold path_on_layers. intro H. inv_bind H. destruct a as [ps|]; [|discriminate].
  inv_bind H. destruct a as [pe|]; [|discriminate]. inv_bind H. destruct a; [discriminate|].
  exists ps, pe. repeat split; auto.
  destruct (N.eqb_spec ps pe).
  - left. inversion H. auto.
  - right. split; [assumption|]. inv_bind H. eauto.
Qed.

End Search_facts.
