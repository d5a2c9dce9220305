(** C47: expanding a node covers the whole far boundary of the polygon. *)
From Coq Require Import List NArith ZArith Bool Lia.
From Verif Require Import Base Arith U32 Mesh Helpers Locate Search AsyncPath StdLib Spec Locate_facts Search_facts Rings.
Import ListNotations.
Open Scope N_scope.

Section Expand.
Context {A : Arith}.

(** The pieces lead from [a] to [b] without a gap. *)
Inductive chain : vec2 A -> list (Successor A) -> vec2 A -> Prop :=
| chain_one a b s : sinterval s = (a, b) -> chain a [s] b
| chain_more a m b s r : sinterval s = (a, m) -> chain m r b -> chain a (s :: r) b.

Lemma chain_app a l m r b : chain a l m -> chain m r b -> chain a (l ++ r) b.
Proof. induction 1; intro H'; cbn [app]; [eapply chain_more; eauto|eapply chain_more; eauto]. Qed.

Lemma cut_edge_chain (root : vec2 A) i e ty sp ep : chain sp (fst (cut_edge root i e ty sp ep)) ep.
Proof.
  unfold cut_edge. cbv zeta. set (r := cut_right root (fst i) e ty sp ep).
  assert (forall l, chain (snd (fst r)) l ep -> chain sp (fst (fst r) ++ l) ep) as HR.
  { intros l H. subst r. unfold cut_right in *. destruct (side sp (root, fst i)); cbn [fst snd app] in *; try exact H.
    destruct (line_intersect_segment (root, fst i) (sp, ep)) as [x|]; cbn [fst snd app] in *; [|exact H].
    destruct (_ && _); cbn [fst snd app] in *; [|exact H]. eapply chain_more; [reflexivity|exact H]. }
  destruct (fst (cut_left root (snd i) (snd (fst r)) ep)) as [x|]; cbn [fst]; apply HR.
  - eapply chain_more; [reflexivity|]. apply chain_one. reflexivity.
  - apply chain_one. reflexivity.
Qed.

(** The pieces of one edge. *)
Definition pieces (l : Layer A) (e : N * N) (ss : list (Successor A)) : Prop :=
  (forall s, In s ss -> sedge s = e) /\
  exists va vb, nthN (vertices l) (fst e) = Some va /\ nthN (vertices l) (snd e) = Some vb /\ chain (world l va) ss (world l vb).

Lemma cut_edges_pieces (l : Layer A) root i es : (forall a b, In (a, b) es -> a < lengthN (vertices l) /\ b < lengthN (vertices l)) ->
  forall ty ss, cut_edges l root i es ty = Ok ss -> exists pss, ss = concat pss /\ Forall2 (pieces l) es pss.
Proof.
  induction es as [|[a b] r IH]; intros HB ty ss H; cbn [cut_edges] in H.
  - inversion H. exists []. split; [reflexivity|constructor].
  - destruct (HB a b (or_introl eq_refl)) as [Ha Hb].
    destruct (N.ltb_spec (lengthN (vertices l)) (N.max a b)); [lia|].
    inv_bind H. inv_bind H. destruct (cut_edge _ _ _ _ _ _) as [out ty'] eqn:EC. inv_bind H. inversion H; subst ss; clear H.
    destruct (IH ltac:(intros; apply HB; now right) _ _ E1) as (pss & -> & HF).
    exists (out :: pss). split; [reflexivity|]. constructor; [|exact HF]. split.
    + exact (cut_edge_edges _ _ _ _ _ _ _ _ EC).
    + apply get_unchecked_Ok in E. apply get_unchecked_Ok in E0. exists a0, a1. split; [exact E|]. split; [exact E0|].
      pose proof (cut_edge_chain root i (a, b) ty (vadd (coords a0) (offset l)) (vadd (coords a1) (offset l))) as HC.
      rewrite EC in HC. exact HC.
Qed.

Lemma windows2_len (l : list N) : length (windows2 l) = pred (length l).
Proof. induction l as [|x [|y r] IH]; [reflexivity|reflexivity|]. cbn [windows2 length] in *. rewrite IH. reflexivity. Qed.

Lemma windows2_snoc r : forall x (z : N), windows2 (x :: r) ++ [(last r x, z)] = windows2 (x :: r ++ [z]).
Proof.
  induction r as [|y r IH]; intros x z; [reflexivity|].
  change (windows2 (x :: y :: r)) with ((x, y) :: windows2 (y :: r)). rewrite last_cons. cbn [app]. rewrite IH. reflexivity.
Qed.

Lemma rotated {X} (W T : list X) e n : length W = n ->
  firstn (n + length T) (skipn (S n) ((W ++ e :: T) ++ (W ++ e :: T))) = T ++ W.
Proof.
  intros <-. assert (skipn (S (length W)) ((W ++ e :: T) ++ W ++ e :: T) = T ++ W ++ e :: T) as ->.
  { induction W as [|w W IH]; [reflexivity|]. 
    replace (((w :: W) ++ e :: T) ++ (w :: W) ++ e :: T) with (((w :: W) ++ [e]) ++ T ++ (w :: W) ++ e :: T) by (rewrite <- !app_assoc; reflexivity).
    rewrite skipn_app. rewrite (skipn_all2 ((w :: W) ++ [e])) by (rewrite app_length; cbn; lia).
    rewrite app_length. cbn [length app]. replace (S (S (length W)) - (S (length W) + 1))%nat with 0%nat by lia. reflexivity. }
  rewrite firstn_app, firstn_all2 by lia. f_equal. replace (length W + length T - length T)%nat with (length W) by lia.
  rewrite firstn_app, Nat.sub_diag, firstn_all. cbn. apply app_nil_r.
Qed.

(** The edges after the one at position |x|, all around to it. *)
Lemma circular_after p x v y : pverts p = x ++ v :: y ->
  circular_edges_index p (lengthN x + 1) (lengthN (pverts p) + (lengthN x + 1) - 2) = Ok (windows2 (y ++ x ++ [v])).
Proof.
  intro E. unfold circular_edges_index.
  assert (exists f t, pverts p = f :: t /\ edges_index p = Ok (windows2 (f :: t ++ [f]))) as (f & t & Ef & Ee).
  { unfold edges_index. rewrite E. destruct x as [|f x]; cbn [app].
    - exists v, y. split; [reflexivity|]. f_equal. apply windows2_snoc.
    - exists f, (x ++ v :: y). split; [reflexivity|]. f_equal. apply windows2_snoc. }
  rewrite Ee. cbn [bind]. f_equal.
  assert (N.to_nat (lengthN (pverts p) + (lengthN x + 1) - 2 + 1 - (lengthN x + 1)) = length x + length y)%nat as ->.
  { rewrite E. unfold lengthN. rewrite app_length. cbn [length]. lia. }
  assert (N.to_nat (lengthN x + 1) = S (length x)) as -> by (unfold lengthN; lia).
  rewrite E in Ef. destruct x as [|f' x]; cbn [app length] in *.
  - inversion Ef; subst f t. destruct y as [|y0 y]; [reflexivity|].
    change (windows2 (v :: (y0 :: y) ++ [v])) with ((v, y0) :: windows2 ((y0 :: y) ++ [v])). cbn [app skipn].
    rewrite firstn_app.
    assert (length (windows2 (y0 :: y ++ [v])) = length (y0 :: y)) as EL.
    { rewrite windows2_len. cbn [length]. rewrite app_length. cbn. lia. }
    cbn [Nat.add]. rewrite firstn_all2 by lia. rewrite EL, Nat.sub_diag. cbn [firstn]. now rewrite app_nil_r.
  - inversion Ef; subst f' t. clear Ef.
    assert (f :: (x ++ v :: y) ++ [f] = (f :: x) ++ v :: (y ++ [f])) as -> by (cbn [app]; now rewrite <- app_assoc).
    rewrite (windows2_app (f :: x) v (y ++ [f])).
    assert (length (windows2 ((f :: x) ++ [v])) = S (length x)) as EL1.
    { rewrite windows2_len, app_length. cbn. lia. }
    set (W := windows2 ((f :: x) ++ [v])) in *.
    destruct y as [|y0 y].
    + change (windows2 (v :: [] ++ [f])) with [(v, f)].
      change (windows2 ([] ++ (f :: x) ++ [v])) with W.
      exact (rotated W [] (v, f) (S (length x)) EL1).
    + change (windows2 (v :: (y0 :: y) ++ [f])) with ((v, y0) :: windows2 ((y0 :: y) ++ [f])).
      assert (length (windows2 ((y0 :: y) ++ [f])) = S (length y)) as EL2.
      { rewrite windows2_len, app_length. cbn. lia. }
      change (windows2 ((y0 :: y) ++ (f :: x) ++ [v])) with (windows2 ((y0 :: y) ++ f :: (x ++ [v]))).
      rewrite (windows2_app (y0 :: y) f (x ++ [v])). change (windows2 (f :: x ++ [v])) with W.
      set (Y := windows2 ((y0 :: y) ++ [f])) in *.
      cbn [length]. rewrite <- EL2. exact (rotated W Y (v, y0) (S (length x)) EL1).
Qed.

(** A vertex of the polygon is at the position [pos] (squared distance below 0.001). *)
Definition at_position (l : Layer A) (pos : vec2 A) (v : N) : Prop :=
  exists vv, nthN (vertices l) v = Some vv /\ flt (vdist2 (world l vv) pos) (flit 1 1000) = true.

Lemma close_index_spec (l : Layer A) pos vs : forall i o, close_index l pos vs i = Ok o ->
  match o with
  | Some j => exists x v y, vs = x ++ v :: y /\ j = i + lengthN x /\ at_position l pos v /\ forall u, In u x -> ~ at_position l pos u
  | None => forall u, In u vs -> ~ at_position l pos u
  end.
Proof.
  induction vs as [|v r IH]; intros i o H; cbn [close_index] in H.
  - inversion H. intros u [].
  - inv_bind H. apply (proj1 (index_Ok _ _ _)) in E. destruct (flt (vdist2 (vadd (coords a) (offset l)) pos) (flit 1 1000)) eqn:EF.
    + inversion H; subst o. exists [], v, r. split; [reflexivity|]. split; [unfold lengthN; cbn; lia|]. split; [now exists a|]. intros u [].
    + assert (~ at_position l pos v) as Hv.
      { intros (vv & V1 & V2). rewrite E in V1. inversion V1; subst vv. unfold world in V2. congruence. }
      specialize (IH _ _ H). destruct o as [j|].
      * destruct IH as (x & w & y & -> & -> & H3 & H4). exists (v :: x), w, y. split; [reflexivity|].
        split; [unfold lengthN; cbn [length]; lia|]. split; [exact H3|]. intros u [<-|Hu]; [exact Hv|now apply H4].
      * intros u [<-|Hu]; [exact Hv|now apply IH].
Qed.

Lemma argmin_lt (l : list (N * F A)) : forall best n, fst best < n -> (forall x, In x l -> fst x < n) -> argmin best l < n.
Proof.
  induction l as [|x r IH]; intros best n Hb Hl; cbn [argmin]; [exact Hb|].
  destruct (flt (snd x) (snd best)); apply IH; auto; try (apply Hl; now left); intros; apply Hl; now right.
Qed.
Lemma nearest_index_lt (ds : list (F A)) i : nearest_index ds = Ok i -> i < lengthN ds.
Proof.
  unfold nearest_index. intro H.
  assert (forall (l : list (F A)) k e, In e (enum_from k l) -> k <= fst e < k + lengthN l) as HE.
  { clear. induction l as [|x r IH]; intros k e He; [destruct He|]. cbn [enum_from] in He. unfold lengthN in *. cbn [length].
    destruct He as [<-|He]; [cbn; lia|]. specialize (IH _ _ He). lia. }
  specialize (HE ds 0). fold (enumerate ds) in HE.
  destruct (enumerate ds) as [|x [|y r]]; [discriminate| |].
  - inversion H; subst i. pose proof (HE x (or_introl eq_refl)) as G. lia.
  - destruct (existsb fnan ds); [discriminate|]. injection H as <-. change (argmin x (y :: r) < lengthN ds).
    apply argmin_lt.
    + pose proof (HE x (or_introl eq_refl)) as G. lia.
    + intros z Hz. pose proof (HE z (or_intror Hz)) as G. lia.
Qed.

(** The vertex where the edge the node entered by ends, seen from the polygon: the first vertex at that position (or the
    nearest one when no vertex is). *)
Theorem C47_covers_the_far_boundary (c : Ctx A) n ss :
  mesh_wf (cmesh c) -> edges_between c n = Ok ss ->
  exists l p x v y pl e pss,
    polygon_at (cmesh c) (nto n) l p /\ pverts p = x ++ v :: y /\
    nthN (layers (cmesh c)) (nprev n) = Some pl /\ nthN (vertices pl) (snd (nedge n)) = Some e /\
    ((at_position l (world pl e) v /\ forall u, In u x -> ~ at_position l (world pl e) u) \/
     forall u, In u (pverts p) -> ~ at_position l (world pl e) u) /\
    ss = concat pss /\ Forall2 (pieces l) (windows2 (y ++ x ++ [v])) pss.
Proof.
  intros [HW _] H. unfold edges_between in H. inv_bind H. inv_bind H. inv_bind H. inv_bind H.
  rename a into l, a0 into p, a1 into ri, a2 into es.
  apply (proj1 (index_Ok _ _ _)) in E. apply (proj1 (index_Ok _ _ _)) in E0.
  unfold right_index in E1. inv_bind E1. inv_bind E1. rename a into pl, a0 into e.
  apply (proj1 (index_Ok _ _ _)) in E3. apply (proj1 (index_Ok _ _ _)) in E4.
  inv_bind E1. rename a into o. pose proof (close_index_spec _ _ _ _ _ E5) as HC.
  assert (exists x v y, pverts p = x ++ v :: y /\ ri = lengthN x + 1 /\
     ((at_position l (world pl e) v /\ forall u, In u x -> ~ at_position l (world pl e) u) \/
     forall u, In u (pverts p) -> ~ at_position l (world pl e) u)) as (x & v & y & EP & ER & HO).
  { destruct o as [i|].
    - destruct HC as (x & v & y & H1 & H2 & H3 & H4). inversion E1; subst ri. exists x, v, y. split; [exact H1|]. split; [lia|]. left. split; [exact H3|exact H4].
    - inv_bind E1. inv_bind E1. inversion E1; subst ri. rename a into ds, a0 into k.
      apply nearest_index_lt in E7.
      assert (length ds = length (pverts p)) as EL.
      { clear - E6. revert ds E6. induction (pverts p) as [|w r IH]; intros ds H; cbn [mapM] in H; [inversion H; reflexivity|].
        inv_bind H. inv_bind H. inversion H; subst ds. cbn. f_equal. now apply IH. }
      destruct (nthN_lt_Some (pverts p) k) as [v Hv]; [unfold lengthN in *; lia|].
      rewrite nthN_nth_error in Hv. destruct (nth_error_split _ _ Hv) as (x & y & H1 & H2).
      exists x, v, y. split; [exact H1|]. split; [unfold lengthN; lia|]. right. exact HC. }
  subst ri. rewrite (circular_after p x v y EP) in E2. inversion E2; subst es.
  destruct (cut_edges_pieces l (nroot n) (ninterval n) (windows2 (y ++ x ++ [v]))) with (2 := H) as (pss & H1 & H2).
  { assert (forall (ws : list N) a b, In (a, b) (windows2 ws) -> In a ws /\ In b ws) as HI.
    { clear. induction ws as [|u [|w r] IH]; intros a b H; [destruct H|destruct H|]. destruct H as [H|H].
      - inversion H; subst. split; [now left|right; now left].
      - destruct (IH _ _ H) as [H1 H2]. split; now right. }
    intros a b Hab. apply HI in Hab.
    assert (forall w, In w (y ++ x ++ [v]) -> w < lengthN (vertices l)) as HV.
    { intros w Hw. apply (HW l (nthN_In _ _ _ E) p (nthN_In _ _ _ E0)). rewrite EP. rewrite !in_app_iff in *. cbn [In] in *. tauto. }
    split; apply HV; tauto. }
  exists l, p, x, v, y, pl, e, pss. split; [split; [exact E|exact E0]|]. split; [exact EP|]. split; [exact E3|]. split; [exact E4|].
  split; [exact HO|]. auto.
Qed.
End Expand.

From Verif Require Import F32 F32_facts Tests Checkers.
Lemma ok_length {X} (r : res (list X)) n : match r with Ok ss => Nat.eqb (length ss) n | _ => false end = true ->
  exists ss, r = Ok ss /\ length ss = n.
Proof. destruct r as [ss| | |]; try discriminate. intro H. exists ss. split; [reflexivity|]. now apply Nat.eqb_eq. Qed.
(** A node of the search on the grid of the tests. *)
Example C47_example : mesh_wf mesh_u_grid /\
  exists ss, edges_between (mkCtx mesh_u_grid t1 2 [])
     (start_node mesh_u_grid f1 (pt 1 0, pt 1 1) (1, 5) 0 1 (vdist f1 t1) (q 0 1)) = Ok ss /\ length ss = 3%nat.
Proof.
  split; [apply mesh_wfb_ok; vmc|].
  apply ok_length. vmc.
Qed.
Print Assumptions C47_covers_the_far_boundary.
