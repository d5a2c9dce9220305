(** Proofs of the structural properties of returned paths (C10-C15). *)
From Coq Require Import List NArith ZArith Bool Lia Permutation.
From Verif Require Import Base Arith U32 Mesh Helpers Locate Search AsyncPath StdLib Spec Locate_facts Closest_facts Search_facts.
Import ListNotations.
Open Scope N_scope.

Section Props.
Context {A : Arith}.

(** A point of the (line of the) edge [sp, ep], as cut by the search: an end of the edge, or the intersection of the
    edge with a line, or the intersection of the rest of the edge with a line. *)
Inductive edge_point (sp ep : vec2 A) : vec2 A -> Prop :=
| ep_start : edge_point sp ep sp
| ep_end : edge_point sp ep ep
| ep_cut line x : line_intersect_segment line (sp, ep) = Some x -> edge_point sp ep x
| ep_cut2 line line2 x y : line_intersect_segment line (sp, ep) = Some x ->
    line_intersect_segment line2 (x, ep) = Some y -> edge_point sp ep y.

Definition crossing_point (m : Mesh A) (x : Crossing) (pt : vec2 A) : Prop :=
  exists l p va vb, polygon_at m (cr_from x) l p /\
    nthN (vertices l) (cr_a x) = Some va /\ nthN (vertices l) (cr_b x) = Some vb /\
    edge_point (world l va) (world l vb) pt.

Lemma cut_right_points (root r : vec2 A) e ty sp ep :
  (forall s, In s (fst (fst (cut_right root r e ty sp ep))) ->
     fst (sinterval s) = sp /\ edge_point sp ep (snd (sinterval s))) /\
  (snd (fst (cut_right root r e ty sp ep)) = sp \/
   exists line, line_intersect_segment line (sp, ep) = Some (snd (fst (cut_right root r e ty sp ep)))).
Proof.
  unfold cut_right. destruct (side _ _); simpl; try (split; [tauto|now left]).
  destruct (line_intersect_segment _ _) as [x|] eqn:E; simpl; try (split; [tauto|now left]).
  destruct (_ && _); simpl; [|split; [tauto|now left]].
  split.
  - intros s [<-|[]]. simpl. split; [reflexivity|]. eapply ep_cut; exact E.
  - right. eauto.
Qed.

Lemma cut_left_point (root l sp ep x : vec2 A) :
  fst (cut_left root l sp ep) = Some x -> line_intersect_segment (root, l) (sp, ep) = Some x.
Proof.
  unfold cut_left. destruct (side _ _); simpl; try discriminate.
  destruct (line_intersect_segment _ _) as [y|]; simpl; try discriminate.
  destruct (fgt _ _); [congruence|discriminate].
Qed.

Lemma cut_edge_points (root : vec2 A) i e ty sp ep s :
  In s (fst (cut_edge root i e ty sp ep)) ->
  edge_point sp ep (fst (sinterval s)) /\ edge_point sp ep (snd (sinterval s)).
Proof.
  unfold cut_edge.
  destruct (cut_right_points root (fst i) e ty sp ep) as [H1 H2].
  set (sp1 := snd (fst (cut_right root (fst i) e ty sp ep))) in *.
  assert (H3 : edge_point sp ep sp1).
  { destruct H2 as [->|[ln H2]]; [constructor|]. eapply ep_cut; exact H2. }
  intro Hs. destruct (fst (cut_left root (snd i) sp1 ep)) as [x|] eqn:E; simpl in Hs;
    apply in_app_or in Hs; destruct Hs as [Hs|Hs].
  - destruct (H1 _ Hs) as [-> H]. split; [constructor|exact H].
  - assert (Hx : edge_point sp ep x).
    { apply cut_left_point in E. destruct H2 as [H2|[ln H2]].
      - rewrite H2 in E. eapply ep_cut; exact E.
      - eapply ep_cut2; [exact H2|exact E]. }
    destruct Hs as [<-|[<-|[]]]; simpl; split; auto; constructor.
  - destruct (H1 _ Hs) as [-> H]. split; [constructor|exact H].
  - destruct Hs as [<-|[]]; simpl; split; auto; constructor.
Qed.

Lemma cut_edges_points (l : Layer A) root i es : forall ty ss,
  cut_edges l root i es ty = Ok ss ->
  forall s, In s ss -> exists va vb,
    nthN (vertices l) (fst (sedge s)) = Some va /\ nthN (vertices l) (snd (sedge s)) = Some vb /\
    edge_point (world l va) (world l vb) (fst (sinterval s)) /\
    edge_point (world l va) (world l vb) (snd (sinterval s)).
Proof.
  induction es as [|[a b] r IH]; intros ty ss H s Hs; simpl in H.
  - inversion H; subst. destruct Hs.
  - destruct (_ <? _); [eapply IH; eauto|].
    inv_bind H. inv_bind H. destruct (cut_edge _ _ _ _ _ _) as [out ty'] eqn:EC.
    inv_bind H. inversion H; subst; clear H. apply in_app_or in Hs. destruct Hs as [Hs|Hs].
    + rewrite (cut_edge_edges _ _ _ _ _ _ _ _ EC _ Hs). simpl.
      apply get_unchecked_Ok in E. apply get_unchecked_Ok in E0.
      exists a0, a1. repeat split; auto.
      * apply (cut_edge_points root i (a, b) ty (world l a0) (world l a1)). unfold world. rewrite EC. exact Hs.
      * apply (cut_edge_points root i (a, b) ty (world l a0) (world l a1)). unfold world. rewrite EC. exact Hs.
    + eapply IH; eauto.
Qed.

(** The crossing by which a node entered its polygon. *)
Definition node_crossing (n : Node A) : Crossing := mkCross (nfrom n) (fst (nedge n)) (snd (nedge n)) (nto n).

(** The invariant of generated nodes. *)
Record supported (c : Ctx A) (from : vec2 A) (ps : N) (n : Node A) : Prop := {
  sup_prev : nprev n = id_layer (nfrom n);
  sup_chain : exists xs, corridor (cmesh c) ps (xs ++ [node_crossing n]) (nto n) /\
                 (forall x, In x (xs ++ [node_crossing n]) -> ~ In (id_layer (cr_to x)) (cblocked c)) /\
                 turns_along (cmesh c) (cblocked c) xs (npath n);
  sup_int0 : crossing_point (cmesh c) (node_crossing n) (fst (ninterval n));
  sup_int1 : crossing_point (cmesh c) (node_crossing n) (snd (ninterval n))
}.

Lemma corner_ok_turn c n vi pt :
  nprev n = id_layer (nfrom n) ->
  valid_crossing (cmesh c) (node_crossing n) ->
  vi = fst (nedge n) \/ vi = snd (nedge n) ->
  corner_ok c n vi pt = Ok true ->
  turn_at (cmesh c) (cblocked c) (node_crossing n) pt.
Proof.
  intros Hp (l & p & va & vb & HP & _) Hvi H. unfold corner_ok in H.
  inv_bind H. inv_bind H. apply index_Ok in E. apply index_Ok in E0.
  destruct HP as [HL HPo]. simpl in HL. rewrite Hp, HL in E. inversion E; subst a.
  injection H as H. apply andb_prop in H. destruct H as [H1 H2].
  exists l, p, a0, vi. repeat split; auto.
  apply orb_prop in H1. destruct H1 as [H1|H1]; [now left|right].
  apply andb_prop in H1. destruct H1 as [H1 H3]. split.
  - destruct (cblocked c); [discriminate|congruence].
  - apply existsb_exists in H3. destruct H3 as (q & Hq1 & Hq2). exists q. split; [assumption|].
    apply orb_prop in Hq2. destruct Hq2 as [Hq2|Hq2]; [left; now apply N.eqb_eq|right; now apply memN_In].
Qed.

(** A law of every sensible arithmetic: a point that is not equal to itself (a NaN coordinate) poisons the lengths
    it enters.  Proved for binary32 in F32_facts.v. *)
Definition nan_sane : Prop :=
  forall (g : F A) (v : vec2 A), veq v v = false -> fnan (fadd g (vdist v v)) = true.

Lemma gen_start_supported c from ps n :
  nan_sane -> cpto c <> MAX ->
  gen_start c from ps n -> supported c from ps n.
Proof.
  intros Hnan Hpto (l & p & a & b & sv & ev & HP & HE & HA & HB & Hbl & Hos & -> & Hg & _).
  set (os := other_side sv ev ps) in *.
  assert (HM : os <> MAX) by (destruct Hos as [->|[? _]]; assumption).
  destruct (other_side_spec sv ev ps) as [HC|(_ & HC2 & HC3 & HC4)]; [contradiction|]. fold os in HC2, HC3, HC4.
  assert (Hrefl : veq from from = true).
  { destruct (veq from from) eqn:Hr; [reflexivity|]. unfold new_node in Hg. simpl in Hg. rewrite Hr in Hg. simpl in Hg.
    rewrite Hnan in Hg by assumption. discriminate. }
  assert (HX : valid_crossing (cmesh c) (mkCross ps a b os)).
  { exists l, p, sv, ev. simpl. repeat split; auto; apply HP. }
  constructor.
  - reflexivity.
  - exists []. simpl. unfold node_crossing, new_node. simpl. rewrite Hrefl. simpl. repeat split.
    + change [mkCross ps a b os] with ([] ++ [mkCross ps a b os]).
      apply (corridor_snoc (cmesh c) ps [] (mkCross ps a b os)); [constructor|exact HX].
    + intros x [<-|[]]. simpl. now apply memN_false.
    + constructor.
  - exists l, p, sv, ev. simpl. repeat split; auto; try apply HP. constructor.
  - exists l, p, sv, ev. simpl. repeat split; auto; try apply HP. constructor.
Qed.

Lemma corridor_snoc_inv m p xs x q : corridor (A:=A) m p (xs ++ [x]) q -> valid_crossing m x /\ cr_to x = q.
Proof.
  intro H. inversion H; [destruct xs; discriminate|].
  apply app_inj_tail in H0. destruct H0; subst. auto.
Qed.

Lemma gen_step_supported c from ps n n' :
  nan_sane -> supported c from ps n -> gen_step c n n' -> supported c from ps n'.
Proof.
  intros Hnan [Hp (xs & HC & Hbl & Ht) HI0 HI1] (s & root & l & ss & sv & ev & HL & Hss & Hs & HA & HB &
    HM & Hb & Hd & Hne & Hroot & Hlen & -> & Hg & Hh).
  set (os := other_side sv ev (nto n)) in *.
  destruct (other_side_spec sv ev (nto n)) as [HCo|(_ & HC2 & HC3 & HC4)]; [contradiction|]. fold os in HC2, HC3, HC4.
  destruct (edges_between_spec _ _ _ Hss) as (l' & p & HP & Hbe).
  assert (l' = l) by (destruct HP as [HP _]; congruence). subst l'.
  assert (HX : valid_crossing (cmesh c) (mkCross (nto n) (fst (sedge s)) (snd (sedge s)) os)).
  { exists l, p, sv, ev. simpl. repeat split; auto; apply HP. }
  destruct (corridor_snoc_inv _ _ _ _ _ HC) as [HVn _].
  assert (Hpts : edge_point (world l sv) (world l ev) (fst (sinterval s)) /\
                 edge_point (world l sv) (world l ev) (snd (sinterval s))).
  { unfold edges_between in Hss. inv_bind Hss. inv_bind Hss. inv_bind Hss. inv_bind Hss.
    apply index_Ok in E. assert (a = l) by congruence. subst a.
    destruct (cut_edges_points _ _ _ _ _ _ Hss _ Hs) as (va & vb & H1 & H2 & H3 & H4).
    assert (va = sv) by congruence. assert (vb = ev) by congruence. subst. auto. }
  constructor.
  - reflexivity.
  - exists (xs ++ [node_crossing n]). unfold node_crossing at 2 3, new_node. simpl. repeat split.
    + apply (corridor_snoc (cmesh c) ps (xs ++ [node_crossing n])
               (mkCross (nto n) (fst (sedge s)) (snd (sedge s)) os)); assumption.
    + intros x Hx. apply in_app_or in Hx. destruct Hx as [Hx|[<-|[]]]; [now apply Hbl|].
      simpl. now apply memN_false.
    + destruct (veq root (nroot n)) eqn:EM; simpl; [now constructor|].
      unfold root_choice in Hroot. destruct (sty s).
      * destruct Hroot as (_ & Hc & ->). constructor; [assumption|]. eapply corner_ok_turn; [assumption|assumption|right; reflexivity|exact Hc].
      * subst root. exfalso. unfold new_node in Hg. simpl in Hg. rewrite EM in Hg. simpl in Hg.
        rewrite Hnan in Hg by assumption. discriminate.
      * destruct Hroot as (_ & Hc & ->). constructor; [assumption|]. eapply corner_ok_turn; [assumption|assumption|left; reflexivity|exact Hc].
  - exists l, p, sv, ev. simpl. repeat split; auto; try apply HP; apply Hpts.
  - exists l, p, sv, ev. simpl. repeat split; auto; try apply HP; apply Hpts.
Qed.

Lemma reachable_supported c from ps n :
  nan_sane -> cpto c <> MAX -> reachable c from ps n -> supported c from ps n.
Proof.
  intros Hnan Hpto [h Hh]. remember (n :: h) as hh eqn:E. revert n h E.
  induction Hh as [n0 H0|n0 n1 h0 Hr IH Hg]; intros n h E; inversion E; subst.
  - now apply gen_start_supported.
  - eapply gen_step_supported; [assumption| |exact Hg]. eapply IH. reflexivity.
Qed.

Lemma turning_point_ends (root goal : vec2 A) i t :
  turning_point root goal i = Some t -> t = fst i \/ t = snd i.
Proof.
  unfold turning_point. destruct (veq _ _); [discriminate|].
  destruct (side_eqb _ _); [intro H; inversion H; auto|].
  destruct (side_eqb _ _); [intro H; inversion H; auto|discriminate].
Qed.

End Props.
Arguments nan_sane A : clear implicits.

Section Results.
Context {A : Arith}.
Implicit Types (lib : Lib A) (m : Mesh A).

(** The polygon an end point is taken to be in: the one it carries, or the one of the closest mesh point. *)
Definition located lib m (c : Coords A) (id : N) : Prop :=
  (cpoly c <> MAX /\ id = cpoly c) \/
  (cpoly c = MAX /\ exists c', get_closest_point (lbvh lib) m c = Ok (Some c') /\ id = cpoly c').

Lemma locate_end_located lib m c id : locate_end lib m c = Ok (Some id) <-> located lib m c id.
Proof.
  unfold locate_end, located. destruct (N.eqb_spec (cpoly c) MAX) as [E|E]; simpl; split.
  - intro H. right. split; [assumption|]. inv_bind H. destruct a as [c'|]; [|discriminate].
    inversion H. eauto.
  - intros [[H _]|(_ & c' & H & ->)]; [contradiction|]. rewrite H. reflexivity.
  - intro H. left. inversion H. auto.
  - intros [[_ ->]|[H _]]; [reflexivity|contradiction].
Qed.

Lemma located_fun lib m c a b : located lib m c a -> located lib m c b -> a = b.
Proof. rewrite <- !locate_end_located. congruence. Qed.

Lemma located_not_MAX lib m c id : mesh_small m -> located lib m c id -> id <> MAX.
Proof.
  intros Hm [[H ->]|(_ & c' & H & ->)]; [assumption|].
  destruct (get_closest_point_Some _ _ _ _ Hm H) as (step & i & li & l & p & H1 & H2 & H3 & H4 & H5 & H6 & H7 & _).
  assumption.
Qed.

(** What a node in the target polygon gives. *)
Lemma final_supported (c : Ctx A) (from : vec2 A) ps n :
  supported c from ps n -> nto n = cpto c ->
  exists xs x turns last_turn,
    corridor (cmesh c) ps (xs ++ [x]) (cpto c) /\
    (forall y, In y (xs ++ [x]) -> ~ In (id_layer (cr_to y)) (cblocked c)) /\
    turns_along (cmesh c) (cblocked c) xs turns /\
    ppath (final_path c n) = turns ++ last_turn ++ [cgoal c] /\
    (last_turn = [] \/ exists t, last_turn = [t] /\ crossing_point (cmesh c) x t).
Proof.
  intros [_ (xs & HC & Hb & Ht) HI0 HI1] Hto. rewrite Hto in HC.
  exists xs, (node_crossing n), (npath n).
  unfold final_path. simpl.
  destruct (turning_point _ _ _) as [t|] eqn:E.
  - exists [t]. repeat split; auto.
    + rewrite <- app_assoc. reflexivity.
    + right. exists t. split; [reflexivity|].
      destruct (turning_point_ends _ _ _ _ E) as [->| ->]; assumption.
  - exists []. repeat split; auto.
Qed.

(** Everything about a returned path (C10-C13). *)
Lemma path_on_layers_supported lib m from to blocked p :
  nan_sane A -> pop_perm (lpop lib) -> mesh_small m ->
  path_on_layers lib m from to blocked = Ok (Some p) ->
  exists ps pe, located lib m from ps /\ located lib m to pe /\
   ((ps = pe /\ p = mkPath (vdist (cpos from) (cpos to)) [cpos to]) \/
    (ps <> pe /\ exists xs x turns last_turn,
      corridor m ps (xs ++ [x]) pe /\
      (forall y, In y (xs ++ [x]) -> ~ In (id_layer (cr_to y)) blocked) /\
      turns_along m blocked xs turns /\
      ppath p = turns ++ last_turn ++ [cpos to] /\
      (last_turn = [] \/ exists t, last_turn = [t] /\ crossing_point m x t))).
Proof.
  intros Hnan Hpop Hm H. apply path_on_layers_cases in H.
  destruct H as (ps & pe & Hs & He & _ & H). apply locate_end_located in Hs. apply locate_end_located in He.
  exists ps, pe. split; [assumption|]. split; [assumption|].
  destruct H as [H|(Hne & st & Hset & Hrun)]; [left; assumption|right]. split; [assumption|].
  destruct (search_found lib _ _ _ _ _ _ Hpop Hset Hrun) as (n & Hr & Hto & ->).
  apply reachable_supported in Hr; [|assumption|simpl; eapply located_not_MAX; eauto].
  apply (final_supported _ _ _ _ Hr) in Hto. exact Hto.
Qed.

(** The same for the future. *)
Lemma three_found lib c (P : Node A -> Prop) :
  pop_perm (lpop lib) -> (forall n n', P n -> gen_step c n n' -> P n') ->
  forall k st st' r, all_nodes P st -> sbuffer st = [] -> three k lib c st = Ok (st', r) ->
  all_nodes P st' /\ sbuffer st' = [] /\
  (forall p, r = Some (Some p) -> exists n, P n /\ nto n = cpto c /\ p = final_path c n).
Proof.
  intros Hpop HP. induction k as [|k IH]; intros st st' r Hst HB H; simpl in H.
  - inversion H; subst. split; [assumption|split; [assumption|discriminate]].
  - inv_bind H. destruct a as [st1 r1]. simpl in H.
    destruct (next_all lib c st st1 r1 P Hpop HP Hst HB E) as (H1 & H2 & H3).
    destruct r1.
    + inversion H; subst. split; [assumption|split; [assumption|]]. intros q Hq. apply H3. congruence.
    + inversion H; subst. split; [assumption|split; [assumption|discriminate]].
    + eapply IH; eauto.
Qed.

Lemma poll_times_found lib (f : Future A) (P : Node A -> Prop) c st k p log :
  pop_perm (lpop lib) -> (forall n n', P n -> gen_step c n n' -> P n') ->
  finst f = Some (c, st) -> all_nodes P st -> sbuffer st = [] ->
  poll_times k lib f = Ok (Some (Some p), log) -> exists n, P n /\ nto n = cpto c /\ p = final_path c n.
Proof.
  intros Hpop HP. revert f st log. induction k as [|k IH]; intros f st log Hf Hst HB H; simpl in H; [discriminate|].
  inv_bind H. unfold poll in E. rewrite Hf in E. inv_bind E. destruct a0 as [st1 r].
  destruct (three_found lib c P Hpop HP _ _ _ _ Hst HB E0) as (H1 & H2 & H3).
  simpl in E. destruct r as [o|].
  - inversion E; subst. simpl in H. inversion H; subst. apply H3. reflexivity.
  - inversion E; subst. inv_bind H. destruct a as [r lg]. simpl in H. inversion H; subst.
    eapply IH; [| | |exact E1]; [reflexivity|assumption|assumption].
Qed.

Lemma get_path_supported lib m from to k p log :
  nan_sane A -> pop_perm (lpop lib) ->
  poll_times k lib (get_path m from to) = Ok (Some (Some p), log) ->
  exists ps pe, get_point_location (lbvh lib) m (coords_on_mesh from) = Ok ps /\ ps <> MAX /\
    get_point_location (lbvh lib) m (coords_on_mesh to) = Ok pe /\ pe <> MAX /\
   ((ps = pe /\ p = mkPath (vdist from to) [to]) \/
    (ps <> pe /\ exists xs x turns last_turn,
      corridor m ps (xs ++ [x]) pe /\
      turns_along m [] xs turns /\
      ppath p = turns ++ last_turn ++ [to] /\
      (last_turn = [] \/ exists t, last_turn = [t] /\ crossing_point m x t))).
Proof.
  intros Hnan Hpop H. destruct k as [|k]; [discriminate|]. simpl in H. inv_bind H.
  unfold poll, get_path in E. cbn [finst ffrom fto fmesh] in E. inv_bind E. rename a0 into ps.
  destruct (N.eqb_spec ps MAX); [inversion E; subst; discriminate|].
  inv_bind E. rename a0 into pe. destruct (N.eqb_spec pe MAX); [inversion E; subst; discriminate|].
  exists ps, pe. do 4 (split; [assumption|]).
  inv_bind E. destruct a0; [inversion E; subst; discriminate|].
  destruct (N.eqb_spec ps pe).
  - left. split; [assumption|]. inversion E; subst. simpl in H. congruence.
  - right. split; [assumption|]. inv_bind E. inversion E; subst. simpl in H. inv_bind H.
    destruct a as [r lg]. simpl in H. inversion H; subst.
    destruct (setup_all (mkCtx m to pe []) from ps a0 (reachable (mkCtx m to pe []) from ps)) as [Ha Hb].
    { intros n2 Hn2. exists []. now constructor. }
    { exact E3. }
    assert (exists nn, reachable (mkCtx m to pe []) from ps nn /\ nto nn = cpto (mkCtx m to pe []) /\
              p = final_path (mkCtx m to pe []) nn) as (nn & Hr & Hto & ->).
    { refine (poll_times_found lib _ _ _ a0 k p lg Hpop _ _ Ha Hb E4); [|reflexivity].
      intros. eapply reachable_step; eauto. }
    apply reachable_supported in Hr; [|assumption|assumption].
    destruct (final_supported _ _ _ _ Hr Hto) as (xs & x & turns & lt & H1 & _ & H2 & H3 & H4).
    exists xs, x, turns, lt. auto.
Qed.

End Results.
