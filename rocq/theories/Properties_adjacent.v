(** C78: a destination in the next polygon is never answered with "no path". *)
From Coq Require Import List NArith ZArith Bool Lia Reals Lra Permutation.
From Coq.Floats Require Import SpecFloat.
From Verif Require Import Base Arith U32 Mesh Helpers Locate Search AsyncPath StdLib Spec F32 F32_facts Search_facts Search_cost Search_hist Properties_async
  RealArith Geometry Properties_geometry Properties_heuristic Heuristic Spec_f32 F32_real Side32 Length32 Reach32 End32 Properties_f32 Properties_length32 Search_props.
Import ListNotations.
Open Scope N_scope.

(** ** The law of costs: a sum of distances is not negative *)
Definition cost_law (A : Arith) : Prop := forall (g : F A) (a b : vec2 A), flt g (fz 0) = false -> flt (fadd g (vdist a b)) (fz 0) = false.

Definition s_nonneg (x : spec_float) : bool := match x with S754_finite true _ _ | S754_infinity true => false | _ => true end.
Lemma s_nonneg_lt x : SFltb x (S754_zero false) = false <-> s_nonneg x = true.
Proof. destruct x as [| [|] | |[|] m e]; cbn; split; congruence. Qed.
Lemma round_aux_nonneg m e l : s_nonneg (binary_round_aux prec32 emax32 false m e l) = true.
Proof.
  unfold binary_round_aux. destruct (shr_fexp prec32 emax32 m e l) as [a b]. destruct (shr_fexp prec32 emax32 _ b loc_Exact) as [c d].
  destruct (shr_m c); cbn; try reflexivity. now destruct (Z.leb _ _).
Qed.
Lemma s_sqrt_nonneg x : s_nonneg (s_sqrt x) = true.
Proof. unfold s_sqrt, SFsqrt. destruct x as [| [|] | |[|] m e]; try reflexivity. destruct (SFsqrt_core_binary prec32 emax32 (Zpos m) e) as [[a b] c]. apply round_aux_nonneg. Qed.
Lemma s_add_nonneg x y : s_nonneg x = true -> s_nonneg y = true -> s_nonneg (s_add x y) = true.
Proof.
  unfold s_add, SFadd. destruct x as [[|]|[|]| |[|] m e], y as [[|]|[|]| |[|] m' e']; cbn [s_nonneg]; try discriminate; try reflexivity.
  intros _ _. cbn [cond_Zopp]. change (Z.add (Zpos ?a) (Zpos ?b)) with (Zpos (a + b)). cbn [binary_normalize].
  unfold binary_round. destruct (shl_align _ _ _) as [a b]. apply round_aux_nonneg.
Qed.
Lemma F32_cost_law sn cs ac : cost_law (F32with sn cs ac).
Proof. intros g a b H. apply s_nonneg_lt. apply s_nonneg_lt in H. apply s_add_nonneg; [exact H|]. apply s_sqrt_nonneg. Qed.
Lemma RA_cost_law : cost_law RA.
Proof.
  intros g a b. destruct g as [g|]; [|reflexivity]. intro H. destruct (vdist a b) as [d|] eqn:E; [|reflexivity].
  assert (0 <= d)%R.
  { destruct a as [[ax|] [ay|]], b as [[bx|] [b_y|]]; try discriminate E.
    change (vdist (vp (P ax ay)) (vp (P bx b_y)) = Some d) in E. rewrite vdist_vp in E. injection E as <-. apply dist_nonneg. }
  rewrite fz_R in H |- *. apply rltb_false. apply rltb_false in H. cbn in H |- *. lra.
Qed.

Section Any.
Context {A : Arith}.
Implicit Types (n : Node A) (st : State A).

(** the cost of a node is not negative *)
Lemma cost_not_negative c from ps n : order_laws A -> cost_law A -> reachable c from ps n -> flt (ng n) (fz 0) = false.
Proof.
  intros OL HL [h H]. remember (n :: h) as nh eqn:E. revert n h E. induction H as [n0 H0|n0 n1 h0 Hr IH Hg]; intros n h E; injection E as <- <-.
  - destruct H0 as (l & p & a & b & sv & ev & _ & _ & _ & _ & _ & _ & -> & _). unfold new_node. cbn [ng empty_node].
    destruct (negb _); [apply HL|]; apply (ol_irrefl OL).
  - specialize (IH n0 h0 eq_refl). destruct Hg as (s & root & l & ss & sv & ev & _ & _ & _ & _ & _ & _ & _ & _ & _ & _ & _ & -> & _).
    unfold new_node. cbn [ng]. destruct (negb _); [now apply HL|exact IH].
Qed.

(** nodes in the queue stay there *)
Lemma successors_keep c n0 : forall fuel vis n st st', In n0 (squeue st) -> successors fuel c vis n st = Ok st' -> In n0 (squeue st').
Proof.
  induction fuel as [|fuel IH]; intros vis n st st' Hi H; [discriminate|]. cbn [successors] in H. inv_bind H.
  assert (Ha : In n0 (squeue a)).
  { eapply expand_inv with (I := fun st => In n0 (squeue st)); [|exact Hi|exact E]. intros s1 n1 s2 H1 _ [?|? ? ?]; exact H1. }
  assert (HF : forall s, In n0 (squeue s) -> In n0 (squeue (flush_nodes s))) by (intros s Hs; cbn [flush_nodes squeue]; apply in_or_app; now left).
  destruct (sbuffer a) as [|n' [|x y]] eqn:EB; try (injection H as <-; now apply HF).
  destruct (N.eqb _ _); [injection H as <-; now apply HF|].
  destruct (reverse_of _ _); [injection H as <-; cbn [flush_nodes squeue]; apply in_or_app; now left|].
  destruct (memN _ _); [injection H as <-; cbn [flush_nodes squeue]; apply in_or_app; now left|].
  exact (IH _ _ _ _ (Ha : In n0 (squeue (mkState (squeue a) [] (shist a)))) H).
Qed.

(** a node of cost 0 in the destination polygon *)
Definition at_goal (c : Ctx A) (from : vec2 A) n : Prop := nto n = cpto c /\ nroot n = from /\ ng n = fz 0.

Lemma free_node_wins lib c from ps n : order_laws A -> cost_law A -> pop_perm (lpop lib) -> at_goal c from n ->
  forall st k o, hist_inv c from ps st -> In n (squeue st) -> answers lib c st k o -> o <> None.
Proof.
  intros OL HL Hpop (N1 & N2 & N3) st k o HI Hin H. revert HI Hin. induction H as [st st' p H|st st' H|st st' k o H _ IH]; intros HI Hin; [discriminate| |].
  - exfalso. unfold next in H. pose proof (Hpop (squeue st)) as HP. destruct (lpop lib (squeue st)) as [[x q]|]; [|rewrite HP in Hin; destruct Hin].
    cbn [shist] in H. destruct (match hist_get _ _ with Some _ => _ | None => _ end); [discriminate|]. destruct (N.eqb _ _); [discriminate|]. inv_bind H. discriminate.
  - assert (HI' : hist_inv c from ps st') by exact (next_hist OL lib c from ps st st' Continue Hpop HI H).
    apply IH; [exact HI'|]. unfold next in H. pose proof (Hpop (squeue st)) as HP. destruct (lpop lib (squeue st)) as [[x q]|] eqn:EP; [|discriminate].
    pose proof (Permutation_in _ HP Hin) as [<- |Hq].
    + exfalso. cbn [shist] in H. destruct (hist_get (shist st) (nroot x)) as [o'|] eqn:EH.
      * assert (EL : flt o' (ng x) = false).
        { rewrite N3. destruct (hi_att _ _ _ _ HI _ _ EH) as [[_ ->]|(y & Hy & _ & <-)]; [apply (ol_irrefl OL)|]. exact (cost_not_negative c from ps y OL HL Hy). }
        rewrite EL, N1, N.eqb_refl in H. discriminate.
      * rewrite N1, N.eqb_refl in H. discriminate.
    + cbn [shist] in H. destruct (match hist_get _ _ with Some _ => _ | None => _ end); [injection H as <-; exact Hq|]. destruct (N.eqb _ _); [discriminate|].
      inv_bind H. injection H as <-. exact (successors_keep c n _ _ _ _ _ (Hq : In n (squeue (mkState q (sbuffer st) (shist st)))) E).
Qed.

(** ** The other side of an edge *)
(** [q] is the only polygon, besides [p], that both [va] and [vb] list. *)
Definition only_other (va vb : Vertex A) (p q : N) : Prop :=
  In q (vpolys va) /\ In q (vpolys vb) /\ q <> p /\ q <> MAX /\ forall i, In i (vpolys va) -> In i (vpolys vb) -> i = p \/ i = MAX \/ i = q.
Lemma only_other_side va vb p q : only_other va vb p q -> other_side va vb p = q.
Proof.
  intros (H1 & H2 & H3 & H4 & H5). destruct (other_side_spec va vb p) as [H|(N1 & N2 & I1 & I2)].
  - exfalso. unfold other_side in H. destruct (find _ _) as [i|] eqn:E.
    + apply find_some in E. destruct E as [E _]. apply filter_In in E. destruct E as [_ E]. rewrite H, N.eqb_refl in E. discriminate.
    + assert (HF : In q (filter (fun i => negb (N.eqb i MAX) && memN i (vpolys vb)) (vpolys va))).
      { apply filter_In. split; [exact H1|]. rewrite (proj2 (N.eqb_neq _ _) H4). cbn [negb andb]. now apply memN_In. }
      pose proof (find_none _ _ E q HF) as F. cbv beta in F. rewrite (proj2 (N.eqb_neq _ _) H3) in F. discriminate.
  - destruct (H5 _ I1 I2) as [F|[F|F]]; [contradiction|contradiction|exact F].
Qed.

(** ** The first nodes *)
Definition free_at (from : vec2 A) st : Prop := forall o, hist_get (shist st) from = Some o -> flt o (fz 0) = false.
Lemma setup_edge_free c from ps l st e st' : order_laws A -> veq from from = true -> free_at from st -> setup_edge c from ps l st e = Ok st' ->
  free_at from st' /\ forall n, In n (sbuffer st) -> In n (sbuffer st').
Proof.
  intros OL Hv HF H. unfold setup_edge in H. destruct (nthN (vertices l) (fst e)) as [sv|]; [|injection H as <-; auto]. destruct (nthN (vertices l) (snd e)) as [ev|]; [|injection H as <-; auto].
  cbv zeta in H. destruct (memN _ _); [injection H as <-; auto|]. inv_bind H. destruct a; [|injection H as <-; auto]. injection H as <-.
  destruct (add_node_spec c st from (other_side sv ev ps) (vadd (coords sv) (offset l), fst e) (vadd (coords ev) (offset l), snd e) (empty_node from ps)) as [[-> _]|(_ & _ & Had)]; [auto|].
  assert (Eg : ng (new_node c from (other_side sv ev ps) (vadd (coords sv) (offset l), fst e) (vadd (coords ev) (offset l), snd e) (empty_node from ps)) = fz 0).
  { unfold new_node. cbn [ng empty_node nroot]. now rewrite Hv. }
  set (nn := new_node c from _ _ _ _) in *. assert (Er : nroot nn = from) by reflexivity.
  destruct Had as [HN|o HN HL]; (split; [|intros n Hn; cbn [sbuffer]; apply in_or_app; now left]); unfold free_at; cbn [shist]; rewrite Er in HN |- *; rewrite Eg; intros o1.
  - cbn [hist_get]. rewrite Hv. intro G. injection G as <-. apply (ol_irrefl OL).
  - rewrite (hist_get_set OL _ _ _ _ _ HN), Hv. intro G. injection G as <-. apply (ol_irrefl OL).
Qed.
Lemma setup_edge_adds c from ps l st a b va vb st' : order_laws A -> veq from from = true -> free_at from st ->
  nthN (vertices l) a = Some va -> nthN (vertices l) b = Some vb -> other_side va vb ps = cpto c -> memN (id_layer (cpto c)) (cblocked c) = false ->
  fnan (heuristic from (cgoal c) (vadd (coords va) (offset l), vadd (coords vb) (offset l))) = false ->
  setup_edge c from ps l st (a, b) = Ok st' -> exists n, In n (sbuffer st') /\ at_goal c from n.
Proof.
  intros OL Hv HF Ha Hb Ho Hbl Hh H. unfold setup_edge in H. cbn [fst snd] in H. rewrite Ha, Hb in H. cbv zeta in H. rewrite Ho, Hbl, N.eqb_refl in H. cbn [bind] in H. injection H as <-.
  destruct (add_node_spec c st from (cpto c) (vadd (coords va) (offset l), a) (vadd (coords vb) (offset l), b) (empty_node from ps)) as [[_ F]|(_ & _ & Had)].
  - exfalso. unfold new_node in F. cbn [ng nh empty_node nroot fst snd] in F. rewrite Hv in F. cbn [negb] in F.
    destruct F as [F|[F|(o & G1 & G2)]]; [rewrite (ol_zero OL) in F; discriminate|congruence|]. rewrite (HF _ G1) in G2. discriminate.
  - eexists. split; [inversion Had; cbn [sbuffer]; apply in_or_app; right; left; reflexivity|]. split; [reflexivity|]. split; [reflexivity|].
    unfold new_node. cbn [ng empty_node nroot]. now rewrite Hv.
Qed.
Lemma setup_adds c from ps st l p a b va vb : order_laws A -> veq from from = true -> setup c from ps = Ok st -> polygon_at (cmesh c) ps l p -> boundary_edge (pverts p) a b ->
  nthN (vertices l) a = Some va -> nthN (vertices l) b = Some vb -> other_side va vb ps = cpto c -> memN (id_layer (cpto c)) (cblocked c) = false ->
  fnan (heuristic from (cgoal c) (vadd (coords va) (offset l), vadd (coords vb) (offset l))) = false ->
  exists n, In n (squeue st) /\ at_goal c from n.
Proof.
  intros OL Hv H [Hl Hp] HB Ha Hb Ho Hbl Hh. unfold setup in H. rewrite (proj2 (index_Ok _ _ _) Hl) in H. cbn [bind] in H. rewrite (proj2 (index_Ok _ _ _) Hp) in H. cbn [bind] in H.
  inv_bind H. rename a0 into es. destruct (edges_index_spec _ _ E) as [_ HS]. apply HS in HB. inv_bind H. rename a0 into s2. injection H as <-.
  apply in_split in HB. destruct HB as (e1 & e2 & ->). clear E HS.
  assert (G : forall (P : State A -> Prop) (Q : State A -> Prop) xs s s', (forall s x s', P s -> Q s -> setup_edge c from ps l s x = Ok s' -> P s' /\ Q s') -> P s -> Q s -> foldM (setup_edge c from ps l) s xs = Ok s' -> P s' /\ Q s').
  { intros P Q xs. induction xs as [|x xs IH]; intros s s' HPQ HP HQ HH; cbn [foldM] in HH; [injection HH as <-; auto|]. inv_bind HH. destruct (HPQ _ _ _ HP HQ E) as [P1 Q1]. exact (IH _ _ HPQ P1 Q1 HH). }
  assert (K0 : free_at from (mkState [] [] [(from, fz 0)])).
  { intros o. cbn [shist hist_get]. rewrite Hv. intro F. injection F as <-. apply (ol_irrefl OL). }
  assert (KF : exists s1, foldM (setup_edge c from ps l) (mkState [] [] [(from, fz 0)]) e1 = Ok s1 /\ foldM (setup_edge c from ps l) s1 ((a, b) :: e2) = Ok s2).
  { clear -E0. revert E0. generalize (mkState (A:=A) [] [] [(from, fz 0)]). induction e1 as [|x xs IH]; intros s HH; [exists s; split; [reflexivity|exact HH]|].
    cbn [app foldM] in HH. inv_bind HH. destruct (IH _ HH) as (s1 & S1 & S2). exists s1. split; [|exact S2]. cbn [foldM]. rewrite E. exact S1. }
  destruct KF as (s1 & F1 & F2).
  assert (K1 : free_at from s1).
  { assert (HS : forall s x s', free_at from s -> True -> setup_edge c from ps l s x = Ok s' -> free_at from s' /\ True).
    { intros s x s' P1 _ HH. split; [|exact I]. exact (proj1 (setup_edge_free c from ps l s x s' OL Hv P1 HH)). }
    exact (proj1 (G (free_at from) (fun _ => True) e1 _ s1 HS K0 I F1)). }
  cbn [foldM] in F2. inv_bind F2. rename a0 into s3.
  destruct (setup_edge_adds c from ps l s1 a b va vb s3 OL Hv K1 Ha Hb Ho Hbl Hh E) as (n & In3 & Gn).
  pose proof (proj1 (setup_edge_free c from ps l s1 (a, b) s3 OL Hv K1 E)) as K3.
  exists n. split; [|exact Gn]. cbn [flush_nodes squeue]. apply in_or_app. right.
  assert (HS : forall s x s', free_at from s -> In n (sbuffer s) -> setup_edge c from ps l s x = Ok s' -> free_at from s' /\ In n (sbuffer s')).
  { intros s x s' P1 Q1 HH. destruct (setup_edge_free c from ps l s x s' OL Hv P1 HH) as [R1 R2]. split; [exact R1|]. now apply R2. }
  exact (proj2 (G (free_at from) (fun s => In n (sbuffer s)) e2 s3 s2 HS K3 In3 F2)).
Qed.

(** ** Searches *)
(** The destination is in a polygon that shares an edge with the polygon of the start, on a layer that is not blocked; the edge has no other
    neighbour; the lower bound of the way through this edge is a number.  Then the search never ends with "no path": ... *)
Definition next_door (m : Mesh A) (blocked : list N) (start goal : vec2 A) (ps pe : N) : Prop :=
  exists l p a b va vb, polygon_at m ps l p /\ boundary_edge (pverts p) a b /\ nthN (vertices l) a = Some va /\ nthN (vertices l) b = Some vb /\
    only_other va vb ps pe /\ ~ In (id_layer pe) blocked /\ fnan (heuristic start goal (world l va, world l vb)) = false.
Lemma search_never_gives_up lib m blocked start goal ps pe st k o :
  order_laws A -> cost_law A -> pop_perm (lpop lib) -> veq start start = true -> next_door m blocked start goal ps pe ->
  setup (mkCtx m goal pe blocked) start ps = Ok st -> answers lib (mkCtx m goal pe blocked) st k o -> o <> None.
Proof.
  intros OL HL Hpop Hv (l & p & a & b & va & vb & HP & HB & Ha & Hb & HO & Hbl & Hh) Hs Hk.
  assert (Hm : memN (id_layer pe) blocked = false) by (destruct (memN _ _) eqn:E; [exfalso; apply Hbl; now apply memN_In|reflexivity]).
  destruct (setup_adds (mkCtx m goal pe blocked) start ps st l p a b va vb OL Hv Hs HP HB Ha Hb (only_other_side _ _ _ _ HO) Hm Hh) as (n & Hn & Hg).
  exact (free_node_wins lib _ start ps n OL HL Hpop Hg st k o (setup_hist OL _ _ _ _ Hs) Hn Hk).
Qed.

(** ... the blocking search, whatever it answers, answers with a path or has used up its steps without the search having come to an end, *)
Theorem C78_next_polygon_found (lib : Lib A) m from to blocked ps pe o :
  order_laws A -> cost_law A -> pop_perm (lpop lib) -> veq (cpos from) (cpos from) = true ->
  located lib m from ps -> located lib m to pe -> islands_reject m ps pe = Ok false -> next_door m blocked (cpos from) (cpos to) ps pe ->
  path_on_layers lib m from to blocked = Ok o ->
  (exists path, o = Some path) \/
  (exists st, setup (mkCtx m (cpos to) pe blocked) (cpos from) ps = Ok st /\
    forall k o', answers lib (mkCtx m (cpos to) pe blocked) st k o' -> (count_polygons m * 10 < k)%nat /\ o' <> None).
Proof.
  intros OL HL Hpop Hv H1 H2 Hisl HN H. destruct o as [path|]; [left; now exists path|right]. unfold path_on_layers in H. rewrite (proj2 (locate_end_located lib m from ps) H1) in H. cbn [bind] in H.
  rewrite (proj2 (locate_end_located lib m to pe) H2) in H. cbn [bind] in H. rewrite Hisl in H. cbn [bind] in H. destruct (N.eqb ps pe); [discriminate|].
  inv_bind H. exists a. split; [exact E|]. intros k o Hk. pose proof (search_never_gives_up lib m blocked _ _ ps pe a k o OL HL Hpop Hv HN E Hk) as Ho. split; [|exact Ho].
  pose proof (run_answers lib _ a k o Hk (count_polygons m * 10)) as HR. rewrite HR in H. destruct (Nat.leb_spec k (count_polygons m * 10)); [|assumption]. exfalso. apply Ho. congruence.
Qed.

(** ... and the future never answers "no path". *)
Theorem C78_next_polygon_future (lib : Lib A) m from to ps pe k log :
  order_laws A -> cost_law A -> pop_perm (lpop lib) -> veq from from = true ->
  get_point_location (lbvh lib) m (coords_on_mesh from) = Ok ps -> ps <> MAX -> get_point_location (lbvh lib) m (coords_on_mesh to) = Ok pe ->
  async_islands_reject m ps pe = Ok false -> next_door m [] from to ps pe ->
  poll_times k lib (get_path m from to) <> Ok (Some None, log).
Proof.
  intros OL HL Hpop Hv G1 N1 G2 Hisl HN H. assert (N2 : pe <> MAX) by (destruct HN as (l & p & a & b & va & vb & _ & _ & _ & _ & (_ & _ & _ & F & _) & _); exact F).
  assert (HP : poll lib (get_path m from to) =
    if N.eqb ps pe then Ok (get_path m from to, false, Ready (Some (mkPath (vdist from to) [to])))
    else let* st := setup (mkCtx m to pe []) from ps in Ok (mkFuture from to m (Some (mkCtx m to pe [], st)), true, Pending)).
  { unfold poll, get_path. cbn [finst ffrom fto fmesh]. rewrite G1. cbn [bind]. rewrite (proj2 (N.eqb_neq _ _) N1). rewrite G2. cbn [bind]. rewrite (proj2 (N.eqb_neq _ _) N2).
    rewrite Hisl. reflexivity. }
  destruct k as [|k]; [discriminate|]. cbn [poll_times] in H. rewrite HP in H. clear HP. destruct (N.eqb_spec ps pe) as [E|Hne]; [cbn [bind] in H; discriminate|].
  inv_bind H. inv_bind E. rename a0 into st. assert (a = (mkFuture from to m (Some (mkCtx m to pe [], st)), true, Pending)) as -> by congruence. clear E.
  inv_bind H. destruct a as [o log']. cbn [fst snd] in H. assert (o = Some None) by congruence. subst o.
  destruct (proj1 (C26_result_is_first_outcome lib (mkFuture from to m (Some (mkCtx m to pe [], st))) _ st k None eq_refl) (ex_intro _ log' E)) as (n & _ & Ha).
  exact (search_never_gives_up lib m [] from to ps pe st n None OL HL Hpop Hv HN E0 Ha eq_refl).
Qed.
End Any.

(** ** Exact arithmetic: the ends of the edge are two points *)
Lemma next_door_real (m : Mesh RA) blocked start goal ps pe l p a b va vb ia ib :
  polygon_at m ps l p -> boundary_edge (pverts p) a b -> nthN (vertices l) a = Some va -> nthN (vertices l) b = Some vb ->
  only_other va vb ps pe -> ~ In (id_layer pe) blocked -> world l va = vp ia -> world l vb = vp ib -> ia <> ib ->
  next_door m blocked (vp start) (vp goal) ps pe.
Proof.
  intros HP HB Ha Hb HO Hbl Ea Eb Hne. exists l, p, a, b, va, vb. repeat (split; [assumption|]). rewrite Ea, Eb, heuristic_vp by exact Hne. reflexivity.
Qed.

(** ** Binary32: the edge is clearly between the two ends *)
Section Binary32.
Context {sn cs ac : spec_float -> spec_float}.
Notation A := (F32with sn cs ac).
Open Scope R_scope.
Notation B50 := 1125899906842624.
Lemma heuristic_num (vr vg v0 v1 : vec2 A) r g i0 i1 : at32 vr r -> at32 vg g -> at32 v0 i0 -> at32 v1 i1 -> within B50 r -> within B50 g -> within B50 i0 -> within B50 i1 ->
  eps + slack i0 i1 r <= orient i0 i1 r -> orient i0 i1 g <= - eps - slack i0 i1 g -> fnan (heuristic vr vg (v0, v1)) = false.
Proof.
  intros Hr Hg H0 H1 Wr Wg W0 W1 Or Og.
  assert (NM : mirrored_goal vr vg (v0, v1) = vg).
  { unfold mirrored_goal. rewrite (proj1 (proj2 (proj2 (proj2 (C73_side vr v0 v1 r i0 i1 Hr H0 H1 (within_moderate _ Wr) (within_moderate _ W0) (within_moderate _ W1))))) Or).
    rewrite (proj1 (proj2 (proj2 (proj2 (proj2 (C73_side vg v0 v1 g i0 i1 Hg H0 H1 (within_moderate _ Wg) (within_moderate _ W0) (within_moderate _ W1)))))) Og). reflexivity. }
  destruct (walk_end32 [] vr vr vg v0 v1 r [] g i0 i1) as (mid & S & _ & NS & _); try assumption; try (constructor; fail).
  - cbn. lra.
  - apply num_not_nan in NS. change (s_isnan (s_add (polyline_length (A:=A) vr []) (heuristic vr vg (v0, v1))) = false) in NS.
    destruct (fnan (heuristic vr vg (v0, v1))) eqn:E; [|reflexivity]. exfalso. apply s_isnan_true in E. rewrite E, s_add_nan in NS. discriminate.
Qed.
(** The arithmetic the code uses, coordinates up to 2^50. *)
Theorem C78_next_polygon_in_binary32 (lib : Lib A) m from to blocked ps pe l p a b va vb x y ia ib o :
  pop_perm (lpop lib) -> located lib m from ps -> located lib m to pe -> islands_reject m ps pe = Ok false ->
  polygon_at m ps l p -> boundary_edge (pverts p) a b -> nthN (vertices l) a = Some va -> nthN (vertices l) b = Some vb ->
  only_other va vb ps pe -> ~ In (id_layer pe) blocked ->
  at32 (cpos from) x -> at32 (cpos to) y -> at32 (world l va) ia -> at32 (world l vb) ib -> within B50 x -> within B50 y -> within B50 ia -> within B50 ib ->
  eps + slack ia ib x <= orient ia ib x -> orient ia ib y <= - eps - slack ia ib y ->
  path_on_layers lib m from to blocked = Ok o ->
  (exists path, o = Some path) \/
  (exists st, setup (mkCtx m (cpos to) pe blocked) (cpos from) ps = Ok st /\
    forall k o', answers lib (mkCtx m (cpos to) pe blocked) st k o' -> (count_polygons m * 10 < k)%nat /\ o' <> None).
Proof.
  intros Hpop H1 H2 Hisl HP HB Ha Hb HO Hbl Hx Hy Hia Hib Wx Wy Wa Wb Ox Oy.
  apply C78_next_polygon_found; try assumption; [apply F32_order_laws|apply F32_cost_law| |].
  - destruct Hx as [X Y]. unfold veq. change (SFeqb (vx (cpos from)) (vx (cpos from)) && SFeqb (vy (cpos from)) (vy (cpos from)) = true).
    apply num_not_nan in X, Y. destruct (SFeqb (vx (cpos from)) (vx (cpos from))) eqn:E1; [|apply SFeqb_refl in E1; rewrite E1 in X; discriminate].
    destruct (SFeqb (vy (cpos from)) (vy (cpos from))) eqn:E2; [reflexivity|apply SFeqb_refl in E2; rewrite E2 in Y; discriminate].
  - exists l, p, a, b, va, vb. repeat (split; [assumption|]). exact (heuristic_num _ _ _ _ x y ia ib Hx Hy Hia Hib Wx Wy Wa Wb Ox Oy).
Qed.
End Binary32.
