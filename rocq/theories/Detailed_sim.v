(** With all scales one, the search with `detailed-layers` makes the same steps as the default search. *)
From Coq Require Import List NArith ZArith Bool Lia Permutation.
From Verif Require Import Base Arith U32 Mesh Helpers Locate Search Detailed Spec Search_facts Search_props Search_hist
  Spec_detailed Detailed_facts Properties_segment.
Import ListNotations.
Open Scope N_scope.

Section Sim.
Context {A : Arith}.
Implicit Types (c : DCtx A) (n : DNode A) (st : State A) (dst : DState A).

(** multiplication by one *)
Definition one_law : Prop := forall x : F A, fmul x (fz 1) = x.
Definition vone : vec2 A := V (fz 1) (fz 1).
Definition unit_scales (m : Mesh A) (scales : list (vec2 A)) : Prop :=
  lengthN scales = lengthN (layers m) /\ Forall (eq vone) scales.
(** layers have at most 2^24 vertices *)
Definition verts_small (m : Mesh A) : Prop := forall l, In l (layers m) -> lengthN (vertices l) <= 2^24.

Definition sim st dst : Prop :=
  squeue st = map (@dnode A) (dqueue dst) /\ sbuffer st = map (@dnode A) (dbuffer dst) /\ shist st = dhist dst.
Definition rsim {T U} (R : T -> U -> Prop) (a : res T) (b : res U) : Prop :=
  match a, b with
  | Ok x, Ok y => R x y
  | Panic, Panic | Oob, Oob | NoFuel, NoFuel => True
  | _, _ => False
  end.
Lemma rsim_bind {T U T' U'} (R : T -> U -> Prop) (R' : T' -> U' -> Prop) a b f g :
  rsim R a b -> (forall x y, a = Ok x -> R x y -> rsim R' (f x) (g y)) -> rsim R' (bind a f) (bind b g).
Proof. destruct a, b; simpl; try tauto. auto. Qed.
Lemma rsim_same {T T' U'} (R' : T' -> U' -> Prop) (a : res T) f g :
  (forall x, a = Ok x -> rsim R' (f x) (g x)) -> rsim R' (bind a f) (bind a g).
Proof. destruct a; simpl; auto. Qed.
Lemma rsim_foldM {T S S'} (R : S -> S' -> Prop) (f : S -> T -> res S) (g : S' -> T -> res S') l :
  (forall x s s', In x l -> R s s' -> rsim R (f s x) (g s' x)) ->
  forall s s', R s s' -> rsim R (foldM f s l) (foldM g s' l).
Proof.
  induction l as [|x r IH]; intros H s s' HR; cbn [foldM]; [exact HR|].
  apply (rsim_bind R); [apply H; [now left|exact HR]|].
  intros s1 s1' _ H1. apply IH; [|exact H1]. intros; apply H; [now right|assumption].
Qed.

Context (HL : one_law).
Lemma vmulv_one (p : vec2 A) : vmulv p vone = p.
Proof. destruct p as [x y]. unfold vmulv, vone. cbn [vx vy]. now rewrite !HL. Qed.

Context (c : DCtx A) (HU : unit_scales (cmesh (dctx c)) (dscales c)) (HV : verts_small (cmesh (dctx c))).

Lemma scale_one i : i < lengthN (layers (cmesh (dctx c))) -> index (dscales c) i = Ok vone.
Proof.
  intro H. destruct HU as [H1 H2]. rewrite <- H1 in H.
  destruct (nthN (dscales c) i) as [s|] eqn:E.
  - unfold index. rewrite E. rewrite Forall_forall in H2. rewrite <- (H2 s); [reflexivity|].
    eapply nthN_In; eauto.
  - exfalso. destruct (nthN_lt_Some _ _ H) as (s & Hs). congruence.
Qed.
Lemma vertex_layer l i v : In l (layers (cmesh (dctx c))) -> nthN (vertices l) i = Some v -> id_layer i = 0.
Proof.
  intros H1 H2. apply HV in H1. assert (H3 : i < lengthN (vertices l)).
  { exact (nthN_Some_lt _ _ _ H2). }
  unfold id_layer. assert (Hi : i < 2^24) by lia. rewrite N.shiftr_div_pow2, N.div_small by exact Hi. reflexivity.
Qed.

Lemma dadd_node_sim st dst root os s e n :
  sim st dst -> id_layer (nto (dnode n)) < lengthN (layers (cmesh (dctx c))) ->
  index (dscales c) (id_layer (snd s)) = Ok vone -> index (dscales c) (id_layer (snd e)) = Ok vone ->
  rsim sim (Ok (add_node (dctx c) st root os s e (dnode n))) (dadd_node c dst root os s e n).
Proof.
  intros (S1 & S2 & S3) HN HS HE. unfold dadd_node, dnew_node. rewrite (scale_one _ HN), HS, HE. cbn [bind].
  assert (Hg : forall (b : bool), (if b then Ok (fadd (ng (dnode n)) (vdist (nroot (dnode n)) (vmulv root vone))) else Ok (ng (dnode n)))
    = Ok (if b then fadd (ng (dnode n)) (vdist (nroot (dnode n)) root) else ng (dnode n))).
  { intros []; [now rewrite vmulv_one|reflexivity]. }
  rewrite Hg. cbn [bind]. rewrite !vmulv_one. cbn [dnode ng nh rsim].
  unfold add_node, new_node. cbn [ng nh]. rewrite S3.
  destruct (fnan _ || fnan _); [split; [|split]; assumption|].
  destruct (hist_get (dhist dst) root) as [o|].
  - destruct (flt _ _); [split; [|split]; assumption|].
    unfold sim. cbn [squeue dqueue sbuffer dbuffer shist dhist]. rewrite map_app, S1, S2. auto.
  - unfold sim. cbn [squeue dqueue sbuffer dbuffer shist dhist]. rewrite map_app, S1, S2. auto.
Qed.

Lemma sim_flush st dst : sim st dst -> sim (flush_nodes st) (dflush dst).
Proof. intros (S1 & S2 & S3). unfold sim, flush_nodes, dflush. simpl. rewrite map_app, S1, S2. auto. Qed.

Lemma dsetup_edge_sim from ps l st dst e :
  In l (layers (cmesh (dctx c))) -> id_layer ps < lengthN (layers (cmesh (dctx c))) ->
  sim st dst -> rsim sim (setup_edge (dctx c) from ps l st e) (dsetup_edge c from ps l dst e).
Proof.
  intros Hl Hps HS. unfold setup_edge, dsetup_edge.
  destruct (nthN (vertices l) (fst e)) as [sv|] eqn:EV1; [|exact HS].
  destruct (nthN (vertices l) (snd e)) as [ev|] eqn:EV2; [|exact HS].
  destruct (memN _ _); [exact HS|]. apply rsim_same. intros [] _; [|exact HS].
  assert (H0 : 0 < lengthN (layers (cmesh (dctx c)))) by lia.
  apply (dadd_node_sim st dst from _ _ _ (mkDNode (empty_node from ps) [])); cbn [snd]; [exact HS|exact Hps| |].
  - rewrite (vertex_layer l _ sv Hl EV1). now apply scale_one.
  - rewrite (vertex_layer l _ ev Hl EV2). now apply scale_one.
Qed.

Lemma index_lt {T} (l : list T) i x : index l i = Ok x -> i < lengthN l /\ In x l.
Proof.
  intro H. apply index_Ok in H. split; [exact (nthN_Some_lt _ _ _ H)|exact (nthN_In _ _ _ H)].
Qed.

Lemma dsetup_sim from ps : rsim sim (setup (dctx c) from ps) (dsetup c from ps).
Proof.
  unfold setup, dsetup. apply rsim_same. intros l El. destruct (index_lt _ _ _ El) as [H1 H2].
  apply rsim_same. intros p _. apply rsim_same. intros es _.
  apply (rsim_bind sim).
  - apply rsim_foldM; [|unfold sim; simpl; auto]. intros x s s' _ HS. now apply dsetup_edge_sim.
  - intros s s' _ HS. apply sim_flush. exact HS.
Qed.

Lemma dexpand_one_sim n l st dst s :
  index (layers (cmesh (dctx c))) (id_layer (nto (dnode n))) = Ok l ->
  sim st dst -> rsim sim (expand_one (dctx c) (dnode n) l st s) (dexpand_one c n l dst s).
Proof.
  intros El HS. destruct (index_lt _ _ _ El) as [HN Hl].
  assert (H0 : 0 < lengthN (layers (cmesh (dctx c)))) by lia.
  unfold expand_one, dexpand_one. cbv zeta.
  apply rsim_same. intros sv E1. apply rsim_same. intros ev E2.
  apply get_unchecked_Ok in E1. apply get_unchecked_Ok in E2.
  destruct (N.eqb _ MAX); [exact HS|]. destruct (memN _ _); [exact HS|].
  apply rsim_same. intros [] _; [exact HS|]. destruct (N.eqb _ _); [exact HS|].
  apply rsim_same. intros [root|] _; [|exact HS].
  destruct (flt _ _); [exact HS|].
  apply dadd_node_sim; cbn [snd]; [exact HS|exact HN| |].
  - rewrite (vertex_layer l _ sv Hl E1). now apply scale_one.
  - rewrite (vertex_layer l _ ev Hl E2). now apply scale_one.
Qed.

Lemma dexpand_sim n st dst : sim st dst -> rsim sim (expand (dctx c) (dnode n) st) (dexpand c n dst).
Proof.
  intro HS. unfold expand, dexpand. apply rsim_same. intros ss _. apply rsim_same. intros l El.
  apply rsim_foldM; [|exact HS]. intros. now apply dexpand_one_sim.
Qed.

Lemma dsuccessors_sim : forall fuel vis n st dst, sim st dst ->
  rsim sim (successors fuel (dctx c) vis (dnode n) st) (dsuccessors fuel c vis n dst).
Proof.
  induction fuel as [|fuel IH]; intros vis n st dst HS; cbn [successors dsuccessors]; [exact I|].
  apply (rsim_bind sim); [now apply dexpand_sim|]. intros s d _ HS1. pose proof HS1 as (S1 & S2 & S3). rewrite S2.
  destruct (dbuffer d) as [|n' [|x y]]; cbn [map].
  - now apply sim_flush.
  - assert (HS2 : sim (mkState (squeue s) [] (shist s)) (mkDState (dqueue d) [] (dhist d))).
    { unfold sim. cbn [squeue dqueue sbuffer dbuffer shist dhist map]. auto. }
    destruct (N.eqb _ _); [now apply sim_flush|].
    destruct (reverse_of _ _); [now apply sim_flush|].
    destruct (memN _ _); [now apply sim_flush|].
    apply IH. exact HS2.
  - now apply sim_flush.
Qed.

(** The two heaps pop corresponding nodes. *)
Definition pops_agree (lib : Lib A) (dlib : DLib A) : Prop :=
  forall q, lpop lib (map (@dnode A) q) =
            match dpop dlib q with None => None | Some (n, r) => Some (dnode n, map (@dnode A) r) end.

(** A default step and a detailed step: the same kind, and the same points when a path is found. *)
Definition step_sim (a : State A * Step A) (b : DState A * DStep A) : Prop :=
  sim (fst a) (fst b) /\
  match snd a, snd b with
  | Found p, DFound d => dpath d = ppath p
  | NotFound, DNotFound => True
  | Continue, DContinue => True
  | _, _ => False
  end.

Lemma dnext_sim lib dlib st dst r : pops_agree lib dlib -> sim st dst ->
  dnext dlib c dst = Ok r -> exists r0, next lib (dctx c) st = Ok r0 /\ step_sim r0 r.
Proof.
  intros HP HS H. pose proof HS as (S1 & S2 & S3). unfold dnext in H. unfold next. rewrite S1, HP.
  destruct (dpop dlib (dqueue dst)) as [[n q]|].
  2:{ apply Ok_eq in H. subst r. eexists. split; [reflexivity|]. split; [exact HS|exact I]. }
  cbn [shist dhist] in *. rewrite S3.
  assert (HS1 : sim (mkState (map (@dnode A) q) (sbuffer st) (dhist dst)) (mkDState q (dbuffer dst) (dhist dst))).
  { unfold sim. cbn [squeue dqueue sbuffer dbuffer shist dhist]. auto. }
  destruct (match hist_get _ _ with Some _ => _ | None => _ end).
  - apply Ok_eq in H. subst r. eexists. split; [reflexivity|]. split; [exact HS1|exact I].
  - destruct (N.eqb _ _).
    + inv_bind H. apply Ok_eq in H. subst r. eexists. split; [reflexivity|]. split; [exact HS1|]. cbn [snd].
      unfold dfinal in E. inv_bind E. apply Ok_eq in E. subst a. unfold dend, final_path. cbn [dpath ppath].
      destruct (turning_point _ _ _); [now rewrite <- app_assoc|reflexivity].
    + inv_bind H. apply Ok_eq in H. subst r.
      pose proof (dsuccessors_sim (succ_fuel (cmesh (dctx c))) [] n _ _ HS1) as HX. rewrite E in HX.
      destruct (successors _ _ _ _ _) as [s| | |]; simpl in HX; try contradiction. cbn [bind].
      eexists. split; [reflexivity|]. split; [exact HX|exact I].
Qed.

(** ** The loop *)
Lemma drun_keeps lib d : forall k dst paths out, drun k lib c dst paths = Ok out -> In d paths -> In d out.
Proof.
  induction k as [|k IH]; intros dst paths out H Hd; cbn [drun] in H; [apply Ok_eq in H; now subst|].
  inv_bind H. eapply IH; [exact H|]. destruct (snd a).
  - apply in_or_app. now left.
  - destruct paths as [|p r]; [exact Hd|]. apply in_or_app. destruct Hd as [<-|Hd]; [right; now left|left; exact Hd].
  - exact Hd.
Qed.

Lemma drun_sim lib dlib : pops_agree lib dlib ->
  forall k st dst out, sim st dst -> drun k dlib c dst [] = Ok out ->
  exists r, run k lib (dctx c) st = Ok r /\
    match r with None => out = [] | Some p => exists d, In d out /\ dpath d = ppath p end.
Proof.
  intro HP. induction k as [|k IH]; intros st dst out HS H; cbn [drun run] in *.
  - apply Ok_eq in H. subst. exists None. auto.
  - inv_bind H. destruct (dnext_sim lib dlib st dst a HP HS E) as (r0 & -> & HS1 & HS2). cbn [bind].
    destruct (snd r0) as [p| |], (snd a) as [d| |]; try contradiction.
    + exists (Some p). split; [reflexivity|]. exists d. split; [|exact HS2]. eapply drun_keeps; [exact H|now left].
    + eapply IH; eauto.
    + eapply IH; eauto.
Qed.
End Sim.
Arguments one_law A : clear implicits.

(** ** The choice among the found paths *)
Section Select.
Context {A : Arith} (L : lt_laws A).

Lemma shortest_min : forall (l : list (DPath A)) best,
  fnan (dlength best) = false -> (forall q, In q l -> fnan (dlength q) = false) ->
  forall q, In q (best :: l) -> flt (dlength q) (dlength (shortest best l)) = false.
Proof.
  induction l as [|x r IH]; intros best Hb Hl q Hq; cbn [shortest].
  - destruct Hq as [<-|[]]. apply (lt_irrefl L).
  - assert (Hx : fnan (dlength x) = false) by (apply Hl; now left).
    assert (Hr : forall q, In q r -> fnan (dlength q) = false) by (intros; apply Hl; now right).
    destruct (flt (dlength x) (dlength best)) eqn:E.
    + destruct Hq as [<-|Hq]; [|now apply IH].
      assert (H1 : flt (dlength best) (dlength x) = false) by now apply (lt_asym L).
      apply (lt_ge_trans L _ (dlength x)); [exact Hb|exact Hx| |exact H1|apply IH; [exact Hx|exact Hr|now left]].
      destruct (shortest_In r x) as [H|H]; [rewrite <- H; exact Hx|now apply Hr].
    + destruct Hq as [<-|[<-|Hq]].
      * apply IH; auto. now left.
      * apply (lt_ge_trans L _ (dlength best)); [exact Hx|exact Hb| |exact E|apply IH; [exact Hb|exact Hr|now left]].
        destruct (shortest_In r best) as [H|H]; [rewrite <- H; exact Hb|now apply Hr].
      * apply IH; auto. now right.
Qed.

Lemma dselect_min (paths : list (DPath A)) p : dselect paths = Ok (Some p) -> forall q, In q paths -> flt (dlength q) (dlength p) = false.
Proof.
  unfold dselect. destruct paths as [|a [|b r]]; intros H q Hq; [destruct Hq| |].
  - apply Ok_eq in H. injection H as <-. destruct Hq as [<-|[]]. apply (lt_irrefl L).
  - destruct (existsb _ _) eqn:E; [discriminate|]. apply Ok_eq in H. injection H as <-.
    assert (HN : forall q, In q (a :: b :: r) -> fnan (dlength q) = false).
    { intros x Hx. destruct (fnan (dlength x)) eqn:Ex; [|reflexivity]. rewrite <- E. symmetry. apply existsb_exists. eauto. }
    apply (shortest_min (b :: r) a); [apply HN; now left|intros; apply HN; now right|exact Hq].
Qed.
End Select.
