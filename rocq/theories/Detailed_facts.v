(** Facts about the search with `detailed-layers`: what generates nodes, the invariant of generated nodes. *)
From Coq Require Import List NArith ZArith Bool Lia Permutation.
From Verif Require Import Base Arith U32 Mesh Helpers Locate Search Detailed Spec Search_facts Search_props Spec_detailed.
Import ListNotations.
Open Scope N_scope.

Section Detailed_facts.
Context {A : Arith}.
Implicit Types (c : DCtx A) (n : DNode A) (st : DState A).

Lemma Ok_eq {T} (a b : T) : Ok a = Ok b -> a = b.
Proof. congruence. Qed.

Definition dgen_start c (from : vec2 A) (ps : N) (n' : DNode A) : Prop :=
  exists l p a b sv ev,
    polygon_at (cmesh (dctx c)) ps l p /\ boundary_edge (pverts p) a b /\
    nthN (vertices l) a = Some sv /\ nthN (vertices l) b = Some ev /\
    let os := other_side sv ev ps in
    memN (id_layer os) (cblocked (dctx c)) = false /\
    (os = cpto (dctx c) \/ (os <> MAX /\ exists q, mesh_polygon (cmesh (dctx c)) os = Ok q /\ is_one_way q = false)) /\
    dnew_node c from os (vadd (coords sv) (offset l), a) (vadd (coords ev) (offset l), b)
              (mkDNode (empty_node from ps) []) = Ok n' /\
    fnan (ng (dnode n')) = false /\ fnan (nh (dnode n')) = false.

Definition dgen_step c n (n' : DNode A) : Prop :=
  exists s root l ss sv ev,
    let b := dnode n in
    nthN (layers (cmesh (dctx c))) (id_layer (nto b)) = Some l /\
    edges_between (dctx c) b = Ok ss /\ In s ss /\
    nthN (vertices l) (fst (sedge s)) = Some sv /\ nthN (vertices l) (snd (sedge s)) = Some ev /\
    let os := other_side sv ev (nto b) in
    os <> MAX /\ memN (id_layer os) (cblocked (dctx c)) = false /\
    (os = cpto (dctx c) \/ exists q, mesh_polygon (cmesh (dctx c)) os = Ok q /\ is_one_way q = false) /\
    nfrom b <> os /\
    root_choice (dctx c) b l sv ev s root /\
    flt (vdist2 (fst (sinterval s)) (snd (sinterval s))) c1em10 = false /\
    dnew_node c root os (fst (sinterval s), fst (sedge s)) (snd (sinterval s), snd (sedge s)) n = Ok n' /\
    fnan (ng (dnode n')) = false /\ fnan (nh (dnode n')) = false.

Inductive dadded st n' : DState A -> Prop :=
| dadded_new : hist_get (dhist st) (nroot (dnode n')) = None ->
    dadded st n' (mkDState (dqueue st) (dbuffer st ++ [n']) ((nroot (dnode n'), ng (dnode n')) :: dhist st))
| dadded_better o : hist_get (dhist st) (nroot (dnode n')) = Some o -> flt o (ng (dnode n')) = false ->
    dadded st n' (mkDState (dqueue st) (dbuffer st ++ [n']) (hist_set (dhist st) (nroot (dnode n')) (ng (dnode n')))).

Lemma dnew_node_Ok c root os s e n nn : dnew_node c root os s e n = Ok nn ->
  let b := dnode n in
  exists g h,
    (veq root (nroot b) = true /\ g = ng b \/
     veq root (nroot b) = false /\ exists sc, nthN (dscales c) (id_layer (nto b)) = Some sc /\
       g = fadd (ng b) (vdist (nroot b) (vmulv root sc))) /\
    nn = mkDNode (mkNode (if veq root (nroot b) then npath b else npath b ++ [root]) root (fst s, fst e) (snd s, snd e)
                         (nto b) os (id_layer (nto b)) g h)
                 ((dpoints n ++ (if veq root (nroot b) then [] else [(root, root, id_layer (nto b))]))
                  ++ (if N.eqb (id_layer os) (id_layer (nto b)) then [] else [(fst s, fst e, id_layer os)])).
Proof.
  intros H b. unfold dnew_node in H. fold b in H.
  inv_bind H. inv_bind H. inv_bind H. apply Ok_eq in H. subst nn.
  exists a, (heuristic root (cgoal (dctx c)) (vmulv (fst s) a0, vmulv (fst e) a1)). split.
  - destruct (veq root (nroot b)); cbn [negb] in E.
    + left. split; congruence.
    + right. split; [reflexivity|]. inv_bind E. apply index_Ok in E2. exists a2. split; congruence.
  - destruct (veq root (nroot b)); cbn [negb]; destruct (N.eqb _ _); rewrite ?app_nil_r; reflexivity.
Qed.

Lemma dadd_node_spec c st root os s e n st' :
  dadd_node c st root os s e n = Ok st' ->
  exists nn, dnew_node c root os s e n = Ok nn /\
  (st' = st \/ (fnan (ng (dnode nn)) = false /\ fnan (nh (dnode nn)) = false /\ dadded st nn st')).
Proof.
  intro H. unfold dadd_node in H. inv_bind H. exists a. split; [assumption|].
  assert (Hr : nroot (dnode a) = root).
  { destruct (dnew_node_Ok _ _ _ _ _ _ _ E) as (g & h & _ & ->). reflexivity. }
  injection H as <-.
  destruct (fnan (ng (dnode a))) eqn:E1; cbn [orb]; [left; auto|].
  destruct (fnan (nh (dnode a))) eqn:E2; [left; auto|].
  destruct (hist_get (dhist st) root) as [o|] eqn:E3.
  - destruct (flt o (ng (dnode a))) eqn:E4; [left; reflexivity|].
    right. repeat split; auto. rewrite <- Hr. apply (dadded_better st a o); rewrite ?Hr; assumption.
  - right. repeat split; auto. rewrite <- Hr at 1. apply (dadded_new st a). rewrite Hr; assumption.
Qed.

Lemma dexpand_one_spec c n l ss st s st' :
  nthN (layers (cmesh (dctx c))) (id_layer (nto (dnode n))) = Some l ->
  edges_between (dctx c) (dnode n) = Ok ss -> In s ss ->
  dexpand_one c n l st s = Ok st' ->
  st' = st \/ exists n', dgen_step c n n' /\ dadded st n' st'.
Proof.
  intros Hl Hss Hs H. unfold dexpand_one in H.
  inv_bind H. inv_bind H.
  apply get_unchecked_Ok in E. apply get_unchecked_Ok in E0.
  set (os := other_side a a0 (nto (dnode n))) in *.
  destruct (N.eqb_spec os MAX); [left; inversion H; auto|].
  destruct (memN (id_layer os) (cblocked (dctx c))) eqn:EB; [left; inversion H; auto|].
  inv_bind H. destruct a1 eqn:EA; [left; inversion H; auto|].
  assert (HD : os = cpto (dctx c) \/ exists q, mesh_polygon (cmesh (dctx c)) os = Ok q /\ is_one_way q = false).
  { destruct (N.eqb_spec (cpto (dctx c)) os); [left; auto|]. inv_bind E1. inversion E1. right. eauto. }
  destruct (N.eqb_spec (nfrom (dnode n)) os); [left; inversion H; auto|].
  inv_bind H. destruct a2 as [root|]; [|left; inversion H; auto].
  destruct (flt _ _) eqn:EL in H; [left; inversion H; auto|].
  assert (HR : root_choice (dctx c) (dnode n) l a a0 s root).
  { unfold root_choice. destruct (sty s).
    - destruct (fgt _ _) eqn:EG in E2; [discriminate|]. inv_bind E2. destruct a2; inversion E2; subst. auto.
    - inversion E2. reflexivity.
    - destruct (fgt _ _) eqn:EG in E2; [discriminate|]. inv_bind E2. destruct a2; inversion E2; subst. auto. }
  apply dadd_node_spec in H. destruct H as (nn & Hn & [->|(H1 & H2 & H3)]); [left; reflexivity|].
  right. exists nn. split; [|exact H3].
  exists s, root, l, ss, a, a0. repeat (split; [assumption|]). auto.
Qed.

Lemma dexpand_inv c n st st' (I : DState A -> Prop) :
  (forall st n' st', I st -> dgen_step c n n' -> dadded st n' st' -> I st') ->
  I st -> dexpand c n st = Ok st' -> I st'.
Proof.
  intros HI H0 H. unfold dexpand in H. inv_bind H. inv_bind H.
  apply index_Ok in E0.
  eapply foldM_inv with (P := I); [|exact H0|exact H].
  intros s x s' Hx Hs Hstep.
  destruct (dexpand_one_spec c n a0 a s x s' E0 E Hx Hstep) as [->|(n' & Hg & Ha)]; eauto.
Qed.

Lemma dsetup_inv c from ps st (I : DState A -> Prop) :
  (forall st n' st', I st -> dgen_start c from ps n' -> dadded st n' st' -> I st') ->
  I (mkDState [] [] [(from, fz 0)]) ->
  dsetup c from ps = Ok st -> exists st0, I st0 /\ st = dflush st0.
Proof.
  intros HI H0 H. unfold dsetup in H.
  inv_bind H. inv_bind H. inv_bind H. inv_bind H. inversion H; subst; clear H.
  exists a2. split; [|reflexivity].
  eapply foldM_inv with (P := I); [|exact H0|exact E2].
  intros s [a3 b] s' Hx Hs Hstep. unfold dsetup_edge in Hstep. simpl in Hstep.
  destruct (nthN (vertices a) a3) as [sv|] eqn:EV1; [|inversion Hstep; subst; auto].
  destruct (nthN (vertices a) b) as [ev|] eqn:EV2; [|inversion Hstep; subst; auto].
  destruct (memN _ _) eqn:EB; [inversion Hstep; subst; auto|].
  set (os := other_side sv ev ps) in *.
  inv_bind Hstep. destruct a4; [|inversion Hstep; subst; auto].
  apply dadd_node_spec in Hstep. destruct Hstep as (nn & Hn & [->|(H1 & H2 & H3)]); [assumption|].
  eapply HI; [exact Hs| |exact H3].
  apply index_Ok in E. apply index_Ok in E0.
  exists a, a0, a3, b, sv, ev. split; [split; assumption|].
  destruct (edges_index_spec _ _ E1) as [_ HS].
  split; [now apply HS|]. split; [assumption|]. split; [assumption|]. cbv zeta. fold os. split; [assumption|]. split; [|auto].
  destruct (N.eqb_spec os (cpto (dctx c))); [left; auto|]. right.
  destruct (N.eqb_spec os MAX); [discriminate|]. inv_bind E3. injection E3 as E3.
  split; [assumption|]. exists a4. split; [assumption|]. now apply negb_true_iff.
Qed.

(** ** An invariant of all nodes *)
Definition dall (P : DNode A -> Prop) st : Prop :=
  (forall x, In x (dqueue st) -> P x) /\ (forall x, In x (dbuffer st) -> P x).

Lemma dall_added P st n' st' : dall P st -> P n' -> dadded st n' st' -> dall P st'.
Proof.
  intros [H1 H2] Hn Ha. inversion Ha; subst; split; simpl; auto;
  intros x Hx; apply in_app_or in Hx; destruct Hx as [Hx|[<-|[]]]; auto.
Qed.
Lemma dall_flush P st : dall P st -> dall P (dflush st).
Proof. intros [H1 H2]. split; simpl; [|tauto]. intros x Hx. apply in_app_or in Hx. destruct Hx; auto. Qed.

Lemma dsetup_all c from ps st (P : DNode A -> Prop) :
  (forall n, dgen_start c from ps n -> P n) -> dsetup c from ps = Ok st ->
  dall P st /\ dbuffer st = [].
Proof.
  intros HP H. eapply dsetup_inv with (I := dall P) in H.
  - destruct H as (st0 & H0 & ->). split; [now apply dall_flush|reflexivity].
  - intros st0 n' st1 H1 H2 H3. eapply dall_added; [exact H1| |exact H3]; auto.
  - split; simpl; tauto.
Qed.

Lemma dsuccessors_all c (P : DNode A -> Prop) :
  (forall n n', P n -> dgen_step c n n' -> P n') ->
  forall fuel vis n st st', P n -> dall P st -> dsuccessors fuel c vis n st = Ok st' ->
  dall P st' /\ dbuffer st' = [].
Proof.
  intro HP. induction fuel as [|fuel IH]; intros vis n st st' Hn Hst H; simpl in H; [discriminate|].
  inv_bind H.
  assert (Ha : dall P a).
  { eapply dexpand_inv with (I := dall P); [|exact Hst|exact E].
    intros st0 n' st1 H1 H2 H3. eapply dall_added; [exact H1| |exact H3]; eauto. }
  destruct (dbuffer a) as [|n' [|x y]] eqn:EB.
  - inversion H; subst. split; [now apply dall_flush|reflexivity].
  - assert (Hn' : P n') by (apply Ha; rewrite EB; now left).
    assert (Ha' : dall P (mkDState (dqueue a) [] (dhist a))).
    { split; simpl; [apply Ha|tauto]. }
    destruct (N.eqb _ _); [inversion H; subst; split; [now apply dall_flush|reflexivity]|].
    destruct (reverse_of _ _); [inversion H; subst; split; [now apply dall_flush|reflexivity]|].
    destruct (memN _ _); [inversion H; subst; split; [now apply dall_flush|reflexivity]|].
    eapply IH; [| |exact H]; auto.
  - inversion H; subst. split; [now apply dall_flush|reflexivity].
Qed.

(** The heap returns one of its elements and the others, or is empty. *)
Definition dpop_perm (pop : list (DNode A) -> option (DNode A * list (DNode A))) : Prop :=
  forall q, match pop q with
            | None => q = []
            | Some (n, r) => Permutation q (n :: r)
            end.

Lemma dnext_all lib c st st' r (P : DNode A -> Prop) :
  dpop_perm (dpop lib) ->
  (forall n n', P n -> dgen_step c n n' -> P n') ->
  dall P st -> dbuffer st = [] ->
  dnext lib c st = Ok (st', r) ->
  dall P st' /\ dbuffer st' = [] /\
  (forall p, r = DFound p -> exists n, P n /\ nto (dnode n) = cpto (dctx c) /\ dfinal c n = Ok p).
Proof.
  intros Hpop HP [HQ HB] HB0 H. unfold dnext in H.
  specialize (Hpop (dqueue st)). destruct (dpop lib (dqueue st)) as [[n q]|].
  2:{ inversion H; subst. split; [split; auto|split; [auto|discriminate]]. }
  assert (Hn : P n) by (apply HQ; eapply Permutation_in; [symmetry; exact Hpop|now left]).
  assert (Hq : forall x, In x q -> P x).
  { intros x Hx. apply HQ. eapply Permutation_in; [symmetry; exact Hpop|now right]. }
  assert (Hst : dall P (mkDState q (dbuffer st) (dhist st))) by (split; simpl; auto).
  cbn [dhist] in H. destruct (match hist_get _ _ with Some _ => _ | None => _ end).
  - inversion H; subst. split; [assumption|split; [assumption|discriminate]].
  - destruct (N.eqb_spec (nto (dnode n)) (cpto (dctx c))).
    + inv_bind H. inversion H; subst. split; [assumption|split; [assumption|]].
      intros p Hp. inversion Hp; subst. eauto.
    + inv_bind H. inversion H; subst.
      destruct (dsuccessors_all c P HP _ _ _ _ _ Hn Hst E) as [H1 H2].
      split; [assumption|split; [assumption|discriminate]].
Qed.

Definition from_node c (P : DNode A -> Prop) (p : DPath A) : Prop :=
  exists n, P n /\ nto (dnode n) = cpto (dctx c) /\ dfinal c n = Ok p.

Lemma drun_found lib c (P : DNode A -> Prop) :
  dpop_perm (dpop lib) ->
  (forall n n', P n -> dgen_step c n n' -> P n') ->
  forall k st paths out, dall P st -> dbuffer st = [] ->
  (forall p, In p paths -> from_node c P p) ->
  drun k lib c st paths = Ok out -> forall p, In p out -> from_node c P p.
Proof.
  intros Hpop HP. induction k as [|k IH]; intros st paths out Hst HB Hps H; cbn [drun] in H.
  - injection H as <-. exact Hps.
  - inv_bind H. destruct a as [st1 r]. cbn [fst snd] in H.
    destruct (dnext_all lib c st st1 r P Hpop HP Hst HB E) as (H1 & H2 & H3).
    eapply IH; [exact H1|exact H2| |exact H].
    destruct r.
    + intros q Hq. apply in_app_or in Hq. destruct Hq as [Hq|[<-|[]]]; [auto|]. apply H3; reflexivity.
    + destruct paths as [|p0 r]; [tauto|]. intros q Hq. apply in_app_or in Hq. apply Hps.
      destruct Hq as [Hq|[<-|[]]]; [now right|now left].
    + exact Hps.
Qed.

Lemma shortest_In (l : list (DPath A)) : forall best, In (shortest best l) (best :: l).
Proof.
  induction l as [|x r IH]; intro best; cbn [shortest]; [now left|].
  destruct (flt _ _).
  - right. apply IH.
  - destruct (IH best) as [H|H]; [left; exact H|right; right; exact H].
Qed.
Lemma dselect_In (l : list (DPath A)) p : dselect l = Ok (Some p) -> In p l.
Proof.
  unfold dselect. destruct l as [|x [|y r]]; [discriminate|intro H; injection H as ->; now left|].
  destruct (existsb _ _); [discriminate|]. intro H. apply Ok_eq in H. assert (H1 : p = shortest x (y :: r)) by congruence. rewrite H1. apply shortest_In.
Qed.

(** Case analysis of path_on_layers *)
Lemma dpath_cases lib m scales from to blocked (p : DPath A) :
  dpath_on_layers lib m scales from to blocked = Ok (Some p) ->
  exists ps pe, located (dlib_lib lib) m from ps /\ located (dlib_lib lib) m to pe /\
    islands_reject m ps pe = Ok false /\
    ((ps = pe /\ p = mkDPath (vdist (cpos from) (cpos to)) [cpos to] [(cpos to, id_layer pe)]) \/
     (ps <> pe /\ exists st paths,
        let c := mkDCtx (mkCtx m (cpos to) pe blocked) scales (cpos from, id_layer ps) in
        dsetup c (cpos from) ps = Ok st /\
        drun (count_polygons m * 10) lib c st [] = Ok paths /\ dselect paths = Ok (Some p))).
Proof.
  unfold dpath_on_layers. intro H. inv_bind H. destruct a as [ps|]; [|discriminate].
  inv_bind H. destruct a as [pe|]; [|discriminate]. inv_bind H. destruct a; [discriminate|].
  apply locate_end_located in E. apply locate_end_located in E0.
  exists ps, pe. repeat (split; [assumption|]).
  destruct (N.eqb_spec ps pe).
  - left. inversion H. auto.
  - right. split; [assumption|]. inv_bind H. inv_bind H. eauto.
Qed.

(** ** The invariant of the generated nodes *)
(** A law of every sensible arithmetic, proved for binary32 in Properties_detailed.v. *)
Definition dnan_sane : Prop :=
  forall (g : F A) (u v s : vec2 A), veq v v = false -> fnan (fadd g (vdist u (vmulv v s))) = true.

Definition encode (k : Mark A) : vec2 A * vec2 A * N :=
  match k with Turn t l => (t, t, l) | Enter a b l => (a, b, l) end.
(** turns can be told from entries: they are equal to themselves *)
Definition mark_ok (k : Mark A) : Prop := match k with Turn t _ => veq t t = true | _ => True end.

Definition dsupported c (ps : N) n : Prop :=
  let b := dnode n in
  nprev b = id_layer (nfrom b) /\
  crossing_point (cmesh (dctx c)) (node_crossing b) (fst (ninterval b)) /\
  crossing_point (cmesh (dctx c)) (node_crossing b) (snd (ninterval b)) /\
  exists xs marks,
    corridor (cmesh (dctx c)) ps (xs ++ [node_crossing b]) (nto b) /\
    (forall x, In x (xs ++ [node_crossing b]) -> ~ In (id_layer (cr_to x)) (cblocked (dctx c))) /\
    turns_along (cmesh (dctx c)) (cblocked (dctx c)) xs (npath b) /\
    marks_along (cmesh (dctx c)) (cblocked (dctx c)) (xs ++ [node_crossing b]) marks (npath b) /\
    Forall mark_ok marks /\ dpoints n = map encode marks.

Lemma dgen_start_supported c from ps n :
  dnan_sane -> cpto (dctx c) <> MAX -> dgen_start c from ps n -> dsupported c ps n.
Proof.
  intros Hnan Hpto (l & p & a & b & sv & ev & HP & HE & HA & HB & Hbl & Hos & Hn & Hg & _).
  set (os := other_side sv ev ps) in *.
  assert (HM : os <> MAX) by (destruct Hos as [->|[? _]]; assumption).
  destruct (other_side_spec sv ev ps) as [HC|(_ & HC2 & HC3 & HC4)]; [contradiction|]. fold os in HC2, HC3, HC4.
  apply dnew_node_Ok in Hn. cbn [dnode dpoints empty_node nroot npath nto ng fst snd app] in Hn.
  destruct Hn as (g & h & Hg1 & ->). cbn [dnode ng] in Hg.
  assert (Hrefl : veq from from = true).
  { destruct Hg1 as [[Hr _]|(Hr & sc & _ & ->)]; [exact Hr|]. rewrite Hnan in Hg by exact Hr. discriminate. }
  rewrite Hrefl.
  assert (HX : valid_crossing (cmesh (dctx c)) (mkCross ps a b os)).
  { exists l, p, sv, ev. simpl. repeat split; auto; apply HP. }
  assert (P1 : crossing_point (cmesh (dctx c)) (mkCross ps a b os) (vadd (coords sv) (offset l))).
  { exists l, p, sv, ev. split; [exact HP|]. split; [exact HA|]. split; [exact HB|]. constructor. }
  assert (P2 : crossing_point (cmesh (dctx c)) (mkCross ps a b os) (vadd (coords ev) (offset l))).
  { exists l, p, sv, ev. split; [exact HP|]. split; [exact HA|]. split; [exact HB|]. constructor. }
  unfold dsupported. cbn [dnode dpoints nprev nfrom ninterval fst snd nto npath app].
  split; [reflexivity|]. split; [exact P1|]. split; [exact P2|].
  unfold node_crossing. cbn [nfrom nedge nto fst snd].
  exists [], (if id_layer os =? id_layer ps then [] else [Enter (vadd (coords sv) (offset l)) (vadd (coords ev) (offset l)) (id_layer os)]).
  cbn [app]. split; [|split; [|split; [constructor|split; [|split]]]].
  - apply (corridor_snoc (cmesh (dctx c)) ps [] (mkCross ps a b os)); [constructor|exact HX].
  - intros x [<-|[]]. simpl. now apply memN_false.
  - apply marks_first. destruct (N.eqb_spec (id_layer os) (id_layer ps)).
    + apply entry_same. assumption.
    + apply (entry_other (cmesh (dctx c)) (mkCross ps a b os)); assumption.
  - destruct (N.eqb _ _); repeat constructor.
  - destruct (N.eqb _ _); reflexivity.
Qed.

Lemma dgen_step_supported c ps n n' :
  dnan_sane -> dsupported c ps n -> dgen_step c n n' -> dsupported c ps n'.
Proof.
  intros Hnan (Hp & HI0 & HI1 & xs & marks & HC & Hbl & Ht & Hm & Hok & Hd)
    (s & root & l & ss & sv & ev & HL & Hss & Hs & HA & HB & HM & Hb & Hde & Hne & Hroot & Hlen & Hn & Hg & Hh).
  set (b := dnode n) in *. set (os := other_side sv ev (nto b)) in *.
  destruct (other_side_spec sv ev (nto b)) as [HCo|(_ & HC2 & HC3 & HC4)]; [contradiction|]. fold os in HC2, HC3, HC4.
  destruct (edges_between_spec _ _ _ Hss) as (l' & p & HP & Hbe).
  assert (l' = l) by (destruct HP as [HP _]; congruence). subst l'.
  set (x := mkCross (nto b) (fst (sedge s)) (snd (sedge s)) os).
  assert (HX : valid_crossing (cmesh (dctx c)) x).
  { exists l, p, sv, ev. simpl. repeat split; auto; apply HP. }
  destruct (corridor_snoc_inv _ _ _ _ _ HC) as [HVn _].
  assert (Hpts : edge_point (world l sv) (world l ev) (fst (sinterval s)) /\
                 edge_point (world l sv) (world l ev) (snd (sinterval s))).
  { unfold edges_between in Hss. inv_bind Hss. inv_bind Hss. inv_bind Hss. inv_bind Hss.
    apply index_Ok in E. assert (a = l) by congruence. subst a.
    destruct (cut_edges_points _ _ _ _ _ _ Hss _ Hs) as (va & vb & H1 & H2 & H3 & H4).
    assert (va = sv) by congruence. assert (vb = ev) by congruence. subst. auto. }
  assert (P1 : crossing_point (cmesh (dctx c)) x (fst (sinterval s))).
  { exists l, p, sv, ev. split; [exact HP|]. split; [exact HA|]. split; [exact HB|]. apply Hpts. }
  assert (P2 : crossing_point (cmesh (dctx c)) x (snd (sinterval s))).
  { exists l, p, sv, ev. split; [exact HP|]. split; [exact HA|]. split; [exact HB|]. apply Hpts. }
  apply dnew_node_Ok in Hn. fold b in Hn. cbn [fst snd] in Hn. destruct Hn as (g & h & Hg1 & ->). cbn [dnode ng] in Hg.
  assert (Hturn : veq root (nroot b) = false ->
    turn_at (cmesh (dctx c)) (cblocked (dctx c)) (node_crossing b) root /\ veq root root = true).
  { intro Hmv. assert (Hrr : veq root root = true).
    { destruct (veq root root) eqn:Er; [reflexivity|]. destruct Hg1 as [[Hc _]|(_ & sc & _ & ->)]; [congruence|].
      rewrite Hnan in Hg by exact Er. discriminate. }
    split; [|exact Hrr]. unfold root_choice in Hroot. destruct (sty s).
    - destruct Hroot as (_ & Hc & ->). eapply corner_ok_turn; [assumption|assumption|right; reflexivity|exact Hc].
    - subst root. congruence.
    - destruct Hroot as (_ & Hc & ->). eapply corner_ok_turn; [assumption|assumption|left; reflexivity|exact Hc]. }
  unfold dsupported. cbn [dnode dpoints nprev nfrom ninterval fst snd nto npath].
  split; [reflexivity|]. unfold node_crossing at 1 2 3 4 5. cbn [nfrom nedge nto fst snd]. fold x.
  split; [exact P1|]. split; [exact P2|].
  set (e := if id_layer os =? id_layer (nto b) then [] else [Enter (fst (sinterval s)) (snd (sinterval s)) (id_layer os)]).
  assert (He : entry (cmesh (dctx c)) x e).
  { subst e. destruct (N.eqb_spec (id_layer os) (id_layer (nto b))).
    - apply entry_same. assumption.
    - apply (entry_other (cmesh (dctx c)) x); assumption. }
  assert (He2 : map encode e = if id_layer os =? id_layer (nto b) then [] else [(fst (sinterval s), snd (sinterval s), id_layer os)]).
  { subst e. destruct (N.eqb _ _); reflexivity. }
  assert (He3 : Forall mark_ok e) by (subst e; destruct (N.eqb _ _); repeat constructor).
  assert (HCx : corridor (cmesh (dctx c)) ps ((xs ++ [node_crossing b]) ++ [x]) os).
  { apply (corridor_snoc (cmesh (dctx c)) ps (xs ++ [node_crossing b]) x); assumption. }
  assert (Hblx : forall y, In y ((xs ++ [node_crossing b]) ++ [x]) -> ~ In (id_layer (cr_to y)) (cblocked (dctx c))).
  { intros y Hy. apply in_app_or in Hy. destruct Hy as [Hy|[<-|[]]]; [now apply Hbl|]. simpl. now apply memN_false. }
  destruct (veq root (nroot b)) eqn:EM.
  - exists (xs ++ [node_crossing b]), (marks ++ e). rewrite app_nil_r, map_app, He2, Hd.
    split; [exact HCx|]. split; [exact Hblx|]. split; [apply turns_skip; assumption|]. split; [apply marks_straight; assumption|].
    split; [apply Forall_app; auto|reflexivity].
  - destruct (Hturn eq_refl) as [HT Hrr].
    exists (xs ++ [node_crossing b]), (marks ++ Turn root (id_layer (nto b)) :: e).
    split; [exact HCx|]. split; [exact Hblx|]. split; [apply turns_turn; assumption|].
    split; [apply (marks_turn (cmesh (dctx c)) (cblocked (dctx c)) xs (node_crossing b) x marks (npath b) e root); assumption|].
    split.
    + apply Forall_app. split; [exact Hok|]. constructor; [exact Hrr|exact He3].
    + rewrite map_app. cbn [map encode]. rewrite He2, Hd. now rewrite <- app_assoc.
Qed.

(** ** The final path *)
Lemma find_next_stop final marks :
  Forall mark_ok marks ->
  match find (fun q : vec2 A * vec2 A * N => veq (fst (fst q)) (snd (fst q))) (map encode marks) with
  | Some q => fst (fst q)
  | None => final
  end = next_stop final marks.
Proof.
  induction marks as [|[t l|a b l] r IH]; intro H; cbn [map encode find next_stop fst snd]; [reflexivity| |].
  - inversion H; subst. cbn [mark_ok] in *. rewrite H2. reflexivity.
  - inversion H; subst. destruct (veq a b); [reflexivity|]. now apply IH.
Qed.

Lemma fill_placed final marks : forall prev,
  Forall mark_ok marks -> placed final prev marks (fill final prev (map encode marks)).
Proof.
  induction marks as [|[t l|a b l] r IH]; intros prev H; cbn [map encode fill].
  - constructor.
  - inversion H; subst. cbn [mark_ok] in *. rewrite H2. constructor. now apply IH.
  - inversion H; subst. destruct (veq a b) eqn:E; [apply placed_point; auto|].
    pose proof (find_next_stop final r H3) as Hf. rewrite Hf.
    destruct (line_intersect_segment _ _) as [q|] eqn:EL.
    + eapply placed_enter; eauto.
    + apply placed_missed; auto.
Qed.

Lemma thin_thinned (l : list (vec2 A * N)) : thinned l (thin l).
Proof.
  induction l as [|p [|n r] IH]; [constructor|constructor|].
  change (thin (p :: n :: r)) with (if flt (vdist2 (fst p) (fst n)) EPS then thin (n :: r) else p :: thin (n :: r)).
  destruct (flt _ _) eqn:E; [apply thinned_drop|apply thinned_keep]; assumption.
Qed.

Lemma dleg_walked c l : forall acc p lp r,
  foldM (dleg c) (acc, (p, lp)) l = Ok r -> walked (dscales c) acc p lp l (fst r).
Proof.
  induction l as [|[q lq] t IH]; intros acc p lp r H; cbn [foldM] in H.
  - injection H as <-. constructor.
  - inv_bind H. unfold dleg in E. inv_bind E. injection E as <-. apply index_Ok in E0. cbn [fst snd] in *.
    eapply walked_leg; [exact E0|]. apply IH. exact H.
Qed.

Lemma thinned_end (l out : list (vec2 A * N)) p : thinned (l ++ [p]) out -> exists front, out = front ++ [p].
Proof.
  revert out. induction l as [|x r IH]; intros out H; cbn [app] in H.
  - inversion H; subst. exists []. reflexivity.
  - destruct (r ++ [p]) as [|y t] eqn:E; [destruct r; discriminate|].
    inversion H as [| |a b r' out' Hd Ht|a b r' out' Hd Ht]; subst.
    + apply IH. exact Ht.
    + destruct (IH _ Ht) as (f & ->). exists (x :: f). reflexivity.
Qed.

(** Everything about a path read from a node of the target polygon. *)
Lemma dfinal_spec c ps n p :
  dsupported c ps n -> nto (dnode n) = cpto (dctx c) -> dfinal c n = Ok p ->
  exists xs x marks turns last_turn entered,
    corridor (cmesh (dctx c)) ps (xs ++ [x]) (cpto (dctx c)) /\
    (forall y, In y (xs ++ [x]) -> ~ In (id_layer (cr_to y)) (cblocked (dctx c))) /\
    turns_along (cmesh (dctx c)) (cblocked (dctx c)) xs turns /\
    marks_along (cmesh (dctx c)) (cblocked (dctx c)) (xs ++ [x]) marks turns /\
    (last_turn = [] \/ exists t, last_turn = [t] /\ crossing_point (cmesh (dctx c)) x t) /\
    let ends := last_turn ++ [cgoal (dctx c)] in
    dpath p = turns ++ ends /\
    placed (hd (cgoal (dctx c)) ends) (fst (dfrom c)) marks entered /\
    thinned (entered ++ map (fun q => (q, id_layer (cpto (dctx c)))) ends) (dlayers p) /\
    walked (dscales c) (fz 0) (fst (dfrom c)) (snd (dfrom c)) (dlayers p) (dlength p).
Proof.
  intros (_ & HI0 & HI1 & xs & marks & HC & Hb & Ht & Hm & Hok & Hd) Hto H.
  unfold dfinal in H. inv_bind H. injection H as <-. cbn [dpath dlayers dlength].
  set (b := dnode n) in *.
  exists xs, (node_crossing b), marks, (npath b),
    (match turning_point (nroot b) (cgoal (dctx c)) (ninterval b) with Some t => [t] | None => [] end),
    (fill (hd (cgoal (dctx c)) (dend (dctx c) b)) (fst (dfrom c)) (dpoints n)).
  rewrite <- Hto. split; [exact HC|]. split; [exact Hb|]. split; [exact Ht|]. split; [exact Hm|]. split.
  { destruct (turning_point _ _ _) as [t|] eqn:E1; [right|left; reflexivity].
    exists t. split; [reflexivity|]. destruct (turning_point_ends _ _ _ _ E1) as [->| ->]; assumption. }
  cbv zeta. fold (dend (dctx c) b). split; [reflexivity|]. split; [rewrite Hd; now apply fill_placed|].
  split; [apply thin_thinned|].
  unfold dsum in E. inv_bind E. injection E as <-. destruct (dfrom c) as [f lf] eqn:Ef. cbn [fst snd].
  eapply dleg_walked. rewrite <- Ef. unfold dwith_layers in *. rewrite Ef in *. exact E0.
Qed.

Lemma dpath_spec lib m scales from to blocked (p : DPath A) :
  dnan_sane -> dpop_perm (dpop lib) -> mesh_small m ->
  dpath_on_layers lib m scales from to blocked = Ok (Some p) ->
  exists ps pe, located (dlib_lib lib) m from ps /\ located (dlib_lib lib) m to pe /\
   ((ps = pe /\ p = mkDPath (vdist (cpos from) (cpos to)) [cpos to] [(cpos to, id_layer pe)]) \/
    (ps <> pe /\ exists xs x marks turns last_turn entered,
      corridor m ps (xs ++ [x]) pe /\
      (forall y, In y (xs ++ [x]) -> ~ In (id_layer (cr_to y)) blocked) /\
      turns_along m blocked xs turns /\
      marks_along m blocked (xs ++ [x]) marks turns /\
      (last_turn = [] \/ exists t, last_turn = [t] /\ crossing_point m x t) /\
      let ends := last_turn ++ [cpos to] in
      dpath p = turns ++ ends /\
      placed (hd (cpos to) ends) (cpos from) marks entered /\
      thinned (entered ++ map (fun q => (q, id_layer pe)) ends) (dlayers p) /\
      walked scales (fz 0) (cpos from) (id_layer ps) (dlayers p) (dlength p))).
Proof.
  intros Hnan Hpop Hm H. apply dpath_cases in H.
  destruct H as (ps & pe & Hs & He & _ & H). exists ps, pe. split; [exact Hs|]. split; [exact He|].
  destruct H as [H|(Hne & st & paths & Hset & Hrun & Hsel)]; [left; exact H|right]. split; [exact Hne|].
  set (c := mkDCtx (mkCtx m (cpos to) pe blocked) scales (cpos from, id_layer ps)) in *.
  assert (HM : cpto (dctx c) <> MAX) by (simpl; eapply located_not_MAX; eauto).
  destruct (dsetup_all c (cpos from) ps st (dsupported c ps)) as [H1 H2]; [|exact Hset|].
  { intros n Hn. eapply dgen_start_supported; eauto. }
  destruct (drun_found lib c (dsupported c ps) Hpop) with (k := (count_polygons m * 10)%nat) (st := st) (paths := @nil (DPath A))
    (out := paths) (p := p) as (n & Hn & Hto & Hf); auto.
  - intros n n'. now apply dgen_step_supported.
  - intros q [].
  - now apply dselect_In.
  - exact (dfinal_spec c ps n p Hn Hto Hf).
Qed.

End Detailed_facts.
Arguments dnan_sane A : clear implicits.
