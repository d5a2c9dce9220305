(** C41, C42, C43: triangulations. *)
From Coq Require Import List NArith ZArith Bool Lia.
From Verif Require Import Base Arith U32 Mesh Helpers Locate Cleanup Cleanup_facts Stitch_facts Merger_facts Islands_facts
     Spec Triangulation Triangulation_facts Spec_triangulation F32 StdLib Tests Tests_triangulation.
Import ListNotations.
Open Scope N_scope.

Lemma filter_rank {T} (p : T -> bool) l : forall j f, nthN l j = Some f -> p f = true ->
  nthN (filter p l) (lengthN (filter p (firstn (N.to_nat j) l))) = Some f.
Proof.
  induction l as [|x r IH]; intros j f H P; [discriminate|]. simpl in H. destruct (N.eqb_spec j 0) as [E|E].
  - inversion H; subst. simpl. now rewrite P.
  - replace (N.to_nat j) with (S (N.to_nat (N.pred j))) by lia. cbn [firstn filter].
    specialize (IH _ _ H P). destruct (p x); [|exact IH].
    match goal with |- nthN _ (lengthN (x :: ?l)) = _ => assert (lengthN (x :: l) = lengthN l + 1) as -> by (unfold lengthN; simpl length; lia) end.
    cbn [nthN]. destruct (N.eqb_spec (lengthN (filter p (firstn (N.to_nat (N.pred j)) r)) + 1) 0); [lia|].
    match goal with |- nthN _ (N.pred (?k + 1)) = _ => replace (N.pred (k + 1)) with k by lia end. exact IH.
Qed.

Lemma filter_rank_inv {T} (p : T -> bool) l : forall q f, nthN (filter p l) q = Some f ->
  exists j, nthN l j = Some f /\ p f = true /\ q = lengthN (filter p (firstn (N.to_nat j) l)).
Proof.
  induction l as [|x r IH]; intros q f H; [discriminate|]. cbn [filter] in H. destruct (p x) eqn:E.
  - simpl in H. destruct (N.eqb_spec q 0) as [E0|E0].
    + inversion H; subst. exists 0. auto.
    + destruct (IH _ _ H) as (j & H1 & H2 & H3). exists (j + 1). split.
      { simpl. destruct (N.eqb_spec (j + 1) 0); [lia|]. now replace (N.pred (j + 1)) with j by lia. }
      split; [exact H2|]. replace (N.to_nat (j + 1)) with (S (N.to_nat j)) by lia. cbn [firstn filter]. rewrite E.
      unfold lengthN in *. simpl length. lia.
  - destruct (IH _ _ H) as (j & H1 & H2 & H3). exists (j + 1). split.
    { simpl. destruct (N.eqb_spec (j + 1) 0); [lia|]. now replace (N.pred (j + 1)) with j by lia. }
    split; [exact H2|]. replace (N.to_nat (j + 1)) with (S (N.to_nat j)) by lia. cbn [firstn filter]. now rewrite E.
Qed.

Lemma Forall2_len {S T} {R : S -> T -> Prop} {a b} : Forall2 R a b -> length a = length b.
Proof. induction 1; simpl; congruence. Qed.

Lemma dedup_runs l : runs l (dedup l).
Proof.
  induction l as [|a r IH]; [constructor|]. destruct r as [|b r].
  - cbn. apply runs_new; [discriminate|constructor].
  - change (dedup (a :: b :: r)) with (if N.eqb a b then dedup (b :: r) else a :: dedup (b :: r)).
    destruct (N.eqb_spec a b) as [->|E]; [now apply runs_same|]. apply runs_new; [cbn; congruence|exact IH].
Qed.

Section P.
Context {A : Arith}.

Lemma accepts_Ok (accept : vec2 A -> res bool) fs : forall st st', foldM (list_face accept) st fs = Ok st' ->
  forall f, In f fs -> exists b, accept (fcenter f) = Ok b.
Proof.
  induction fs as [|g r IH]; intros st st' H f Hf; [destruct Hf|]. cbn [foldM] in H. inv_bind H.
  destruct Hf as [->|Hf]; [|exact (IH _ _ H _ Hf)].
  destruct st as [table ps]. unfold list_face in E. inv_bind E. exists a0. exact E0.
Qed.

(** The extraction of a layer from a subdivision. *)
Lemma extraction (accept : vec2 A -> res bool) (ok : vec2 A -> bool) s :
  (forall f, In f (inner_faces s) -> accept (fcenter f) = Ok (ok (fcenter f))) ->
  subdivision_ok s -> lengthN (inner_faces s) < 2^32 - 1 ->
  let kept := fun f => ok (fcenter f) in
  exists l, layer_of_subdivision accept s = Ok l /\
    polygons l = map polygon_of_face (filter kept (inner_faces s)) /\
    offset l = vzero /\ baked l = None /\ islands l = None /\
    length (vertices l) = length (sites s) /\
    forall i pos around, nthN (sites s) i = Some (pos, around) ->
      exists v, nthN (vertices l) i = Some v /\ coords v = pos /\
        is_corner v = memN MAX (vpolys v) /\
        exists ids, Forall2 (numbered s kept) around ids /\
          ((Forall (eq MAX) ids /\ vpolys v = [MAX]) \/
           (exists a b, ids = a ++ b /\ hd MAX b <> MAX /\ (exists x, In x ids /\ x <> MAX) /\ vpolys v = dedup (b ++ a))).
Proof.
  intros HA (S1 & S2 & S3 & S4 & S5) HN kept.
  destruct (list_faces_spec accept ok (inner_faces s) 0 (repeat MAX (S (length (inner_faces s)))) [] HA) as (table & E1 & E2 & E3 & E4).
  { intros k f H. rewrite (S1 _ _ H). lia. }
  { unfold lengthN. rewrite repeat_length. lia. }
  { unfold lengthN at 1. simpl length. lia. }
  unfold layer_of_subdivision. rewrite E1. cbn [bind fst snd]. rewrite app_nil_l.
  assert (forall k, k <= lengthN (inner_faces s) -> exists id, index table k = Ok id /\ numbered s kept k id) as HT.
  { intros k Hk. destruct (N.eq_dec k 0) as [->|Hk0].
    - exists MAX. split.
      + apply index_Ok. rewrite E3 by lia. reflexivity.
      + right. split; [reflexivity|]. intros f Hf E. apply In_nthN in Hf. destruct Hf as [j Hj]. rewrite (S1 _ _ Hj) in E. lia.
    - destruct (nthN_lt_Some (inner_faces s) (k - 1)) as [f Hf]; [lia|].
      specialize (E4 _ _ Hf). replace (0 + (k - 1) + 1) with k in E4 by lia.
      destruct (keep ok f) eqn:EK.
      + exists (lengthN (filter kept (firstn (N.to_nat (k - 1)) (inner_faces s)))). split.
        * apply index_Ok. rewrite E4. f_equal.
        * left. exists (k - 1), f. repeat split; auto. rewrite (S1 _ _ Hf). lia.
      + exists MAX. split.
        * apply index_Ok. rewrite E4, nthN_nth_error.
          apply nth_error_repeat. unfold lengthN in Hk. lia.
        * right. split; [reflexivity|]. intros g Hg E. apply In_nthN in Hg. destruct Hg as [j Hj].
          rewrite (S1 _ _ Hj) in E. replace j with (k - 1) in Hj by lia.
          assert (g = f) by congruence. subst g. exact EK. }
  assert (forall around, (forall k, In k around -> k <= lengthN (inner_faces s)) ->
            exists ids, mapM (index table) around = Ok ids /\ Forall2 (numbered s kept) around ids) as HM.
  { induction around as [|k r IH]; intro H; [exists []; split; [reflexivity|constructor]|].
    destruct (HT k) as (id & H1 & H2); [apply H; now left|]. destruct IH as (ids & H3 & H4); [intros; apply H; now right|].
    exists (id :: ids). cbn [mapM]. rewrite H1. cbn [bind]. rewrite H3. split; [reflexivity|now constructor]. }
  set (rel := fun (site : vec2 A * list N) (v : Vertex A) => coords v = fst site /\ is_corner v = memN MAX (vpolys v) /\
     exists ids, Forall2 (numbered s kept) (snd site) ids /\
          ((Forall (eq MAX) ids /\ vpolys v = [MAX]) \/
           (exists a b, ids = a ++ b /\ hd MAX b <> MAX /\ (exists x, In x ids /\ x <> MAX) /\ vpolys v = dedup (b ++ a)))).
  set (mk := fun site : vec2 A * list N => let* ps := site_polygons table (snd site) in Ok (vertex_new (fst site) ps)).
  assert (forall sts, (forall site k, In site sts -> In k (snd site) -> k <= lengthN (inner_faces s)) ->
            exists vs, mapM mk sts = Ok vs /\ Forall2 rel sts vs) as HV.
  { induction sts as [|site r IH]; intro H; [exists []; split; [reflexivity|constructor]|].
    destruct (HM (snd site)) as (ids & H1 & H2); [intros k Hk; apply (H site k); [now left|exact Hk]|].
    destruct IH as (vs & H3 & H4); [intros st k Hs; apply H; now right|].
    assert (exists v, mk site = Ok v /\ rel site v) as (v & V1 & V2).
    { unfold mk, rel. destruct (site_polygons_spec table (snd site) ids H1) as [[F1 F2]|(a & b & F1 & F2 & F3 & F4)]; rewrite F2; cbn [bind].
      - exists (vertex_new (fst site) [MAX]). split; [reflexivity|]. split; [reflexivity|]. split; [reflexivity|].
        exists ids. split; [exact H2|]. left. split; [exact F1|reflexivity].
      - exists (vertex_new (fst site) (dedup (b ++ a))). split; [reflexivity|]. split; [reflexivity|]. split; [reflexivity|].
        exists ids. split; [exact H2|]. right. exists a, b. split; [exact F1|]. split; [exact F4|]. split; [exact F3|reflexivity]. }
    exists (v :: vs). cbn [mapM]. rewrite V1. cbn [bind]. rewrite H3. split; [reflexivity|now constructor]. }
  destruct (HV (sites s) S3) as (vs & V1 & V2). fold mk. rewrite V1. cbn [bind].
  eexists. split; [reflexivity|]. cbn [polygons offset baked islands vertices]. split; [reflexivity|].
  split; [reflexivity|]. split; [reflexivity|]. split; [reflexivity|]. split; [symmetry; exact (Forall2_len V2)|].
  intros i pos around Hi. destruct (Forall2_nthN _ _ _ V2 _ _ Hi) as (v & Hv & Hr).
  exists v. split; [exact Hv|]. exact Hr.
Qed.

Lemma numbered_fun s (kept : Face A -> bool) k id1 id2 : subdivision_ok s -> lengthN (inner_faces s) < MAX ->
  numbered s kept k id1 -> numbered s kept k id2 -> id1 = id2.
Proof.
  intros (S1 & _) HN [(j & f & H1 & H2 & H3 & H4)|[H1 H2]] [(j' & f' & H1' & H2' & H3' & H4')|[H1' H2']].
  - assert (j = j') as ->. { rewrite (S1 _ _ H1) in H2. rewrite (S1 _ _ H1') in H2'. lia. } congruence.
  - rewrite (H2' f (nthN_In _ _ _ H1) H2) in H3. discriminate.
  - rewrite (H2 f' (nthN_In _ _ _ H1') H2') in H3'. discriminate.
  - congruence.
Qed.

(** C41: the layer built from the triangulation *)
Theorem C41_as_layer (lib : TriLib A) t c g l :
  constraints lib t = Ok c -> inflated lib t = Ok g ->
  subdivision_ok (cdt lib c) -> lengthN (inner_faces (cdt lib c)) < 2^32 - 1 ->
  as_layer lib t = Ok l ->
  exists kept : Face A -> bool,
    (forall f, In f (inner_faces (cdt lib c)) -> accepted lib t g (fcenter f) = Ok (kept f)) /\
    polygons l = map polygon_of_face (filter kept (inner_faces (cdt lib c))) /\
    length (vertices l) = length (sites (cdt lib c)) /\
    forall i pos around, nthN (sites (cdt lib c)) i = Some (pos, around) ->
      exists v, nthN (vertices l) i = Some v /\ coords v = pos /\
        (forall p, In p (vpolys v) /\ p <> MAX <-> exists P, nthN (polygons l) p = Some P /\ In i (pverts P)) /\
        (is_corner v = true <->
           around = [] \/ exists k, In k around /\ forall f, In f (inner_faces (cdt lib c)) -> findex f = k -> kept f = false) /\
        (around <> [] -> exists a b ids, around = a ++ b /\ Forall2 (numbered (cdt lib c) kept) (b ++ a) ids /\ runs ids (vpolys v)).
Proof.
  intros EC EG HS HN H. unfold as_layer in H. rewrite EC, EG in H. cbn [bind] in H.
  set (s := cdt lib c) in *.
  set (ok := fun x => match accepted lib t g x with Ok b => b | _ => false end).
  assert (forall f, In f (inner_faces s) -> accepted lib t g (fcenter f) = Ok (ok (fcenter f))) as HA.
  { intros f Hf. pose proof H as H'. unfold layer_of_subdivision in H'. inv_bind H'.
    destruct (accepts_Ok _ _ _ _ E f Hf) as [b Hb]. unfold ok. now rewrite Hb. }
  destruct (extraction (accepted lib t g) ok s HA HS HN) as (l' & E & EP & _ & _ & _ & EL & EV).
  assert (l' = l) as -> by congruence.
  set (kept := fun f : Face A => ok (fcenter f)) in *.
  exists kept. split; [exact HA|]. split; [exact EP|]. split; [exact EL|].
  assert (forall j, lengthN (filter kept (firstn (N.to_nat j) (inner_faces s))) < MAX) as HB.
  { intro j. eapply N.le_lt_trans; [|exact HN].
    assert (length (filter kept (firstn (N.to_nat j) (inner_faces s))) <= length (inner_faces s))%nat; [|unfold lengthN; lia].
    clear. generalize (N.to_nat j). induction (inner_faces s) as [|x r IH]; intros [|n]; cbn [firstn filter length]; try lia.
    specialize (IH n). destruct (kept x); cbn [length]; lia. }
  intros i pos around Hi. destruct (EV _ _ _ Hi) as (v & V1 & V2 & VC & ids & VI & VO).
  pose proof HS as (S1 & S2 & S3 & S4 & S5).
  exists v. split; [exact V1|]. split; [exact V2|].
  (* the ids listed by the vertex *)
  assert (forall p, p <> MAX -> (In p (vpolys v) <-> In p ids)) as HI1.
  { intros p Hp. destruct VO as [[F1 F2]|(a & b & F1 & F2 & F3 & F4)].
    - rewrite F2. split.
      + intros [E1|[]]. congruence.
      + intro F. rewrite Forall_forall in F1. specialize (F1 _ F). congruence.
    - rewrite F4, dedup_In, F1, !in_app_iff. tauto. }
  assert (In MAX (vpolys v) <-> around = [] \/ In MAX ids) as HI2.
  { destruct VO as [[F1 F2]|(a & b & F1 & F2 & F3 & F4)].
    - rewrite F2. split; [|intros _; now left]. intros _.
      inversion VI; subst; [now left|]. right. inversion F1; subst. now left.
    - rewrite F4, dedup_In, F1, !in_app_iff.
      assert (around <> []) as N0. { intros ->. destruct ids as [|y r]; [|inversion VI]. destruct F3 as (x & Hx & _). destruct Hx. }
      tauto. }
  assert (forall id, In id ids <-> exists k, In k around /\ numbered s kept k id) as HN1.
  { intro id. split.
    - intro F. apply In_nthN in F. destruct F as [n F]. destruct (Forall2_nthN_r _ _ _ VI _ _ F) as (k & K1 & K2).
      exists k. split; [exact (nthN_In _ _ _ K1)|exact K2].
    - intros (k & K1 & K2). apply In_nthN in K1. destruct K1 as [n K1]. destruct (Forall2_nthN _ _ _ VI _ _ K1) as (id' & I1 & I2).
      rewrite (numbered_fun s kept k id id' HS HN K2 I2). exact (nthN_In _ _ _ I1). }
  split; [|split].
  - intro p. split.
    + intros [Hp1 Hp2]. apply (proj1 (HI1 p Hp2)) in Hp1. apply (proj1 (HN1 p)) in Hp1.
      destruct Hp1 as (k & K1 & [(j & f & J1 & J2 & J3 & J4)|[K2 _]]); [|congruence].
      exists (polygon_of_face f). split.
      * rewrite EP, nthN_map, J4, (filter_rank kept _ _ _ J1 J3). reflexivity.
      * cbn. apply (proj1 (S4 i (pos, around) f Hi (nthN_In _ _ _ J1))). now rewrite J2.
    + intros (P & P1 & P2). rewrite EP, nthN_map in P1.
      destruct (nthN (filter kept (inner_faces s)) p) as [f|] eqn:EF; [|discriminate]. inversion P1; subst P. cbn in P2.
      destruct (filter_rank_inv kept _ _ _ EF) as (j & J1 & J2 & J3).
      assert (p <> MAX) as Hp. { pose proof (HB j) as G. rewrite <- J3 in G. lia. }
      split; [|exact Hp]. apply (proj2 (HI1 p Hp)). apply (proj2 (HN1 p)). exists (findex f). split.
      * apply (proj2 (S4 i (pos, around) f Hi (nthN_In _ _ _ J1)) P2).
      * left. exists j, f. auto.
  - rewrite VC. assert (memN MAX (vpolys v) = true <-> In MAX (vpolys v)) as ->.
    { unfold memN. rewrite existsb_exists. split.
      - intros (x & X1 & X2). apply N.eqb_eq in X2. now subst.
      - intro F. exists MAX. split; [exact F|apply N.eqb_refl]. }
    rewrite HI2, (HN1 MAX). split; (intros [F|(k & K1 & K2)]; [now left|right; exists k; split; [exact K1|]]).
    + destruct K2 as [(j & f & J1 & J2 & J3 & J4)|[_ K2]]; [|exact K2]. pose proof (HB j) as G. rewrite <- J4 in G. lia.
    + right. split; [reflexivity|exact K2].
  - intro N0. destruct VO as [[F1 F2]|(a & b & F1 & F2 & F3 & F4)].
    + exists [], around, ids. split; [reflexivity|]. rewrite app_nil_r. split; [exact VI|]. rewrite F2.
      inversion VI as [|k id around' ids' G1 G2]; subst; [congruence|]. clear - F1.
      induction ids' as [|y r IH].
      * inversion F1; subst. apply runs_new; [discriminate|constructor].
      * inversion F1 as [|? ? H1 H2]; subst. inversion H2 as [|? ? H3 H4]; subst. apply runs_same. apply IH. exact H2.
    + rewrite F1 in VI. apply Forall2_app_inv_r in VI. destruct VI as (ka & kb & K1 & K2 & K3).
      exists ka, kb, (b ++ a). split; [exact K3|]. split; [now apply Forall2_app|]. rewrite F4. apply dedup_runs.
Qed.

(** C41: it returns a layer whenever the edges could be inserted, ... *)
Theorem C41_returns (lib : TriLib A) t c :
  base_layer t = None -> constraints lib t = Ok c ->
  subdivision_ok (cdt lib c) -> lengthN (inner_faces (cdt lib c)) < 2^32 - 1 ->
  exists l, as_layer lib t = Ok l.
Proof.
  intros HB EC HS HN.
  assert (exists g, inflated lib t = Ok g) as [g EG].
  { unfold constraints in EC. inv_bind EC. inv_bind EC. inv_bind EC. eauto. }
  set (ok := fun x => match accepted lib t g x with Ok b => b | _ => false end).
  destruct (extraction (accepted lib t g) ok (cdt lib c)) as (l & E & _); [|exact HS|exact HN|].
  - intros f Hf. unfold ok, accepted. rewrite HB. destruct (_ && _); reflexivity.
  - exists l. unfold as_layer. rewrite EC, EG. exact E.
Qed.

(** ... and the mesh it makes is well formed: everything proved for well-formed meshes applies to it. *)
Theorem C41_well_formed (lib : TriLib A) t c m :
  constraints lib t = Ok c -> subdivision_ok (cdt lib c) -> lengthN (inner_faces (cdt lib c)) < 2^24 ->
  as_navmesh lib t = Ok m ->
  mesh_wf m /\ mesh_small m /\ unbaked m.
Proof.
  intros EC HS HN H. unfold as_navmesh in H. inv_bind H. inversion H; subst m; clear H. rename a into l.
  assert (exists g, inflated lib t = Ok g) as [g EG].
  { unfold as_layer in E. rewrite EC in E. cbn [bind] in E. inv_bind E. eauto. }
  assert (lengthN (inner_faces (cdt lib c)) < 2^32 - 1) as HN' by (eapply N.lt_trans; [exact HN|reflexivity]).
  destruct (C41_as_layer lib t c g l EC EG HS HN' E) as (kept & K1 & K2 & K3 & K4).
  assert (lengthN (polygons l) <= 2^24 - 1) as HP.
  { rewrite K2. unfold lengthN in *. rewrite map_length.
    assert (length (filter kept (inner_faces (cdt lib c))) <= length (inner_faces (cdt lib c)))%nat; [|lia].
    clear. induction (inner_faces (cdt lib c)) as [|x r IH]; cbn [filter length]; [lia|]. destruct (kept x); cbn [length]; lia. }
  pose proof HS as (S1 & S2 & S3 & S4 & S5).
  split; [split|split].
  - intros l0 [<-|[]] p Hp. rewrite K2 in Hp. apply in_map_iff in Hp. destruct Hp as (f & <- & Hf).
    apply filter_In in Hf. destruct Hf as [Hf _]. cbn. split; [exact (S5 f Hf)|].
    intros v Hv. unfold lengthN. rewrite K3. exact (S2 f v Hf Hv).
  - intros l0 v id [<-|[]] Hv Hid Hm. apply In_nthN in Hv. destruct Hv as [i Hi].
    assert (i < lengthN (sites (cdt lib c))) as Hl. { apply nthN_Some_lt in Hi. unfold lengthN in *. now rewrite <- K3. }
    destruct (nthN_lt_Some _ _ Hl) as [[pos around] Hs]. destruct (K4 _ _ _ Hs) as (v' & V1 & _ & V3 & _).
    assert (v' = v) as -> by congruence.
    destruct (proj1 (V3 id) (conj Hid Hm)) as (P & HPi & _).
    exists l, P. apply nthN_Some_lt in HPi as Hlt. unfold polygon_at. rewrite id_layer_eq, id_polygon_eq. cbn [layers].
    rewrite N.div_small, (N.mod_small id) by lia. split; [reflexivity|exact HPi].
  - split; [vm_compute; discriminate|]. intros l0 [<-|[]]. exact HP.
  - intros l0 [<-|[]]. unfold as_layer in E. rewrite EC, EG in E. cbn [bind] in E.
    unfold layer_of_subdivision in E. inv_bind E. inv_bind E. inversion E; subst l. reflexivity.
Qed.

(** ** C42 *)
Definition settings_of (t : Triangulation A) : F A * N * F A * bool :=
  match agent_radius t with
  | RNone => (fz 0, 5, fz 0, false)
  | RObstacles r s p => (r, s, p, false)
  | REverything r s p => (r, s, p, true)
  end.

Lemma settings_last (cs : list setting) : forall t r s p b, settings_of t = (r, s, p, b) ->
  settings_of (fold_left apply_setting cs t) = (last_radius r cs, last_segments s cs, last_simplification p cs, last_outer b cs) /\
  inner (fold_left apply_setting cs t) = inner t /\ prebuilt (fold_left apply_setting cs t) = prebuilt t /\
  base_layer (fold_left apply_setting cs t) = base_layer t /\
  (cs <> [] \/ agent_radius t <> RNone -> agent_radius (fold_left apply_setting cs t) <> RNone).
Proof.
  induction cs as [|c r0 IH]; intros t r s p b H.
  - cbn. split; [exact H|]. repeat split; auto. intros [F|F]; [congruence|exact F].
  - cbn [fold_left].
    assert (exists r' s' p' b', settings_of (apply_setting t c) = (r', s', p', b') /\
              last_radius r (c :: r0) = last_radius r' r0 /\ last_segments s (c :: r0) = last_segments s' r0 /\
              last_simplification p (c :: r0) = last_simplification p' r0 /\ last_outer b (c :: r0) = last_outer b' r0 /\
              agent_radius (apply_setting t c) <> RNone /\
              inner (apply_setting t c) = inner t /\ prebuilt (apply_setting t c) = prebuilt t /\
              base_layer (apply_setting t c) = base_layer t) as (r' & s' & p' & b' & E & -> & -> & -> & -> & E1 & E2 & E3 & E4).
    { unfold settings_of in H. destruct t as [g pb bl a]; cbn [agent_radius] in H.
      destruct a; injection H as <- <- <- <-; destruct c as [x|x|x|[|]]; cbn; do 4 eexists;
        (split; [reflexivity|]); repeat split; discriminate. }
    destruct (IH _ _ _ _ _ E) as (H1 & H2 & H3 & H4 & H5).
    split; [exact H1|]. rewrite H2, H3, H4. repeat split; auto.
Qed.

(** The last call of each setting decides: same last values, same triangulation. *)
Theorem C42_last_call_decides (t : Triangulation A) cs cs' r s p b :
  settings_of t = (r, s, p, b) -> cs <> [] -> cs' <> [] ->
  last_radius r cs = last_radius r cs' -> last_segments s cs = last_segments s cs' ->
  last_simplification p cs = last_simplification p cs' -> last_outer b cs = last_outer b cs' ->
  fold_left apply_setting cs t = fold_left apply_setting cs' t.
Proof.
  intros H N1 N2 E1 E2 E3 E4.
  destruct (settings_last cs t _ _ _ _ H) as (G1 & G2 & G3 & G4 & G5).
  destruct (settings_last cs' t _ _ _ _ H) as (H1 & H2 & H3 & H4 & H5).
  rewrite E1, E2, E3, E4, <- H1 in G1. specialize (G5 (or_introl N1)). specialize (H5 (or_introl N2)).
  destruct (fold_left apply_setting cs t) as [g1 p1 b1 a1], (fold_left apply_setting cs' t) as [g2 p2 b2 a2].
  cbn in *. subst. f_equal. unfold settings_of in G1; cbn in G1.
  destruct a1, a2; try congruence.
Qed.

(** Each call changes its own setting and leaves the others, the obstacles and what was prebuilt alone; the defaults are
    radius 0, 5 segments, simplification 0, outer edge excluded. *)
Theorem C42_settings (t : Triangulation A) cs r s p b :
  settings_of t = (r, s, p, b) ->
  let t' := fold_left apply_setting cs t in
  settings_of t' = (last_radius r cs, last_segments s cs, last_simplification p cs, last_outer b cs) /\
  inner t' = inner t /\ prebuilt t' = prebuilt t /\ base_layer t' = base_layer t.
Proof. intros H t'. destruct (settings_last cs t _ _ _ _ H) as (H1 & H2 & H3 & H4 & _). auto. Qed.

(** The settings are all that matters: calls that leave every setting at its default change nothing at all in the result. *)
Theorem C42_defaults (lib : TriLib A) (t : Triangulation A) cs r s p b :
  enough (A := A) (fz 0) = false ->
  settings_of t = (r, s, p, b) ->
  last_radius r cs = r -> last_segments s cs = s -> last_simplification p cs = p -> last_outer b cs = b ->
  as_layer lib (fold_left apply_setting cs t) = as_layer lib t.
Proof.
  intros HE H E1 E2 E3 E4. destruct (settings_last cs t _ _ _ _ H) as (H1 & H2 & H3 & H4 & H5).
  rewrite E1, E2, E3, E4 in H1. destruct (fold_left apply_setting cs t) as [g1 p1 b1 a1]. destruct t as [g2 p2 b2 a2].
  cbn in H2, H3, H4. subst g1 p1 b1. unfold settings_of in H, H1. cbn in H, H1.
  assert (inflated lib (mkTri g2 p2 b2 a1) = inflated lib (mkTri g2 p2 b2 a2) /\
          initial_constraints lib (mkTri g2 p2 b2 a1) = initial_constraints lib (mkTri g2 p2 b2 a2)) as [EI EJ].
  { destruct a1, a2; try congruence; try (split; reflexivity);
      injection H as <- <- <- <-; injection H1; intros; subst;
      unfold inflated, initial_constraints; cbn [agent_radius inner prebuilt]; rewrite ?HE; split; reflexivity. }
  unfold as_layer, constraints. rewrite EI, EJ. reflexivity.
Qed.

(** ** C43 *)
(** The first point of the obstacle equals itself (it is not NaN). *)
Definition comparable (o : ring A) : Prop := forall a r, o = a :: r -> veq a a = true.

Lemma close_closed (r : ring A) : is_closed r = true -> close r = r.
Proof. destruct r as [|a r]; [reflexivity|]. intro H. unfold close. now rewrite H. Qed.
Lemma last_snoc {T} (l : list T) a d : last (l ++ [a]) d = a.
Proof. induction l as [|x r IH]; [reflexivity|]. cbn [app]. rewrite <- IH at 2. destruct (r ++ [a]) eqn:E; [|reflexivity]. destruct r; discriminate. Qed.
Lemma close_comparable (r : ring A) : comparable r -> close (close r) = close r.
Proof.
  intro H. apply close_closed. destruct r as [|a r]; [reflexivity|]. unfold close at 1.
  destruct (is_closed (a :: r)) eqn:E; [exact E|]. cbn [app]. unfold is_closed.
  change (a :: r ++ [a]) with ((a :: r) ++ [a]). rewrite last_snoc. now apply (H a r).
Qed.

(** add_obstacles is a sequence of add_obstacle. *)
Theorem C43_one_by_one (os : list (ring A)) : forall (t : Triangulation A),
  close (exterior (inner t)) = exterior (inner t) ->
  (forall r, In r (interiors (inner t)) -> close r = r) ->
  (forall o, In o os -> comparable o) ->
  add_obstacles t os = fold_left add_obstacle os t.
Proof.
  intros t HE HI HO.
  assert (fold_left add_obstacle os t = with_inner t (mkGeo (exterior (inner t)) (interiors (inner t) ++ map close os))) as ->.
  { clear HE HI HO. revert t. induction os as [|o r IH]; intro t.
    - destruct t as [[e i] p b a]. cbn. now rewrite app_nil_r.
    - cbn [fold_left]. rewrite IH. destruct t as [[e i] p b a]. cbn. now rewrite <- app_assoc. }
  unfold add_obstacles, geo_new. rewrite HE, map_app. f_equal. f_equal. f_equal.
  rewrite <- map_id. now apply map_ext_in.
Qed.

(** What spade refuses are NaN coordinates (and too large or too small ones). *)
Definition no_nan_inserted (lib : TriLib A) : Prop := forall p, insertable lib p = true -> veq p p = true.

Lemma add_edges_Ok (lib : TriLib A) r : forall c c', add_constraint_edges lib c r = Ok c' ->
  c' = c ++ ring_lines r /\ forall e, In e (ring_lines r) -> insertable lib (fst e) = true /\ insertable lib (snd e) = true.
Proof.
  unfold add_constraint_edges. generalize (ring_lines r). induction l as [|e l IH]; intros c c' H.
  - cbn in H. inversion H. rewrite app_nil_r. split; [reflexivity|]. intros e [].
  - cbn [foldM] in H. inv_bind H. destruct (insertable lib (fst e) && insertable lib (snd e)) eqn:EI; [|discriminate].
    inversion E; subst a. destruct (IH _ _ H) as [-> G]. rewrite <- app_assoc. split; [reflexivity|].
    apply andb_true_iff in EI. intros e' [<-|He]; [exact EI|now apply G].
Qed.

Lemma add_rings_Ok (lib : TriLib A) rs : forall c c', foldM (add_constraint_edges lib) c rs = Ok c' ->
  c' = c ++ flat_map ring_lines rs /\ forall r, In r rs -> forall e, In e (ring_lines r) -> insertable lib (fst e) = true /\ insertable lib (snd e) = true.
Proof.
  induction rs as [|r rs IH]; intros c c' H.
  - cbn in H. inversion H. rewrite app_nil_r. split; [reflexivity|]. intros r [].
  - cbn [foldM] in H. inv_bind H. destruct (add_edges_Ok lib _ _ _ E) as [-> G]. destruct (IH _ _ H) as [-> G'].
    cbn [flat_map]. rewrite app_assoc. split; [reflexivity|]. intros r' [<-|Hr]; [exact G|exact (G' _ Hr)].
Qed.

Lemma inserted_closed (lib : TriLib A) r : no_nan_inserted lib ->
  (forall e, In e (ring_lines (close r)) -> insertable lib (fst e) = true /\ insertable lib (snd e) = true) ->
  close (close r) = close r.
Proof.
  intros HL H. destruct r as [|a r]; [reflexivity|]. unfold close in H at 1.
  destruct (is_closed (a :: r)) eqn:E.
  - unfold close. rewrite E. now rewrite E.
  - apply close_comparable. intros x y EQ. inversion EQ; subst x y.
    apply HL. destruct r as [|b r].
    + cbn [app ring_lines] in H. exact (proj1 (H _ (or_introl eq_refl))).
    + cbn [app ring_lines] in H. exact (proj1 (H _ (or_introl eq_refl))).
Qed.

(** Outline of a ring of the builder, which is already closed. *)
Definition outlined (lib : TriLib A) (a : AgentRadius A) (i r : ring A) : Prop :=
  match a with
  | RNone => r = i
  | RObstacles radius n p | REverything radius n p =>
      if enough radius then exists j, inflate_ring lib i radius n = Ok j /\ r = close (simplify_vw lib p (fst j))
      else r = i
  end.
Lemma outline_outlined lib a o r : outlined lib a (close o) r -> outline lib a o r.
Proof. exact (fun H => H). Qed.

Lemma obstacles_outlined (lib : TriLib A) g d n p g' : inflate_obstacles lib g d n p = Ok g' ->
  Forall2 (fun i r => exists j, inflate_ring lib i d n = Ok j /\ r = close (simplify_vw lib p (fst j))) (interiors g) (interiors g') /\
  exterior g' = close (exterior g).
Proof.
  unfold inflate_obstacles. intro H. inv_bind H. inversion H; subst g'. cbn. split; [|reflexivity].
  clear H. revert a E. induction (interiors g) as [|i r IH]; intros a E.
  - cbn in E. inversion E. constructor.
  - cbn [mapM] in E. inv_bind E. inv_bind E. inversion E; subst a. inv_bind E0. inversion E0; subst a0.
    cbn. constructor; [eauto|]. now apply IH.
Qed.

Lemma inflated_interiors (lib : TriLib A) t g : inflated lib t = Ok g ->
  Forall2 (outlined lib (agent_radius t)) (interiors (inner t)) (interiors g).
Proof.
  unfold inflated. intro H. destruct (agent_radius t) as [|d n p|d n p]; unfold outlined.
  - injection H as <-. clear. induction (interiors (inner t)); constructor; [reflexivity|assumption].
  - destruct (enough d) eqn:EN.
    + exact (proj1 (obstacles_outlined _ _ _ _ _ _ H)).
    + injection H as <-. clear. induction (interiors (inner t)); constructor; [reflexivity|assumption].
  - destruct (enough d) eqn:EN.
    + unfold inflate in H. inv_bind H. inv_bind H. inv_bind H. inversion H; subst g. cbn.
      exact (proj1 (obstacles_outlined _ _ _ _ _ _ E0)).
    + injection H as <-. clear. induction (interiors (inner t)); constructor; [reflexivity|assumption].
Qed.

(** Outlines come closed: either they are obstacles, closed when they were added, or inflated and closed again. *)
Lemma outlined_close lib a o r : outlined lib a (close o) r -> exists x, r = close x.
Proof.
  unfold outlined. destruct a as [|d n p|d n p]; [eauto| |];
    (destruct (enough d); [intros (j & _ & ->)|]; eauto).
Qed.

Definition state (lib : TriLib A) (a : AgentRadius A) (bl : option (Layer A)) (ext : ring A)
           (pre post : list (ring A)) (n : nat) (t : Triangulation A) : Prop :=
  agent_radius t = a /\ base_layer t = bl /\ exterior (inner t) = ext /\ interiors (inner t) = map close post /\
  match prebuilt t with
  | None => pre = [] /\ (n = O \/ bl <> None)
  | Some (used, c) =>
      bl = None /\
      (forall r, In r (interiors used) -> close r = r) /\
      (forall o, In o pre -> exists r, In r (interiors used) /\ outline lib a o r) /\
      (n = 1%nat -> forall o, In o pre -> exists r, outline lib a o r /\ forall e, In e (ring_lines r) -> In e c) /\
      (1 <= n)%nat
  end.

Lemma state_prebuild lib a bl ext pre post n t t' : no_nan_inserted lib -> close ext = ext ->
  state lib a bl ext pre post n t -> prebuild lib t = Ok t' ->
  match bl with
  | Some _ => t' = t /\ state lib a bl ext pre post (S n) t'
  | None => state lib a bl ext (post ++ pre) [] (S n) t'
  end.
Proof.
  intros HL HX (H1 & H2 & H3 & H4 & H5) H. unfold prebuild in H. rewrite H2 in H.
  destruct bl as [l|].
  - inversion H; subst t'. split; [reflexivity|]. split; [exact H1|]. split; [exact H2|]. split; [exact H3|]. split; [exact H4|].
    destruct (prebuilt t) as [[used c]|]; [destruct H5 as [H5 _]; discriminate|].
    split; [exact (proj1 H5)|right; discriminate].
  - inv_bind H. inv_bind H. inv_bind H. rename a0 into g, a1 into c0, a2 into c. inversion H; subst t'; clear H.
    pose proof (inflated_interiors lib t g E) as EO. rewrite H1, H4 in EO.
    destruct (add_rings_Ok lib _ _ _ E1) as [EC EI].
    assert (forall r, In r (interiors g) -> close r = r) as HC.
    { intros r Hr. assert (exists x, r = close x) as [x Ex].
      { apply In_nthN in Hr. destruct Hr as [k Hk]. destruct (Forall2_nthN_r _ _ _ EO _ _ Hk) as (i & I1 & I2).
        rewrite nthN_map in I1. destruct (nthN post k) as [o|]; [|discriminate]. inversion I1; subst i.
        exact (outlined_close _ _ _ _ I2). }
      subst r. apply (inserted_closed lib); [exact HL|]. exact (EI _ Hr). }
    assert (forall o, In o post -> exists r, In r (interiors g) /\ outline lib a o r) as HO.
    { intros o Ho. apply In_nthN in Ho. destruct Ho as [k Hk].
      assert (nthN (map close post) k = Some (close o)) as Hk' by (rewrite nthN_map, Hk; reflexivity).
      destruct (Forall2_nthN _ _ _ EO _ _ Hk') as (r & R1 & R2). exists r. split; [exact (nthN_In _ _ _ R1)|exact R2]. }
    assert (forall o, In o post -> exists r, outline lib a o r /\ forall e, In e (ring_lines r) -> In e c) as HE.
    { intros o Ho. destruct (HO o Ho) as (r & R1 & R2). exists r. split; [exact R2|]. intros e He. rewrite EC.
      apply in_or_app. right. apply in_flat_map. eauto. }
    split; [exact H1|]. split; [reflexivity|]. split; [cbn; rewrite H3; exact HX|]. split; [reflexivity|]. cbn [prebuilt].
    split; [reflexivity|].
    destruct (prebuilt t) as [[used cu]|].
    + destruct H5 as (_ & U1 & U2 & U3 & U4).
      assert (forall l (g0 : GeoPolygon A), interiors (fold_left interiors_push l g0) = interiors g0 ++ map close l) as EF.
      { clear. induction l as [|r l IH]; intro g0; [cbn; now rewrite app_nil_r|]. cbn [fold_left]. rewrite IH. cbn. now rewrite <- app_assoc. }
      rewrite EF.
      assert (map close (interiors used) = interiors used) as EU.
      { rewrite <- map_id. now apply map_ext_in. }
      rewrite EU. split; [|split; [|split]].
      * intros r Hr. apply in_app_or in Hr. destruct Hr as [Hr|Hr]; [exact (HC r Hr)|exact (U1 r Hr)].
      * intros o Ho. apply in_app_or in Ho. destruct Ho as [Ho|Ho].
        -- destruct (HO o Ho) as (r & R1 & R2). exists r. split; [apply in_or_app; now left|exact R2].
        -- destruct (U2 o Ho) as (r & R1 & R2). exists r. split; [apply in_or_app; now right|exact R2].
      * intro En. lia.
      * lia.
    + destruct H5 as [-> [->|F]]; [|congruence]. rewrite app_nil_r.
      split; [exact HC|]. split; [exact HO|]. split; [intros _; exact HE|lia].
Qed.

Lemma state_run lib a bl ext cs : no_nan_inserted lib -> close ext = ext -> forall pre post n t t',
  (forall o, In o (post ++ added cs) -> comparable o) ->
  state lib a bl ext pre post n t -> run_calls lib t cs = Ok t' ->
  exists pre' post', state lib a bl ext pre' post' (n + prebuilds cs) t' /\
    (forall o, In o (pre ++ post ++ added cs) -> In o pre' \/ In o post') /\
    (forall o, In o post' -> comparable o).
Proof.
  intros HL HX. induction cs as [|c cs IH]; intros pre post n t t' HO HS H.
  - cbn in H. inversion H; subst t'. exists pre, post. cbn [prebuilds added]. rewrite Nat.add_0_r, !app_nil_r in *.
    split; [exact HS|]. split; [|exact HO]. intros o Ho. now apply in_app_or.
  - unfold run_calls in H. cbn [foldM] in H. inv_bind H. destruct c as [o|os|].
    + cbn in E. inversion E; subst a0. clear E.
      destruct (IH pre (post ++ [o]) n (add_obstacle t o) t') with (3 := H) as (pre' & post' & S1 & S2 & S3).
      * intros x Hx. apply HO. cbn [added]. rewrite <- app_assoc in Hx. exact Hx.
      * destruct HS as (H1 & H2 & H3 & H4 & H5). split; [exact H1|]. split; [exact H2|]. split; [exact H3|]. split; [|exact H5].
        cbn. rewrite H4, map_app. reflexivity.
      * exists pre', post'. split; [exact S1|]. split; [|exact S3]. intros x Hx. apply S2. cbn [added] in Hx.
        rewrite <- app_assoc. exact Hx.
    + cbn in E. inversion E; subst a0. clear E.
      destruct (IH pre (post ++ os) n (add_obstacles t os) t') with (3 := H) as (pre' & post' & S1 & S2 & S3).
      * intros x Hx. apply HO. cbn [added]. rewrite <- app_assoc in Hx. exact Hx.
      * destruct HS as (H1 & H2 & H3 & H4 & H5). split; [exact H1|]. split; [exact H2|]. split; [cbn; rewrite H3; exact HX|].
        split; [|exact H5].
        cbn. rewrite H4, !map_app, map_map. f_equal. apply map_ext_in. intros x Hx. apply close_comparable. apply HO.
        apply in_or_app. now left.
      * exists pre', post'. split; [exact S1|]. split; [|exact S3]. intros x Hx. apply S2. cbn [added] in Hx.
        rewrite <- app_assoc. exact Hx.
    + cbn in E. pose proof (state_prebuild lib a bl ext pre post n t a0 HL HX HS E) as HP.
      cbn [prebuilds added] in *. rewrite Nat.add_succ_r. destruct bl as [l|].
      * destruct HP as [-> HP]. destruct (IH pre post (S n) _ _ HO HP H) as (pre' & post' & S1 & S2 & S3).
        exists pre', post'. auto.
      * destruct (IH (post ++ pre) [] (S n) a0 t') with (3 := H) as (pre' & post' & S1 & S2 & S3).
        -- intros x Hx. apply HO. apply in_or_app. now right.
        -- exact HP.
        -- exists pre', post'. split; [exact S1|]. split; [|exact S3]. intros x Hx. apply S2.
           rewrite !in_app_iff in *. tauto.
Qed.

Lemma base_edge_mono (lib : TriLib A) l st e st' : base_edge lib l st e = Ok st' -> incl (snd st) (snd st').
Proof.
  destruct st as [seen c]. unfold base_edge. intro H.
  destruct (edge_mem e seen); [inversion H; intros x Hx; exact Hx|].
  destruct (edge_mem (snd e, fst e) (e :: seen)); [inversion H; intros x Hx; exact Hx|].
  inv_bind H. inv_bind H. inv_bind H. inv_bind H. inversion H. cbn. apply incl_appl, incl_refl.
Qed.
Lemma foldM_mono {S T U} (f : S -> T -> res S) (g : S -> list U) :
  (forall s x s', f s x = Ok s' -> incl (g s) (g s')) -> forall l s s', foldM f s l = Ok s' -> incl (g s) (g s').
Proof.
  intro H. induction l as [|x r IH]; intros s s' E; cbn in E; [inversion E; apply incl_refl|].
  inv_bind E. eapply incl_tran; [exact (H _ _ _ E0)|exact (IH _ _ E)].
Qed.
Lemma base_constraints_mono (lib : TriLib A) l c c' : base_constraints lib l c = Ok c' -> incl c c'.
Proof.
  unfold base_constraints. intro H. inv_bind H. inversion H; subst c'.
  change c with (snd (@nil (N * N), c)) at 1. revert E. apply foldM_mono. intros st p st' E.
  inv_bind E. revert E. apply foldM_mono. intros s e s'. apply base_edge_mono.
Qed.

(** The triangulation of a fresh builder, whatever the agent radius. *)
Definition fresh (t : Triangulation A) : Prop :=
  prebuilt t = None /\ interiors (inner t) = [] /\ close (exterior (inner t)) = exterior (inner t).

Lemma fresh_state lib t : fresh t -> state lib (agent_radius t) (base_layer t) (exterior (inner t)) [] [] 0 t.
Proof. intros (H1 & H2 & H3). unfold state. rewrite H1, H2. auto 10. Qed.

(** Every obstacle constrains the triangulation, with at most one call of prebuild (any number of them on a builder made from a layer,
    where prebuild does nothing). *)
Theorem C43_every_obstacle_constrains (lib : TriLib A) t0 cs t c :
  no_nan_inserted lib -> fresh t0 -> (forall o, In o (added cs) -> comparable o) ->
  (prebuilds cs <= 1)%nat \/ base_layer t0 <> None ->
  run_calls lib t0 cs = Ok t -> constraints lib t = Ok c ->
  forall o, In o (added cs) -> exists r, outline lib (agent_radius t0) o r /\ forall e, In e (ring_lines r) -> In e c.
Proof.
  intros HL HF HO HB HR HC o Ho. pose proof HF as (F1 & F2 & F3).
  destruct (state_run lib (agent_radius t0) (base_layer t0) (exterior (inner t0)) cs HL F3 [] [] 0%nat t0 t) as (pre & post & (S1 & S2 & S3 & S4 & S5) & S6 & S7).
  - exact HO.
  - exact (fresh_state lib t0 HF).
  - exact HR.
  - unfold constraints in HC. inv_bind HC. inv_bind HC. inv_bind HC. rename a into ci, a0 into cb, a1 into g.
    destruct (add_rings_Ok lib _ _ _ HC) as [-> _].
    destruct (S6 o Ho) as [Hp|Hp].
    + unfold initial_constraints in E. destruct (prebuilt t) as [[used cp]|]; [|destruct S5 as [-> _]; destruct Hp].
      destruct S5 as (U0 & U1 & U2 & U3 & U4). inversion E; subst cp.
      assert (prebuilds cs = 1%nat) as En by (destruct HB as [HB|HB]; [lia|congruence]).
      destruct (U3 En o Hp) as (r & R1 & R2). exists r. split; [exact R1|]. intros e He. apply in_or_app. left.
      destruct (base_layer t) as [l|]; [|inversion E0; subst; auto]. exact (base_constraints_mono _ _ _ _ E0 _ (R2 e He)).
    + pose proof (inflated_interiors lib t g E1) as EO. rewrite S1, S4 in EO.
      apply In_nthN in Hp. destruct Hp as [k Hk].
      assert (nthN (map close post) k = Some (close o)) as Hk' by (rewrite nthN_map, Hk; reflexivity).
      destruct (Forall2_nthN _ _ _ EO _ _ Hk') as (r & R1 & R2). exists r. split; [exact R2|].
      intros e He. apply in_or_app. right. apply in_flat_map. exists r. split; [exact (nthN_In _ _ _ R1)|exact He].
Qed.

(** What is expected of geo: a point in a polygon is in none of its holes. *)
Definition holes_excluded (lib : TriLib A) : Prop :=
  forall g x r, contains lib g x = true -> In r (interiors g) -> contains lib (mkGeo r []) x = false.

(** No face that is kept has its centre in an obstacle, whatever the number of prebuilds. *)
Theorem C43_no_face_in_an_obstacle (lib : TriLib A) t0 cs t c g x :
  no_nan_inserted lib -> holes_excluded lib -> fresh t0 -> (forall o, In o (added cs) -> comparable o) ->
  run_calls lib t0 cs = Ok t -> constraints lib t = Ok c -> inflated lib t = Ok g ->
  accepted lib t g x = Ok true ->
  forall o, In o (added cs) -> exists r, outline lib (agent_radius t0) o r /\ contains lib (mkGeo r []) x = false.
Proof.
  intros HL HH HF HO HR HC HG HA o Ho. pose proof HF as (F1 & F2 & F3).
  destruct (state_run lib (agent_radius t0) (base_layer t0) (exterior (inner t0)) cs HL F3 [] [] 0%nat t0 t) as (pre & post & (S1 & S2 & S3 & S4 & S5) & S6 & S7).
  - exact HO.
  - exact (fresh_state lib t0 HF).
  - exact HR.
  - pose proof (inflated_interiors lib t g HG) as EO. rewrite S1, S4 in EO.
    unfold constraints in HC. inv_bind HC. inv_bind HC. rewrite HG in HC. cbn [bind] in HC.
    destruct (add_rings_Ok lib _ _ _ HC) as [_ EI].
    assert (forall o, In o post -> exists r, In r (interiors g) /\ outline lib (agent_radius t0) o r /\ close r = r) as HP.
    { intros o' Hp. apply In_nthN in Hp. destruct Hp as [k Hk].
      assert (nthN (map close post) k = Some (close o')) as Hk' by (rewrite nthN_map, Hk; reflexivity).
      destruct (Forall2_nthN _ _ _ EO _ _ Hk') as (r & R1 & R2). exists r. apply nthN_In in R1. split; [exact R1|]. split; [exact R2|].
      destruct (outlined_close _ _ _ _ R2) as [y Hy]. subst r. exact (inserted_closed lib y HL (EI _ R1)). }
    unfold accepted in HA. destruct (_ && _) eqn:EB.
    + apply andb_true_iff in EB. destruct EB as [B1 B2]. destruct (S6 o Ho) as [Hp|Hp].
      * destruct (prebuilt t) as [[used cp]|]; [|destruct S5 as [-> _]; destruct Hp].
        destruct S5 as (_ & _ & U2 & _). destruct (U2 o Hp) as (r & R1 & R2). exists r. split; [exact R2|]. exact (HH _ _ _ B1 R1).
      * destruct (HP o Hp) as (r & R1 & R2 & _). exists r. split; [exact R2|]. exact (HH _ _ _ B2 R1).
    + destruct (base_layer t) as [l|]; [|discriminate]. inv_bind HA. destruct a1; [|discriminate].
      inversion HA as [EX]. apply negb_true_iff in EX.
      assert (In o post) as Hp.
      { destruct (S6 o Ho) as [Hp|Hp]; [|exact Hp]. destruct (prebuilt t) as [[used cp]|]; [destruct S5; congruence|].
        destruct S5 as [-> _]. destruct Hp. }
      destruct (HP o Hp) as (r & R1 & R2 & R3). exists r. split; [exact R2|].
      destruct (contains lib (mkGeo r []) x) eqn:EC; [|reflexivity].
      assert (existsb (fun r => contains lib (geo_new r []) x) (interiors g) = true) as F; [|congruence].
      apply existsb_exists. exists r. split; [exact R1|]. unfold geo_new. cbn [map]. now rewrite R3.
Qed.
End P.

(** ** The hypotheses are met: the test of the repository *)
Definition subdivision_okb {A} (s : Subdivision A) : bool :=
  forallb (fun kf => N.eqb (findex (snd kf)) (fst kf + 1)) (enumerate (inner_faces s)) &&
  forallb (fun f => forallb (fun v => N.ltb v (lengthN (sites s))) (fverts f)) (inner_faces s) &&
  forallb (fun st => forallb (fun k => N.leb k (lengthN (inner_faces s))) (snd st)) (sites s) &&
  forallb (fun is => forallb (fun f => Bool.eqb (memN (findex f) (snd (snd is))) (memN (fst is) (fverts f))) (inner_faces s)) (enumerate (sites s)) &&
  forallb (fun f => match fverts f with [] => false | _ => true end) (inner_faces s).

Lemma memN_In x l : memN x l = true <-> In x l.
Proof.
  unfold memN. rewrite existsb_exists. split.
  - intros (y & Y1 & Y2). apply N.eqb_eq in Y2. now subst.
  - intro F. exists x. split; [exact F|apply N.eqb_refl].
Qed.
Lemma enumerate_nth {T} (l : list T) i x : nthN l i = Some x -> In (i, x) (enumerate l).
Proof. intro H. unfold enumerate. apply (nthN_In _ i). rewrite (enum_from_nth l 0 i x H). now rewrite N.add_0_l. Qed.

Lemma subdivision_okb_ok {A} (s : Subdivision A) : subdivision_okb s = true -> subdivision_ok s.
Proof.
  unfold subdivision_okb. rewrite !andb_true_iff, !forallb_forall. intros ((((H1 & H2) & H3) & H4) & H5).
  split; [|split; [|split; [|split]]].
  - intros k f Hk. apply enumerate_nth in Hk. specialize (H1 _ Hk). now apply N.eqb_eq in H1.
  - intros f v Hf Hv. specialize (H2 f Hf). rewrite forallb_forall in H2. now apply N.ltb_lt, H2.
  - intros st k Hs Hk. specialize (H3 st Hs). rewrite forallb_forall in H3. now apply N.leb_le, H3.
  - intros i st f Hi Hf. apply enumerate_nth in Hi. specialize (H4 _ Hi). rewrite forallb_forall in H4. specialize (H4 f Hf).
    apply eqb_prop in H4. cbn [fst snd] in H4. rewrite <- !memN_In, H4. reflexivity.
  - intros f Hf E. specialize (H5 f Hf). now rewrite E in H5.
Qed.

Definition is_okb {T} (r : res T) : bool := match r with Ok _ => true | _ => false end.
Lemma is_okb_ex {T} (r : res T) : is_okb r = true -> exists x, r = Ok x.
Proof. destruct r; [eauto|discriminate..]. Qed.

Example C41_example :
  exists c m, constraints tri32 test_built = Ok c /\ subdivision_ok (cdt tri32 c) /\
    lengthN (inner_faces (cdt tri32 c)) < 2^24 /\ as_navmesh tri32 test_built = Ok m.
Proof.
  destruct (is_okb_ex (constraints tri32 test_built)) as [c Hc]; [vmc|].
  destruct (is_okb_ex (as_navmesh tri32 test_built)) as [m Hm]; [vmc|].
  exists c, m. split; [exact Hc|]. split; [|split; [|exact Hm]].
  - apply subdivision_okb_ok. vmc.
  - apply N.ltb_lt. vmc.
Qed.

(** C42: for instance a radius set twice, in another order. *)
Definition settings1 : list (@setting F32) := [Radius (q 1 2); OuterEdge true; Segments 3; Radius (q 1 4)].
Definition settings2 : list (@setting F32) := [Segments 3; Radius (q 1 4); OuterEdge true].
Example C42_example :
  fold_left apply_setting settings1 (from_outer_edges square_outer) = fold_left apply_setting settings2 (from_outer_edges square_outer).
Proof. apply (C42_last_call_decides _ _ _ (fz 0) 5 (fz 0) false); try reflexivity; discriminate. Qed.
Example C42_defaults_example : enough (A := F32) (fz 0) = false.
Proof. vmc. Qed.

(** C43: the contracts of the oracles, and a history with one prebuild. *)
Lemma std_no_nan {A} a h c : no_nan_inserted (std_tri (A := A) a h c).
Proof. exact (fun p H => H). Qed.
Lemma std_holes {A} a h c : holes_excluded (std_tri (A := A) a h c).
Proof.
  intros g x r H Hr. cbn [contains std_tri] in *. unfold std_contains in *. apply andb_true_iff in H. destruct H as [_ H].
  rewrite forallb_forall in H. specialize (H r Hr). apply negb_true_iff in H. cbn [exterior interiors forallb]. now rewrite H.
Qed.
Definition history1 : list (@call F32) := [AddObstacle obstacle1; Prebuild; AddObstacles [obstacle2]].
Lemma comparable_b (o : ring F32) : match o with [] => true | a :: _ => veq a a end = true -> comparable o.
Proof. intros H a r ->. exact H. Qed.
Lemma history_comparable (cs : list (@call F32)) :
  forallb (fun o : ring F32 => match o with [] => true | a :: _ => veq a a end) (added cs) = true -> forall o, In o (added cs) -> comparable o.
Proof. rewrite forallb_forall. intros H o Ho. exact (comparable_b o (H o Ho)). Qed.
Lemma fresh_square : fresh (from_outer_edges square_outer).
Proof. split; [reflexivity|]. split; [reflexivity|]. apply close_closed. vmc. Qed.
Example C43_example :
  fresh (from_outer_edges square_outer) /\ (forall o, In o (added history1) -> comparable o) /\ (prebuilds history1 <= 1)%nat /\
  exists t c, run_calls tri32 (from_outer_edges square_outer) history1 = Ok t /\ constraints tri32 t = Ok c.
Proof.
  split; [exact fresh_square|]. split; [apply history_comparable; vmc|]. split; [apply le_n|].
  destruct (is_okb_ex (run_calls tri32 (from_outer_edges square_outer) history1)) as [t Ht]; [vmc|].
  destruct (is_okb_ex (let* t := run_calls tri32 (from_outer_edges square_outer) history1 in constraints tri32 t)) as [c Hc]; [vmc|].
  exists t, c. split; [exact Ht|]. rewrite Ht in Hc. exact Hc.
Qed.

(** C43 fails when prebuild is called twice: the edges of the first batch of obstacles are dropped. *)
Definition history2 : list (@call F32) := [AddObstacle obstacle1; Prebuild; AddObstacle obstacle2; Prebuild].
Definition edge_same (e e' : vec2 F32 * vec2 F32) : bool := veq (fst e) (fst e') && veq (snd e) (snd e').
Theorem C43_prebuild_twice_refuted :
  fresh (from_outer_edges square_outer) /\ (forall o, In o (added history2) -> comparable o) /\
  exists t c, run_calls tri32 (from_outer_edges square_outer) history2 = Ok t /\ constraints tri32 t = Ok c /\
  exists o e, In o (added history2) /\ agent_radius t = RNone /\ In e (ring_lines (close o)) /\ ~ In e c.
Proof.
  split; [exact fresh_square|]. split; [apply history_comparable; vmc|].
  destruct (is_okb_ex (run_calls tri32 (from_outer_edges square_outer) history2)) as [t Ht]; [vmc|].
  destruct (is_okb_ex (let* t := run_calls tri32 (from_outer_edges square_outer) history2 in constraints tri32 t)) as [c Hc]; [vmc|].
  pose proof Hc as Hc'. rewrite Ht in Hc'. cbn [bind] in Hc'.
  exists t, c. split; [exact Ht|]. split; [exact Hc'|].
  exists obstacle1, (pt100 0 25, pt100 25 25). split; [now left|]. split.
  - assert ((let* t := run_calls tri32 (from_outer_edges square_outer) history2 in Ok (agent_radius t)) = Ok RNone) as E by vmc.
    rewrite Ht in E. cbn [bind] in E. congruence.
  - split.
    + assert (ring_lines (close obstacle1) = (pt100 0 25, pt100 25 25) :: tl (ring_lines (close obstacle1))) as -> by vmc. now left.
    + intro H.
      assert (existsb (edge_same (pt100 0 25, pt100 25 25)) c = true) as F.
      { apply existsb_exists. exists (pt100 0 25, pt100 25 25). split; [exact H|vmc]. }
      assert ((let* t := run_calls tri32 (from_outer_edges square_outer) history2 in
               let* c := constraints tri32 t in Ok (existsb (edge_same (pt100 0 25, pt100 25 25)) c)) = Ok false) as G by vmc.
      rewrite Ht in G. cbn [bind] in G. rewrite Hc' in G. cbn [bind] in G. congruence.
Qed.

Print Assumptions C41_as_layer.
Print Assumptions C41_returns.
Print Assumptions C41_well_formed.
Print Assumptions C42_last_call_decides.
Print Assumptions C42_settings.
Print Assumptions C42_defaults.
Print Assumptions C43_one_by_one.
Print Assumptions C43_every_obstacle_constrains.
Print Assumptions C43_no_face_in_an_obstacle.
Print Assumptions C43_prebuild_twice_refuted.
