(** Stitching and neighbour reordering: C27 - C32. *)
From Coq Require Import List NArith ZArith Bool Lia Sorted Permutation.
From Coq.Floats Require Import SpecFloat.
From Verif Require Import Base Arith F32 RealArith U32 Mesh Helpers Locate Bake Search StdLib Tests Spec Spec_mesh Checkers Search_facts
  Search_props Search_safe Cleanup Stitch Tests_stitch Cleanup_facts Stitch_facts StitchPoints_facts F32_facts Properties_search.
Import ListNotations.
Open Scope N_scope.

Section Any.
Context {A : Arith}.
Implicit Types (m : Mesh A) (l : Layer A) (v w : Vertex A).

(** ** C29: reorder_neighbors_ccw_and_fix_corners *)
(** It keeps polygons, positions and parameters, keeps the set of the polygons listed by each vertex, and marks a vertex as a
    corner iff the outside marker is in its list.  Any angle arithmetic, any sort. *)
Theorem C29_reorder_keeps_neighbours sort m m' : sort_ok sort -> reorder sort m = Ok m' ->
  same_geometry m m' /\
  (forall li vi p, lists m' li vi p <-> lists m li vi p) /\
  (forall li vi w, vertex_at m' li vi w -> (is_corner w = true <-> In MAX (vpolys w))).
Proof.
  intros Hs H. destruct (reorder_vertices sort Hs m m' H) as [Hg Hv]. split; [assumption|]. split.
  - intros li vi p. split.
    + intros (w & Hw & Hi & Hm). destruct (Hv _ _ _ Hw) as (l & v & Hl & Hvv & _ & Hn). exists v. split; [now exists l|].
      split; [|assumption]. now apply (new_neighbours_In _ _ _ _ _ Hn Hm).
    + intros (v & Hvv & Hi & Hm). destruct Hg as (_ & _ & Hg). destruct (same_layers_vat _ _ li vi Hg) as [G _].
      destruct (G v Hvv) as (w & Hw & _). exists w. split; [exact Hw|]. split; [|assumption].
      destruct (Hv _ _ _ Hw) as (l & v' & Hl & Hv' & _ & Hn). apply (new_neighbours_In _ _ _ _ _ Hn Hm).
      assert (v' = v) as -> by (apply (vertex_at_fun m li vi); [exists l; auto|exact Hvv]). assumption.
  - intros li vi w Hw. destruct (Hv _ _ _ Hw) as (_ & _ & _ & _ & -> & _). apply memN_In.
Qed.

(** The order: the new list consists of the old neighbours sorted by their angle around the vertex, without repetitions of
    consecutive elements; a marker follows a polygon iff it is not glued to the polygon that comes next (cyclically), i.e. iff
    there is a hole between the two. *)
Theorem C29_order_and_holes sort m m' li vi w : sort_ok sort -> reorder sort m = Ok m' -> vertex_at m' li vi w ->
  exists l v s, nthN (layers m) li = Some l /\ nthN (vertices l) vi = Some v /\
    Permutation (filter (fun p => negb (N.eqb p MAX)) (vpolys v)) s /\
    ((2 <= length s)%nat -> exists ks, Forall2 (fun p k => angle_key m (world l v) p = Ok k) s ks /\ StronglySorted Z.le ks) /\
    no_repeat (dedup s) /\ (forall p, In p (dedup s) <-> In p s) /\
    ((s = [] /\ vpolys w = [MAX]) \/
     (exists first r, dedup s = first :: r /\ last r first = first /\ vpolys w = dedup s ++ [MAX]) \/
     (exists first r hole, dedup s = first :: r /\ last r first <> first /\
        (forall a b, In (a, b) (cyclic_pairs (dedup s)) -> (hole (a, b) = false <-> glued m (world l v) a b)) /\
        vpolys w = flat_map (fun ab => if hole ab then [fst ab; MAX] else [fst ab]) (cyclic_pairs (dedup s)))).
Proof.
  intros Hs H Hw. destruct (reorder_vertices sort Hs m m' H) as [_ Hv]. destruct (Hv _ _ _ Hw) as (l & v & Hl & Hvv & _ & s & H1 & H2 & H3).
  exists l, v, s. split; [assumption|]. split; [assumption|]. split; [assumption|]. split; [assumption|]. split; [apply dedup_no_repeat|].
  split; [intro; apply dedup_In|]. assumption.
Qed.

Theorem C29_reorder_never_fails sort m : sort_ok sort -> mesh_wf m -> exists m', reorder sort m = Ok m'.
Proof. intros Hs Hw. now apply reorder_total. Qed.

(** ** C28: stitching *)
(** For an unstitched, well-formed mesh of at most 256 layers: stitching succeeds; polygons, positions, offsets, polygon
    finders, islands and parameters are unchanged, the ids are all valid, a vertex lists exactly its own polygons, numbered with
    their layer, and the polygons of the vertices it is stitched to; it is a corner iff its list has an outside marker. *)
Theorem C28_stitch_adds_exactly sort m S one_way : sort_ok sort -> plain m -> (forall l, In l (layers m) -> layer_wf l) -> stitches_ok m S ->
  exists m', stitch_at_vertices sort m S one_way = Ok m' /\ same_geometry m m' /\ mesh_wf m' /\
    (forall li vi w, vertex_at m' li vi w -> (is_corner w = true <-> In MAX (vpolys w))) /\
    forall li vi id, lists m' li vi id <->
      (exists p, lists m li vi p /\ id = id_make li p) \/
      (exists lj vj p, linked S one_way li vi lj vj /\ lists m lj vj p /\ id = id_make lj p).
Proof.
  intros Hs Hp Hw HS. destruct (stitch_plain sort m S one_way Hs Hp Hw HS) as (m' & E & Hg & Hwf & Hc & Hl).
  exists m'. split; [exact E|]. split; [assumption|]. split; [assumption|]. split.
  - intros li vi w Hv. rewrite (Hc _ _ _ Hv). apply memN_In.
  - intros li vi id. rewrite Hl. split.
    + intros [H|(lj & vj & H1 & _ & p & H2 & H3)]; [left; exact H|right; exists lj, vj, p; auto].
    + intros [H|(lj & vj & p & H1 & H2 & H3)]; [left; exact H|right; exists lj, vj]. split; [assumption|]. split; [reflexivity|]. now exists p.
Qed.

(** Points are stitched at the first vertex of each of the two layers that has the coordinates of the point. *)
Theorem C28_stitch_at_points sort m S one_way m' : stitch_at_points sort m S one_way = Ok m' ->
  exists S', stitch_at_vertices sort m S' one_way = Ok m' /\
    Forall2 (fun s s' => fst s' = fst s /\
      Forall2 (fun p ft => first_at m (fst (fst s)) p (fst ft) /\ first_at m (snd (fst s)) p (snd ft)) (snd s) (snd s')) S S'.
Proof.
  unfold stitch_at_points. intro H. inv_bind H. exists a. split; [exact H|]. now apply points_to_vertices_spec.
Qed.

(** ** C27: one-way stitches *)
(** If no pair of points is stitched from layer [b] to layer [a], no vertex of [b] lists a polygon of [a]. *)
Theorem C27_no_way_back sort m S m' a b : sort_ok sort -> plain m -> (forall l, In l (layers m) -> layer_wf l) -> stitches_ok m S ->
  stitch_at_vertices sort m S true = Ok m' -> a <> b -> (forall ps, In ((b, a), ps) S -> ps = []) ->
  forall vi id, lists m' b vi id -> id_layer id <> a.
Proof.
  intros Hs Hp Hw HS E Hne Hb vi id H Ha.
  destruct (stitch_plain sort m S true Hs Hp Hw HS) as (m1 & E1 & _ & _ & _ & Hl). unfold stitch_at_vertices in E.
  assert (m1 = m') by congruence. subst m1. apply Hl in H. destruct H as [H|(lj & vj & HL & _ & H)].
  - apply (own_of_layer _ _ _ _ Hp) in H. destruct H. congruence.
  - apply (own_of_layer _ _ _ _ Hp) in H. destruct H as [H _]. rewrite Ha in H. subst lj.
    destruct HL as [(ps & Hi & Hps)|[? _]]; [|discriminate]. rewrite (Hb _ Hi) in Hps. destruct Hps.
Qed.

(** A layer [t] that only has incoming one-way stitches cannot be left ... *)
Theorem C27_corridors_stay sort m S m' t : sort_ok sort -> plain m -> (forall l, In l (layers m) -> layer_wf l) -> stitches_ok m S ->
  stitch_at_vertices sort m S true = Ok m' -> (forall to ps, In ((t, to), ps) S -> ps = []) ->
  forall p xs q, corridor m' p xs q -> id_layer p = t -> id_layer q = t /\ forall x, In x xs -> id_layer (cr_to x) = t.
Proof.
  intros Hs Hp Hw HS E Ht.
  destruct (stitch_plain sort m S true Hs Hp Hw HS) as (m1 & E1 & _ & _ & _ & Hl). unfold stitch_at_vertices in E.
  assert (m1 = m') by congruence. subst m1.
  assert (HL : forall vi id, lists m' t vi id -> id_layer id = t).
  { intros vi id H. apply Hl in H. destruct H as [H|(lj & vj & HL & _ & _)].
    - apply (own_of_layer _ _ _ _ Hp) in H. apply H.
    - destruct HL as [(ps & Hi & Hps)|[? _]]; [|discriminate]. rewrite (Ht _ _ Hi) in Hps. destruct Hps. }
  intros p xs q Hc. induction Hc; intro Hi; [split; [assumption|intros ? []]|].
  destruct (IHHc Hi) as [G1 G2]. assert (id_layer (cr_to x) = t) as G3.
  { destruct H as (l & pl & va & vb & [Hl1 Hl2] & _ & Hva & _ & Hin & _ & Hm & _). apply (HL (cr_a x)). exists va.
    split; [exists l; split; [now rewrite <- G1|assumption]|]. auto. }
  split; [assumption|]. intros y Hy. apply in_app_iff in Hy. destruct Hy as [Hy|[<-|[]]]; auto.
Qed.

(** ... so a path from a point of [t] exists only to a point of [t]. *)
Theorem C27_one_way_paths sort m S m' t lib from to blocked ps pe p : sort_ok sort -> plain m -> (forall l, In l (layers m) -> layer_wf l) -> stitches_ok m S ->
  stitch_at_vertices sort m S true = Ok m' -> (forall to ps, In ((t, to), ps) S -> ps = []) ->
  nan_sane A -> pop_perm (lpop lib) -> located lib m' from ps -> id_layer ps = t -> located lib m' to pe ->
  path_on_layers lib m' from to blocked = Ok (Some p) -> id_layer pe = t.
Proof.
  intros Hs Hp Hw HS E Ht Hn Hpop Hf Hps Hto Hpath.
  destruct (C28_stitch_adds_exactly sort m S true Hs Hp Hw HS) as (m1 & E1 & Hg & _). assert (m1 = m') by congruence. subst m1.
  assert (Hsm : mesh_small m').
  { destruct Hp as (P1 & P2 & _). destruct Hg as (_ & _ & Hg). split; [unfold lengthN in *; now rewrite (same_layers_length _ _ Hg)|].
    intros l' Hl'. apply In_nthN in Hl'. destruct Hl' as [i Hi]. destruct (Forall2_nthN_r _ _ _ Hg _ _ Hi) as (l & Hl & Ep & _).
    rewrite Ep. apply P2. eapply nthN_In; eassumption. }
  destruct (C11_path_is_supported lib m' from to blocked p Hn Hpop Hsm Hpath) as (ps' & pe' & xs & G1 & G2 & Hc).
  assert (ps' = ps) by (eapply located_fun; eassumption). assert (pe' = pe) by (eapply located_fun; eassumption). subst ps' pe'.
  exact (proj1 (C27_corridors_stay sort m S m' t Hs Hp Hw HS E Ht _ _ _ Hc Hps)).
Qed.

(** ** C30: remove_stitches *)
Theorem C30_remove_undoes_stitch sort m S one_way m' : sort_ok sort -> plain m -> (forall l, In l (layers m) -> layer_wf l) -> stitches_ok m S ->
  stitch_at_vertices sort m S one_way = Ok m' ->
  same_geometry m (remove_stitches m') /\ forall li vi id, lists (remove_stitches m') li vi id <-> lists m li vi id.
Proof. intros Hs Hp Hw HS E. exact (unstitch sort m S one_way m' Hs Hp Hw HS E). Qed.

(** On a mesh that is not stitched, all the vertices of all layers but the first one lose all their polygons:
    in particular calling it twice is not like calling it once. *)
Theorem C30_removing_twice_refuted m li vi : plain m -> 0 < li -> forall id, ~ lists (remove_stitches m) li vi id.
Proof.
  intros Hp Hli id (w & Hw & Hi & Hm). change (layers (remove_stitches m)) with (map (fun il => map_vpolys (drop_foreign (fst il)) (snd il)) (enumerate (layers m))) in *.
  apply (map_layers_vat drop_foreign) in Hw. destruct Hw as (v & Hv & _ & E). rewrite E in Hi. apply drop_foreign_In in Hi.
  destruct Hi as [[? _]|(p & Hpp & Hpm & HL & _)]; [contradiction|].
  assert (lists m li vi p) as HH by (exists v; auto). destruct (plain_lists _ _ _ _ Hp HH) as (? & ? & _).
  rewrite N.mod_small in HL by lia. pose proof (id_layer_make 0 p ltac:(lia) ltac:(lia)) as G. rewrite id_make_eq in G by lia.
  replace (0 * 2 ^ 24 + p) with p in G by lia. lia.
Qed.

(** ** C31: removing and redoing the stitches of one layer *)
Theorem C31_restitch_layer sort m S one_way m' t : sort_ok sort -> plain m -> (forall l, In l (layers m) -> layer_wf l) -> stitches_ok m S ->
  stitch_at_vertices sort m S one_way = Ok m' ->
  exists m3, restitch_layer_at_vertices sort (remove_stitches_to_layer m' t) t S one_way = Ok m3 /\ same_geometry m m3 /\ mesh_wf m3 /\
    (forall li vi w, vertex_at m3 li vi w -> (is_corner w = true <-> In MAX (vpolys w))) /\
    forall li vi id, lists m3 li vi id <-> lists m' li vi id.
Proof.
  intros Hs Hp Hw HS E. destruct (restitch sort m S one_way m' t Hs Hp Hw HS E) as (m3 & E3 & Hg & Hwf & Hc & Hl).
  exists m3. split; [exact E3|]. split; [assumption|]. split; [assumption|]. split; [|assumption].
  intros li vi w Hv. rewrite (Hc _ _ _ Hv). apply memN_In.
Qed.

(** ** C32: find_stitch_points *)
(** The result has one non-empty list for each pair (a, b), a < b, in increasing order; a point is in the list of (a, b) iff it is
    the position of a vertex of layer a and equal to the position of a vertex of layer b.  (Positions in the layers: the offsets
    of the layers are not taken into account, see C32_offsets_refuted.) *)
Theorem C32_finds_exactly_the_shared_points m : lengthN (layers m) <= 256 ->
  StronglySorted (fun a b => fst (fst a) < fst (fst b) \/ (fst (fst a) = fst (fst b) /\ snd (fst a) < snd (fst b))) (find_stitch_points m) /\
  (forall k ps, In (k, ps) (find_stitch_points m) -> ps <> []) /\
  forall a b p, (exists ps, In ((a, b), ps) (find_stitch_points m) /\ In p ps) <->
    a < b /\ exists v w la lb, nthN (layers m) a = Some la /\ nthN (layers m) b = Some lb /\ In v (vertices la) /\ In w (vertices lb) /\
      veq (coords v) (coords w) = true /\ p = coords v.
Proof.
  intro HL. destruct (find_spec m HL) as (H1 & H2 & H3). split; [exact H1|]. split; [exact H2|].
  intros a b p. rewrite (H3 (a, b) p). now apply common_points_In.
Qed.

(** ... and it can be stitched (the equality of the arithmetic being symmetric, and reflexive except on NaN). *)
Theorem C32_can_be_stitched sort m one_way : sort_ok sort -> eq_laws (A:=A) -> plain m -> (forall l, In l (layers m) -> layer_wf l) ->
  exists m', stitch_at_points sort m (find_stitch_points m) one_way = Ok m' /\ mesh_wf m'.
Proof.
  intros Hs [He1 He2] Hp Hw. pose proof Hp as (HL & _). destruct (find_spec m HL) as (H1 & H2 & H3).
  assert (HC : forall k ps p, In (k, ps) (find_stitch_points m) -> In p ps -> fst k < snd k /\
     (exists l v, nthN (layers m) (fst k) = Some l /\ In v (vertices l) /\ veq (coords v) p = true) /\
     (exists l v, nthN (layers m) (snd k) = Some l /\ In v (vertices l) /\ veq (coords v) p = true)).
  { intros [a b] ps p Hi Hpp. assert (exists ps, In ((a, b), ps) (find_stitch_points m) /\ In p ps) as G by eauto.
    apply H3 in G. apply common_points_In in G; [|assumption]. cbn [fst snd]. destruct G as (Hab & v & w & la & lb & G1 & G2 & G3 & G4 & G5 & ->).
    split; [assumption|]. unfold veq in *. apply andb_true_iff in G5. destruct G5 as [E1 E2]. split.
    - exists la, v. split; [assumption|]. split; [assumption|]. apply andb_true_iff. eauto.
    - exists lb, w. split; [assumption|]. split; [assumption|]. apply andb_true_iff. auto. }
  destruct (points_to_vertices_total m (find_stitch_points m)) as [sv Hsv].
  { intros k ps p Hi Hpp. apply (HC k ps p Hi Hpp). }
  unfold stitch_at_points. rewrite Hsv. cbn [bind].
  destruct (stitch_plain sort m sv one_way Hs Hp Hw) as (m' & E & _ & Hwf & _).
  - apply (points_stitches_ok m (find_stitch_points m)); [|assumption|assumption].
    intros k ps Hi Hne. destruct ps as [|p ps]; [congruence|]. destruct (HC k (p :: ps) p Hi (or_introl eq_refl)) as [? _]. lia.
  - exists m'. auto.
Qed.
End Any.

(** ** The laws used above hold in both arithmetics *)
Theorem C32_eq_laws_binary32 sin cos acos : eq_laws (A:=F32with sin cos acos).
Proof.
  split; intros x y H; change (SFeqb x y = true) in H.
  - change (SFeqb y x = true). destruct (SFeqb_true x y H) as [->|(a & b & -> & ->)]; [assumption|reflexivity].
  - change (SFeqb x x = true). destruct (SFeqb x x) eqn:E; [reflexivity|]. apply SFeqb_refl in E. subst x. destruct y; discriminate H.
Qed.
Theorem C32_eq_laws_exact : eq_laws (A:=RA).
Proof.
  split; intros x y H; destruct x as [x|], y as [y|]; try discriminate H; change (reqb x y = true) in H;
    apply reqb_true in H; subst; now apply reqb_true.
Qed.

(** ** Concrete cases that meet the hypotheses, and refutations *)
Lemma ins_perm x l : Permutation (x :: l) (ins x l).
Proof. induction l as [|y r IH]; simpl; [reflexivity|]. destruct (fst x <=? fst y)%Z; [reflexivity|]. rewrite perm_swap. now constructor. Qed.
Lemma std_sort_ok : sort_ok std_sort.
Proof.
  intro l. induction l as [|x l [IH1 IH2]]; [split; constructor|]. simpl. split; [rewrite <- ins_perm; now constructor|].
  revert IH2. generalize (std_sort l) as s. induction s as [|y s IHs]; intro H; simpl; [constructor; constructor|].
  destruct (Z.leb_spec (fst x) (fst y)).
  - constructor; [assumption|]. constructor; [assumption|]. inversion H; subst. eapply Forall_impl; [|eassumption]. simpl. intros; lia.
  - inversion H; subst. constructor; [now apply IHs|]. eapply Permutation_Forall; [apply ins_perm|]. constructor; [lia|assumption].
Qed.

Definition plainb {A : Arith} (m : Mesh A) : bool :=
  mesh_smallb m && forallb (fun l => forallb (fun v => forallb (fun id => N.eqb id MAX || (id <? lengthN (polygons l))) (vpolys v)) (vertices l)) (layers m).
Lemma plainb_ok {A : Arith} (m : Mesh A) : plainb m = true -> plain m.
Proof.
  unfold plainb. intro H. apply andb_prop in H. destruct H as [H1 H2]. apply mesh_smallb_ok in H1. destruct H1 as [H0 H1].
  split; [assumption|]. split; [assumption|]. intros l v id Hl Hv Hid Hm. rewrite forallb_forall in H2. specialize (H2 l Hl).
  rewrite forallb_forall in H2. specialize (H2 v Hv). rewrite forallb_forall in H2. specialize (H2 id Hid).
  apply orb_prop in H2. destruct H2 as [H2|H2]; [apply N.eqb_eq in H2; contradiction|now apply N.ltb_lt].
Qed.
Definition has_vertexb {A : Arith} (m : Mesh A) (li vi : N) : bool :=
  match nthN (layers m) li with Some l => match nthN (vertices l) vi with Some _ => true | None => false end | None => false end.
Lemma has_vertexb_ok {A : Arith} (m : Mesh A) li vi : has_vertexb m li vi = true -> exists v, vertex_at m li vi v.
Proof.
  unfold has_vertexb, vertex_at. destruct (nthN (layers m) li) as [l|]; [|discriminate]. destruct (nthN (vertices l) vi) as [v|] eqn:E; [|discriminate].
  intros _. exists v, l. auto.
Qed.
Definition stitches_okb {A : Arith} (m : Mesh A) (S : StitchVertices) : bool :=
  forallb (fun s => negb (N.eqb (fst (fst s)) (snd (fst s))) && (fst (fst s) <? lengthN (layers m)) && (snd (fst s) <? lengthN (layers m)) &&
    forallb (fun ft => has_vertexb m (fst (fst s)) (fst ft) && has_vertexb m (snd (fst s)) (snd ft)) (snd s)) S.
Lemma stitches_okb_ok {A : Arith} (m : Mesh A) S : stitches_okb m S = true -> stitches_ok m S.
Proof.
  unfold stitches_okb. rewrite forallb_forall. intros H from to ps Hi. specialize (H _ Hi). cbn [fst snd] in H.
  apply andb_prop in H. destruct H as [H H4]. apply andb_prop in H. destruct H as [H H3]. apply andb_prop in H. destruct H as [H1 H2].
  split; [intro E; rewrite E, N.eqb_refl in H1; discriminate|]. apply N.ltb_lt in H2, H3. apply nthN_lt_Some in H2, H3.
  split; [assumption|]. split; [assumption|]. intros f t Hft. rewrite forallb_forall in H4. specialize (H4 _ Hft). cbn [fst snd] in H4.
  apply andb_prop in H4. destruct H4. split; now apply has_vertexb_ok.
Qed.
Definition layers_wfb {A : Arith} (m : Mesh A) : bool := forallb layer_wfb (layers m).
Lemma layers_wfb_ok {A : Arith} (m : Mesh A) : layers_wfb m = true -> forall l, In l (layers m) -> layer_wf l.
Proof.
  unfold layers_wfb. rewrite forallb_forall. intros H l Hl p Hp. specialize (H l Hl). unfold layer_wfb in H. rewrite forallb_forall in H.
  specialize (H p Hp). apply andb_prop in H. destruct H as [H1 H2]. split; [destruct (pverts p); [discriminate|discriminate]|].
  rewrite forallb_forall in H2. intros v Hv. apply N.ltb_lt. now apply H2.
Qed.

(** the vertices of the stitch points of the tests *)
Definition basic_vertices : StitchVertices := [((0, 1), [(0, 1); (2, 3)]); ((0, 2), [(2, 0); (3, 1)]); ((1, 2), [(3, 0)])].
Example C28_example : plain basic_layers /\ (forall l, In l (layers basic_layers) -> layer_wf l) /\ stitches_ok basic_layers basic_vertices /\
  points_to_vertices basic_layers basic_points = Ok basic_vertices.
Proof.
  split; [apply plainb_ok; vmc|]. split; [apply layers_wfb_ok; vmc|]. split; [apply stitches_okb_ok; vmc|]. vmc.
Qed.
(** one-way stitches from layer 0 to the two others: these cannot be left, so no path leads back from layer 1 to layer 0,
    although there is one from layer 0 to layer 1 *)
Definition one_way_vertices : StitchVertices := [((0, 1), [(0, 1); (2, 3)]); ((0, 2), [(2, 0); (3, 1)])].
Example C27_example : stitches_ok basic_layers one_way_vertices /\
  (forall to ps, In ((1, to), ps) one_way_vertices -> ps = []) /\
  match stitch_at_vertices std_sort basic_layers one_way_vertices true with
  | Ok m => is_Ok_Some (fun _ => true) (path lib32 m (at_ (pt10 15 5)) (at_ (pt10 5 5))) &&
            match path lib32 m (at_ (pt10 5 5)) (at_ (pt10 15 5)) with Ok None => true | _ => false end
  | _ => false
  end = true.
Proof.
  split; [apply stitches_okb_ok; vmc|]. split; [|vmc]. intros to ps [H|[H|[]]]; injection H as H1 H2; discriminate H1.
Qed.

(** C30: four layers, one square each, around the point (1, 1): once stitched, the four corners at (1, 1) are no corners, and they
    stay so after remove_stitches. *)
Definition square (x y : Z) : Layer F32 :=
  layer0 [vtx x y [0; MAX]; vtx (x+1) y [0; MAX]; vtx (x+1) (y+1) [0; MAX]; vtx x (y+1) [0; MAX]] [mkPolygon [0; 1; 2; 3] true].
Definition four_squares : Mesh F32 := mesh_of [square 0 0; square 1 0; square 1 1; square 0 1].
Definition corner_at {A : Arith} (m : Mesh A) (li vi : N) : option (list N * bool) :=
  match nthN (layers m) li with Some l => option_map (fun v => (vpolys v, is_corner v)) (nthN (vertices l) vi) | None => None end.

Theorem C30_corners_not_restored_refuted : exists (m : Mesh F32) S m' v v',
  plain m /\ (forall l, In l (layers m) -> layer_wf l) /\ stitch_at_points std_sort m S false = Ok m' /\
  vertex_at m 0 2 v /\ is_corner v = true /\ In MAX (vpolys v) /\
  vertex_at (remove_stitches m') 0 2 v' /\ is_corner v' = false /\ ~ In MAX (vpolys v').
Proof.
  assert (H : match stitch_at_points std_sort four_squares (find_stitch_points four_squares) false with
              | Ok m' => corner_at (remove_stitches m') 0 2 | _ => None end = Some ([0], false)) by vmc.
  destruct (stitch_at_points std_sort four_squares (find_stitch_points four_squares) false) as [m'| | |] eqn:E; try discriminate H.
  exists four_squares, (find_stitch_points four_squares), m'. unfold corner_at in H.
  destruct (nthN (layers (remove_stitches m')) 0) as [l|] eqn:El; [|discriminate H].
  destruct (nthN (vertices l) 2) as [v'|] eqn:Ev; [|discriminate H]. simpl in H. injection H as H1 H2.
  exists (vtx 1 1 [0; MAX]), v'. split; [apply plainb_ok; vmc|]. split; [apply layers_wfb_ok; vmc|]. split; [exact E|].
  split; [exists (square 0 0); split; reflexivity|]. split; [reflexivity|]. split; [right; now left|].
  split; [exists l; split; [exact El|exact Ev]|]. split; [assumption|]. rewrite H1. intros [G|[]]. discriminate G.
Qed.

(** C28: stitching again what is already stitched adds the layer numbers a second time: on the example of the tests it panics. *)
Theorem C28_stitching_twice_refuted : exists (m m' : Mesh F32) S,
  plain m /\ (forall l, In l (layers m) -> layer_wf l) /\ stitch_at_points std_sort m S false = Ok m' /\
  stitch_at_points std_sort m' S false = Panic.
Proof.
  assert (H : match stitch_at_points std_sort basic_layers basic_points false with
              | Ok m' => match stitch_at_points std_sort m' basic_points false with Panic => true | _ => false end | _ => false end = true) by vmc.
  destruct (stitch_at_points std_sort basic_layers basic_points false) as [m'| | |] eqn:E; try discriminate H.
  exists basic_layers, m', basic_points. split; [apply plainb_ok; vmc|]. split; [apply layers_wfb_ok; vmc|]. split; [exact E|].
  destruct (stitch_at_points std_sort m' basic_points false); try discriminate H. reflexivity.
Qed.

(** C32: the offsets of the layers are ignored.  Two unit squares at the same place of the world, the second in a layer with
    offset (10, 0): no common point is found.  And with the same coordinates but in layers far apart, all four are. *)
Definition shifted (x y dx : Z) : Layer F32 := mkLayer (vertices (square x y)) (polygons (square x y)) (pt dx 0) None None.
Theorem C32_offsets_refuted : exists m1 m2 : Mesh F32,
  mesh_wf m1 /\ mesh_wf m2 /\
  (exists l0 l1, layers m1 = [l0; l1] /\ map (world l0) (vertices l0) = map (world l1) (vertices l1)) /\ find_stitch_points m1 = [] /\
  (exists l0 l1, layers m2 = [l0; l1] /\ forall v w, In v (vertices l0) -> In w (vertices l1) -> veq (world l0 v) (world l1 w) = false) /\
  exists ps, find_stitch_points m2 = [((0, 1), ps)] /\ length ps = 4%nat.
Proof.
  exists (mesh_of [square 10 0; shifted 0 0 10]), (mesh_of [square 0 0; shifted 0 0 10]).
  split; [apply mesh_wfb_ok; vmc|]. split; [apply mesh_wfb_ok; vmc|].
  split; [eexists; eexists; split; [reflexivity|vmc]|]. split; [vmc|]. split.
  - eexists; eexists; split; [reflexivity|]. intros v w Hv Hw.
    assert (H : forallb (fun v => forallb (fun w => negb (veq (world (square 0 0) v) (world (shifted 0 0 10) w))) (vertices (shifted 0 0 10))) (vertices (square 0 0)) = true) by vmc.
    rewrite forallb_forall in H. specialize (H v Hv). rewrite forallb_forall in H. specialize (H w Hw). now apply negb_true_iff.
  - exists (map (fun v => coords v) (vertices (square 0 0))). split; [vmc|reflexivity].
Qed.

(** ** C51: the one-way flags *)
(** "A one way polygon is a polygon that has only one neighbour": the search does not enter such a polygon unless the
    destination is in it.  Stitching gives polygons new neighbours, but leaves the flags: polygons that had at most one
    neighbour in their layer cannot be crossed after stitching. *)
Definition crossingb {A : Arith} (m : Mesh A) (x : Crossing) : bool :=
  match nthN (layers m) (id_layer (cr_from x)) with
  | Some l => match nthN (polygons l) (id_polygon (cr_from x)), nthN (vertices l) (cr_a x), nthN (vertices l) (cr_b x) with
              | Some p, Some va, Some vb =>
                  existsb (fun i => match nth_error (pverts p) i, nth_error (pverts p) (S i mod length (pverts p)) with
                                    | Some a, Some b => N.eqb a (cr_a x) && N.eqb b (cr_b x) | _, _ => false end) (seq 0 (length (pverts p)))
                  && memN (cr_to x) (vpolys va) && memN (cr_to x) (vpolys vb) && negb (N.eqb (cr_to x) MAX) && negb (N.eqb (cr_to x) (cr_from x))
              | _, _, _ => false
              end
  | None => false
  end.
Lemma crossingb_ok {A : Arith} (m : Mesh A) x : crossingb m x = true -> valid_crossing m x.
Proof.
  unfold crossingb. destruct (nthN (layers m) (id_layer (cr_from x))) as [l|] eqn:El; [|discriminate].
  destruct (nthN (polygons l) (id_polygon (cr_from x))) as [p|] eqn:Ep; [|discriminate].
  destruct (nthN (vertices l) (cr_a x)) as [va|] eqn:Ea; [|discriminate]. destruct (nthN (vertices l) (cr_b x)) as [vb|] eqn:Eb; [|discriminate].
  intro H. apply andb_prop in H. destruct H as [H H5]. apply andb_prop in H. destruct H as [H H4]. apply andb_prop in H. destruct H as [H H3].
  apply andb_prop in H. destruct H as [H1 H2]. exists l, p, va, vb. split; [split; assumption|]. split.
  - apply existsb_exists in H1. destruct H1 as (i & _ & H1). exists i. destruct (nth_error (pverts p) i) as [a|] eqn:E1; [|discriminate].
    destruct (nth_error (pverts p) (S i mod length (pverts p))) as [b|] eqn:E2; [|discriminate]. apply andb_prop in H1. destruct H1 as [G1 G2].
    apply N.eqb_eq in G1, G2. subst. auto.
  - split; [assumption|]. split; [assumption|]. split; [now apply memN_In|]. split; [now apply memN_In|].
    split; [intro E; rewrite E in H4; discriminate|]. intro E. rewrite E, N.eqb_refl in H5. discriminate.
Qed.

Theorem C51_stale_one_way_flags_refuted : exists (m m' : Mesh F32) S from to ps pe xs,
  plain m /\ (forall l, In l (layers m) -> layer_wf l) /\
  (* every layer is a single polygon, flagged as one way: it has no neighbour in its layer *)
  (forall l, In l (layers m) -> exists p, polygons l = [p]) /\
  stitch_at_points std_sort m S false = Ok m' /\ mesh_wf m' /\
  located lib32 m' from ps /\ located lib32 m' to pe /\ corridor m' ps xs pe /\ path lib32 m' from to = Ok None.
Proof.
  set (x1 := mkCross L1 1 3 0). set (x2 := mkCross 0 3 2 L2).
  set (from := at_ (pt10 5 5)). set (to := at_ (pt10 17 13)).
  assert (H : match stitch_at_points std_sort basic_layers basic_points false with
              | Ok m' => crossingb m' x1 && crossingb m' x2 && mesh_wfb m'
                         && match locate_end lib32 m' from with Ok (Some i) => N.eqb i L1 | _ => false end
                         && match locate_end lib32 m' to with Ok (Some i) => N.eqb i L2 | _ => false end
                         && match path lib32 m' from to with Ok None => true | _ => false end
              | _ => false end = true) by vmc.
  destruct (stitch_at_points std_sort basic_layers basic_points false) as [m'| | |] eqn:E; try discriminate H.
  apply andb_prop in H. destruct H as [H H6]. apply andb_prop in H. destruct H as [H H5]. apply andb_prop in H. destruct H as [H H4].
  apply andb_prop in H. destruct H as [H H3]. apply andb_prop in H. destruct H as [H1 H2].
  exists basic_layers, m', basic_points, from, to, L1, L2, ([] ++ [x1] ++ [x2]).
  split; [apply plainb_ok; vmc|]. split; [apply layers_wfb_ok; vmc|].
  split; [intros l [<-|[<-|[<-|[]]]]; eexists; reflexivity|].
  split; [exact E|]. split; [exact (mesh_wfb_ok m' H3)|].
  destruct (locate_end lib32 m' from) as [[i|]| | |] eqn:Ef; try discriminate H4. apply N.eqb_eq in H4. subst i.
  destruct (locate_end lib32 m' to) as [[i|]| | |] eqn:Et; try discriminate H5. apply N.eqb_eq in H5. subst i.
  split; [exact (proj1 (locate_end_located lib32 m' from L1) Ef)|]. split; [exact (proj1 (locate_end_located lib32 m' to L2) Et)|]. split.
  - change (corridor m' L1 (([] ++ [x1]) ++ [x2]) (cr_to x2)). constructor; [|exact (crossingb_ok m' x2 H2)].
    change (corridor m' L1 ([] ++ [x1]) (cr_to x1)). constructor; [constructor|exact (crossingb_ok m' x1 H1)].
  - destruct (path lib32 m' from to) as [[?|]| | |]; try discriminate H6. reflexivity.
Qed.

Print Assumptions C29_reorder_keeps_neighbours.
Print Assumptions C29_order_and_holes.
Print Assumptions C28_stitch_adds_exactly.
Print Assumptions C27_one_way_paths.
Print Assumptions C30_remove_undoes_stitch.
Print Assumptions C31_restitch_layer.
Print Assumptions C32_finds_exactly_the_shared_points.
Print Assumptions C32_can_be_stitched.
Print Assumptions C32_eq_laws_exact.
Print Assumptions C51_stale_one_way_flags_refuted.
Print Assumptions C29_reorder_never_fails.
Print Assumptions C28_stitch_at_points.
Print Assumptions C27_no_way_back.
Print Assumptions C27_corridors_stay.
Print Assumptions C30_removing_twice_refuted.
Print Assumptions C32_eq_laws_binary32.
Print Assumptions C30_corners_not_restored_refuted.
Print Assumptions C28_stitching_twice_refuted.
Print Assumptions C32_offsets_refuted.
