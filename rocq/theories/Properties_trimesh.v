(** Converting a list of triangles: C37, C38. *)
From Coq Require Import List NArith ZArith Bool Permutation Lia Reals Lra.
From Verif Require Import Base Arith F32 U32 Mesh Helpers Locate Bake Search StdLib Spec Spec_mesh Locate_facts Islands_facts Stitch_facts
  Bake_facts Cleanup Cleanup_facts Properties_mesh Trimesh RealArith Tests Tests_stitch Tests_trimesh.
Import ListNotations.
Open Scope N_scope.

Section Any.
Context {A : Arith}.
Implicit Types (t : Trimesh A).

(** The input is meaningful: three different existing vertices for each triangle, numbers that fit in u32. *)
Definition tri_ok t : Prop :=
  lengthN (tri_vertices t) <= 2^32 /\ lengthN (triangles t) < 2^32 - 1 /\
  forall a b c, In (a, b, c) (triangles t) ->
    a < lengthN (tri_vertices t) /\ b < lengthN (tri_vertices t) /\ c < lengthN (tri_vertices t) /\ a <> b /\ b <> c /\ c <> a.
(** Triangle [i] uses vertex [v]. *)
Definition tri_uses t (i v : N) : Prop := exists x, nthN (triangles t) i = Some x /\ In v (tri_list x).
(** Around vertex [v], triangle [j] follows triangle [i] without a hole: the edge of [i] that ends in [v] is the one of [j] that starts there. *)
Definition tri_glued t (v i j : N) : Prop :=
  exists x y w, nthN (triangles t) i = Some x /\ nthN (triangles t) j = Some y /\
    In (w, v) (edge_list (tri_list x)) /\ In (v, w) (edge_list (tri_list y)).
(** The neighbours of vertex [v], given its triangles in some order: they follow each other cyclically, with an outside marker in
    front of each triangle that is not glued to the one before. *)
Definition tri_neighbours_of t (v : N) (order ids : list N) : Prop :=
  exists chunks, ids = concat chunks /\
    Forall2 (fun ij ch => (tri_glued t v (fst ij) (snd ij) /\ ch = [snd ij]) \/ (~ tri_glued t v (fst ij) (snd ij) /\ ch = [MAX; snd ij]))
      (edge_list order) chunks.

Lemma as_u32_small n : n < 2^32 -> as_u32 n = n.
Proof. intro H. unfold as_u32. now apply N.mod_small. Qed.

Lemma to_polygons_ok t : tri_ok t ->
  to_polygons (triangles t) = map (fun x => mkPolygon (tri_list x) (N.eqb (lengthN (triangles t)) 1)) (triangles t).
Proof.
  intros (Hv & _ & Ht). unfold to_polygons. apply map_ext_in. intros [[a b] c] Hin. destruct (Ht a b c Hin) as (Ha & Hb & Hc & _).
  f_equal. unfold tri_list. cbn [map fst snd]. now rewrite !as_u32_small by lia.
Qed.
Lemma incident_In t v i : tri_ok t -> (In i (incident t v) <-> tri_uses t i v).
Proof.
  intros (_ & Hn & _). unfold incident, tri_uses. rewrite in_map_iff. split.
  - intros ((j & x) & E & H). apply filter_In in H. cbn [fst snd] in *. destruct H as [H1 H2]. apply enumerate_spec in H1. apply memN_In in H2.
    pose proof (nthN_Some_lt _ _ _ H1) as Hl. rewrite as_u32_small in E by lia. subst. eauto.
  - intros (x & H1 & H2). exists (i, x). cbn [fst]. pose proof (nthN_Some_lt _ _ _ H1) as Hl. split; [apply as_u32_small; lia|].
    apply filter_In. cbn [snd]. split; [now apply enumerate_spec|now apply memN_In].
Qed.
Lemma incident_NoDup t v : tri_ok t -> NoDup (incident t v).
Proof.
  intros (_ & Hn & _). unfold incident.
  assert (G : forall l k, k + lengthN l < 2^32 -> NoDup (map (fun it => as_u32 (fst it)) (filter (fun it => memN v (tri_list (snd it))) (enum_from k l))) /\
     forall i, In i (map (fun it => as_u32 (fst it)) (filter (fun it => memN v (tri_list (snd it))) (enum_from k l))) -> k <= i).
  { induction l as [|x l IH]; intros k Hk; cbn [enum_from filter map]; [split; [constructor|intros ? []]|].
    destruct (IH (N.succ k)) as [I1 I2]; [unfold lengthN in *; simpl length in Hk; lia|]. 
    destruct (memN v (tri_list (snd (k, x)))); [|split; [assumption|intros i Hi; specialize (I2 i Hi); lia]].
    cbn [map fst]. rewrite as_u32_small by (unfold lengthN in *; simpl length in Hk; lia). split.
    - constructor; [|assumption]. intro H. specialize (I2 _ H). lia.
    - intros i [<-|Hi]; [lia|]. specialize (I2 i Hi). lia. }
  apply (G (triangles t) 0). lia.
Qed.

(** neighbours in a triangle *)
Lemma tri_neighbors x v : (let '(a, b, c) := x in a <> b /\ b <> c /\ c <> a) -> In v (tri_list x) ->
  (exists w, ccw_neighbor (tri_list x) v = Ok w /\ In w (tri_list x) /\ forall u, In (u, v) (edge_list (tri_list x)) <-> u = w) /\
  (exists w, cw_neighbor (tri_list x) v = Ok w /\ In w (tri_list x) /\ forall u, In (v, u) (edge_list (tri_list x)) <-> u = w).
Proof.
  destruct x as [[a b] c]. intros (H1 & H2 & H3) Hv. unfold tri_list, edge_list in *. cbn [fst snd tl firstn app combine] in *.
  unfold ccw_neighbor, cw_neighbor, position. cbn [position_from].
  destruct (N.eqb_spec a v) as [<-|]; [|destruct (N.eqb_spec b v) as [<-|]; [|destruct (N.eqb_spec c v) as [<-|]]];
    try (exfalso; simpl in Hv; tauto); cbn [unwrap bind]; (split; eexists; (split; [reflexivity|]; split; [simpl; tauto|]));
    intro u; simpl; split; intro H; subst; auto; intuition congruence.
Qed.
Lemma tri_distinct t i x : tri_ok t -> nthN (triangles t) i = Some x -> (let '(a, b, c) := x in a <> b /\ b <> c /\ c <> a) /\ forall v, In v (tri_list x) -> v < lengthN (tri_vertices t).
Proof.
  intros (_ & _ & Ht) Hi. destruct x as [[a b] c]. destruct (Ht a b c (nthN_In _ _ _ Hi)) as (Ha & Hb & Hc & H). split; [tauto|].
  intros v [<-|[<-|[<-|[]]]]; assumption.
Qed.

Lemma glued_test t v i j x y : tri_ok t -> nthN (triangles t) i = Some x -> nthN (triangles t) j = Some y -> In v (tri_list x) -> In v (tri_list y) ->
  exists a b, ccw_neighbor (tri_list x) v = Ok a /\ cw_neighbor (tri_list y) v = Ok b /\ (a = b <-> tri_glued t v i j).
Proof.
  intros Ht Hi Hj Hx Hy. destruct (tri_distinct t i x Ht Hi) as [Dx _]. destruct (tri_distinct t j y Ht Hj) as [Dy _].
  destruct (tri_neighbors x v Dx Hx) as [(a & Ea & _ & Ua) _]. destruct (tri_neighbors y v Dy Hy) as [_ (b & Eb & _ & Ub)].
  exists a, b. split; [assumption|]. split; [assumption|]. unfold tri_glued. split.
  - intros <-. exists x, y, a. repeat split; auto; [now apply Ua|now apply Ub].
  - intros (x' & y' & w & E1 & E2 & F1 & F2). assert (x' = x) by congruence. assert (y' = y) by congruence. subst. apply Ua in F1. apply Ub in F2. congruence.
Qed.

Lemma nthN_map' {S T} (f : S -> T) l i : nthN (map f l) i = option_map f (nthN l i).
Proof. apply nthN_map_eq. Qed.

(** the loop of trimesh.rs 88-117 *)
Lemma add_obstacles_ok t v ids : tri_ok t -> forall acc i0, last acc MAX = i0 -> i0 < lengthN (triangles t) -> tri_uses t i0 v ->
  (forall i, In i ids -> tri_uses t i v) ->
  exists chunks, add_obstacles (to_polygons (triangles t)) v acc ids = Ok (acc ++ concat chunks) /\
    Forall2 (fun ij ch => (tri_glued t v (fst ij) (snd ij) /\ ch = [snd ij]) \/ (~ tri_glued t v (fst ij) (snd ij) /\ ch = [MAX; snd ij]))
      (combine (i0 :: ids) ids) chunks.
Proof.
  intro Ht. rewrite (to_polygons_ok t Ht). induction ids as [|i ids IH]; intros acc i0 Hl Hi0 Hu Hids; cbn [add_obstacles].
  { exists []. rewrite app_nil_r. split; [reflexivity|constructor]. }
  rewrite Hl. assert (i0 <> MAX) as Hne by (destruct Ht as (_ & Hn & _); unfold MAX; lia). apply N.eqb_neq in Hne. rewrite Hne.
  destruct Hu as (x & Hx & Hvx). destruct (Hids i (or_introl eq_refl)) as (y & Hy & Hvy).
  set (ps := map (fun x => mkPolygon (tri_list x) (lengthN (triangles t) =? 1)) (triangles t)) in *.
  assert (index ps i0 = Ok (mkPolygon (tri_list x) (lengthN (triangles t) =? 1))) as ->
    by (apply index_Ok; unfold ps; rewrite nthN_map', Hx; reflexivity).
  cbn [bind pverts]. destruct (glued_test t v i0 i x y Ht Hx Hy Hvx Hvy) as (a & b & -> & Eb & Hg). cbn [bind].
  assert (index ps i = Ok (mkPolygon (tri_list y) (lengthN (triangles t) =? 1))) as ->
    by (apply index_Ok; unfold ps; rewrite nthN_map', Hy; reflexivity).
  cbn [bind pverts]. rewrite Eb. cbn [bind]. set (ch := if a =? b then [i] else [MAX; i]).
  destruct (IH (acc ++ ch) i) as (chunks & E & F).
  - unfold ch. destruct (a =? b); [apply last_last|]. change [MAX; i] with ([MAX] ++ [i]). rewrite app_assoc. apply last_last.
  - eapply nthN_Some_lt; eassumption.
  - exists y. auto.
  - intros j Hj. apply Hids. now right.
  - exists (ch :: chunks). split; [cbn [concat]; rewrite app_assoc; exact E|]. change (combine (i0 :: i :: ids) (i :: ids)) with ((i0, i) :: combine (i :: ids) ids).
    constructor; [|exact F]. cbn [fst snd]. unfold ch. destruct (N.eqb_spec a b) as [Eab|Eab]; [left|right]; (split; [tauto|reflexivity]).
Qed.

Variable sort_by : (N * vec2 A -> N * vec2 A -> comparison) -> list (N * vec2 A) -> res (list (N * vec2 A)).
(** sort_by permutes, whatever the comparison, and does not panic. *)
Hypothesis Hsort : forall cmp l, exists s, sort_by cmp l = Ok s /\ Permutation l s.

Lemma sort_around_ok t v c ids : tri_ok t -> (forall i, In i ids -> tri_uses t i v) ->
  exists s, sort_around sort_by t (to_polygons (triangles t)) v c ids = Ok s /\ Permutation ids s.
Proof.
  intros Ht Hids. destruct ids as [|i [|j r]]; [exists []; auto|exists [i]; auto|]. unfold sort_around. remember (i :: j :: r) as ids eqn:Ei. clear Ei i j r.
  assert (exists es, mapM (ccw_edge t (to_polygons (triangles t)) v c) ids = Ok es /\ map fst es = ids) as (es & -> & Ef).
  { induction ids as [|i ids IH]; [exists []; auto|]. destruct IH as (es & E & F); [intros; apply Hids; now right|].
    destruct (Hids i (or_introl eq_refl)) as (x & Hx & Hvx). destruct (tri_distinct t i x Ht Hx) as [Dx Bx].
    destruct (tri_neighbors x v Dx Hvx) as [(w & Ew & Hw & _) _]. destruct (nthN_lt_Some (tri_vertices t) w (Bx w Hw)) as [p Hp].
    assert (ccw_edge t (to_polygons (triangles t)) v c i = Ok (i, vsub p c)) as E0.
    { unfold ccw_edge. rewrite (to_polygons_ok t Ht).
      assert (index (map (fun x => mkPolygon (tri_list x) (lengthN (triangles t) =? 1)) (triangles t)) i = Ok (mkPolygon (tri_list x) (lengthN (triangles t) =? 1))) as ->
        by (apply index_Ok; rewrite nthN_map', Hx; reflexivity).
      cbn [bind pverts]. rewrite Ew. cbn [bind]. rewrite (proj2 (index_Ok _ _ _) Hp). reflexivity. }
    cbn [mapM]. rewrite E0. cbn [bind]. rewrite E. cbn [bind]. eexists. split; [reflexivity|].
    cbn [map fst]. now rewrite F. }
  cbn [bind]. destruct (Hsort tri_cmp es) as (s & -> & P). cbn [bind]. eexists. split; [reflexivity|]. rewrite <- Ef. now apply Permutation_map.
Qed.

Lemma combine_snoc_r (r : list N) : forall y z, combine (y :: r) (r ++ [z]) = combine (y :: r ++ [z]) (r ++ [z]).
Proof. induction r as [|x r IH]; intros y z; [reflexivity|]. cbn [app combine]. f_equal. apply (IH x z). Qed.

(** a vertex *)
Definition vertex_ok t (i : N) (c : vec2 A) (ids : list N) : Prop :=
  exists order, sort_around sort_by t (to_polygons (triangles t)) i c (incident t i) = Ok order /\ Permutation (incident t i) order /\ tri_neighbours_of t i order ids.
Lemma tri_vertex_ok t i c : tri_ok t ->
  (incident t i = [] /\ tri_vertex sort_by t (to_polygons (triangles t)) (i, c) = Ok None) \/
  (incident t i <> [] /\ exists ids, tri_vertex sort_by t (to_polygons (triangles t)) (i, c) = Ok (Some ids) /\ vertex_ok t i c ids).
Proof.
  intro Ht. assert (Hu : forall j, In j (incident t i) -> tri_uses t j i) by (intros j Hj; now apply incident_In).
  unfold tri_vertex. cbn [fst snd]. destruct (sort_around_ok t i c (incident t i) Ht Hu) as (s & ES & P). rewrite ES. cbn [bind].
  destruct s as [|i0 r]; [left; split; [now apply Permutation_nil, Permutation_sym|reflexivity]|]. right.
  assert (Hs : forall j, In j (i0 :: r) -> tri_uses t j i) by (intros j Hj; apply Hu; apply (Permutation_in _ (Permutation_sym P)); assumption).
  split; [intro E; rewrite E in P; apply Permutation_nil in P; discriminate|].
  destruct (add_obstacles_ok t i (r ++ [i0]) Ht [i0] i0 eq_refl) as (chunks & E & F).
  - destruct (Hs i0 (or_introl eq_refl)) as (x & Hx & _). eapply nthN_Some_lt; eassumption.
  - apply Hs. now left.
  - intros j Hj. apply Hs. apply in_app_iff in Hj. destruct Hj as [Hj|[<-|[]]]; [now right|now left].
  - rewrite E. cbn [bind tl app]. eexists. split; [reflexivity|]. exists (i0 :: r). split; [exact ES|]. split; [assumption|]. exists chunks. split; [reflexivity|].
    assert (edge_list (i0 :: r) = combine (i0 :: r ++ [i0]) (r ++ [i0])) as ->; [|exact F].
    unfold edge_list. cbn [tl firstn]. apply combine_snoc_r.
Qed.
Lemma tri_loop_ok t vs : tri_ok t ->
  (Exists (fun ic => incident t (fst ic) = []) vs /\ tri_vertices_loop sort_by t (to_polygons (triangles t)) vs = Ok None) \/
  (Forall (fun ic => incident t (fst ic) <> []) vs /\ exists vts, tri_vertices_loop sort_by t (to_polygons (triangles t)) vs = Ok (Some vts) /\
     Forall2 (fun ic v => exists ids, v = vertex_new (snd ic) ids /\ vertex_ok t (fst ic) (snd ic) ids) vs vts).
Proof.
  intro Ht. induction vs as [|[i c] vs IH]; cbn [tri_vertices_loop]; [right; split; [constructor|exists []; split; [reflexivity|constructor]]|].
  destruct (tri_vertex_ok t i c Ht) as [[E1 ->]|[E1 (ids & -> & Hv)]]; cbn [bind].
  - left. split; [now constructor|reflexivity].
  - destruct IH as [[I1 ->]|[I1 (vts & -> & F)]]; cbn [bind option_map].
    + left. split; [now constructor 2|reflexivity].
    + right. split; [now constructor|]. eexists. split; [reflexivity|]. constructor; [|assumption]. exists ids. auto.
Qed.

(** C37, and the order in which the triangles of a vertex are taken *)
Lemma conversion t : tri_ok t -> exists o, mesh_of_trimesh sort_by t = Ok o /\
  (o = Err EmptyMesh <-> tri_vertices t = []) /\
  (o = Err InvalidMesh <-> exists v, v < lengthN (tri_vertices t) /\ forall i, ~ tri_uses t i v) /\
  (forall m, o = Done m -> exists l, layers m = [l] /\ offset l = vzero /\
     polygons l = map (fun x => mkPolygon (tri_list x) (N.eqb (lengthN (triangles t)) 1)) (triangles t) /\
     length (vertices l) = length (tri_vertices t) /\
     forall i v, nthN (vertices l) i = Some v ->
       nthN (tri_vertices t) i = Some (coords v) /\ (is_corner v = true <-> In MAX (vpolys v)) /\
       exists order, sort_around sort_by t (to_polygons (triangles t)) i (coords v) (incident t i) = Ok order /\ NoDup order /\ (forall j, In j order <-> tri_uses t j i) /\ tri_neighbours_of t i order (vpolys v)) /\
  ((forall v, v < lengthN (tri_vertices t) -> exists i, tri_uses t i v) -> tri_vertices t <> [] -> lengthN (triangles t) < 2^24 -> exists m, o = Done m).
Proof.
  intro Ht. unfold mesh_of_trimesh.
  assert (Huse : forall v, incident t v = [] <-> forall i, ~ tri_uses t i v).
  { intro v. split.
    - intros E i H. apply (incident_In t v i Ht) in H. rewrite E in H. destruct H.
    - intro H. destruct (incident t v) as [|i r] eqn:E; [reflexivity|]. exfalso. apply (H i). apply (incident_In t v i Ht). rewrite E. now left. }
  destruct (tri_loop_ok t (enumerate (tri_vertices t)) Ht) as [[Hex ->]|[Hall (vts & -> & F)]]; cbn [bind].
  - apply Exists_exists in Hex. destruct Hex as ((v & c) & Hin & E). cbn [fst] in E. apply enumerate_spec in Hin. pose proof (nthN_Some_lt _ _ _ Hin) as Hv.
    exists (Err InvalidMesh). split; [reflexivity|]. split; [|split; [|split]].
    + split; [discriminate|]. intros En. rewrite En in Hin. discriminate.
    + split; [|reflexivity]. intros _. exists v. split; [assumption|]. now apply Huse.
    + discriminate.
    + intros Ha. exfalso. destruct (Ha v Hv) as [i Hi]. rewrite Huse in E. exact (E i Hi).
  - assert (Hused : forall v, v < lengthN (tri_vertices t) -> exists i, tri_uses t i v).
    { intros v Hv. destruct (nthN_lt_Some _ _ Hv) as [c Hc]. rewrite Forall_forall in Hall. specialize (Hall (v, c) (proj2 (enumerate_spec _ _ _) Hc)).
      cbn [fst] in Hall. destruct (incident t v) as [|i r] eqn:E; [congruence|]. exists i. apply (incident_In t v i Ht). rewrite E. now left. }
    assert (Hlen : length vts = length (tri_vertices t)).
    { rewrite <- (enum_from_length (tri_vertices t) 0). symmetry. clear -F. unfold enumerate in F. induction F; [reflexivity|]. simpl. congruence. }
    assert (Hnot : ~ exists v, v < lengthN (tri_vertices t) /\ forall i, ~ tri_uses t i v).
    { intros (v & Hv & Hn). destruct (Hused v Hv) as [i Hi]. exact (Hn i Hi). }
    set (ps := to_polygons (triangles t)) in *.
    assert (Hps : ps = map (fun x => mkPolygon (tri_list x) (N.eqb (lengthN (triangles t)) 1)) (triangles t)) by (apply to_polygons_ok; assumption).
    assert (Hverts : forall k v, nthN vts k = Some v -> exists ids, nthN (tri_vertices t) k = Some (coords v) /\ v = vertex_new (coords v) ids /\ vertex_ok t k (coords v) ids).
    { intros k v Hk. destruct (Forall2_nthN_r _ _ _ F _ _ Hk) as ((i & c) & Hi & ids & -> & Hv). cbn [fst snd] in *.
      assert (i = k /\ nthN (tri_vertices t) k = Some c) as [-> Hc].
      { pose proof (nthN_Some_lt _ _ _ Hi) as Hl. unfold enumerate in Hl. unfold lengthN in Hl. rewrite enum_from_length in Hl.
        destruct (nthN_lt_Some (tri_vertices t) k Hl) as [c' Hc']. unfold enumerate in Hi.
        assert (G : forall (l : list (vec2 A)) n k c, nthN l k = Some c -> nthN (enum_from n l) k = Some (n + k, c)).
        { clear. induction l as [|u l IH]; intros n k s Hs; [discriminate|]. simpl in *.
          destruct (N.eqb_spec k 0) as [->|]; [injection Hs as <-; now rewrite N.add_0_r|]. rewrite (IH _ _ _ Hs). f_equal. f_equal. lia. }
        rewrite (G _ 0 _ _ Hc') in Hi. injection Hi as <- <-. auto. }
      exists ids. auto. }
    assert (Hids : forall k v, nthN vts k = Some v -> exists order, sort_around sort_by t (to_polygons (triangles t)) k (coords v) (incident t k) = Ok order /\ NoDup order /\ (forall j, In j order <-> tri_uses t j k) /\ tri_neighbours_of t k order (vpolys v)).
    { intros k v Hk. destruct (Hverts k v Hk) as (ids & _ & Ev & order & EO & P & Hn). exists order. split; [exact EO|]. split; [|split].
      - apply (Permutation_NoDup P). now apply incident_NoDup.
      - intro j. rewrite <- (incident_In t k j Ht). split; intro H; [apply (Permutation_in _ (Permutation_sym P) H)|apply (Permutation_in _ P H)].
      - rewrite Ev. exact Hn. }
    assert (Hin : input_ok vts ps).
    { split.
      - intros p Hp vi Hvi. rewrite Hps in Hp. apply in_map_iff in Hp. destruct Hp as (x & <- & Hx). apply In_nthN in Hx. destruct Hx as [i Hx].
        destruct (tri_distinct t i x Ht Hx) as [_ B]. unfold lengthN in *. rewrite Hlen. now apply B.
      - intros v Hv j Hj Hjm. apply In_nthN in Hv. destruct Hv as [k Hk]. destruct (Hids k v Hk) as (order & _ & _ & Ho & chunks & E & FF).
        rewrite E in Hj. apply in_concat in Hj. destruct Hj as (ch & Hch & Hj). apply In_nthN in Hch. destruct Hch as [n Hch].
        destruct (Forall2_nthN_r _ _ _ FF _ _ Hch) as ((i0 & j0) & He & Hcase). cbn [fst snd] in Hcase.
        assert (j = j0). { destruct Hcase as [[_ ->]|[_ ->]]; simpl in Hj; [destruct Hj as [Hj|[]]; congruence|]. destruct Hj as [<-|[<-|[]]]; [contradiction|reflexivity]. } subst j0.
        assert (In j order). { apply nthN_In in He. unfold edge_list in He. apply in_combine_r in He. apply in_app_iff in He. destruct order as [|z order]; [destruct He as [[]|[]]|].
          destruct He as [He|He]; simpl in He; [now right|]. destruct He as [<-|[]]. now left. }
        apply Ho in H. destruct H as (x & Hx & _). apply nthN_Some_lt in Hx. rewrite Hps. unfold lengthN in *. rewrite map_length. lia. }
    assert (Hne : vts = [] <-> tri_vertices t = []).
    { split; intro E; [|]; apply length_zero_iff_nil; [rewrite <- Hlen|rewrite Hlen]; now rewrite E. }
    assert (Hpne : tri_vertices t <> [] -> ps <> []).
    { intros Hv E. destruct (tri_vertices t) as [|c r] eqn:Ec; [congruence|]. destruct (Hused 0) as (i & x & Hx & _); [unfold lengthN; simpl; lia|].
      apply nthN_Some_lt in Hx. rewrite Hps in E. apply map_eq_nil in E. rewrite E in Hx. unfold lengthN in Hx. simpl in Hx. lia. }
    assert (Hlp : lengthN ps = lengthN (triangles t)) by (rewrite Hps; unfold lengthN; now rewrite map_length).
    destruct (C02_layer_new vts ps) as (C1 & C2 & C3 & C4 & C5). destruct (C02_mesh_new vts ps) as [M1 M2].
    assert (Hbig : tri_vertices t = [] \/ (tri_vertices t <> [] /\ 2^24 <= lengthN ps) \/ (tri_vertices t <> [] /\ lengthN ps < 2^24)).
    { destruct (tri_vertices t); [now left|right]. destruct (N.lt_ge_cases (lengthN ps) (2^24)); [right|left]; (split; [discriminate|assumption]). }
    destruct Hbig as [Hb|[[Hb Hb2]|[Hb Hb2]]].
    + exists (Err EmptyMesh). rewrite (proj2 (M1 EmptyMesh)) by (apply C1; left; now apply Hne). split; [reflexivity|]. split; [tauto|].
      split; [split; [discriminate|tauto]|]. split; [discriminate|]. intros; contradiction.
    + exists (Err TooManyPolygons). rewrite (proj2 (M1 TooManyPolygons)) by (apply C2; split; [rewrite Hne; assumption|assumption]). split; [reflexivity|]. split; [split; [discriminate|contradiction]|].
      split; [split; [discriminate|tauto]|]. split; [discriminate|]. intros; lia.
    + destruct C5 as [l Hl]; try assumption; [rewrite Hne; assumption|now apply Hpne|]. destruct (C4 l Hl) as (V1 & V2 & V3).
      exists (Done (mkMesh [l] (flit 1 10) 2)). rewrite (proj2 (M2 (mkMesh [l] (flit 1 10) 2))) by (exists l; auto). split; [reflexivity|]. split; [split; [discriminate|contradiction]|].
      split; [split; [discriminate|tauto]|]. split; [|eauto]. intros m [= <-]. exists l. split; [reflexivity|]. split; [assumption|]. split; [now rewrite V2|].
      rewrite V1. split; [assumption|]. intros i v Hv. destruct (Hverts i v Hv) as (ids & Hc & Ev & _). split; [assumption|]. split; [|now apply Hids].
      rewrite Ev. cbn [is_corner vpolys vertex_new]. apply memN_In.
Qed.
(** C37 *)
Theorem C37_conversion t : tri_ok t -> exists o, mesh_of_trimesh sort_by t = Ok o /\
  (o = Err EmptyMesh <-> tri_vertices t = []) /\
  (o = Err InvalidMesh <-> exists v, v < lengthN (tri_vertices t) /\ forall i, ~ tri_uses t i v) /\
  (forall m, o = Done m -> exists l, layers m = [l] /\ offset l = vzero /\
     polygons l = map (fun x => mkPolygon (tri_list x) (N.eqb (lengthN (triangles t)) 1)) (triangles t) /\
     length (vertices l) = length (tri_vertices t) /\
     forall i v, nthN (vertices l) i = Some v ->
       nthN (tri_vertices t) i = Some (coords v) /\ (is_corner v = true <-> In MAX (vpolys v)) /\
       exists order, NoDup order /\ (forall j, In j order <-> tri_uses t j i) /\ tri_neighbours_of t i order (vpolys v)) /\
  ((forall v, v < lengthN (tri_vertices t) -> exists i, tri_uses t i v) -> tri_vertices t <> [] -> lengthN (triangles t) < 2^24 -> exists m, o = Done m).
Proof.
  intro Ht. destruct (conversion t Ht) as (o & H1 & H2 & H3 & H4 & H5). exists o. split; [exact H1|]. split; [exact H2|]. split; [exact H3|]. split; [|exact H5].
  intros m Em. destruct (H4 m Em) as (l & L1 & L2 & L3 & L4 & L5). exists l. split; [exact L1|]. split; [exact L2|]. split; [exact L3|]. split; [exact L4|].
  intros i v Hv. destruct (L5 i v Hv) as (V1 & V2 & order & _ & V3). split; [exact V1|]. split; [exact V2|]. exists order. exact V3.
Qed.
End Any.

(** a hexagon around vertex 0: six triangles, listed two steps apart *)
Definition fan : Trimesh F32 := mkTrimesh [pt 0 0; pt 2 0; pt 1 2; pt (-1) 2; pt (-2) 0; pt (-1) (-2); pt 1 (-2)]
  [(0, 1, 2); (0, 3, 4); (0, 5, 6); (0, 2, 3); (0, 4, 5); (0, 6, 1)].
Definition fan_sorted : Trimesh F32 := mkTrimesh [pt 0 0; pt 2 0; pt 1 2; pt (-1) 2; pt (-2) 0; pt (-1) (-2); pt 1 (-2)]
  [(0, 1, 2); (0, 2, 3); (0, 3, 4); (0, 4, 5); (0, 5, 6); (0, 6, 1)].

(** Non-vacuity of C37: the input of the code's own test and the insertion sort core uses on short lists. *)
Definition tri_okb {A} (t : Trimesh A) : bool :=
  N.leb (lengthN (tri_vertices t)) (2^32) && N.ltb (lengthN (triangles t)) (2^32 - 1) &&
  forallb (fun x => let n := lengthN (tri_vertices t) in let '(a, b, c) := x in
    N.ltb a n && N.ltb b n && N.ltb c n && negb (N.eqb a b) && negb (N.eqb b c) && negb (N.eqb c a)) (triangles t).
Lemma tri_okb_ok {A} (t : Trimesh A) : tri_okb t = true -> tri_ok t.
Proof.
  unfold tri_okb, tri_ok. rewrite !andb_true_iff, N.leb_le, N.ltb_lt, forallb_forall. intros ((H1 & H2) & H3). split; [assumption|]. split; [assumption|].
  intros a b c Hin. specialize (H3 _ Hin). cbn in H3. rewrite !andb_true_iff, !negb_true_iff, !N.ltb_lt, !N.eqb_neq in H3. tauto.
Qed.
Lemma insert_right_perm {T} (cmp : T -> T -> comparison) x s : Permutation (x :: s) (insert_right cmp x s).
Proof.
  induction s as [|y s IH]; cbn [insert_right]; [reflexivity|]. destruct (cmp x y); try reflexivity.
  rewrite perm_swap. now constructor.
Qed.
Lemma small_sort_perm {T} (cmp : T -> T -> comparison) l : exists s, small_sort cmp l = Ok s /\ Permutation l s.
Proof.
  eexists. split; [reflexivity|]. rewrite <- Permutation_rev.
  assert (G : forall l acc, Permutation (acc ++ l) (fold_left (fun acc x => insert_right cmp x acc) l acc)).
  { clear l. induction l as [|x l IH]; intro acc; cbn [fold_left]; [now rewrite app_nil_r|]. rewrite <- IH, <- (insert_right_perm cmp x acc).
    symmetry. apply (Permutation_middle acc l x). }
  apply (G l []).
Qed.
Example C37_hyps : tri_ok test_trimesh /\ (forall cmp (l : list (N * vec2 F32)), exists s, small_sort cmp l = Ok s /\ Permutation l s) /\
  match mesh_of_trimesh small_sort test_trimesh with Ok (Done m) => N.eqb (lengthN (layers m)) 1 | _ => false end = true.
Proof. split; [apply tri_okb_ok; vmc|]. split; [intros; apply small_sort_perm|vmc]. Qed.

(** C38: what sort_by asks of the comparison it is given, for the elements of the list. *)
Definition total_order {T} (cmp : T -> T -> comparison) (l : list T) : Prop :=
  (forall a, In a l -> cmp a a = Eq) /\
  (forall a b, In a l -> In b l -> cmp b a = CompOpp (cmp a b)) /\
  (forall a b c, In a l -> In b l -> In c l -> cmp a b = Lt -> cmp b c = Lt -> cmp a c = Lt).

(** The comparison is never reflexive, in any arithmetic: no non-empty list is ordered by it. *)
Theorem C38_refuted {A : Arith} (a : N * vec2 A) l : ~ total_order tri_cmp (a :: l).
Proof.
  intros (H & _). specialize (H a (or_introl eq_refl)). unfold tri_cmp in H. destruct (fgt _ _) in H; discriminate.
Qed.
(** Nor is it transitive on the edges that leave the centre of the hexagon: they are ordered in a circle. *)
Theorem C38_circle_refuted :
  let e i := (i, nth (N.to_nat i) (tri_vertices fan) (pt 0 0)) in
  tri_cmp (e 2) (e 4) = Lt /\ tri_cmp (e 4) (e 6) = Lt /\ tri_cmp (e 6) (e 2) = Lt.
Proof. intro e. repeat apply conj; vmc. Qed.
(** So the neighbours of a vertex depend on how the triangles are listed: the centre of the same hexagon is surrounded by the mesh
    for one list, and becomes a corner with outside on both sides of every triangle for the other.  The second is not what the
    geometry says: triangles 0 and 3 share the edge from the centre to vertex 2. *)
Theorem C38_listing_refuted :
  Permutation (triangles fan) (triangles fan_sorted) /\ tri_vertices fan = tri_vertices fan_sorted /\
  hd [] (hd [] (tri_neighbours fan_sorted)) = [1; 2; 3; 4; 5; 0] /\
  hd [] (hd [] (tri_neighbours fan)) = [MAX; 1; MAX; 2; MAX; 3; MAX; 4; MAX; 5; 0] /\
  tri_glued fan 0 0 3.
Proof.
  split; [|split; [reflexivity|]; split; [vmc|]; split; [vmc|]].
  - cbn [triangles fan fan_sorted]. constructor.
    apply (Permutation_cons_app [(0,2,3)] _ (0, 3, 4)). cbn [app].
    apply (Permutation_cons_app [(0,2,3); (0,4,5)] _ (0, 5, 6)). cbn [app]. reflexivity.
  - exists (0, 1, 2), (0, 2, 3), 2. split; [reflexivity|]. split; [reflexivity|]. unfold edge_list, tri_list. cbn. tauto.
Qed.

(** What does hold, in exact arithmetic: on edges of different directions inside an open half plane (as around a convex corner of
    the mesh) different edges are ordered, by their angle.  [e x] is the edge of the element x. *)
Open Scope R_scope.
Lemma cross_trans d a b c : 0 < pdot d a -> 0 < pdot d b -> 0 < pdot d c -> 0 < cross a b -> 0 < cross b c -> 0 < cross a c.
Proof.
  intros Ha Hb Hc H1 H2. assert (E : cross a c * pdot d b = cross a b * pdot d c + cross b c * pdot d a) by (unfold cross, pdot; ring).
  assert (0 < cross a b * pdot d c) by now apply Rmult_lt_0_compat. assert (0 < cross b c * pdot d a) by now apply Rmult_lt_0_compat.
  apply (Rmult_lt_reg_r (pdot d b)); [assumption|]. lra.
Qed.
Lemma tri_cmp_R i j a b : (tri_cmp (i, vp a) (j, vp b) = Lt <-> 0 < cross a b) /\ (tri_cmp (i, vp a) (j, vp b) = Gt <-> cross a b <= 0).
Proof.
  unfold tri_cmp. cbn [snd]. rewrite perp_dot_vp, fz_R. change (@fgt RA (Some (cross a b)) (Some 0)) with (rltb 0 (cross a b)).
  destruct (rltb 0 (cross a b)) eqn:E; [apply rltb_true in E|apply rltb_false in E]; split; split; try discriminate; try reflexivity; auto; lra.
Qed.
Theorem C38_half_plane_partial d (l : list (N * P2)) :
  Forall (fun x => 0 < pdot d (snd x)) l ->
  (forall x y, In x l -> In y l -> x <> y -> cross (snd x) (snd y) <> 0) ->
  let cmp x y := tri_cmp (fst x, vp (snd x)) (fst y, vp (snd y)) in
  (forall x y, In x l -> In y l -> x <> y -> cmp y x = CompOpp (cmp x y)) /\
  (forall x y z, In x l -> In y l -> In z l -> cmp x y = Lt -> cmp y z = Lt -> cmp x z = Lt) /\
  (forall x y, In x l -> In y l -> (cmp x y = Lt <-> 0 < cross (snd x) (snd y))).
Proof.
  intros Hd Hn cmp. rewrite Forall_forall in Hd.
  assert (Hc : forall x y, cmp x y = Lt <-> 0 < cross (snd x) (snd y)) by (intros; apply tri_cmp_R).
  assert (Hg : forall x y, cmp x y = Gt <-> cross (snd x) (snd y) <= 0) by (intros; apply tri_cmp_R).
  assert (Ho : forall x y, cross y x = - cross x y) by (intros; unfold cross; ring).
  split; [|split]; [| |intros; apply Hc].
  - intros x y Hx Hy Hxy. specialize (Hn x y Hx Hy Hxy). destruct (Rlt_dec 0 (cross (snd x) (snd y))) as [H|H].
    + rewrite (proj2 (Hc x y) H). cbn [CompOpp]. apply Hg. rewrite Ho. lra.
    + rewrite (proj2 (Hg x y)) by lra. cbn [CompOpp]. apply Hc. rewrite Ho. lra.
  - intros x y z Hx Hy Hz H1 H2. rewrite Hc in *. apply (cross_trans d (snd x) (snd y) (snd z)); auto.
Qed.
Example C38_half_plane_hyps : Forall (fun x : N * P2 => 0 < pdot (P 0 1) (snd x)) [(0%N, P 1 1); (1%N, P 0 1); (2%N, P (-1) 1)] /\
  (forall x y, In x [(0%N, P 1 1); (1%N, P 0 1); (2%N, P (-1) 1)] -> In y [(0%N, P 1 1); (1%N, P 0 1); (2%N, P (-1) 1)] -> x <> y -> cross (snd x) (snd y) <> 0).
Proof.
  split; [repeat constructor; unfold pdot; simpl; lra|].
  intros x y [<-|[<-|[<-|[]]]] [<-|[<-|[<-|[]]]] H; unfold cross; simpl; try lra; exfalso; apply H; reflexivity.
Qed.
Close Scope R_scope.

Print Assumptions C37_conversion.
Print Assumptions C38_refuted.
Print Assumptions C38_circle_refuted.
Print Assumptions C38_listing_refuted.
Print Assumptions C38_half_plane_partial.
