(** C72: a mesh cut into layers that are stitched together behaves like the mesh in one piece. *)
From Coq Require Import List NArith ZArith Bool Lia Permutation.
From Verif Require Import Base Arith U32 Mesh Helpers Locate Cleanup Stitch Cleanup_facts Stitch_facts StitchPoints_facts Search AsyncPath StdLib Spec Spec_mesh Spec_alike Spec_relayer Spec_split Search_props File_facts Properties_mesh Properties_stitch Properties_async Properties_relayer Split.
Import ListNotations.
Open Scope N_scope.

Lemma Forall2_In_r {X Y} (R : X -> Y -> Prop) xs ys y : Forall2 R xs ys -> In y ys -> exists x, In x xs /\ R x y.
Proof. intros H Hy. induction H as [|a b xs ys H1 H2 IH]; [destruct Hy|]. destruct Hy as [<- |Hy]; [exists a; split; [now left|assumption]|]. destruct (IH Hy) as (x & Hx & HR). exists x. split; [now right|assumption]. Qed.

Section Whole.
Context {A : Arith}.
Variables (sort : list (Z * N) -> list (Z * N)) (W parts m m' : Mesh A) (lw : Layer A) (new : N -> N) (S : list ((N * N) * list (N * N))).
Hypotheses (Hsort : sort_ok sort) (HW : layers W = [lw]) (HC : cut lw parts new) (HS : sewn parts S) (HD : directions_differ W).
Hypotheses (E1 : reorder sort W = Ok m) (E2 : stitch_at_vertices sort parts S false = Ok m').

Lemma whole_layer : exists lw1, layers m = [lw1] /\ polygons lw1 = polygons lw /\ islands lw1 = islands lw.
Proof using Hsort HW E1.
  destruct (reorder_vertices sort Hsort W m E1) as [(_ & _ & G) _]. rewrite HW in G. inversion G as [|? lw1 ? r (G1 & _ & _ & G2 & _) H]; subst. inversion H; subst. exists lw1. auto.
Qed.
Lemma whole_polygon id l p : id < 2^32 -> polygon_at m id l p -> layers m = [l] /\ nthN (polygons lw) id = Some p.
Proof using Hsort HW HC E1.
  intros HI [H1 H2]. destruct whole_layer as (lw1 & L & P & _). rewrite L in H1. pose proof (nthN_Some_lt _ _ _ H1) as HL. cbn in HL. assert (Z : id_layer id = 0) by lia.
  rewrite Z in H1. cbn in H1. inversion H1; subst l. split; [exact L|]. rewrite <- P. pose proof (id_parts id HI) as Q. rewrite Z in Q. rewrite N.mul_0_l, N.add_0_l in Q. rewrite <- Q in H2. exact H2.
Qed.
Lemma whole_is_polygon id : is_polygon m id -> id < lengthN (polygons lw).
Proof using Hsort HW HC E1. intros (H1 & l & p & H2). destruct (whole_polygon id l p H1 H2) as [_ H]. exact (nthN_Some_lt _ _ _ H). Qed.

Lemma renumbered_whole : renumbered new m m'.
Proof using Hsort HW HC HS HD E1 E2.
  constructor.
  - exact (cu_none _ _ _ HC).
  - intros id H. apply (new_small parts lw new HC). now apply whole_is_polygon.
  - intros a b Ha Hb. apply (cu_inj _ _ _ HC); now apply whole_is_polygon.
  - intros id l p HI HP. destruct (whole_polygon id l p HI HP) as [HL Hp]. destruct (part_of parts lw new HC id p Hp) as (li & pi & lp & p' & E & _ & _ & H1 & _ & H3 & H4 & [H5 H6]).
    destruct (stitched parts lw new HC sort S m' Hsort HS E2) as (Gp & _ & _). pose proof Gp as (_ & _ & Gl).
    destruct (Forall2_nthN _ _ _ Gl _ _ H5) as (l1 & L1 & Q1 & _). destruct (Forall2_nthN _ _ _ Gl _ _ H1) as (l2 & L2 & _).
    destruct (part_small parts lw new HC (id_layer (new id)) lp (id_polygon (new id)) p' H5 H6) as [S1 S2].
    exists l1, p'. split; [split; [exact L1|now rewrite Q1]|]. split; [exact H3|].
    assert (G : forall i vi, same_point lw lp i vi -> vertex_same new l l1 i vi).
    { intros i vi HP'. apply (vertex_new W parts lw new HW HC sort S m m' Hsort HS HD E1 E2 (id_layer (new id)) lp i vi l l1 H5 HP'); [rewrite HL; reflexivity|exact L1]. }
    clear -H4 G. induction H4; constructor; auto.
Qed.
Lemma known_whole : ids_known m.
Proof using Hsort HW HC E1.
  intros l v id Hl Hv Hid. destruct (N.eq_dec id MAX) as [D|D]; [now left|right]. destruct whole_layer as (lw1 & L & P & _). rewrite L in Hl. destruct Hl as [<- |[]].
  apply In_nthN in Hv. destruct Hv as [vi Hv]. assert (G : lists m 0 vi id) by (exists v; split; [exists lw1; rewrite L; auto|auto]).
  destruct (C29_reorder_keeps_neighbours sort W m Hsort E1) as (_ & G2 & _). apply G2 in G. destruct G as (v0 & (l0 & L0 & V0) & I0 & _). rewrite HW in L0. cbn in L0. inversion L0; subst l0.
  destruct (has_polygon parts lw new HC vi id) as (p & Hp & _); [exists v0; auto|]. pose proof (whole_small parts lw new HC id p Hp) as HK. split; [lia|]. exists lw1, p. split; [rewrite L|];
  rewrite ?id_layer_eq, ?id_polygon_eq, ?N.div_small, ?N.mod_small by lia; [reflexivity|now rewrite P].
Qed.

Lemma map_nodup {X Y} (f : X -> Y) l : (forall x y, In x l -> In y l -> f x = f y -> x = y) -> NoDup l -> NoDup (map f l).
Proof.
  intros HI H. induction H as [|a r Ha H IH]; [constructor|]. cbn [map]. constructor; [|apply IH; intros x y Hx Hy; apply HI; now right].
  intro Q. apply in_map_iff in Q. destruct Q as (b & E & Hb). apply HI in E; [subst b; contradiction|now right|now left].
Qed.
Definition all_ids (ls : list (N * Layer A)) : list N := flat_map (fun il => map (fun k => id_make (fst il) (N.of_nat k)) (seq 0 (length (polygons (snd il))))) ls.
Lemma all_ids_len k (ls : list (Layer A)) : length (all_ids (enum_from k ls)) = list_sum (map (fun l => length (polygons l)) ls).
Proof.
  revert k. induction ls as [|l r IH]; intro k; [reflexivity|]. unfold all_ids in *. cbn [enum_from flat_map fst snd map list_sum fold_right]. rewrite app_length, map_length, seq_length. f_equal. apply IH.
Qed.
Lemma all_ids_In k (ls : list (Layer A)) id : In id (all_ids (enum_from k ls)) <-> exists i l pi, nthN ls i = Some l /\ pi < lengthN (polygons l) /\ id = id_make (k + i) pi.
Proof.
  unfold all_ids. rewrite in_flat_map. split.
  - intros ([j l] & H1 & H2). apply enum_from_spec in H1. destruct H1 as (H1 & H3). cbn [fst snd] in H2. apply in_map_iff in H2. destruct H2 as (n & <- & Hn). apply in_seq in Hn.
    exists (j - k), l, (N.of_nat n). split; [exact H3|]. split; [unfold lengthN; lia|]. f_equal. lia.
  - intros (i & l & pi & H1 & H2 & ->). exists (k + i, l). split; [apply enum_from_spec; split; [lia|]; now replace (k + i - k) with i by lia|]. cbn [fst snd]. apply in_map_iff.
    exists (N.to_nat pi). split; [now rewrite N2Nat.id|]. apply in_seq. unfold lengthN in H2. lia.
Qed.
Lemma all_ids_nodup (ls : list (Layer A)) : forall k, k + lengthN ls <= 256 -> (forall l, In l ls -> lengthN (polygons l) <= 2^24 - 1) -> NoDup (all_ids (enum_from k ls)).
Proof.
  induction ls as [|l r IH]; intros k HK HL; [constructor|]. unfold all_ids. cbn [enum_from flat_map fst snd]. fold (all_ids (enum_from (N.succ k) r)).
  assert (LR : k + 1 + lengthN r <= 256) by (unfold lengthN in *; cbn [length] in HK; lia).
  assert (HP : lengthN (polygons l) <= 2^24 - 1) by (apply HL; now left). unfold lengthN in HP.
  apply Merger_facts.NoDup_app_intro.
  - apply map_nodup; [|apply seq_NoDup]. intros x y Hx Hy E. apply in_seq in Hx, Hy. apply make_inj in E; lia.
  - apply IH; [lia|]. intros x Hx. apply HL. now right.
  - intros x Hx Hx'. apply in_map_iff in Hx. destruct Hx as (n & <- & Hn). apply in_seq in Hn. apply all_ids_In in Hx'. destruct Hx' as (i & l' & pi & H1 & H2 & E).
    pose proof (nthN_Some_lt _ _ _ H1). pose proof (HL l' (or_intror (nthN_In _ _ _ H1))). apply make_inj in E; lia.
Qed.
Lemma many_whole : as_many m m'.
Proof using Hsort HW HC HS E1 E2.
  destruct whole_layer as (lw1 & L & P & _). destruct (stitched parts lw new HC sort S m' Hsort HS E2) as ((_ & _ & Gl) & _ & _). unfold as_many. rewrite L. cbn [map list_sum fold_right]. rewrite P, Nat.add_0_r.
  assert (EQ : map (fun l => length (polygons l)) (layers m') = map (fun l => length (polygons l)) (layers parts)).
  { clear -Gl. induction Gl as [|l l' r r' (G & _) _ IH]; [reflexivity|]. cbn [map]. now rewrite G, IH. }
  rewrite EQ, <- (all_ids_len 0). destruct (cu_small _ _ _ HC) as [SW [S1 S2]].
  transitivity (length (map new (map N.of_nat (seq 0 (length (polygons lw)))))); [now rewrite !map_length, seq_length|]. apply Permutation_length. apply NoDup_Permutation.
  - apply map_nodup.
    + intros x y Hx Hy. apply in_map_iff in Hx, Hy. destruct Hx as (a & <- & Ha), Hy as (b & <- & Hb). apply in_seq in Ha, Hb. apply (cu_inj _ _ _ HC); unfold lengthN; lia.
    + apply map_nodup; [intros x y _ _; lia|apply seq_NoDup].
  - apply all_ids_nodup; [lia|exact S2].
  - intro x. rewrite all_ids_In, in_map_iff. split.
    + intros (k & <- & Hk). apply in_map_iff in Hk. destruct Hk as (n & <- & Hn). apply in_seq in Hn. destruct (nthN_lt_Some (polygons lw) (N.of_nat n)) as [p Hp]; [unfold lengthN; lia|].
      destruct (cu_polygon _ _ _ HC _ p Hp) as (li & pi & l & p' & E & H1 & H2 & _). exists li, l, pi. split; [exact H1|]. split; [exact (nthN_Some_lt _ _ _ H2)|]. now rewrite N.add_0_l.
    + intros (li & l & pi & H1 & H2 & ->). destruct (nthN_lt_Some _ _ H2) as [p' Hp']. destruct (cu_onto _ _ _ HC li pi l p' H1 Hp') as (k & K1 & K2).
      exists k. split; [now rewrite N.add_0_l|]. apply in_map_iff. exists (N.to_nat k). split; [now rewrite N2Nat.id|]. apply in_seq. unfold lengthN in K1. lia.
Qed.
End Whole.

Section Results.
Context {A : Arith}.
Variables (sort : list (Z * N) -> list (Z * N)) (lib : Lib A) (W parts m m' : Mesh A) (lw : Layer A) (new : N -> N) (S : list ((N * N) * list (N * N))).

(** [m]: the mesh [W] with one layer, its neighbours ordered; [m']: the layers it was cut into, stitched at all the common vertices. *)
Record cut_and_stitched : Prop := {
  cs_sort : sort_ok sort;
  cs_layer : layers W = [lw];
  cs_cut : cut lw parts new;
  cs_sewn : sewn parts S;
  cs_directions : directions_differ W;
  cs_whole : reorder sort W = Ok m;
  cs_stitched : stitch_at_vertices sort parts S false = Ok m'
}.

(** Every polygon is where it was, has the same neighbours in the same order, and its vertices are corners iff they were. *)
Theorem C72_stitched_parts_are_the_whole : cut_and_stitched -> renumbered new m m' /\ ids_known m /\ as_many m m'.
Proof.
  intros [H1 H2 H3 H4 H5 H6 H7]. split; [exact (renumbered_whole sort W parts m m' lw new S H1 H2 H3 H4 H5 H6 H7)|].
  split; [exact (known_whole sort W parts m lw new H1 H2 H3 H6)|exact (many_whole sort W parts m m' lw new S H1 H2 H3 H4 H6 H7)].
Qed.

(** A search between the same places has the same result on both. *)
Theorem C72_same_path (from to from' to' : Coords A) ps pe : pop_blind (lpop lib) -> cut_and_stitched ->
  is_polygon m ps -> is_polygon m pe -> joined m ps pe -> joined m' (new ps) (new pe) ->
  cpos from' = cpos from -> cpos to' = cpos to -> located lib m from ps -> located lib m to pe -> located lib m' from' (new ps) -> located lib m' to' (new pe) ->
  path lib m' from' to' = path lib m from to.
Proof.
  intros HP HC K1 K2 J J' F1 F2 L1 L2 L3 L4. destruct (C72_stitched_parts_are_the_whole HC) as (R1 & R2 & R3).
  apply (C71_same_path new m m' lib ps pe from to from' to' [] [] HP); auto; [constructor; assumption|apply none_blocked].
Qed.
Theorem C72_same_future (from to : vec2 A) ps pe k : pop_blind (lpop lib) -> cut_and_stitched ->
  is_polygon m ps -> is_polygon m pe -> ~ separated m ps pe -> ~ separated m' (new ps) (new pe) -> mesh_small m' -> islands_fit m -> islands_fit m' ->
  get_point_location (lbvh lib) m (coords_on_mesh from) = Ok ps -> get_point_location (lbvh lib) m (coords_on_mesh to) = Ok pe ->
  get_point_location (lbvh lib) m' (coords_on_mesh from) = Ok (new ps) -> get_point_location (lbvh lib) m' (coords_on_mesh to) = Ok (new pe) ->
  poll_times k lib (get_path m' from to) = poll_times k lib (get_path m from to).
Proof.
  intros HP HC K1 K2 J J' S2 I1 I2 L1 L2 L3 L4. destruct (C72_stitched_parts_are_the_whole HC) as (R1 & R2 & R3). destruct HC as [H1 H2 H3 H4 H5 H6 H7].
  assert (S1 : mesh_small m).
  { destruct (whole_layer sort W m lw H1 H2 H6) as (lw1 & L & P & _). split; [rewrite L; cbn; lia|]. intros l Hl. rewrite L in Hl. destruct Hl as [<- |[]]. rewrite P. exact (proj1 (cu_small _ _ _ H3)). }
  apply (C71_same_future new m m' lib ps pe from to k HP); auto. constructor; assumption.
Qed.
End Results.

(** The stitch points found by the library are exactly the common vertices (the comparison of the coordinates being exact). *)
Section Found.
Context {A : Arith}.
Definition exact_points (parts : Mesh A) : Prop := forall l l' v v', In l (layers parts) -> In l' (layers parts) -> In v (vertices l) -> In v' (vertices l') ->
  (veq (coords v) (coords v') = true <-> coords v = coords v').
Theorem C72_found_points_are_the_common_ones (parts : Mesh A) lw new S : cut lw parts new -> exact_points parts ->
  points_to_vertices parts (find_stitch_points parts) = Ok S -> sewn parts S.
Proof.
  intros HC HX H. destruct (cu_small _ _ _ HC) as [_ [HL _]]. destruct (find_spec parts HL) as (_ & _ & HF). apply points_to_vertices_spec in H.
  assert (HP : forall a b p, (exists ps, In ((a, b), ps) (find_stitch_points parts) /\ In p ps) <-> In ((a, b), p) (common_points (layers parts))) by (intros; apply HF).
  (* a vertex found by its coordinates *)
  assert (FI : forall li p f l v vi, first_at parts li p f -> nthN (layers parts) li = Some l -> nthN (vertices l) vi = Some v -> p = coords v -> f = vi).
  { intros li p f l v vi (l0 & v0 & F1 & F2 & F3 & _) L V ->. assert (l0 = l) by congruence. subst l0. apply (HX l l v0 v) in F3; try (eapply nthN_In; eassumption).
    destruct (cu_parts _ _ _ HC l (nthN_In _ _ _ L)) as [[_ _ HD] _]. apply HD. exists v0, v. auto. }
  assert (PS : forall a b vi vj ps, In ((a, b), ps) S -> In (vi, vj) ps ->
     a <> b /\ exists l l', nthN (layers parts) a = Some l /\ nthN (layers parts) b = Some l' /\ same_point l l' vi vj).
  { intros a b vi vj ps H1 H2. destruct (Forall2_In_r _ _ _ _ H H1) as ([k qs] & G1 & G2 & G3). cbn [fst snd] in *. subst k.
    destruct (Forall2_In_r _ _ _ _ G3 H2) as (p & P1 & (P2 & P3)). cbn [fst snd] in *.
    assert (G : In ((a, b), p) (common_points (layers parts))) by (apply HP; eauto). apply common_points_In in G; [|exact HL]. destruct G as (Hab & v & w & la & lb & A1 & A2 & A3 & A4 & A5 & ->).
    split; [lia|]. exists la, lb. split; [exact A1|]. split; [exact A2|]. apply In_nthN in A3. destruct A3 as [xi Xi]. apply In_nthN in A4. destruct A4 as [xj Xj].
    assert (EE : coords v = coords w) by (apply (HX la lb v w); try assumption; eapply nthN_In; eassumption).
    rewrite (FI a _ vi la v xi P2 A1 Xi eq_refl), (FI b _ vj lb w xj P3 A2 Xj EE). exists v, w. auto. }
  assert (SP : forall a b vi vj l l', a < b -> nthN (layers parts) a = Some l -> nthN (layers parts) b = Some l' -> same_point l l' vi vj -> exists ps, In ((a, b), ps) S /\ In (vi, vj) ps).
  { intros a b vi vj l l' Hab L1 L2 (v & w & V1 & V2 & V3). assert (EE : veq (coords v) (coords w) = true) by (apply (HX l l' v w); try (eapply nthN_In; eassumption); now symmetry).
    assert (G : In ((a, b), coords v) (common_points (layers parts))).
    { apply common_points_In; [exact HL|]. split; [exact Hab|]. exists v, w, l, l'. repeat (split; [first [assumption|eapply nthN_In; eassumption]|]). auto. }
    apply HP in G. destruct G as (ps & G1 & G2). destruct (File_facts.Forall2_In_l _ _ _ _ H G1) as ([k qs] & Q1 & Q2 & Q3). cbn [fst snd] in *. subst k.
    destruct (File_facts.Forall2_In_l _ _ _ _ Q3 G2) as ([f t] & R1 & R2 & R3). cbn [fst snd] in *. exists qs. split; [exact Q1|].
    rewrite (FI a _ f l v vi R2 L1 V1 eq_refl), (FI b _ t l' w vj R3 L2 V2 (eq_sym V3)) in R1. exact R1. }
  split.
  - intros a b ps H1. destruct (Forall2_In_r _ _ _ _ H H1) as ([k qs] & G1 & G2 & G3). cbn [fst snd] in *. subst k.
    assert (NE : qs <> []) by (apply (proj1 (proj2 (find_spec parts HL)) (a, b) qs G1)). destruct qs as [|q0 qs]; [congruence|].
    assert (G : In ((a, b), q0) (common_points (layers parts))) by (apply HP; exists (q0 :: qs); split; [exact G1|now left]).
    apply common_points_In in G; [|exact HL]. destruct G as (Hab & v & w & la & lb & A1 & A2 & _). split; [lia|]. split; [eauto|]. split; [eauto|].
    intros f t Hft. destruct (PS a b f t ps H1 Hft) as (_ & l & l' & L1 & L2 & (x & y & X & Y & _)). split; [exists x, l; auto|exists y, l'; auto].
  - intros li vi lj vj. split.
    + intros [(ps & H1 & H2)|(_ & ps & H1 & H2)]; [exact (PS li lj vi vj ps H1 H2)|]. destruct (PS lj li vj vi ps H1 H2) as (D & l & l' & L1 & L2 & P). split; [congruence|]. exists l', l. split; [exact L2|]. split; [exact L1|]. now apply point_sym.
    + intros (D & l & l' & L1 & L2 & P). destruct (N.lt_trichotomy li lj) as [Q|[Q|Q]]; [left; exact (SP li lj vi vj l l' Q L1 L2 P)|contradiction|right].
      split; [reflexivity|]. exact (SP lj li vj vi l' l Q L2 L1 (point_sym _ _ _ _ P)).
Qed.

(** All in one: cut a mesh into layers, let the library find the stitch points and stitch: the paths are the same. *)
Theorem C72_cut_find_stitch sort lib (W parts m m' : Mesh A) lw new (from to from' to' : Coords A) ps pe :
  sort_ok sort -> pop_blind (lpop lib) -> layers W = [lw] -> cut lw parts new -> exact_points parts -> directions_differ W ->
  reorder sort W = Ok m -> stitch_at_points sort parts (find_stitch_points parts) false = Ok m' ->
  is_polygon m ps -> is_polygon m pe -> joined m ps pe -> joined m' (new ps) (new pe) ->
  cpos from' = cpos from -> cpos to' = cpos to -> located lib m from ps -> located lib m to pe -> located lib m' from' (new ps) -> located lib m' to' (new pe) ->
  path lib m' from' to' = path lib m from to.
Proof.
  intros Hs HP HW HC HX HD E1 E2 K1 K2 J J' F1 F2 L1 L2 L3 L4. unfold stitch_at_points in E2. inv_bind E2. rename a into S.
  pose proof (C72_found_points_are_the_common_ones parts lw new S HC HX E) as HS.
  apply (C72_same_path sort lib W parts m m' lw new S from to from' to' ps pe HP); auto. constructor; auto.
Qed.
End Found.
Print Assumptions C72_cut_find_stitch.
