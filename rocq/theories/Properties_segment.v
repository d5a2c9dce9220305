(** C56: the vertices on a segment. *)
From Coq Require Import List NArith ZArith Bool Lia Permutation Sorting.Sorted.
From Verif Require Import Base Arith U32 Mesh Helpers Locate Segment Spec.
From Verif Require Import Bake_facts Islands_facts Stitch_facts Merger_facts.
Import ListNotations.
Open Scope N_scope.

Section C56.
Context {A : Arith}.

(** [<] is asymmetric, and its negation is transitive on numbers. *)
Record lt_laws : Prop := {
  lt_asym : forall x y : F A, flt x y = true -> flt y x = false;
  lt_irrefl : forall x : F A, flt x x = false;
  lt_ge_trans : forall x y z : F A, fnan x = false -> fnan y = false -> fnan z = false ->
     flt x y = false -> flt y z = false -> flt x z = false
}.

(** [i] comes before [j]: it is not farther from the start, and for equal distances its index is smaller. *)
Definition before (l : Layer A) (start : vec2 A) (i j : N) : Prop :=
  exists v w, nthN (vertices l) i = Some v /\ nthN (vertices l) j = Some w /\
    flt (vdist (coords w) start) (vdist (coords v) start) = false /\
    (flt (vdist (coords v) start) (vdist (coords w) start) = false -> i < j).

Lemma insert_perm (x : N * F A) l : Permutation (insert_by x l) (x :: l).
Proof.
  induction l as [|y r IH]; cbn [insert_by]; [reflexivity|]. destruct (flt (snd y) (snd x)); [|reflexivity].
  transitivity (y :: x :: r); [now constructor|apply perm_swap].
Qed.
Lemma sort_perm (l : list (N * F A)) : Permutation (stable_sort l) l.
Proof.
  induction l as [|x r IH]; [reflexivity|]. cbn [stable_sort fold_right].
  transitivity (x :: stable_sort r); [apply insert_perm|now constructor].
Qed.

Definition ordered (x y : N * F A) : Prop :=
  flt (snd y) (snd x) = false /\ (flt (snd x) (snd y) = false -> fst x < fst y).

Lemma ordered_trans (L : lt_laws) x y z : fnan (snd x) = false -> fnan (snd y) = false -> fnan (snd z) = false ->
  ordered x y -> ordered y z -> ordered x z.
Proof.
  intros Hx Hy Hz [H1 H2] [G1 G2]. split.
  - exact (lt_ge_trans L _ _ _ Hz Hy Hx G1 H1).
  - intro H. assert (flt (snd x) (snd y) = false) as E1 by exact (lt_ge_trans L _ _ _ Hx Hz Hy H G1).
    assert (flt (snd y) (snd z) = false) as E2.
    { apply (lt_ge_trans L (snd y) (snd x) (snd z) Hy Hx Hz H1 H). }
    specialize (H2 E1). specialize (G2 E2). lia.
Qed.

Lemma insert_sorted (L : lt_laws) x l :
  fnan (snd x) = false -> Forall (fun y => fnan (snd y) = false) l -> Forall (fun y => fst x < fst y) l ->
  StronglySorted ordered l -> StronglySorted ordered (insert_by x l).
Proof.
  intros Hx. induction l as [|y r IH]; intros Hn Hi Hs; cbn [insert_by]; [constructor; [constructor|constructor]|].
  apply Forall_cons_iff in Hn. destruct Hn as [Ny Nr]. apply Forall_cons_iff in Hi. destruct Hi as [Iy Ir].
  apply StronglySorted_inv in Hs. destruct Hs as [Sr Sy].
  destruct (flt (snd y) (snd x)) eqn:E.
  - constructor; [now apply IH|].
    apply (Permutation_Forall (Permutation_sym (insert_perm x r))). constructor; [|exact Sy].
    split; [exact (lt_asym L _ _ E)|congruence].
  - constructor; [constructor; assumption|]. assert (ordered x y) as O by (split; [exact E|now intros _]).
    constructor; [exact O|]. rewrite Forall_forall in *. intros z Hz.
    apply (ordered_trans L x y z Hx Ny (Nr z Hz) O (Sy z Hz)).
Qed.

Lemma sort_sorted (L : lt_laws) l :
  Forall (fun y => fnan (snd y) = false) l -> StronglySorted (fun x y => fst x < fst y) l ->
  StronglySorted ordered (stable_sort l).
Proof.
  intros Hn Hs. induction l as [|x r IH]; [constructor|]. cbn [stable_sort fold_right]. fold (stable_sort r).
  apply Forall_cons_iff in Hn. destruct Hn as [Nx Nr]. apply StronglySorted_inv in Hs. destruct Hs as [Sr Sx].
  apply (insert_sorted L x (stable_sort r) Nx).
  - exact (Permutation_Forall (Permutation_sym (sort_perm r)) Nr).
  - exact (Permutation_Forall (Permutation_sym (sort_perm r)) Sx).
  - exact (IH Nr Sr).
Qed.

Lemma unsorted_In (l : Layer A) a b i : In i (vertices_on_segment_unsorted l a b) <->
  exists v, nthN (vertices l) i = Some v /\ on_segment (coords v) (a, b) = true.
Proof.
  unfold vertices_on_segment_unsorted. rewrite in_map_iff. split.
  - intros ([j v] & <- & H). apply filter_In in H. destruct H as [H1 H2]. apply enumerate_spec in H1. exists v. auto.
  - intros (v & H1 & H2). exists (i, v). split; [reflexivity|]. apply filter_In. split; [now apply enumerate_spec|exact H2].
Qed.
Lemma unsorted_increasing (l : Layer A) a b : StronglySorted N.lt (vertices_on_segment_unsorted l a b).
Proof.
  unfold vertices_on_segment_unsorted, enumerate. generalize 0 at 1. induction (vertices l) as [|v r IH]; intro k; cbn [enum_from filter map]; [constructor|].
  assert (Forall (N.lt k) (map fst (filter (fun iv : N * Vertex A => on_segment (coords (snd iv)) (a, b)) (enum_from (N.succ k) r)))) as HF.
  { apply Forall_forall. intros j Hj. apply in_map_iff in Hj. destruct Hj as ([j' w] & <- & Hj). apply filter_In in Hj. destruct Hj as [Hj _].
    apply enum_from_spec in Hj. cbn. lia. }
  cbn [snd]. destruct (on_segment (coords v) (a, b)); cbn [map fst]; [constructor; [apply IH|exact HF]|apply IH].
Qed.

Lemma distances_ok (l : Layer A) start is : (forall i, In i is -> i < lengthN (vertices l)) ->
  exists ds, mapM (fun i => let* d := start_distance l start i in Ok (i, d)) is = Ok ds /\
    map fst ds = is /\ forall i d, In (i, d) ds -> exists v, nthN (vertices l) i = Some v /\ d = vdist (coords v) start.
Proof.
  induction is as [|i r IH]; intro H; cbn [mapM]; [exists []; split; [reflexivity|]; split; [reflexivity|intros ? ? []]|].
  destruct (nthN_lt_Some (vertices l) i (H i (or_introl eq_refl))) as [v Hv].
  destruct IH as (ds & E & E1 & E2); [intros; apply H; now right|].
  exists ((i, vdist (coords v) start) :: ds). split.
  - unfold start_distance at 1. unfold index. rewrite Hv. cbn [bind]. rewrite E. reflexivity.
  - split; [cbn; now rewrite E1|]. intros j d [Hj|Hj]; [injection Hj as <- <-; exists v; auto|now apply E2].
Qed.

(** Exactly the vertices on the segment are listed, each once, by increasing distance to the start (increasing index for equal
    distances); and there is always an answer when the distances are numbers or there is at most one vertex. *)
Theorem C56_vertices_on_segment (L : lt_laws) (l : Layer A) start fin :
  (forall v, In v (vertices l) -> on_segment (coords v) (start, fin) = true -> fnan (vdist (coords v) start) = false) ->
  exists is, get_vertices_on_segment l start fin = Ok is /\ NoDup is /\ StronglySorted (before l start) is /\
    forall i, In i is <-> exists v, nthN (vertices l) i = Some v /\ on_segment (coords v) (start, fin) = true.
Proof.
  intro HN. set (us := vertices_on_segment_unsorted l start fin).
  assert (forall i, In i us -> i < lengthN (vertices l)) as HB.
  { intros i Hi. apply unsorted_In in Hi. destruct Hi as (v & Hv & _). exact (nthN_Some_lt _ _ _ Hv). }
  destruct (distances_ok l start us HB) as (ds & E & E1 & E2).
  assert (Forall (fun y => fnan (snd y) = false) ds) as HF.
  { apply Forall_forall. intros [i d] Hi. destruct (E2 _ _ Hi) as (v & Hv & ->). cbn [snd].
    assert (In i us) as Hu by (rewrite <- E1; apply in_map_iff; exists (i, vdist (coords v) start); auto).
    apply unsorted_In in Hu. destruct Hu as (w & Hw & Ho). rewrite Hv in Hw. injection Hw as <-.
    exact (HN v (nthN_In _ _ _ Hv) Ho). }
  assert (existsb (fun d => fnan (snd d)) ds = false) as EN.
  { apply not_true_is_false. intro H. apply existsb_exists in H. destruct H as (x & Hx & Hn). rewrite Forall_forall in HF. rewrite (HF x Hx) in Hn. discriminate. }
  exists (map fst (stable_sort ds)). split.
  { unfold get_vertices_on_segment. fold us. rewrite E. cbn [bind]. rewrite EN, andb_false_r. reflexivity. }
  assert (Permutation (map fst (stable_sort ds)) us) as HP by (rewrite <- E1; apply Permutation_map, sort_perm).
  pose proof (unsorted_increasing l start fin) as HI. fold us in HI. split.
  - apply (Permutation_NoDup (Permutation_sym HP)).
    clear - HI. induction HI as [|x r H IH HF]; [constructor|constructor; [|assumption]]. intro Hx. rewrite Forall_forall in HF. specialize (HF x Hx). lia.
  - split.
    + assert (StronglySorted (fun x y : N * F A => fst x < fst y) ds) as HS.
      { rewrite <- E1 in HI. clear - HI. induction ds as [|x r IH]; [constructor|]. cbn [map] in HI. apply StronglySorted_inv in HI. destruct HI as [H1 H2].
        constructor; [auto|]. apply Forall_forall. intros y Hy. rewrite Forall_forall in H2. apply H2. now apply in_map. }
      pose proof (sort_sorted L ds HF HS) as HO.
      assert (forall i d, In (i, d) (stable_sort ds) -> exists v, nthN (vertices l) i = Some v /\ d = vdist (coords v) start) as HD.
      { intros i d Hi. apply E2. exact (Permutation_in _ (sort_perm ds) Hi). }
      clear - HO HD. induction (stable_sort ds) as [|[i d] r IH]; [constructor|]. apply StronglySorted_inv in HO. destruct HO as [H1 H2].
      cbn [map fst]. constructor; [apply IH; auto; intros; apply HD; now right|].
      apply Forall_forall. intros j Hj. apply in_map_iff in Hj. destruct Hj as ([j' d'] & <- & Hj). rewrite Forall_forall in H2.
      specialize (H2 _ Hj). destruct (HD i d (or_introl eq_refl)) as (v & Hv & ->). destruct (HD j' d' (or_intror Hj)) as (w & Hw & ->).
      exists v, w. split; [exact Hv|]. split; [exact Hw|]. exact H2.
    + intro i. rewrite <- unsorted_In. fold us. split; apply Permutation_in; [exact HP|exact (Permutation_sym HP)].
Qed.
End C56.
Arguments lt_laws A : clear implicits.

(** Exact arithmetic. *)
From Coq Require Import Reals Lra.
From Verif Require Import RealArith Geometry Properties_contain.
Open Scope R_scope.
Lemma RA_lt_laws : lt_laws RA.
Proof.
  constructor.
  - intros [x|] [y|]; cbn; try discriminate. rewrite rltb_true, rltb_false. lra.
  - intros [x|]; cbn; [apply rltb_false; lra|reflexivity].
  - intros [x|] [y|] [z|]; cbn; try discriminate. intros _ _ _. rewrite !rltb_false. lra.
Qed.

(** A vertex is listed iff it is in the box of the segment and the parallelogram it spans with the segment has an area below
    0.0001; in particular every vertex exactly on the segment is listed. *)
Theorem C56_exact (l : Layer RA) (a b : P2) (vs : list P2) :
  map (fun v : Vertex RA => coords v) (vertices l) = map vp vs ->
  exists is, get_vertices_on_segment l (vp a) (vp b) = Ok is /\ NoDup is /\
    (forall i x, nthN vs i = Some x ->
       (In i is <-> (Rmin (px a) (px b) <= px x <= Rmax (px a) (px b) /\ Rmin (py a) (py b) <= py x <= Rmax (py a) (py b)) /\
                    Rabs (orient a b x) < 1 / 10000)) /\
    (forall i t, 0 <= t <= 1 -> nthN vs i = Some (lerp a b t) -> In i is) /\
    (forall i j x y, nthN vs i = Some x -> nthN vs j = Some y -> (exists p q r, is = p ++ i :: q ++ j :: r) -> dist x a <= dist y a).
Proof.
  intro E.
  assert (forall i x, nthN vs i = Some x -> exists v, nthN (vertices l) i = Some v /\ coords v = vp x) as HV.
  { intros i x Hx. assert (nthN (map (fun v : Vertex RA => coords v) (vertices l)) i = Some (vp x)) as H by (rewrite E, nthN_map, Hx; reflexivity).
    rewrite nthN_map in H. destruct (nthN (vertices l) i) as [v|]; [|discriminate]. exists v. split; [reflexivity|]. now injection H. }
  assert (forall v, In v (vertices l) -> exists x, In x vs /\ coords v = vp x) as HC.
  { intros v Hv. apply (in_map (fun v : Vertex RA => coords v)) in Hv. rewrite E in Hv. apply in_map_iff in Hv. destruct Hv as (x & H1 & H2). eauto. }
  destruct (C56_vertices_on_segment RA_lt_laws l (vp a) (vp b)) as (is & H1 & H2 & H3 & H4).
  { intros v Hv _. destruct (HC v Hv) as (x & _ & ->). rewrite vdist_vp. reflexivity. }
  exists is. split; [exact H1|]. split; [exact H2|].
  assert (forall i x, nthN vs i = Some x ->
       (In i is <-> (Rmin (px a) (px b) <= px x <= Rmax (px a) (px b) /\ Rmin (py a) (py b) <= py x <= Rmax (py a) (py b)) /\
                    Rabs (orient a b x) < 1 / 10000)) as HI.
  { intros i x Hx. destruct (HV i x Hx) as (v & Hv & Ev). rewrite H4. split.
    - intros (w & Hw & Ho). rewrite Hv in Hw. injection Hw as <-. rewrite Ev in Ho. apply (proj1 (on_segment_R x a b)) in Ho. destruct Ho as [Hb Ho].
      split; [exact Hb|]. unfold eps in Ho. apply Rabs_def1; lra.
    - intros [Hb Ho]. exists v. split; [exact Hv|]. rewrite Ev. apply (proj2 (on_segment_R x a b)). split; [exact Hb|].
      unfold eps. apply Rabs_def2 in Ho. lra. }
  split; [exact HI|]. split.
  - intros i t Ht Hx. apply (HI i _ Hx). unfold lerp, padd, pscale, psub; cbn [px py]. split; [split|].
    + unfold Rmin, Rmax. destruct (Rle_dec (px a) (px b)); nra.
    + unfold Rmin, Rmax. destruct (Rle_dec (py a) (py b)); nra.
    + unfold orient, cross, psub; cbn [px py].
      replace ((px b - px a) * (py a + t * (py b - py a) - py a) - (py b - py a) * (px a + t * (px b - px a) - px a)) with 0 by ring.
      rewrite Rabs_R0. lra.
  - intros i j x y Hx Hy (p & q & r & Ei).
    assert (before l (vp a) i j) as HB.
    { rewrite Ei in H3. clear - H3. induction p as [|z p IH]; cbn [app] in H3.
      - apply StronglySorted_inv in H3. destruct H3 as [_ H3]. rewrite Forall_forall in H3. apply H3. apply in_elt.
      - apply StronglySorted_inv in H3. now apply IH. }
    destruct HB as (v & w & Hv & Hw & Hd & _). destruct (HV i x Hx) as (v' & Hv' & Ev). destruct (HV j y Hy) as (w' & Hw' & Ew).
    rewrite Hv in Hv'. injection Hv' as <-. rewrite Hw in Hw'. injection Hw' as <-. rewrite Ev, Ew, !vdist_vp in Hd. cbn in Hd. now apply rltb_false in Hd.
Qed.

(** The tolerance is on an area and only inside the box: a vertex at any small distance of an axis-parallel segment is not on
    it, while a vertex 0.0035 away from a short slanted segment is. *)
Theorem C56_tolerance_refuted :
  (forall d, d <> 0 -> on_segment (vp (P d (1 / 2))) (vp (P 0 0), vp (P 0 1)) = false) /\
  on_segment (vp (P (1 / 200) 0)) (vp (P 0 0), vp (P (1 / 200) (1 / 200))) = true /\
  forall t, 1 / 283 <= dist (P (1 / 200) 0) (lerp (P 0 0) (P (1 / 200) (1 / 200)) t).
Proof.
  split; [|split].
  - intros d Hd. apply not_true_is_false. intro H. apply (proj1 (on_segment_R _ _ _)) in H. destruct H as [[H _] _]. cbn [px] in H.
    rewrite Rmin_left, Rmax_left in H by lra. lra.
  - apply (proj2 (on_segment_R _ _ _)). unfold in_box, orient, cross, psub, eps. cbn [px py]. rewrite !Rmin_left, !Rmax_right by lra. lra.
  - intro t. unfold dist, plen, pdot, lerp, padd, pscale, psub. cbn [px py].
    replace (1 / 283) with (sqrt ((1 / 283) * (1 / 283))) by (apply sqrt_square; lra). apply sqrt_le_1_alt.
    pose proof (Rle_0_sqr (t - 1 / 2)). unfold Rsqr in *. nra.
Qed.

(** Binary32. *)
From Coq.Floats Require Import SpecFloat.
From Verif Require Import F32 F32_facts Tests.
Lemma F32_lt_laws : lt_laws F32.
Proof.
  constructor.
  - intros x y H. change (SFltb x y = true) in H. change (SFltb y x = false). unfold SFltb in *.
    destruct x as [s|s| |s m e], y as [s'|s'| |s' m' e']; cbn in *; try discriminate; try reflexivity;
      try (destruct s; discriminate); try (destruct s'; reflexivity); try (destruct s; reflexivity);
      try (destruct s, s'; try discriminate; reflexivity).
    destruct s, s'; try discriminate; try reflexivity.
    + rewrite (Z.compare_antisym e e'). destruct (Z.compare e e'); cbn in *; try discriminate; try reflexivity.
      change (Pos.compare_cont Eq m' m) with (Pos.compare m' m). change (Pos.compare_cont Eq m m') with (Pos.compare m m') in H.
      rewrite (Pos.compare_antisym m m'). destruct (Pos.compare m m'); cbn in *; try discriminate; reflexivity.
    + rewrite (Z.compare_antisym e e'). destruct (Z.compare e e'); cbn in *; try discriminate; try reflexivity.
      change (Pos.compare_cont Eq m' m) with (Pos.compare m' m). change (Pos.compare_cont Eq m m') with (Pos.compare m m') in H.
      rewrite (Pos.compare_antisym m m'). destruct (Pos.compare m m'); cbn in *; try discriminate; reflexivity.
  - exact (Search_hist.ol_irrefl (F32_order_laws _ _ _)).
  - exact (Search_hist.ol_ge_trans (F32_order_laws _ _ _)).
Qed.

(** The example of the tests of the crate (layers.rs 775-785). *)
Example C56_example :
  match nthN (layers mesh_u_grid) 0 with
  | Some l => match get_vertices_on_segment l (Tests.pt 0 0) (Tests.pt 0 1), get_vertices_on_segment l (Tests.pt 0 0) (Tests.pt 4 0),
                    get_vertices_on_segment l (Tests.pt 4 0) (Tests.pt 0 0) with
              | Ok a, Ok b, Ok c => (a, b, c) | _, _, _ => ([], [], []) end
  | None => ([], [], []) end = ([0; 4], [0; 1; 2; 3], [3; 2; 1; 0])%N.
Proof. vmc. Qed.

Print Assumptions C56_vertices_on_segment.
Print Assumptions C56_exact.
Print Assumptions C56_tolerance_refuted.
