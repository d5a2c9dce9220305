(** Theorems in exact arithmetic about containment: C06 (a point reported inside is inside) and C05 (the polygon finder
    never changes the answers). *)
From Coq Require Import List NArith ZArith Bool Reals Lra Psatz Lia.
From Verif Require Import Base Arith RealArith U32 Mesh Helpers Locate Bake Search StdLib Spec Locate_facts Closest_facts
  Geometry Properties_geometry Properties_locate.
Import ListNotations.
Open Scope R_scope.

(** The corners of polygon [p] (in the coordinates of the layer) are [qs]. *)
Definition corners (l : Layer RA) (p : Polygon) (qs : list P2) : Prop :=
  Forall2 (fun i q => exists v, nthN (vertices l) i = Some v /\ coords v = vp q) (pverts p) qs.
(** [x] is in the bounding box of the segment [a, b] *)
Definition in_box (a b x : P2) : Prop :=
  Rmin (px a) (px b) <= px x <= Rmax (px a) (px b) /\ Rmin (py a) (py b) <= py x <= Rmax (py a) (py b).

Lemma combine_Forall2 {S T} (P : S -> T -> Prop) : forall xs qs ys rs,
  Forall2 P xs qs -> Forall2 P ys rs -> Forall2 (fun e f => P (fst e) (fst f) /\ P (snd e) (snd f)) (combine xs ys) (combine qs rs).
Proof.
  intros xs qs ys rs H. revert ys rs. induction H; intros ys rs H2; [constructor|].
  destruct H2; simpl; constructor; auto.
Qed.
Lemma edges_corners l p qs : corners l p qs ->
  Forall2 (fun e f => (exists va, nthN (vertices l) (fst e) = Some va /\ coords va = vp (fst f)) /\
                      (exists vb, nthN (vertices l) (snd e) = Some vb /\ coords vb = vp (snd f)))
          (edge_list (pverts p)) (poly_edges qs).
Proof.
  intro H. apply (combine_Forall2 (fun i q => exists v, nthN (vertices l) i = Some v /\ coords v = vp q)); [exact H|].
  destruct H; [constructor|]. simpl. apply Forall2_app; [assumption|]. now repeat constructor.
Qed.

Lemma in_range_R lo hi x : in_range (A:=RA) (Some lo) (Some hi) (Some x) = true <-> lo <= x <= hi.
Proof. unfold in_range. simpl. rewrite andb_true_iff, !rleb_true. tauto. Qed.
Lemma hmin_R a b : hmin (A:=RA) (Some a) (Some b) = Some (Rmin a b).
Proof.
  unfold hmin. simpl. unfold rltb. destruct (Rlt_dec a b); [rewrite Rmin_left by lra|rewrite Rmin_right by lra]; reflexivity.
Qed.
Lemma hmax_R a b : hmax (A:=RA) (Some a) (Some b) = Some (Rmax a b).
Proof.
  unfold hmax, fgt. simpl. unfold rltb. destruct (Rlt_dec b a); [rewrite Rmax_left by lra|rewrite Rmax_right by lra]; reflexivity.
Qed.
Lemma on_segment_R x a b : on_segment (vp x) (vp a, vp b) = true <-> in_box a b x /\ - eps < orient a b x < eps.
Proof.
  unfold on_segment, in_box. cbn [fst snd]. cbn [vp RealArith.pt vx vy].
  rewrite !hmin_R, !hmax_R, !andb_true_iff, !in_range_R, side_eqb_eq.
  change (@V RA (Some (px x)) (Some (py x))) with (vp x). change (@V RA (Some (px a)) (Some (py a))) with (vp a).
  change (@V RA (Some (px b)) (Some (py b))) with (vp b). rewrite side_edge. tauto.
Qed.

Lemma Forall2_In_r {S T} (P : S -> T -> Prop) l1 l2 y : Forall2 P l1 l2 -> In y l2 -> exists x, In x l1 /\ P x y.
Proof. induction 1; intros []; [subst; exists x; split; [now left|assumption]|]. destruct IHForall2 as (z & ? & ?); auto. exists z. split; [now right|assumption]. Qed.
Lemma Forall2_In_l {S T} (P : S -> T -> Prop) l1 l2 x : Forall2 P l1 l2 -> In x l1 -> exists y, In y l2 /\ P x y.
Proof. induction 1; intros []; [subst; exists y; split; [now left|assumption]|]. destruct IHForall2 as (z & ? & ?); auto. exists z. split; [now right|assumption]. Qed.

Lemma left_of_R l x e f :
  (exists va, nthN (vertices l) (fst e) = Some va /\ coords va = vp (fst f)) ->
  (exists vb, nthN (vertices l) (snd e) = Some vb /\ coords vb = vp (snd f)) ->
  (left_of l (vp x) e <-> eps <= orient (fst f) (snd f) x).
Proof.
  intros (va & Ha & Ea) (vb & Hb & Eb). split.
  - intros (va' & vb' & Ha' & Hb' & H). assert (va' = va) by congruence. assert (vb' = vb) by congruence. subst.
    rewrite Ea, Eb in H. now apply side_left in H.
  - intro H. exists va, vb. rewrite Ea, Eb. repeat split; try assumption. now apply side_left.
Qed.
Lemma touches_R l x e f :
  (exists va, nthN (vertices l) (fst e) = Some va /\ coords va = vp (fst f)) ->
  (exists vb, nthN (vertices l) (snd e) = Some vb /\ coords vb = vp (snd f)) ->
  (touches l (vp x) e <-> in_box (fst f) (snd f) x /\ - eps < orient (fst f) (snd f) x < eps).
Proof.
  intros (va & Ha & Ea) (vb & Hb & Eb). split.
  - intros (va' & vb' & Ha' & Hb' & H). assert (va' = va) by congruence. assert (vb' = vb) by congruence. subst.
    rewrite Ea, Eb in H. now apply on_segment_R in H.
  - intro H. exists va, vb. rewrite Ea, Eb. repeat split; try assumption. now apply on_segment_R.
Qed.

(** ** C06 *)
(** Reported inside: at least the tolerance to the left of every edge, and then in the convex hull of the corners;
    or in the bounding box of an edge and within the tolerance of its line. *)
Theorem C06_inside_sound (l : Layer RA) (p : Polygon) (qs : list P2) (x : P2) :
  corners l p qs -> point_in_polygon l (vp x) p = Ok true ->
  (in_hull qs x /\ forall a b, In (a, b) (poly_edges qs) -> eps <= orient a b x) \/
  (exists a b, In (a, b) (poly_edges qs) /\ in_box a b x /\ - eps < orient a b x < eps).
Proof.
  intros Hc H. apply point_in_polygon_true in H. destruct H as [Hne [H|H]]; pose proof (edges_corners l p qs Hc) as He.
  - left. assert (G : forall a b, In (a, b) (poly_edges qs) -> eps <= orient a b x).
    { intros a b Hab. destruct (Forall2_In_r _ _ _ _ He Hab) as (e & Hi & Ea & Eb). rewrite Forall_forall in H.
      apply (left_of_R l x e (a, b) Ea Eb). now apply H. }
    split; [|exact G]. apply left_of_all_in_hull.
    + intros ->. inversion Hc. congruence.
    + intros a b Hab. pose proof eps_pos. specialize (G a b Hab). lra.
  - right. destruct H as (pre & e & post & E1 & _ & Ht). assert (Hi : In e (edge_list (pverts p))) by (rewrite E1; apply in_elt).
    destruct (Forall2_In_l _ _ _ _ He Hi) as ([a b] & Hab & Ea & Eb). exists a, b. split; [assumption|].
    now apply (touches_R l x e (a, b) Ea Eb).
Qed.
(** Conversely, at least the tolerance to the left of every edge is reported inside. *)
Theorem C06_inside_complete (l : Layer RA) (p : Polygon) (qs : list P2) (x : P2) :
  corners l p qs -> qs <> [] -> (forall a b, In (a, b) (poly_edges qs) -> eps <= orient a b x) ->
  point_in_polygon l (vp x) p = Ok true.
Proof.
  intros Hc Hq H. apply point_in_polygon_true. split; [intros E; destruct Hc; congruence|]. left.
  rewrite Forall_forall. intros e Hi. destruct (Forall2_In_l _ _ _ _ (edges_corners l p qs Hc) Hi) as ([a b] & Hab & Ea & Eb).
  apply (left_of_R l x e (a, b) Ea Eb). now apply H.
Qed.
(** More than the tolerance to the right of some edge, and not in the box of any edge that is close: reported outside. *)
Theorem C06_outside (l : Layer RA) (p : Polygon) (qs : list P2) (x : P2) :
  corners l p qs -> qs <> [] ->
  (exists a b, In (a, b) (poly_edges qs) /\ orient a b x < eps) ->
  (forall a b, In (a, b) (poly_edges qs) -> in_box a b x -> eps <= Rabs (orient a b x)) ->
  point_in_polygon l (vp x) p = Ok false.
Proof.
  intros Hc Hq (a & b & Hab & Ho) Hb.
  assert (Hne : pverts p <> []) by (intro E; destruct Hc; congruence).
  destruct (point_in_polygon_spec l (vp x) p Hne) as (r & Hr & _). destruct r; [|assumption]. exfalso.
  destruct (C06_inside_sound l p qs x Hc Hr) as [[_ G]|(a' & b' & G1 & G2 & G3)].
  - specialize (G a b Hab). lra.
  - specialize (Hb a' b' G1 G2). unfold Rabs in Hb. destruct (Rcase_abs _) in Hb; lra.
Qed.

(** the unit square, with the points (1/2,1/2) and (1/2,1/20000) *)
Definition sq_layer : Layer RA :=
  mkLayer [vertex_new (vp (P 0 0)) [0; MAX]%N; vertex_new (vp (P 1 0)) [0; MAX]%N;
           vertex_new (vp (P 1 1)) [0; MAX]%N; vertex_new (vp (P 0 1)) [0; MAX]%N]
          [mkPolygon [0; 1; 2; 3]%N true] vzero None None.
Definition sq_poly : Polygon := mkPolygon [0; 1; 2; 3]%N true.
Definition sq_corners : list P2 := [P 0 0; P 1 0; P 1 1; P 0 1].
Lemma sq_corners_ok : corners sq_layer sq_poly sq_corners.
Proof. unfold corners. repeat constructor; eexists; split; reflexivity. Qed.
Example C06_example : corners sq_layer sq_poly sq_corners /\ point_in_polygon sq_layer (vp (P (1/2) (1/2))) sq_poly = Ok true.
Proof.
  split; [apply sq_corners_ok|]. apply C06_inside_complete with sq_corners; [apply sq_corners_ok|discriminate|].
  unfold sq_corners, poly_edges, eps. simpl. intros a b H. repeat destruct H as [H|H]; try contradiction; injection H as <- <-;
    unfold orient, cross, psub; cbn [px py]; lra.
Qed.
(** Without the tolerance the converse is false: a point strictly inside the square is reported outside of it
    (Layer::get_point_location hides this with its eight other probes). *)
Theorem C06_complete_refuted : exists (l : Layer RA) (p : Polygon) (qs : list P2) (x : P2),
  corners l p qs /\ qs <> [] /\ (forall a b, In (a, b) (poly_edges qs) -> 0 < orient a b x) /\
  point_in_polygon l (vp x) p = Ok false.
Proof.
  exists sq_layer, sq_poly, sq_corners, (P (1/2) (1/20000)). split; [apply sq_corners_ok|]. split; [discriminate|]. split.
  - unfold sq_corners, poly_edges. simpl. intros a b H. repeat destruct H as [H|H]; try contradiction; injection H as <- <-;
      unfold orient, cross, psub; cbn [px py]; lra.
  - apply C06_outside with sq_corners; [apply sq_corners_ok|discriminate| |].
    + exists (P 0 0), (P 1 0). split; [now left|]. unfold orient, cross, psub, eps; cbn [px py]. lra.
    + unfold sq_corners, poly_edges. simpl. intros a b H. unfold in_box.
      repeat destruct H as [H|H]; try contradiction; injection H as <- <-; cbn [px py];
      unfold Rmin, Rmax; repeat destruct (Rle_dec _ _); intros [? ?]; exfalso; lra.
Qed.

(** ** C05 *)
(** the same mesh with a polygon finder in every layer (Layer::bake_polygon_finder) *)
Definition with_finder {A} (m : Mesh A) : Mesh A := mkMesh (map bake_polygon_finder (layers m)) (search_delta m) (search_steps m).

Definition le2 (a b : P2) : Prop := px a <= px b /\ py a <= py b.
Definition layer_real (l : Layer RA) : Prop := forall v, In v (vertices l) -> exists q, coords v = vp q.

Lemma aabb_step_real l lo hi i : layer_real l -> exists lo' hi',
  aabb_step (vertices l) (vp lo, vp hi) i = (vp lo', vp hi') /\ le2 lo' lo /\ le2 hi hi' /\
  (forall v q, nthN (vertices l) i = Some v -> coords v = vp q -> le2 lo' q /\ le2 q hi').
Proof.
  intro Hr. unfold aabb_step. destruct (nthN (vertices l) i) as [v|] eqn:E.
  - destruct (Hr v (nthN_In _ _ _ E)) as [q Hq]. rewrite Hq.
    exists (P (if rltb (px q) (px lo) then px q else px lo) (if rltb (py q) (py lo) then py q else py lo)),
           (P (if rltb (px hi) (px q) then px q else px hi) (if rltb (py hi) (py q) then py q else py hi)).
    split.
    + unfold vp, RealArith.pt, fgt. cbn [vx vy fst snd px py]. cbn [flt RA rcmp].
      destruct (rltb (px q) (px lo)), (rltb (py q) (py lo)), (rltb (px hi) (px q)), (rltb (py hi) (py q)); reflexivity.
    + unfold le2. cbn [px py]. unfold rltb.
      assert (forall v0 q0, Some v = Some v0 -> coords v0 = vp q0 -> q0 = q) as U.
      { intros v0 q0 E1 E2. injection E1 as <-. rewrite Hq in E2. now apply vp_inj in E2. }
      destruct (Rlt_dec (px q) (px lo)), (Rlt_dec (py q) (py lo)), (Rlt_dec (px hi) (px q)), (Rlt_dec (py hi) (py q));
        (split; [split; lra|]; split; [split; lra|]; intros v0 q0 E1 E2; rewrite (U v0 q0 E1 E2); split; split; lra).
  - exists lo, hi. unfold le2. split; [reflexivity|]. split; [split; lra|]. split; [split; lra|]. discriminate.
Qed.
Lemma aabb_real l : layer_real l -> forall is lo hi, exists lo' hi',
  fold_left (aabb_step (vertices l)) is (vp lo, vp hi) = (vp lo', vp hi') /\ le2 lo' lo /\ le2 hi hi' /\
  (forall i v q, In i is -> nthN (vertices l) i = Some v -> coords v = vp q -> le2 lo' q /\ le2 q hi').
Proof.
  intros Hr. induction is as [|i is IH]; intros lo hi; simpl.
  - exists lo, hi. unfold le2. split; [reflexivity|]. split; [split; lra|]. split; [split; lra|]. intros ? ? ? [].
  - destruct (aabb_step_real l lo hi i Hr) as (lo1 & hi1 & E1 & A1 & B1 & C1). rewrite E1.
    destruct (IH lo1 hi1) as (lo2 & hi2 & E2 & A2 & B2 & C2). exists lo2, hi2. split; [exact E2|].
    unfold le2 in *. split; [split; lra|]. split; [split; lra|]. intros j v q [<-|Hj] Hv Hq.
    + destruct (C1 v q Hv Hq) as [[] []]. split; split; lra.
    + now apply (C2 j v q).
Qed.
Lemma polygon_aabb_real l p : layer_real l -> exists lo hi, polygon_aabb (vertices l) p = (vp lo, vp hi) /\
  (forall i v q, In i (pverts p) -> nthN (vertices l) i = Some v -> coords v = vp q -> le2 lo q /\ le2 q hi).
Proof.
  intro Hr. unfold polygon_aabb.
  destruct (aabb_real l Hr (pverts p) (P (IZR 340282346638528859811704183484516925440) (IZR 340282346638528859811704183484516925440))
    (P 0 0)) as (lo & hi & E & _ & _ & C).
  exists lo, hi. split; [|exact C]. rewrite <- E. unfold vp, RealArith.pt, vzero. cbn [px py]. rewrite !fz_R. reflexivity.
Qed.

Lemma hull_coord qs x (f : P2 -> R) u : (forall q, f q = pdot u q) -> in_hull qs x -> forall c, (forall q, In q qs -> f q <= c) -> f x <= c.
Proof. intros E H c Hc. rewrite E. apply H. intros q Hq. rewrite <- E. auto. Qed.

(** a containing polygon's box contains the point *)
Lemma contains_box l p x : layer_real l -> contains l p (vp x) -> box_contains (polygon_aabb (vertices l) p) (vp x) = true.
Proof.
  intros Hr Hc. destruct (polygon_aabb_real l p Hr) as (lo & hi & -> & HB).
  assert (le2 lo x /\ le2 x hi) as [L1 L2].
  { destruct Hc as [Hne [H|H]].
    - assert (exists qs, corners l p qs) as [qs Hq].
      { assert (forall i, In i (pverts p) -> exists q v, nthN (vertices l) i = Some v /\ coords v = vp q) as HE.
        { intros i Hi. assert (exists e, In e (edge_list (pverts p)) /\ fst e = i) as (e & He & <-).
          { unfold edge_list. destruct (pverts p) as [|a r] eqn:Ep; [contradiction|].
            assert (G : forall (r : list N) a z, In i (a :: r) -> exists e, In e (combine (a :: r) (r ++ [z])) /\ fst e = i).
            { clear. induction r as [|b r IH]; intros a z Hi.
              - destruct Hi as [<-|[]]. exists (a, z). split; [now left|reflexivity].
              - destruct Hi as [<-|Hi]; [exists (a, b); split; [now left|reflexivity]|].
                destruct (IH b z Hi) as (e & He & Ee). exists e. split; [now right|assumption]. }
            apply (G r a a Hi). }
          rewrite Forall_forall in H. destruct (H e He) as (va & vb & Ha & _).
          destruct (Hr va (nthN_In _ _ _ Ha)) as [q Hq]. eauto. }
        unfold corners. clear - HE. induction (pverts p) as [|i r IH]; [exists []; constructor|].
        destruct IH as [qs Hqs]; [intros; apply HE; now right|]. destruct (HE i (or_introl eq_refl)) as (q & v & Hv & Hq).
        exists (q :: qs). constructor; eauto. }
      assert (Hh : in_hull qs x).
      { assert (Hpip : point_in_polygon l (vp x) p = Ok true) by (apply point_in_polygon_true; split; auto).
        apply left_of_all_in_hull; [intros ->; inversion Hq; congruence|]. intros a b Hab.
        destruct (Forall2_In_r _ _ _ _ (edges_corners l p qs Hq) Hab) as (e & Hi & Ea & Eb).
        rewrite Forall_forall in H. pose proof (proj1 (left_of_R l x e (a, b) Ea Eb) (H e Hi)). pose proof eps_pos. cbn in *. lra. }
      assert (HQ : forall q, In q qs -> le2 lo q /\ le2 q hi).
      { intros q Hin. destruct (Forall2_In_r _ _ _ _ Hq Hin) as (i & Hi & v & Hv & Hvq). eapply HB; eauto. }
      unfold le2. split; split.
      + apply Ropp_le_cancel. apply (hull_coord qs x (fun q => - px q) (P (-1) 0)); [intro; unfold pdot; cbn; lra|assumption|].
        intros q Hin. destruct (HQ q Hin) as [[] []]. lra.
      + apply Ropp_le_cancel. apply (hull_coord qs x (fun q => - py q) (P 0 (-1))); [intro; unfold pdot; cbn; lra|assumption|].
        intros q Hin. destruct (HQ q Hin) as [[] []]. lra.
      + apply (hull_coord qs x (fun q => px q) (P 1 0)); [intro; unfold pdot; cbn; lra|assumption|].
        intros q Hin. destruct (HQ q Hin) as [[] []]. lra.
      + apply (hull_coord qs x (fun q => py q) (P 0 1)); [intro; unfold pdot; cbn; lra|assumption|].
        intros q Hin. destruct (HQ q Hin) as [[] []]. lra.
    - destruct H as (pre & e & post & E1 & _ & va & vb & Ha & Hb & Ho).
      assert (Hi : In e (edge_list (pverts p))) by (rewrite E1; apply in_elt).
      destruct (Hr va (nthN_In _ _ _ Ha)) as [a Ea]. destruct (Hr vb (nthN_In _ _ _ Hb)) as [b Eb]. rewrite Ea, Eb in Ho.
      apply on_segment_R in Ho. destruct Ho as [[Hx Hy] _].
      destruct e as [i j]. assert (In i (pverts p) /\ In j (pverts p)) as [Hi1 Hi2].
      { unfold edge_list in Hi. split; [now apply in_combine_l in Hi|]. apply in_combine_r in Hi. apply in_app_or in Hi.
        destruct (pverts p); [destruct Hi; contradiction|]. simpl in Hi. destruct Hi as [Hi|[Hi|[]]]; [now right|now left]. }
      cbn [fst snd] in *. destruct (HB i va a Hi1 Ha Ea) as [[] []]. destruct (HB j vb b Hi2 Hb Eb) as [[] []].
      unfold le2, Rmin, Rmax in *. repeat destruct (Rle_dec _ _); split; split; lra. }
  unfold box_contains, le2 in *. cbn. rewrite !andb_true_iff, !rleb_true. tauto.
Qed.

Section C05.
Context (bvh : list (vec2 RA * vec2 RA) -> vec2 RA -> list N) (Hbvh : bvh_ok bvh).

(** one layer, one point *)
Lemma baked_loc l x : layer_real l -> (forall p, In p (polygons l) -> pverts p <> []) -> small_layer l ->
  exists k, loc_any bvh (bake_polygon_finder l) (vp x) = Ok k /\
    (k = MAX -> forall k p, nthN (polygons l) k = Some p -> ~ contains l p (vp x)).
Proof.
  intros Hr Hne Hs. unfold loc_any, loc_unit_baked. cbn [baked bake_polygon_finder polygons].
  set (boxes := map (polygon_aabb (vertices l)) (polygons l)).
  destruct (Hbvh boxes (vp x)) as [H1 H2].
  destruct (findM_total (fun i => let* poly := index (polygons l) i in point_in_polygon (bake_polygon_finder l) (vp x) poly)
     (bvh boxes (vp x))) as [o Ho].
  { intros i Hi. apply H2 in Hi. unfold boxes, lengthN in Hi. rewrite map_length in Hi.
    destruct (nthN_lt_Some (polygons l) i Hi) as [p Hp]. unfold index. rewrite Hp. cbn [unwrap bind].
    destruct (point_in_polygon_spec (bake_polygon_finder l) (vp x) p (Hne p (nthN_In _ _ _ Hp))) as (b & Hb & _). eauto. }
  rewrite Ho. cbn [bind]. eexists. split; [reflexivity|]. destruct o as [i|].
  - intros ->. apply findM_Some in Ho. destruct Ho as (l1 & l2 & E & Hp & _). inv_bind Hp. apply index_Ok, nthN_Some_lt in E0.
    unfold small_layer in Hs. unfold MAX in E0. exfalso. lia.
  - intros _ k p Hk Hc. pose proof (proj1 (findM_None _ _) Ho k) as Hf.
    assert (In k (bvh boxes (vp x))) as Hin.
    { apply (H1 k (polygon_aabb (vertices l) p)).
      - unfold boxes. rewrite nthN_nth_error in Hk. rewrite nthN_nth_error, nth_error_map, Hk. reflexivity.
      - now apply contains_box. }
    specialize (Hf Hin). unfold index in Hf. rewrite Hk in Hf. cbn [unwrap bind] in Hf.
    apply point_in_polygon_false in Hf. apply Hf. exact Hc.
Qed.

(** Layer level.  Baked or not the layer answers; the answer is "nothing" in one case iff it is in the other,
    and it is the same polygon if only one polygon contains the point. *)
Theorem C05_layer_same (l : Layer RA) (x : P2) : layer_real l -> (forall p, In p (polygons l) -> pverts p <> []) -> small_layer l ->
  baked l = None ->
  exists k k', loc_any bvh l (vp x) = Ok k /\ loc_any bvh (bake_polygon_finder l) (vp x) = Ok k' /\
    (k = MAX <-> k' = MAX) /\
    ((forall i j p q, nthN (polygons l) i = Some p -> nthN (polygons l) j = Some q ->
        contains l p (vp x) -> contains l q (vp x) -> i = j) -> k = k').
Proof.
  intros Hr Hne Hs Hb. destruct (loc_any_total bvh l (vp x) Hne Hb) as [k Hk]. destruct (baked_loc l x Hr Hne Hs) as (k' & Hk' & Hn').
  pose proof (loc_any_none bvh l (vp x) Hb Hs) as Hn.
  assert (Hf : k <> MAX -> exists p, nthN (polygons l) k = Some p /\ contains l p (vp x)) by (intro; eapply loc_any_found; eauto).
  assert (Hf' : k' <> MAX -> exists p, nthN (polygons l) k' = Some p /\ contains l p (vp x)).
  { intro H. exact (loc_any_found bvh (bake_polygon_finder l) (vp x) k' Hk' H). }
  exists k, k'. split; [assumption|]. split; [assumption|].
  assert (HI : k = MAX <-> k' = MAX).
  { split; intros ->.
    - destruct (N.eq_dec k' MAX) as [|H]; [assumption|]. destruct (Hf' H) as (p & G1 & G2). exfalso. eapply (Hn Hk); eauto.
    - destruct (N.eq_dec k MAX) as [|H]; [assumption|]. destruct (Hf H) as (p & G1 & G2). exfalso. eapply (Hn' eq_refl); eauto. }
  split; [exact HI|]. intro HU. destruct (N.eq_dec k MAX) as [->|H].
  - symmetry. now apply HI.
  - destruct (Hf H) as (p & G1 & G2). assert (H' : k' <> MAX) by tauto. destruct (Hf' H') as (p' & G1' & G2'). eauto.
Qed.

(** Mesh level: point_in_mesh gives the same answer for every real point, and get_point_layer the same layers. *)
Lemma probe_same l x ds : layer_real l -> (forall p, In p (polygons l) -> pverts p <> []) -> small_layer l -> baked l = None ->
  (forall d, In d ds -> exists e, d = vp e) ->
  exists o o', probe_loop bvh l (vp x) ds = Ok o /\ probe_loop bvh (bake_polygon_finder l) (vp x) ds = Ok o' /\ (o = None <-> o' = None).
Proof.
  intros Hr Hne Hs Hb. induction ds as [|d r IH]; intro Hd; cbn [probe_loop].
  - exists None, None. repeat split.
  - destruct (Hd d (or_introl eq_refl)) as [e ->]. rewrite vadd_vp.
    destruct (C05_layer_same l (padd x e) Hr Hne Hs Hb) as (k & k' & -> & -> & HI & _). cbn [bind].
    destruct (N.eqb_spec k MAX) as [E|E], (N.eqb_spec k' MAX) as [E'|E']; try tauto.
    + apply IH. intros; apply Hd; now right.
    + eexists _, _. split; [reflexivity|]. split; [reflexivity|]. split; discriminate.
Qed.
Lemma layer_same l x d : layer_real l -> (forall p, In p (polygons l) -> pverts p <> []) -> small_layer l -> baked l = None ->
  exists o o', layer_get_point_location bvh l (vp x) (Some d) = Ok o /\
    layer_get_point_location bvh (bake_polygon_finder l) (vp x) (Some d) = Ok o' /\ (o = None <-> o' = None).
Proof.
  intros. apply probe_same; try assumption. intros e He. apply probes_probed in He. destruct He as (u & v & Hu & Hv & ->).
  rewrite !fz_R in *. assert (exists a, u = Some a) as [a ->] by (destruct Hu as [->|[->| ->]]; simpl; eauto).
  assert (exists b, v = Some b) as [b ->] by (destruct Hv as [->|[->| ->]]; simpl; eauto). now exists (P a b).
Qed.

(** what a search of a layer returns, baked or not, is the number of a polygon *)
Lemma gpl_id m i l o d x : mesh_small m -> nthN (layers m) i = Some l ->
  layer_get_point_location bvh l x d = Ok o ->
  match o with None => True | Some k => id_make (i mod 256) k <> MAX /\ id_layer (id_make (i mod 256) k) = i end.
Proof.
  intros Hm Hi H. destruct o as [k|]; [|exact I]. apply probe_loop_Some in H. destruct H as (_ & v & p & _ & Hk & _).
  destruct (id_make_polygon_at m i l k p Hm Hi Hk) as (_ & H2 & _ & H4). tauto.
Qed.
Lemma with_finder_small (m : Mesh RA) : mesh_small m -> mesh_small (with_finder m).
Proof.
  intros [H1 H2]. unfold with_finder. split; cbn [layers].
  - unfold lengthN in *. now rewrite map_length.
  - intros l Hl. apply in_map_iff in Hl. destruct Hl as (l0 & <- & Hl). exact (H2 l0 Hl).
Qed.
Lemma with_finder_nth (m : Mesh RA) i : nthN (layers (with_finder m)) i = option_map bake_polygon_finder (nthN (layers m) i).
Proof. unfold with_finder. cbn [layers]. rewrite !nthN_nth_error. apply nth_error_map. Qed.
Lemma gpl_id' m i l o d x : mesh_small m -> nthN (layers m) i = Some l ->
  layer_get_point_location bvh (bake_polygon_finder l) x d = Ok o ->
  match o with None => True | Some k => id_make (i mod 256) k <> MAX /\ id_layer (id_make (i mod 256) k) = i end.
Proof.
  intros Hs Hi E. eapply (gpl_id (with_finder m)); [now apply with_finder_small| |exact E].
  now rewrite with_finder_nth, Hi.
Qed.
Lemma enumerate_map_fst {S T} (f : S -> T) l : forall k, enum_from k (map f l) = map (fun ix => (fst ix, f (snd ix))) (enum_from k l).
Proof. induction l; intro; simpl; [reflexivity|]. now rewrite IHl. Qed.

Definition good_mesh (m : Mesh RA) : Prop :=
  real_mesh m /\ mesh_small m /\ no_empty m /\ unbaked m /\ exists d, search_delta m = Some d.

Lemma good_layer m i l c : good_mesh m -> nthN (layers m) i = Some l -> exists o o',
  layer_get_point_location bvh l (vsub (vp c) (offset l)) (search_delta m) = Ok o /\
  layer_get_point_location bvh (bake_polygon_finder l) (vsub (vp c) (offset l)) (search_delta m) = Ok o' /\ (o = None <-> o' = None).
Proof.
  intros (Hr & Hs & Hne & Hu & d & ->) Hi. pose proof (nthN_In _ _ _ Hi) as Hl. destruct (Hr l Hl) as [[f ->] Hv].
  rewrite vsub_vp. apply layer_same; [exact Hv|intros p; now apply Hne|exact (proj2 Hs l Hl)|now apply Hu].
Qed.

Lemma gpl_loop_same m c : good_mesh m -> forall ls, (forall i l, In (i, l) ls -> nthN (layers m) i = Some l) ->
  exists id id', gpl_loop bvh m (vp c) ls = Ok id /\
    gpl_loop bvh (with_finder m) (vp c) (map (fun ix => (fst ix, bake_polygon_finder (snd ix))) ls) = Ok id' /\
    (id = MAX <-> id' = MAX) /\ id_layer id = id_layer id'.
Proof.
  intros Hg. pose proof Hg as (Hr & Hs & Hne & Hu & _). induction ls as [|[i l] r IH]; intro Hls.
  - exists MAX, MAX. repeat split.
  - pose proof (Hls i l (or_introl eq_refl)) as Hi. cbn [gpl_loop map fst snd]. cbn [offset bake_polygon_finder].
    destruct (good_layer m i l c Hg Hi) as (o & o' & E & E' & HO). rewrite E. change (search_delta (with_finder m)) with (search_delta m).
    fold (bake_polygon_finder l). rewrite E'. cbn [bind].
    pose proof (gpl_id m i l o _ _ Hs Hi E) as G.
    pose proof (gpl_id' m i l o' _ _ Hs Hi E') as G'.
    destruct o as [k|], o' as [k'|]; try (exfalso; destruct HO as [HO1 HO2]; specialize (HO1 eq_refl) || specialize (HO2 eq_refl); discriminate).
    + destruct G as [G1 G2], G' as [G1' G2']. apply N.eqb_neq in G1. apply N.eqb_neq in G1'. rewrite G1, G1'.
      apply N.eqb_neq in G1. apply N.eqb_neq in G1'. eexists _, _. split; [reflexivity|]. split; [reflexivity|].
      split; [tauto|congruence].
    + apply IH. intros; apply Hls; now right.
Qed.
Lemma get_point_location_same m c x : good_mesh m -> cpos c = vp x ->
  exists id id', get_point_location bvh m c = Ok id /\ get_point_location bvh (with_finder m) c = Ok id' /\
    (id = MAX <-> id' = MAX) /\ id_layer id = id_layer id'.
Proof.
  intros Hg Hx. pose proof Hg as (Hr & Hs & Hne & Hu & _). unfold get_point_location. rewrite Hx. destruct (clayer c) as [li|].
  - rewrite with_finder_nth. destruct (nthN (layers m) li) as [l|] eqn:Hi; cbn [option_map]; [|exists MAX, MAX; repeat split].
    destruct (good_layer m li l x Hg Hi) as (o & o' & E & E' & HO).
    change (offset (bake_polygon_finder l)) with (offset l). change (search_delta (with_finder m)) with (search_delta m).
    rewrite E, E'. cbn [bind]. pose proof (gpl_id m li l o _ _ Hs Hi E) as G.
    pose proof (gpl_id' m li l o' _ _ Hs Hi E') as G'. destruct (nth_lt_256 _ _ _ Hs Hi) as [Hlt _].
    rewrite N.mod_small in G, G' by assumption.
    destruct o as [k|], o' as [k'|]; try (exfalso; destruct HO as [HO1 HO2]; specialize (HO1 eq_refl) || specialize (HO2 eq_refl); discriminate).
    + eexists _, _. split; [reflexivity|]. split; [reflexivity|]. split; [tauto|]. destruct G, G'. congruence.
    + exists MAX, MAX. repeat split.
  - unfold with_finder at 2. cbn [layers]. unfold enumerate. rewrite enumerate_map_fst. apply gpl_loop_same; [assumption|].
    intros i l H. now apply enumerate_spec.
Qed.

(** point_in_mesh gives the same answer *)
Theorem C05_point_in_mesh_same (m : Mesh RA) c x : good_mesh m -> cpos c = vp x ->
  exists b, point_in_mesh bvh m c = Ok b /\ point_in_mesh bvh (with_finder m) c = Ok b.
Proof.
  intros Hg Hx. destruct (get_point_location_same m c x Hg Hx) as (id & id' & E & E' & HI & _).
  unfold point_in_mesh. rewrite E, E'. cbn [bind]. eexists. split; [reflexivity|]. do 2 f_equal.
  destruct (N.eqb_spec id MAX), (N.eqb_spec id' MAX); tauto.
Qed.
(** and get_point_layer finds the point in the same layers *)
Lemma gpls_loop_same m c : good_mesh m -> forall ls, (forall i l, In (i, l) ls -> nthN (layers m) i = Some l) ->
  exists ids ids', gpls_loop bvh m (vp c) ls = Ok ids /\
    gpls_loop bvh (with_finder m) (vp c) (map (fun ix => (fst ix, bake_polygon_finder (snd ix))) ls) = Ok ids' /\
    map id_layer ids = map id_layer ids'.
Proof.
  intros Hg. pose proof Hg as (Hr & Hs & Hne & Hu & _). induction ls as [|[i l] r IH]; intro Hls.
  - exists [], []. repeat split.
  - pose proof (Hls i l (or_introl eq_refl)) as Hi. cbn [gpls_loop map fst snd]. cbn [offset bake_polygon_finder].
    destruct (good_layer m i l c Hg Hi) as (o & o' & E & E' & HO). rewrite E. change (search_delta (with_finder m)) with (search_delta m).
    fold (bake_polygon_finder l). rewrite E'. cbn [bind].
    pose proof (gpl_id m i l o _ _ Hs Hi E) as G.
    pose proof (gpl_id' m i l o' _ _ Hs Hi E') as G'.
    destruct IH as (ids & ids' & -> & -> & HM); [intros; apply Hls; now right|]. cbn [bind].
    destruct o as [k|], o' as [k'|]; try (exfalso; destruct HO as [HO1 HO2]; specialize (HO1 eq_refl) || specialize (HO2 eq_refl); discriminate).
    + destruct G as [G1 G2], G' as [G1' G2']. apply N.eqb_neq in G1. apply N.eqb_neq in G1'. rewrite G1, G1'.
      eexists _, _. split; [reflexivity|]. split; [reflexivity|]. cbn [map]. congruence.
    + eexists _, _. split; [reflexivity|]. split; [reflexivity|]. assumption.
Qed.
Theorem C05_get_point_layer_same (m : Mesh RA) c x : good_mesh m -> cpos c = vp x ->
  exists cs cs', get_point_layer bvh m c = Ok cs /\ get_point_layer bvh (with_finder m) c = Ok cs' /\
    map clayer cs = map clayer cs'.
Proof.
  intros Hg Hx. pose proof Hg as (Hr & Hs & Hne & Hu & _).
  assert (exists ids ids', get_point_locations bvh m c = Ok ids /\ get_point_locations bvh (with_finder m) c = Ok ids' /\
    map id_layer ids = map id_layer ids') as (ids & ids' & E & E' & HM).
  { unfold get_point_locations. rewrite Hx. destruct (clayer c) as [li|].
    - rewrite with_finder_nth. destruct (nthN (layers m) li) as [l|] eqn:Hi; cbn [option_map]; [|exists [], []; repeat split].
      destruct (good_layer m li l x Hg Hi) as (o & o' & E & E' & HO).
      change (offset (bake_polygon_finder l)) with (offset l). change (search_delta (with_finder m)) with (search_delta m).
      rewrite E, E'. cbn [bind]. pose proof (gpl_id m li l o _ _ Hs Hi E) as G.
      pose proof (gpl_id' m li l o' _ _ Hs Hi E') as G'. destruct (nth_lt_256 _ _ _ Hs Hi) as [Hlt _].
      rewrite N.mod_small in G, G' by assumption.
      destruct o as [k|], o' as [k'|]; try (exfalso; destruct HO as [HO1 HO2]; specialize (HO1 eq_refl) || specialize (HO2 eq_refl); discriminate).
      + eexists _, _. split; [reflexivity|]. split; [reflexivity|]. cbn [map]. destruct G, G'. congruence.
      + exists [], []. repeat split.
    - unfold with_finder at 2. cbn [layers]. unfold enumerate. rewrite enumerate_map_fst. apply gpls_loop_same; [assumption|].
      intros i l H. now apply enumerate_spec. }
  unfold get_point_layer. rewrite E, E'. cbn [bind]. eexists _, _. split; [reflexivity|]. split; [reflexivity|].
  rewrite !map_map. cbn [clayer]. rewrite <- (map_map id_layer Some ids), <- (map_map id_layer Some ids'). now rewrite HM.
Qed.
End C05.

(** The hypotheses are met by a square with the exact linear query. *)
Definition sq_mesh : Mesh RA := mkMesh [sq_layer] (Some (1/10)) 2%N.
Example C05_example : bvh_ok (A:=RA) std_bvh /\ good_mesh sq_mesh /\ point_in_mesh std_bvh (with_finder sq_mesh)
  (coords_on_mesh (vp (P (1/2) (1/2)))) = Ok true.
Proof.
  assert (Hg : good_mesh sq_mesh).
  { split; [|split; [|split; [|split]]].
    - intros l [<-|[]]. split; [exists (P 0 0); unfold vp, RealArith.pt, sq_layer, vzero; cbn [offset px py]; now rewrite fz_R|].
      intros v Hv. cbn in Hv. repeat destruct Hv as [<-|Hv]; try contradiction; eexists; reflexivity.
    - split; [vm_compute; congruence|]. intros l [<-|[]]. vm_compute. congruence.
    - intros l p [<-|[]] [<-|[]]. discriminate.
    - intros l [<-|[]]. reflexivity.
    - now exists (1/10). }
  split; [apply std_bvh_ok|]. split; [exact Hg|].
  destruct (C05_point_in_mesh_same std_bvh std_bvh_ok sq_mesh (coords_on_mesh (vp (P (1/2) (1/2)))) _ Hg eq_refl) as (b & Hb & ->).
  destruct Hg as (_ & Hs & Hne & Hu & _).
  destruct (C04_point_in_mesh_iff std_bvh sq_mesh (coords_on_mesh (vp (P (1/2) (1/2)))) Hs Hu Hne) as (b' & Hb' & Hi).
  assert (b = b') as -> by congruence. f_equal. apply Hi. exists 0%N, sq_layer, 0%N. split; [split; [reflexivity|discriminate]|].
  exists sq_poly, (vp (P 0 0)). split; [reflexivity|]. split.
  - exists (Some 0), (Some 0). rewrite fz_R. repeat split; now left.
  - apply point_in_polygon_true. destruct C06_example as [_ HC].
    replace (vadd _ _) with (vp (P (1/2) (1/2))); [exact HC|]. unfold sq_layer, vzero, coords_on_mesh. cbn [offset cpos].
    rewrite fz_R. change (@V RA (Some 0) (Some 0)) with (vp (P 0 0)). rewrite vsub_vp, vadd_vp. f_equal.
    unfold padd, psub. apply P2_eq; cbn [px py]; lra.
Qed.

Print Assumptions C06_inside_sound.
Print Assumptions C06_inside_complete.
Print Assumptions C06_outside.
Print Assumptions C06_complete_refuted.
Print Assumptions C05_layer_same.
Print Assumptions C05_point_in_mesh_same.
Print Assumptions C05_get_point_layer_same.
