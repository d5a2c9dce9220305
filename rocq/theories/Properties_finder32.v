(** C05 in binary32: where the polygon finder cannot change an answer, and a mesh where it does. *)
From Coq Require Import List NArith ZArith Bool Lia Reals Lra Psatz.
From Coq.Floats Require Import SpecFloat.
From Flocq Require Import Core BinarySingleNaN.
From Verif Require Import Base Arith RealArith F32 Spec_f32 F32_real Side32 U32 Mesh Helpers Locate Bake Spec Locate_facts Geometry StdLib
  Properties_geometry Properties_contain Properties_locate Properties_f32 Finder_gen.
Import ListNotations.
Open Scope R_scope.

(** [x] is in the bounding box of the points [qs]. *)
Definition bounded (qs : list P2) (x : P2) : Prop :=
  (exists a b, In a qs /\ In b qs /\ px a <= px x <= px b) /\ (exists a b, In a qs /\ In b qs /\ py a <= py x <= py b).

Section C05.
Context {sn cs ac : spec_float -> spec_float}.
Notation A := (F32with sn cs ac).

Lemma at32_fun (v : vec2 A) a b : at32 v a -> at32 v b -> a = b.
Proof. intros [(_ & _ & H1) (_ & _ & H2)] [(_ & _ & H3) (_ & _ & H4)]. destruct a as [ax ay], b as [bx by_]. cbn [px py] in *. congruence. Qed.
Lemma min_step x y a b : num x a -> num y b -> exists c, num (if SFltb x y then x else y) c /\ c <= a /\ c <= b.
Proof.
  intros Hx Hy. pose proof (num_lt x y a b Hx Hy) as L. destruct (SFltb x y).
  - exists a. assert (a < b) by now apply L. split; [assumption|lra].
  - exists b. split; [assumption|]. destruct (Rlt_le_dec a b) as [K|]; [apply L in K; discriminate|lra].
Qed.
Lemma max_step x y a b : num x a -> num y b -> exists c, num (if SFltb y x then x else y) c /\ a <= c /\ b <= c.
Proof.
  intros Hx Hy. pose proof (num_lt y x b a Hy Hx) as L. destruct (SFltb y x).
  - exists a. assert (b < a) by now apply L. split; [assumption|lra].
  - exists b. split; [assumption|]. destruct (Rlt_le_dec b a) as [K|]; [apply L in K; discriminate|lra].
Qed.
Lemma aabb_32 (l : Layer A) : forall is qs lo hi L H,
  Forall2 (fun i q => exists v, nthN (vertices l) i = Some v /\ at32 (coords v) q) is qs -> at32 lo L -> at32 hi H ->
  exists lo' hi' L' H', fold_left (aabb_step (vertices l)) is (lo, hi) = (lo', hi') /\ at32 lo' L' /\ at32 hi' H' /\
    le2 L' L /\ le2 H H' /\ forall q, In q qs -> le2 L' q /\ le2 q H'.
Proof.
  induction is as [|i is IH]; intros qs lo hi L H HF HL HH.
  - inversion HF. subst qs. exists lo, hi, L, H. split; [reflexivity|]. unfold le2. split; [exact HL|]. split; [exact HH|]. split; [split; lra|]. split; [split; lra|]. intros ? [].
  - inversion HF as [|? q ? qs' Hq HF' E1 E2]. subst qs. clear HF. destruct Hq as (v & Hv & [Vx Vy]). destruct HL as [Lx Ly], HH as [Hx Hy].
    cbn [fold_left]. unfold aabb_step at 2. rewrite Hv. cbn [fst snd]. unfold fgt. cbn [flt F32with].
    destruct (min_step _ _ _ _ Vx Lx) as (c1 & N1 & C1 & D1). destruct (min_step _ _ _ _ Vy Ly) as (c2 & N2 & C2 & D2).
    destruct (max_step _ _ _ _ Vx Hx) as (c3 & N3 & C3 & D3). destruct (max_step _ _ _ _ Vy Hy) as (c4 & N4 & C4 & D4).
    destruct (IH qs' _ _ (P c1 c2) (P c3 c4) HF' (conj N1 N2 : at32 (@V A _ _) (P c1 c2)) (conj N3 N4 : at32 (@V A _ _) (P c3 c4)))
      as (lo' & hi' & L' & H' & E & A1 & A2 & B1 & B2 & B3).
    exists lo', hi', L', H'. split; [exact E|]. split; [exact A1|]. split; [exact A2|]. unfold le2 in *. cbn [px py] in *.
    split; [split; lra|]. split; [split; lra|]. intros q' [<-|Hq']; [split; split; lra|]. now apply B3.
Qed.
Lemma max32 : exists r, num (fmaxval (a:=A)) r.
Proof. cbn [fmaxval F32with]. eexists. split; [reflexivity|]. split; reflexivity. Qed.
Lemma box_32 (l : Layer A) p qs v x : corners32 l p qs -> at32 v x -> bounded qs x -> box_contains (polygon_aabb (vertices l) p) v = true.
Proof.
  intros Hc [Vx Vy] [(a & b & Ia & Ib & Hx) (a' & b' & Ia' & Ib' & Hy)]. unfold polygon_aabb. destruct max32 as [r Hr].
  destruct (aabb_32 l (pverts p) qs (@V A fmaxval fmaxval) vzero (P r r) (P 0 0) Hc (conj Hr Hr) (conj zero32 zero32)) as (lo & hi & L & H & -> & [A1 A2] & [B1 B2] & _ & _ & HB).
  destruct (HB a Ia) as [[La _] _]. destruct (HB b Ib) as [_ [Lb _]]. destruct (HB a' Ia') as [[_ La'] _]. destruct (HB b' Ib') as [_ [_ Lb']].
  unfold box_contains. cbn [fst snd fle F32with]. rewrite !andb_true_iff.
  rewrite (num_le _ _ _ _ A1 Vx), (num_le _ _ _ _ Vx B1), (num_le _ _ _ _ A2 Vy), (num_le _ _ _ _ Vy B2). repeat split; lra.
Qed.

Lemma bounded_some (qs : list P2) x (f : P2 -> R) u : (forall q, f q = pdot u q) -> in_hull qs x -> exists b, In b qs /\ f x <= f b.
Proof.
  intros E H. destruct qs as [|q0 r].
  - exfalso. pose proof (H (P 0 0) (-1)) as K. unfold pdot in K. cbn in K. assert (0 * px x + 0 * py x <= -1) by (apply K; intros ? []). lra.
  - assert (exists b, In b (q0 :: r) /\ forall q, In q (q0 :: r) -> f q <= f b) as (b & Hb & HM).
    { clear. revert q0. induction r as [|q1 r IH]; intro q0.
      - exists q0. split; [now left|]. intros q [<-|[]]. lra.
      - destruct (IH q1) as (b & Hb & HM). destruct (Rle_dec (f q0) (f b)).
        + exists b. split; [now right|]. intros q [<-|Hq]; [assumption|now apply HM].
        + exists q0. split; [now left|]. intros q [<-|Hq]; [lra|]. specialize (HM q Hq). lra. }
    exists b. split; [exact Hb|]. now apply (hull_coord (q0 :: r) x f u).
Qed.
Lemma hull_bounded qs x : in_hull qs x -> bounded qs x.
Proof.
  intro H. split.
  - destruct (bounded_some qs x (fun q => - px q) (P (-1) 0)) as (a & Ha & La); [intro; unfold pdot; cbn; lra|exact H|].
    destruct (bounded_some qs x (fun q => px q) (P 1 0)) as (b & Hb & Lb); [intro; unfold pdot; cbn; lra|exact H|]. exists a, b. cbn in *. repeat split; try assumption; lra.
  - destruct (bounded_some qs x (fun q => - py q) (P 0 (-1))) as (a & Ha & La); [intro; unfold pdot; cbn; lra|exact H|].
    destruct (bounded_some qs x (fun q => py q) (P 0 1)) as (b & Hb & Lb); [intro; unfold pdot; cbn; lra|exact H|]. exists a, b. cbn in *. repeat split; try assumption; lra.
Qed.
Lemma contains_bounded (l : Layer A) p qs v x : corners32 l p qs -> at32 v x -> moderate x -> Forall moderate qs ->
  (forall a b, In (a, b) (poly_edges qs) -> slack a b x < eps) -> contains l p v -> bounded qs x.
Proof.
  intros Hc Hx Mx Mq HS H. apply contains_32 in H. destruct H as [Hne H].
  destruct (C73_inside_sound l p qs v x Hc Hx Mx Mq H) as [G|(a & b & Hab & [Bx By] & _)].
  - apply hull_bounded. apply left_of_all_in_hull; [intros ->; inversion Hc; congruence|]. intros a b Hab. specialize (G a b Hab). specialize (HS a b Hab). lra.
  - destruct (poly_edges_In _ _ _ Hab) as [Ia Ib]. unfold Rmin, Rmax in *.
    split; [destruct (Rle_dec (px a) (px b)); [exists a, b|exists b, a]|destruct (Rle_dec (py a) (py b)); [exists a, b|exists b, a]]; auto.
Qed.

(** every polygon of the queried layers and every probed position: the position is in the bounding box of the polygon, or the rounding error
    about the lines of its edges is smaller than the tolerance *)
Definition sure (m : Mesh A) (c : Coords A) : Prop :=
  forall li l p v, queried m c li l -> In p (polygons l) -> probed (search_delta m) v ->
    exists qs x, corners32 l p qs /\ Forall moderate qs /\ at32 (vadd (vsub (cpos c) (offset l)) v) x /\ moderate x /\
      (bounded qs x \/ forall a b, In (a, b) (poly_edges qs) -> slack a b x < eps).
Lemma sure_safe (m : Mesh A) c : sure m c -> finder_safe m c.
Proof.
  intros H li l v Hq Hv p Hp Hc. destruct (H li l p v Hq Hp Hv) as (qs & x & Hcn & Mq & Hx & Mx & HB). apply (box_32 l p qs _ x Hcn Hx).
  destruct HB as [HB|HS]; [exact HB|]. exact (contains_bounded l p qs _ x Hcn Hx Mx Mq HS Hc).
Qed.
(** then the polygon finder does not change whether the point is in the mesh, nor in which layers *)
Theorem C05_point_in_mesh_same_in_binary32 bvh (m : Mesh A) (c : Coords A) : bvh_ok bvh -> mesh_small m -> no_empty m -> unbaked m -> sure m c ->
  exists b, point_in_mesh bvh m c = Ok b /\ point_in_mesh bvh (with_finder m) c = Ok b.
Proof. intros Hb Hs Hne Hu H. apply point_in_mesh_same_gen; [exact Hb|exact (conj Hs (conj Hne Hu))|now apply sure_safe]. Qed.
Theorem C05_get_point_layer_same_in_binary32 bvh (m : Mesh A) (c : Coords A) : bvh_ok bvh -> mesh_small m -> no_empty m -> unbaked m -> sure m c ->
  exists ls ls', get_point_layer bvh m c = Ok ls /\ get_point_layer bvh (with_finder m) c = Ok ls' /\ map clayer ls = map clayer ls'.
Proof. intros Hb Hs Hne Hu H. apply get_point_layer_same_gen; [exact Hb|exact (conj Hs (conj Hne Hu))|now apply sure_safe]. Qed.
(** At the level of one layer and one position: found in both cases or in none, and the same polygon if only one contains the position. *)
Theorem C05_layer_same_in_binary32 bvh (l : Layer A) v x : bvh_ok bvh -> small_layer l -> (forall p, In p (polygons l) -> pverts p <> []) -> baked l = None ->
  at32 v x -> moderate x ->
  (forall p, In p (polygons l) -> exists qs, corners32 l p qs /\ Forall moderate qs /\ (bounded qs x \/ forall a b, In (a, b) (poly_edges qs) -> slack a b x < eps)) ->
  exists k k', loc_any bvh l v = Ok k /\ loc_any bvh (bake_polygon_finder l) v = Ok k' /\ (k = MAX <-> k' = MAX) /\
    ((forall i j p q, nthN (polygons l) i = Some p -> nthN (polygons l) j = Some q -> contains l p v -> contains l q v -> i = j) -> k = k').
Proof.
  intros Hb Hs Hne Hu Hx Mx H. apply layer_same_gen; try assumption. intros p Hp Hc. destruct (H p Hp) as (qs & Hcn & Mq & HB). apply (box_32 l p qs _ x Hcn Hx).
  destruct HB as [HB|HS]; [exact HB|]. exact (contains_bounded l p qs _ x Hcn Hx Mx Mq HS Hc).
Qed.
(** For instance when the sides of the polygons are at most [s] long (in each coordinate), every probed position is at most [w] away from every
    corner, and [s * w] is at most 160. *)
Theorem C05_same_in_small_worlds bvh (m : Mesh A) (c : Coords A) s w : bvh_ok bvh -> mesh_small m -> no_empty m -> unbaked m -> s * w <= 160 ->
  (forall li l p v, queried m c li l -> In p (polygons l) -> probed (search_delta m) v ->
    exists qs x, corners32 l p qs /\ Forall moderate qs /\ at32 (vadd (vsub (cpos c) (offset l)) v) x /\ moderate x /\
      (forall a b, In (a, b) (poly_edges qs) -> within s (psub b a)) /\ forall a, In a qs -> within w (psub x a)) ->
  exists b, point_in_mesh bvh m c = Ok b /\ point_in_mesh bvh (with_finder m) c = Ok b.
Proof.
  intros Hb Hs Hne Hu Hsw H. apply C05_point_in_mesh_same_in_binary32; try assumption. intros li l p v Hq Hp Hv.
  destruct (H li l p v Hq Hp Hv) as (qs & x & Hc & Mq & Hx & Mx & HE & HW). exists qs, x. split; [exact Hc|]. split; [exact Mq|]. split; [exact Hx|]. split; [exact Mx|].
  right. intros a b Hab. destruct (HE a b Hab) as [E1 E2]. destruct (HW a (proj1 (poly_edges_In _ _ _ Hab))) as [W1 W2]. unfold psub in *. cbn [px py] in *.
  pose proof (prod_bound _ _ _ _ E1 W2). pose proof (prod_bound _ _ _ _ E2 W1). unfold slack, spread, eps. lra.
Qed.
End C05.

(** ** Where it does change the answer *)
From Verif Require Import Tests Checkers.
(** a triangle 1300 long and a hair thin: counterclockwise, with finite coordinates; a point 276 beyond its tip.  Each of the three cross
    products should be 0 or below the tolerance for one edge, and comes out above it for all three. *)
Definition hair : Mesh F32 :=
  mesh1 [vertex_new (pt100 26959 34897) [0%N; MAX]; vertex_new (pt100 14594 18891) [0%N; MAX]; vertex_new (pt100 95882 124115) [0%N; MAX]]
        [mkPolygon [0; 1; 2]%N true].
Theorem C05_in_binary32_refuted : mesh_small hair /\ no_empty hair /\ unbaked hair /\ bvh_ok (A:=F32) std_bvh /\
  point_in_mesh std_bvh hair (at_ (pt100 123458 159811)) = Ok true /\ point_in_mesh std_bvh (with_finder hair) (at_ (pt100 123458 159811)) = Ok false.
Proof.
  split; [apply mesh_smallb_ok; vmc|]. split; [apply no_emptyb_ok; vmc|]. split; [apply unbakedb_ok; vmc|]. split; [apply std_bvh_ok|]. split; vmc.
Qed.
