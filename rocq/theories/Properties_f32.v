(** Theorems about binary32, the arithmetic the code really uses: C73 (containment, up to an explicit rounding error). *)
From Coq Require Import List NArith ZArith Bool Lia Reals Lra Psatz.
From Coq.Floats Require Import SpecFloat.
From Flocq Require Import Core BinarySingleNaN.
From Verif Require Import Base Arith RealArith F32 Spec_f32 F32_real Side32 U32 Mesh Helpers Locate Spec Locate_facts Geometry Heuristic StdLib Properties_contain Properties_locate.
Import ListNotations.
Open Scope R_scope.

Section C73.
Context {sn cs ac : spec_float -> spec_float}.
Notation A := (F32with sn cs ac).

Lemma hmin_num x y a b : num x a -> num y b -> num (hmin (A:=A) x y) (Rmin a b).
Proof.
  intros Hx Hy. unfold hmin. cbn [flt F32with]. pose proof (num_lt x y a b Hx Hy) as L. destruct (SFltb x y).
  - rewrite Rmin_left; [assumption|]. apply Rlt_le. now apply L.
  - rewrite Rmin_right; [assumption|]. destruct (Rlt_le_dec a b) as [K|]; [apply L in K; discriminate|assumption].
Qed.
Lemma hmax_num x y a b : num x a -> num y b -> num (hmax (A:=A) x y) (Rmax a b).
Proof.
  intros Hx Hy. unfold hmax, fgt. cbn [flt F32with]. pose proof (num_lt y x b a Hy Hx) as L. destruct (SFltb y x).
  - rewrite Rmax_left; [assumption|]. apply Rlt_le. now apply L.
  - rewrite Rmax_right; [assumption|]. destruct (Rlt_le_dec b a) as [K|]; [apply L in K; discriminate|assumption].
Qed.
Lemma in_range_num lo hi x a b c : num lo a -> num hi b -> num x c -> (in_range (A:=A) lo hi x = true <-> a <= c <= b).
Proof.
  intros H1 H2 H3. unfold in_range. cbn [fle F32with]. rewrite andb_true_iff, (num_le lo x a c H1 H3), (num_le x hi c b H3 H2). tauto.
Qed.
Lemma on_segment_num (vp va vb : vec2 A) x a b : at32 vp x -> at32 va a -> at32 vb b ->
  (on_segment vp (va, vb) = true <-> in_box a b x /\ side vp (va, vb) = SEdge).
Proof.
  intros [Xx Xy] [Ax Ay] [Bx By]. unfold on_segment, in_box. cbn [fst snd]. rewrite !andb_true_iff, side_eqb_eq.
  rewrite (in_range_num _ _ _ _ _ _ (hmin_num _ _ _ _ Ax Bx) (hmax_num _ _ _ _ Ax Bx) Xx).
  rewrite (in_range_num _ _ _ _ _ _ (hmin_num _ _ _ _ Ay By) (hmax_num _ _ _ _ Ay By) Xy). tauto.
Qed.

(** ** C73: which side of a line *)
(** Right outside of a band around the line and around the edges of the tolerance. *)
Theorem C73_side (vp va vb : vec2 A) x a b : at32 vp x -> at32 va a -> at32 vb b -> moderate x -> moderate a -> moderate b ->
  (side vp (va, vb) = SLeft -> eps - slack a b x <= orient a b x) /\
  (side vp (va, vb) = SRight -> orient a b x <= - eps + slack a b x) /\
  (side vp (va, vb) = SEdge -> Rabs (orient a b x) < eps + slack a b x) /\
  (eps + slack a b x <= orient a b x -> side vp (va, vb) = SLeft) /\
  (orient a b x <= - eps - slack a b x -> side vp (va, vb) = SRight) /\
  (Rabs (orient a b x) < eps - slack a b x -> side vp (va, vb) = SEdge).
Proof. apply side32. Qed.

Lemma edges_corners32 (l : Layer A) p qs : corners32 l p qs ->
  Forall2 (fun e f => (exists va, nthN (vertices l) (fst e) = Some va /\ at32 (coords va) (fst f)) /\
                      (exists vb, nthN (vertices l) (snd e) = Some vb /\ at32 (coords vb) (snd f)))
          (edge_list (pverts p)) (poly_edges qs).
Proof.
  intro H. apply (combine_Forall2 (fun i q => exists v, nthN (vertices l) i = Some v /\ at32 (coords v) q)); [exact H|].
  destruct H; [constructor|]. simpl. apply Forall2_app; [assumption|]. now repeat constructor.
Qed.
Lemma poly_edges_In qs a b : In (a, b) (poly_edges qs) -> In a qs /\ In b qs.
Proof.
  unfold poly_edges. intro H. split; [now apply in_combine_l in H|]. apply in_combine_r in H. apply in_app_or in H.
  destruct qs; [destruct H; contradiction|]. simpl in H. destruct H as [H|[H|[]]]; [now right|now left].
Qed.

Lemma left_of_32 (l : Layer A) vp x e a b :
  (exists va, nthN (vertices l) (fst e) = Some va /\ at32 (coords va) a) ->
  (exists vb, nthN (vertices l) (snd e) = Some vb /\ at32 (coords vb) b) ->
  at32 vp x -> exists va vb, at32 va a /\ at32 vb b /\ (left_of l vp e <-> side vp (va, vb) = SLeft) /\ (touches l vp e <-> in_box a b x /\ side vp (va, vb) = SEdge).
Proof.
  intros (va & Ha & Ea) (vb & Hb & Eb) Hx. exists (coords va), (coords vb). split; [assumption|]. split; [assumption|]. split.
  - split.
    + intros (va' & vb' & Ha' & Hb' & H). rewrite Ha in Ha'. rewrite Hb in Hb'. injection Ha' as <-. injection Hb' as <-. exact H.
    + intro H. exists va, vb. auto.
  - rewrite <- (on_segment_num vp (coords va) (coords vb) x a b Hx Ea Eb). split.
    + intros (va' & vb' & Ha' & Hb' & H). rewrite Ha in Ha'. rewrite Hb in Hb'. injection Ha' as <-. injection Hb' as <-. exact H.
    + intro H. exists va, vb. auto.
Qed.

(** Reported inside: left of every edge up to the rounding error, or in the bounding box of an edge and within the tolerance plus the
    rounding error of its line. *)
Theorem C73_inside_sound (l : Layer A) (p : Polygon) (qs : list P2) vp x :
  corners32 l p qs -> at32 vp x -> moderate x -> Forall moderate qs -> point_in_polygon l vp p = Ok true ->
  (forall a b, In (a, b) (poly_edges qs) -> eps - slack a b x <= orient a b x) \/
  (exists a b, In (a, b) (poly_edges qs) /\ in_box a b x /\ Rabs (orient a b x) < eps + slack a b x).
Proof.
  intros Hc Hx Mx Mq H. apply point_in_polygon_true in H. pose proof (edges_corners32 l p qs Hc) as He. rewrite Forall_forall in Mq.
  destruct H as [Hne [H|H]].
  - left. intros a b Hab. destruct (Forall2_In_r _ _ _ _ He Hab) as (e & Hi & Ea & Eb). cbn [fst snd] in *. rewrite Forall_forall in H.
    destruct (left_of_32 l vp x e a b Ea Eb Hx) as (va & vb & Ha & Hb & L & _). destruct (poly_edges_In _ _ _ Hab) as [Ia Ib].
    apply (side32 vp va vb x a b Hx Ha Hb Mx (Mq a Ia) (Mq b Ib)). apply L. now apply H.
  - right. destruct H as (pre & e & post & E1 & _ & Ht). assert (Hi : In e (edge_list (pverts p))) by (rewrite E1; apply in_elt).
    destruct (Forall2_In_l _ _ _ _ He Hi) as ([a b] & Hab & Ea & Eb). cbn [fst snd] in *. exists a, b. split; [assumption|].
    destruct (left_of_32 l vp x e a b Ea Eb Hx) as (va & vb & Ha & Hb & _ & T). destruct (poly_edges_In _ _ _ Hab) as [Ia Ib].
    apply T in Ht. destruct Ht as [Ht1 Ht2]. split; [assumption|].
    now apply (side32 vp va vb x a b Hx Ha Hb Mx (Mq a Ia) (Mq b Ib)).
Qed.
(** Left of every edge by the tolerance and the rounding error: reported inside. *)
Theorem C73_inside_complete (l : Layer A) (p : Polygon) (qs : list P2) vp x :
  corners32 l p qs -> qs <> [] -> at32 vp x -> moderate x -> Forall moderate qs ->
  (forall a b, In (a, b) (poly_edges qs) -> eps + slack a b x <= orient a b x) -> point_in_polygon l vp p = Ok true.
Proof.
  intros Hc Hq Hx Mx Mq H. apply point_in_polygon_true. rewrite Forall_forall in Mq. split; [intro E; destruct Hc; congruence|]. left.
  rewrite Forall_forall. intros e Hi. destruct (Forall2_In_l _ _ _ _ (edges_corners32 l p qs Hc) Hi) as ([a b] & Hab & Ea & Eb). cbn [fst snd] in *.
  destruct (left_of_32 l vp x e a b Ea Eb Hx) as (va & vb & Ha & Hb & L & _). destruct (poly_edges_In _ _ _ Hab) as [Ia Ib].
  apply L. apply (side32 vp va vb x a b Hx Ha Hb Mx (Mq a Ia) (Mq b Ib)). now apply H.
Qed.
(** Not left of some edge by the tolerance less the rounding error, and not in the box of any edge whose line is close: reported outside. *)
Theorem C73_outside (l : Layer A) (p : Polygon) (qs : list P2) vp x :
  corners32 l p qs -> qs <> [] -> at32 vp x -> moderate x -> Forall moderate qs ->
  (exists a b, In (a, b) (poly_edges qs) /\ orient a b x < eps - slack a b x) ->
  (forall a b, In (a, b) (poly_edges qs) -> in_box a b x -> eps + slack a b x <= Rabs (orient a b x)) ->
  point_in_polygon l vp p = Ok false.
Proof.
  intros Hc Hq Hx Mx Mq (a & b & Hab & Ho) Hb.
  assert (Hne : pverts p <> []) by (intro E; destruct Hc; congruence).
  destruct (point_in_polygon_spec l vp p Hne) as (r & Hr & _). destruct r; [|assumption]. exfalso.
  destruct (C73_inside_sound l p qs vp x Hc Hx Mx Mq Hr) as [G|(a' & b' & G1 & G2 & G3)].
  - specialize (G a b Hab). lra.
  - specialize (Hb a' b' G1 G2). lra.
Qed.

(** ** C73: exact on grids *)
Lemma combine_nth_error {S T} : forall (l : list S) (l' : list T) i a b, nth_error (combine l l') i = Some (a, b) <-> nth_error l i = Some a /\ nth_error l' i = Some b.
Proof.
  induction l as [|x l IH]; intros l' i a b; [destruct i; cbn; (split; [discriminate|intros []; discriminate])|].
  destruct l' as [|y l']; [destruct i; cbn; (split; [discriminate|intros []; discriminate])|].
  destruct i as [|i]; cbn; [|apply IH]. split; [intro H; injection H as <- <-; auto|intros [H1 H2]; congruence].
Qed.
Lemma rotated_nth {T} (l : list T) i : (i < length l)%nat -> nth_error (tl l ++ firstn 1 l) i = nth_error l (S i mod length l).
Proof.
  intro H. destruct l as [|x l]; [cbn in H; lia|]. cbn [tl firstn]. cbn [length] in *.
  destruct (Nat.eq_dec i (length l)) as [->|Hi].
  - rewrite Nat.mod_same by lia. rewrite nth_error_app2 by lia. now rewrite Nat.sub_diag.
  - rewrite Nat.mod_small by lia. rewrite nth_error_app1 by lia. reflexivity.
Qed.
Lemma poly_edges_nth (qs : list P2) a b : In (a, b) (poly_edges qs) <->
  exists i, nth_error qs i = Some a /\ nth_error qs (S i mod length qs) = Some b.
Proof.
  unfold poly_edges. split.
  - intro H. apply In_nth_error in H. destruct H as [i H]. apply combine_nth_error in H. destruct H as [H1 H2]. exists i. split; [exact H1|].
    rewrite rotated_nth in H2; [exact H2|]. apply nth_error_Some. congruence.
  - intros (i & H1 & H2). apply nth_error_In with i. apply combine_nth_error. split; [exact H1|]. rewrite rotated_nth; [exact H2|]. apply nth_error_Some. congruence.
Qed.
Lemma nth_error_ex {T} (l : list T) i : (i < length l)%nat -> exists x, nth_error l i = Some x.
Proof. intro H. destruct (nth_error l i) eqn:E; [eauto|]. apply nth_error_None in E. lia. Qed.
Lemma edge_after (qs : list P2) a b : In (a, b) (poly_edges qs) -> exists c, In (b, c) (poly_edges qs).
Proof.
  intro H. apply poly_edges_nth in H. destruct H as (i & H1 & H2). assert (L : (length qs <> 0)%nat) by (destruct qs; [destruct i; discriminate|discriminate]).
  destruct (nth_error_ex qs (S (S i mod length qs) mod length qs)) as [c Hc]; [apply Nat.mod_upper_bound; exact L|].
  exists c. apply poly_edges_nth. eauto.
Qed.
Lemma edge_before (qs : list P2) a b : In (a, b) (poly_edges qs) -> exists c, In (c, a) (poly_edges qs).
Proof.
  intro H. apply poly_edges_nth in H. destruct H as (i & H1 & H2). assert (L : (i < length qs)%nat) by (apply nth_error_Some; congruence).
  destruct i as [|i].
  - destruct (nth_error_ex qs (length qs - 1)) as [c Hc]; [lia|]. exists c. apply poly_edges_nth. exists (length qs - 1)%nat. split; [exact Hc|].
    replace (S (length qs - 1)) with (length qs) by lia. rewrite Nat.mod_same by lia. exact H1.
  - destruct (nth_error_ex qs i) as [c Hc]; [lia|]. exists c. apply poly_edges_nth. exists i. split; [exact Hc|]. now rewrite Nat.mod_small by lia.
Qed.
Lemma nth_same (qs : list P2) i j a : NoDup qs -> nth_error qs i = Some a -> nth_error qs j = Some a -> i = j.
Proof.
  intros N H1 H2. apply (proj1 (NoDup_nth_error qs) N); [apply nth_error_Some; congruence|congruence].
Qed.
Lemma succ_mod i n : (i < n)%nat -> (S i mod n = S i /\ S i < n)%nat \/ (S i mod n = 0 /\ S i = n)%nat.
Proof.
  intro H. destruct (Nat.eq_dec (S i) n) as [<-|]; [right; split; [apply Nat.mod_same; lia|reflexivity]|left]. rewrite Nat.mod_small by lia. lia.
Qed.
Lemma pair_ends (qs : list P2) a b : NoDup qs -> (2 <= length qs)%nat -> In (a, b) (poly_edges qs) -> a <> b.
Proof.
  intros N L H. apply poly_edges_nth in H. destruct H as (i & H1 & H2). intros <-. pose proof (nth_same qs _ _ a N H1 H2).
  assert (i < length qs)%nat by (apply nth_error_Some; congruence). destruct (succ_mod i (length qs)) as [[]|[]]; lia.
Qed.
(** between consecutive edges there are three different corners *)
Lemma pair_third (qs : list P2) a b c : NoDup qs -> (3 <= length qs)%nat -> In (a, b) (poly_edges qs) -> In (b, c) (poly_edges qs) -> c <> a.
Proof.
  intros N L H H'. apply poly_edges_nth in H. destruct H as (i & H1 & H2). apply poly_edges_nth in H'. destruct H' as (j & H3 & H4). intros ->.
  pose proof (nth_same qs _ _ b N H2 H3). pose proof (nth_same qs _ _ a N H1 H4).
  assert (i < length qs)%nat by (apply nth_error_Some; congruence). assert (j < length qs)%nat by (apply nth_error_Some; congruence).
  destruct (succ_mod i (length qs)) as [[]|[]]; destruct (succ_mod j (length qs)) as [[]|[]]; lia.
Qed.

Lemma on_line u v x : u <> v -> orient u v x = 0 -> exists t, x = P (px u + t * (px v - px u)) (py u + t * (py v - py u)).
Proof.
  intros N H0. destruct u as [ax ay], v as [bx by_], x as [xx xy]. unfold orient, cross, psub in *. cbn [px py] in *.
  destruct (Req_dec (bx - ax) 0) as [Ex|Ex].
  - assert (by_ - ay <> 0) by (intro Ey; apply N; f_equal; lra). exists ((xy - ay) / (by_ - ay)).
    rewrite Ex in *. f_equal; [|field; assumption]. assert ((by_ - ay) * (xx - ax) = 0) as K by lra. apply Rmult_integral in K. destruct K; [contradiction|lra].
  - exists ((xx - ax) / (bx - ax)). f_equal; [field; assumption|]. apply Rmult_eq_reg_l with (bx - ax); [|assumption].
    replace ((bx - ax) * (ay + (xx - ax) / (bx - ax) * (by_ - ay))) with ((bx - ax) * ay + (xx - ax) * (by_ - ay)) by (field; assumption). lra.
Qed.
Lemma box_time a b c d t : a <> c \/ b <> d -> Rmin a c <= a + t * (c - a) <= Rmax a c -> Rmin b d <= b + t * (d - b) <= Rmax b d -> 0 <= t <= 1.
Proof.
  assert (G : forall a c, a <> c -> Rmin a c <= a + t * (c - a) <= Rmax a c -> 0 <= t <= 1).
  { clear. intros a c N H. unfold Rmin, Rmax in H. destruct (Rle_dec a c); [assert (0 < c - a) by lra|assert (c - a < 0) by lra]; split; nra. }
  intros [N|N] H1 H2; eauto.
Qed.
Lemma Forall2_first_zero {S T} (Q : S -> T -> Prop) (g : T -> R) : forall es fs, Forall2 Q es fs -> (forall f, In f fs -> (0 <= g f)) ->
  (forall f, In f fs -> (0 < g f)) \/
  exists pre e post fpre f fpost, es = pre ++ e :: post /\ fs = fpre ++ f :: fpost /\ Forall2 Q pre fpre /\ Q e f /\ (forall f, In f fpre -> (0 < g f)) /\ g f = 0.
Proof.
  induction 1 as [|e f es fs Hef H IH]; intro Hg; [left; contradiction|].
  destruct (Rle_lt_or_eq_dec 0 (g f)) as [Hf|Hf]; [apply Hg; now left| |].
  - destruct IH as [IH|(pre & e' & post & fpre & f' & fpost & -> & -> & H1 & H2 & H3 & H4)]; [intros; apply Hg; now right| |].
    + left. intros f' [<-|Hin]; auto.
    + right. exists (e :: pre), e', post, (f :: fpre), f', fpost. split; [reflexivity|]. split; [reflexivity|]. split; [now constructor|]. split; [assumption|]. split; [|assumption].
      intros f0 [<-|Hin]; auto.
  - right. exists [], e, es, [], f, fs. repeat split; auto. intros ? [].
Qed.

(** On a grid (multiples of 1/2^k, at most 1024 of them in each direction, k at most 6), a strictly convex polygon contains in binary32
    exactly the points of the closed polygon. *)
Theorem C73_exact_on_grids k (l : Layer A) (p : Polygon) (qs : list P2) vp x : (0 <= k <= 6)%Z ->
  corners32 l p qs -> at32 vp x -> on_grid k x -> Forall (on_grid k) qs -> strictly_convex qs ->
  exists b, point_in_polygon l vp p = Ok b /\
    (b = true <-> forall a b, In (a, b) (poly_edges qs) -> 0 <= orient a b x).
Proof.
  intros Hk Hc Hx Gx Gq (Hlen & Hnd & Hcv). rewrite Forall_forall in Gq. pose proof (edges_corners32 l p qs Hc) as He.
  assert (Hne : pverts p <> []). { intro E. assert (qs = []) as -> by (destruct Hc; congruence). cbn in Hlen. lia. }
  destruct (point_in_polygon_spec l vp p Hne) as (r & Hr & HS). exists r. split; [exact Hr|].
  assert (HE : forall e a b, In e (edge_list (pverts p)) -> In (a, b) (poly_edges qs) ->
     (exists va, nthN (vertices l) (fst e) = Some va /\ at32 (coords va) a) -> (exists vb, nthN (vertices l) (snd e) = Some vb /\ at32 (coords vb) b) ->
     (left_of l vp e <-> 0 < orient a b x) /\ (touches l vp e <-> in_box a b x /\ orient a b x = 0)).
  { intros e a b Hi Hab Ea Eb. destruct (left_of_32 l vp x e a b Ea Eb Hx) as (va & vb & Ha & Hb & L & T). destruct (poly_edges_In _ _ _ Hab) as [Ia Ib].
    destruct (side_grid k vp va vb x a b Hk Hx Ha Hb Gx (Gq a Ia) (Gq b Ib)) as (S1 & S2 & S3). rewrite L, T, S1, S2. tauto. }
  (* an edge whose line has the point, inside all the others *)
  assert (HB : forall a b, In (a, b) (poly_edges qs) -> orient a b x = 0 -> (forall a b, In (a, b) (poly_edges qs) -> 0 <= orient a b x) -> in_box a b x).
  { intros a b Hab H0 Hall. destruct (edge_before qs a b Hab) as [c Hca]. destruct (edge_after qs a b Hab) as [d Hbd].
    pose proof (pair_ends qs a b Hnd ltac:(lia) Hab) as Nab. pose proof (pair_ends qs c a Hnd ltac:(lia) Hca) as Nca. pose proof (pair_ends qs b d Hnd ltac:(lia) Hbd) as Nbd.
    pose proof (pair_third qs c a b Hnd Hlen Hca Hab) as Nbc. pose proof (pair_third qs a b d Hnd Hlen Hab Hbd) as Nda.
    destruct (poly_edges_In _ _ _ Hab) as [Ia Ib].
    assert (O1 : 0 < orient c a b) by (apply Hcv; auto). assert (O2 : 0 < orient b d a) by (apply Hcv; auto).
    pose proof (Hall c a Hca) as P1. pose proof (Hall b d Hbd) as P2. clear - H0 O1 O2 P1 P2 Nab.
    destruct (on_line a b x Nab H0) as (t & ->). destruct a as [ax ay], b as [bx by_], c as [cx cy], d as [dx dy]. unfold orient, cross, psub in *. cbn [px py] in *.
    assert (0 <= t). { apply Rnot_lt_le. intro. assert (t * ((ax - cx) * (by_ - cy) - (ay - cy) * (bx - cx)) < 0) by nra. lra. }
    assert (t <= 1). { apply Rnot_lt_le. intro. assert ((t - 1) * ((dx - bx) * (ay - by_) - (dy - by_) * (ax - bx)) > 0) by nra. lra. }
    unfold in_box. cbn [px py]. unfold Rmin, Rmax. split; repeat destruct (Rle_dec _ _); nra. }
  split.
  - intros -> a b Hab. apply HS in Hr || (assert (HT : true = true) by reflexivity; apply HS in HT; revert HT; clear Hr; intro Hr).
    destruct Hr as [_ [Hr|Hr]].
    + rewrite Forall_forall in Hr. destruct (Forall2_In_r _ _ _ _ He Hab) as (e & Hi & Ea & Eb). cbn [fst snd] in *.
      apply Rlt_le. apply (proj1 (proj1 (HE e a b Hi Hab Ea Eb))). now apply Hr.
    + destruct Hr as (pre & e & post & E1 & _ & Ht). assert (Hi : In e (edge_list (pverts p))) by (rewrite E1; apply in_elt).
      destruct (Forall2_In_l _ _ _ _ He Hi) as ([u v] & Huv & Eu & Ev). cbn [fst snd] in *.
      apply (HE e u v Hi Huv Eu Ev) in Ht. destruct Ht as [Hbox H0]. 
      (* on the segment, and its ends are left of the edge *)
      destruct (poly_edges_In _ _ _ Huv) as [Iu Iv]. pose proof (pair_ends qs u v Hnd ltac:(lia) Huv) as Nuv. destruct (poly_edges_In _ _ _ Hab) as [Ia Ib].
      assert (HO : forall q, In q qs -> 0 <= orient a b q).
      { intros q Hq. destruct (P2_dec q a) as [->|Na]; [unfold orient, cross, psub; cbn [px py]; lra|].
        destruct (P2_dec q b) as [->|Nb]; [unfold orient, cross, psub; cbn [px py]; lra|]. apply Rlt_le. now apply Hcv. }
      pose proof (HO u Iu) as Ou. pose proof (HO v Iv) as Ov. clear - Hbox H0 Nuv Ou Ov.
      destruct (on_line u v x Nuv H0) as (t & ->). destruct Hbox as [B1 B2]. destruct u as [ux uy], v as [wx wy], a as [ax ay], b as [bx by_]. cbn [px py] in *.
      assert (0 <= t <= 1). { apply (box_time ux uy wx wy t); [|assumption..]. destruct (Req_dec ux wx) as [->|]; [right; intros ->; now apply Nuv|now left]. }
      unfold orient, cross, psub in *. cbn [px py] in *. set (o1 := (bx - ax) * (uy - ay) - (by_ - ay) * (ux - ax)) in *. set (o2 := (bx - ax) * (wy - ay) - (by_ - ay) * (wx - ax)) in *.
      replace ((bx - ax) * (uy + t * (wy - uy) - ay) - (by_ - ay) * (ux + t * (wx - ux) - ax)) with ((1 - t) * o1 + t * o2) by (unfold o1, o2; ring). nra.
  - intro Hall. apply HS. split; [exact Hne|].
    destruct (Forall2_first_zero _ (fun f => orient (fst f) (snd f) x) _ _ He) as [HP|(pre & e & post & fpre & [a b] & fpost & E1 & E2 & F1 & [Ea Eb] & F3 & F4)].
    + intros [a b] Hab. now apply Hall.
    + left. rewrite Forall_forall. intros e Hi. destruct (Forall2_In_l _ _ _ _ He Hi) as ([a b] & Hab & Ea & Eb). apply (HE e a b Hi Hab Ea Eb). exact (HP (a, b) Hab).
    + right. exists pre, e, post. split; [exact E1|]. cbn [fst snd] in *. split.
      * rewrite Forall_forall. intros e' Hi. destruct (Forall2_In_l _ _ _ _ F1 Hi) as ([a' b'] & Hab & Ea' & Eb').
        apply (HE e' a' b'); [rewrite E1; apply in_or_app; now left|rewrite E2; apply in_or_app; now left|assumption..|]. exact (F3 (a', b') Hab).
      * assert (Hab : In (a, b) (poly_edges qs)) by (rewrite E2; apply in_elt). apply (HE e a b); [rewrite E1; apply in_elt|assumption..|].
        split; [|assumption]. now apply HB.
Qed.

(** ** C73: the whole mesh *)
Lemma contains_32 (l : Layer A) p v : contains l p v <-> pverts p <> [] /\ point_in_polygon l v p = Ok true.
Proof. pose proof (point_in_polygon_true l v p) as H. unfold contains in *. tauto. Qed.
(** A point clearly inside some polygon of a queried layer is in the mesh. *)
Theorem C73_point_in_mesh_complete bvh (m : Mesh A) c li l k p qs x :
  mesh_small m -> unbaked m -> no_empty m -> queried m c li l -> nthN (polygons l) k = Some p ->
  corners32 l p qs -> at32 (vsub (cpos c) (offset l)) x -> moderate x -> Forall moderate qs ->
  (forall a b, In (a, b) (poly_edges qs) -> eps + slack a b x <= orient a b x) -> point_in_mesh bvh m c = Ok true.
Proof.
  intros Hs Hu Hne Hq Hp Hc Hx Mx Mq H. destruct (C04_point_in_mesh_iff bvh m c Hs Hu Hne) as (b & -> & Hb). f_equal. apply Hb. exists li, l, k. split; [exact Hq|].
  assert (Hnp : pverts p <> []). { apply (Hne l p); [destruct Hq as [Hq _]; now apply nthN_In in Hq|now apply nthN_In in Hp]. }
  exists p, (V (fz 0) (fz 0)). split; [exact Hp|]. split; [exists (fz 0), (fz 0); auto|]. apply contains_32. split; [exact Hnp|].
  apply (C73_inside_complete l p qs _ x Hc); try assumption; [intro E; subst qs; inversion Hc; congruence|].
  assert (HZ : forall w r, num w r -> Rabs r <= 1152921504606846976 -> num (fadd (a:=A) w (fz 0)) r).
  { intros w r Hw Hr. assert (B : Rabs (r + 0) <= bpow radix2 127). { rewrite Rplus_0_r, bpow127. lra. }
    pose proof (num_add_rnd w (fz (A:=A) 0) r 0 Hw (@zero32 sn cs ac) B) as HN. rewrite Rplus_0_r in HN. rewrite round_generic in HN; [exact HN|typeclasses eauto|]. exact (num_format _ _ Hw). }
  destruct Hx as [X1 X2], Mx as [M1 M2]. split; apply HZ; assumption.
Qed.
(** The answer "in the mesh" is justified: one of the nine probes is, up to the rounding error, inside or on the border of a polygon of a
    queried layer. *)
Theorem C73_point_in_mesh_sound bvh (m : Mesh A) c : mesh_small m -> point_in_mesh bvh m c = Ok true ->
  exists li l k p v, queried m c li l /\ nthN (polygons l) k = Some p /\ probed (search_delta m) v /\
    forall qs x, corners32 l p qs -> at32 (vadd (vsub (cpos c) (offset l)) v) x -> moderate x -> Forall moderate qs ->
      (forall a b, In (a, b) (poly_edges qs) -> eps - slack a b x <= orient a b x) \/
      (exists a b, In (a, b) (poly_edges qs) /\ in_box a b x /\ Rabs (orient a b x) < eps + slack a b x).
Proof.
  intros Hs H. destruct (C03_point_in_mesh_sound bvh m c Hs H) as (li & l & k & Hq & p & v & Hp & Hv & Hc). exists li, l, k, p, v.
  split; [exact Hq|]. split; [exact Hp|]. split; [exact Hv|]. intros qs x Hcn Hx Mx Mq. apply contains_32 in Hc. destruct Hc as [_ Hc].
  exact (C73_inside_sound l p qs _ x Hcn Hx Mx Mq Hc).
Qed.
End C73.
