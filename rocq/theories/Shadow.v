(** The search of detailed-layers makes the same nodes as the default search, but for the lengths; the entries into other layers that it
    notes lie on the legs of the path.  Exact arithmetic. *)
From Coq Require Import List NArith ZArith Bool Reals Lra Psatz Lia.
From Verif Require Import Base Arith U32 Mesh Helpers Locate Search AsyncPath Detailed StdLib Spec Spec_detailed Locate_facts Rings
  RealArith Geometry Heuristic F32_facts Properties_geometry Properties_expand Spec_inside Sight Sight_search Sight_final Sight_static View Spec_area Spec_layered.
From Verif Require Import Search_facts Detailed_facts Properties_heuristic Properties_detailed Properties_inside Search_props Spec_outline.
Import ListNotations.
Open Scope R_scope.

(** ** Points in order *)
Notation Entry := (P2 * P2 * N)%type.
Fixpoint through (r z : P2) (es : list Entry) : Prop :=
  match es with
  | [] => True
  | (a, b, _) :: rest => exists t s, 0 <= t <= 1 /\ 0 <= s <= 1 /\ lerp r z t = lerp a b s /\ through (lerp r z t) z rest
  end.
Lemma through_before es : forall r x z u, through x z es -> 0 <= u <= 1 -> x = lerp r z u -> through r z es.
Proof.
  destruct es as [|[[a b] l] es]; intros r x z u H Hu E; [exact I|]. cbn [through] in *. destruct H as (t & s & Ht & Hs & E1 & H).
  rewrite E, lerp_lerp_end in E1, H. exists (u + t * (1 - u)), s. split; [split; nra|]. auto.
Qed.
Lemma through_further es : forall r x z u, through r x es -> 0 <= u <= 1 -> x = lerp r z u -> through r z es.
Proof.
  induction es as [|[[a b] l] es IH]; intros r x z u H Hu E; [exact I|]. cbn [through] in *. destruct H as (t & s & Ht & Hs & E1 & H).
  assert (EY : lerp r x t = lerp r z (t * u)).
  { rewrite E. rewrite <- (lerp_0 r z) at 1. rewrite lerp_lerp. f_equal. ring. }
  exists (t * u), s. split; [split; nra|]. split; [exact Hs|]. rewrite <- EY. split; [exact E1|].
  destruct (Req_EM_T (t * u) 1) as [D|D].
  - assert (u = 1) by nra. assert (x = z) by (rewrite E, H0; apply lerp_1). rewrite <- H1. exact H.
  - assert (Hlt : t * u < 1) by (assert (t * u <= 1) by nra; lra).
    apply (IH _ x z ((u - t * u) / (1 - t * u)) H).
    + assert (0 <= u - t * u) by nra. split.
      * apply Rmult_le_reg_r with (1 - t * u); [lra|]. replace ((u - t * u) / (1 - t * u) * (1 - t * u)) with (u - t * u) by (field; lra). lra.
      * apply Rmult_le_reg_r with (1 - t * u); [lra|]. replace ((u - t * u) / (1 - t * u) * (1 - t * u)) with (u - t * u) by (field; lra). lra.
    + rewrite EY, lerp_lerp_end, E. f_equal. field. lra.
Qed.
Lemma through_snoc es a b l s : forall r z, through r z es -> 0 <= s <= 1 -> z = lerp a b s -> through r z (es ++ [(a, b, l)]).
Proof.
  induction es as [|[[a' b'] l'] es IH]; intros r z H Hs E; cbn [through app] in *.
  - exists 1, s. rewrite lerp_1. repeat split; auto; lra.
  - destruct H as (t & s' & Ht & Hs' & E1 & H). exists t, s'. auto.
Qed.

Definition tag (e : Entry) : vec2 RA * vec2 RA * N := (vp (fst (fst e)), vp (snd (fst e)), snd e).
Definition sized (e : Entry) : Prop := fst (fst e) <> snd (fst e).

(** where the line through [r] and [z] meets the line through [a] and [b], when the segments meet *)
Lemma meet_point r z a b t s x : lerp r z t = lerp a b s -> line_intersect_segment (vp r, vp z) (vp a, vp b) = Some x -> x = vp (lerp r z t).
Proof.
  intros E H. unfold line_intersect_segment in H. rewrite intersection_time_vp in H.
  destruct (Req_EM_T (cross (psub r z) (psub a b)) 0) as [D|D]; [cbn in H; discriminate|].
  assert (EI : itime r z a b = s).
  { rewrite cross_orient in D. unfold itime. assert (Z : orient r z (lerp a b s) = 0) by (rewrite <- E; apply orient_lerp).
    rewrite orient_lerp3 in Z. assert (N1 : cross (psub r a) (psub r z) = - orient r z a) by (pts; ring).
    rewrite N1, cross_orient. apply (Rmult_eq_reg_r (orient r z b - orient r z a)); [|exact D]. field_simplify; [|exact D]. lra. }
  rewrite EI in H. destruct (negb _ || _); [discriminate|]. injection H as <-. rewrite E. reflexivity.
Qed.


(** ** Points in order, with the layers in between *)


Lemma segment_join W (r x z : P2) u : 0 <= u <= 1 -> x = lerp r z u -> segment_in W r x -> segment_in W x z -> segment_in W r z.
Proof.
  intros Hu E H1 H2 t Ht. destruct (Rle_lt_dec t u) as [L|L].
  - destruct (Req_EM_T u 0) as [D|D].
    + assert (t = 0) by lra. subst t. rewrite lerp_0. specialize (H1 0 ltac:(lra)). now rewrite lerp_0 in H1.
    + assert (EY : lerp r z t = lerp r x (t / u)). { rewrite E. rewrite <- (lerp_0 r z) at 2. rewrite lerp_lerp. f_equal. field. lra. }
      rewrite EY. apply H1. split.
      * apply Rmult_le_reg_r with u; [lra|]. replace (t / u * u) with t by (field; lra). lra.
      * apply Rmult_le_reg_r with u; [lra|]. replace (t / u * u) with t by (field; lra). lra.
  - assert (EY : lerp r z t = lerp x z ((t - u) / (1 - u))). { rewrite E, lerp_lerp_end. f_equal. field. lra. }
    rewrite EY. apply H2. split.
    + apply Rmult_le_reg_r with (1 - u); [lra|]. replace ((t - u) / (1 - u) * (1 - u)) with (t - u) by (field; lra). lra.
    + apply Rmult_le_reg_r with (1 - u); [lra|]. replace ((t - u) / (1 - u) * (1 - u)) with (t - u) by (field; lra). lra.
Qed.

Section Lanes.
Variable M : Mesh RA.
Fixpoint lanes (l : N) (r z : P2) (es : list Entry) : Prop :=
  match es with
  | [] => segment_in (layer_area M l) r z
  | (a, b, k) :: rest => exists t s, 0 <= t <= 1 /\ 0 <= s <= 1 /\ lerp r z t = lerp a b s /\ segment_in (layer_area M l) r (lerp r z t) /\ lanes k (lerp r z t) z rest
  end.
Definition label (l : N) (es : list Entry) : N := last (map snd es) l.
Definition bordered (e : Entry) : Prop :=
  exists s w t0 t1, layer_border M s w /\ 0 <= t0 <= 1 /\ 0 <= t1 <= 1 /\ fst (fst e) = lerp s w t0 /\ snd (fst e) = lerp s w t1.

Lemma lanes_here es l r z : lanes l r z es -> layer_area M l r.
Proof.
  destruct es as [|[[a b] k] es]; cbn [lanes]; [intro H; specialize (H 0 ltac:(lra)); now rewrite lerp_0 in H|].
  intros (t & s & _ & _ & _ & H & _). specialize (H 0 ltac:(lra)). now rewrite lerp_0 in H.
Qed.
Lemma label_cons l a b k es : label l ((a, b, k) :: es) = label k es.
Proof.
  unfold label. cbn [map snd]. clear. revert k. induction es as [|e es IH]; intro k; [reflexivity|].
  cbn [map]. change (last (k :: snd e :: map snd es) l) with (last (snd e :: map snd es) l). rewrite IH.
  destruct es as [|f es]; [reflexivity|]. cbn [map]. clear. generalize (snd f). induction es as [|g es IH]; intro n; [reflexivity|]. apply IH.
Qed.
Lemma lanes_further es : forall l r x z u, lanes l r x es -> 0 <= u <= 1 -> x = lerp r z u -> segment_in (layer_area M (label l es)) x z -> lanes l r z es.
Proof.
  induction es as [|[[a b] k] es IH]; intros l r x z u H Hu E HS; cbn [lanes] in *; [exact (segment_join _ r x z u Hu E H HS)|].
  destruct H as (t & s & Ht & Hs & E1 & HA & H). rewrite label_cons in HS.
  assert (EY : lerp r x t = lerp r z (t * u)).
  { rewrite E. rewrite <- (lerp_0 r z) at 1. rewrite lerp_lerp. f_equal. ring. }
  exists (t * u), s. split; [split; nra|]. split; [exact Hs|]. rewrite <- EY. split; [exact E1|]. split; [exact HA|].
  destruct (Req_EM_T (t * u) 1) as [D|D].
  - assert (u = 1) by nra. assert (x = z) by (rewrite E, H0; apply lerp_1). rewrite <- H1. exact H.
  - assert (Hlt : t * u < 1) by (assert (t * u <= 1) by nra; lra).
    apply (IH _ _ x z ((u - t * u) / (1 - t * u)) H); [| |exact HS].
    + assert (0 <= u - t * u) by nra. split.
      * apply Rmult_le_reg_r with (1 - t * u); [lra|]. replace ((u - t * u) / (1 - t * u) * (1 - t * u)) with (u - t * u) by (field; lra). lra.
      * apply Rmult_le_reg_r with (1 - t * u); [lra|]. replace ((u - t * u) / (1 - t * u) * (1 - t * u)) with (u - t * u) by (field; lra). lra.
    + rewrite EY, lerp_lerp_end, E. f_equal. field. lra.
Qed.
Lemma lanes_snoc es a b k s : forall l r z, lanes l r z es -> 0 <= s <= 1 -> z = lerp a b s -> layer_area M k z -> lanes l r z (es ++ [(a, b, k)]).
Proof.
  induction es as [|[[a' b'] k'] es IH]; intros l r z H Hs E HA; cbn [lanes app] in *.
  - exists 1, s. rewrite lerp_1. split; [lra|]. split; [exact Hs|]. split; [exact E|]. split; [exact H|]. intros t Ht. now rewrite lerp_same.
  - destruct H as (t & s' & Ht & Hs' & E1 & HS & H). exists t, s'. auto 10.
Qed.
Lemma label_snoc l es a b k : label l (es ++ [(a, b, k)]) = k.
Proof. unfold label. rewrite map_app. cbn [map snd]. apply last_last. Qed.

(** the leg from [a] to [z] does not run along a border *)
Definition apart (a z : P2) : Prop := forall s e, layer_border M s e -> ~ along a z s e.
Definition ready (l : N) (a z : P2) (es : list Entry) : Prop :=
  (a = z /\ layer_area M l z) \/ (lanes l a z es /\ Forall bordered es /\ apart a z).

Lemma lanes_ready l a z es : lanes l a z es -> Forall bordered es -> (a <> z -> apart a z) -> ready l a z es.
Proof.
  intros H1 H2 H3. destruct (P2_dec a z) as [E|E]; [left|right; auto]. split; [exact E|]. rewrite <- E. exact (lanes_here es l a z H1).
Qed.
(** an entry that is not noted lies on the line of the leg *)
Lemma no_meet a z p q t s : lerp a z t = lerp p q s -> 0 <= s <= 1 -> line_intersect_segment (vp a, vp z) (vp p, vp q) = None -> cross (psub a z) (psub p q) = 0.
Proof.
  intros E Hs H. destruct (Req_EM_T (cross (psub a z) (psub p q)) 0) as [D|D]; [exact D|exfalso].
  unfold line_intersect_segment in H. rewrite intersection_time_vp in H. destruct (Req_EM_T (cross (psub a z) (psub p q)) 0) as [D'|_]; [contradiction|].
  assert (EI : itime a z p q = s).
  { rewrite cross_orient in D. unfold itime. assert (Z : orient a z (lerp p q s) = 0) by (rewrite <- E; apply orient_lerp).
    rewrite orient_lerp3 in Z. assert (N1 : cross (psub a p) (psub a z) = - orient a z p) by (pts; ring).
    rewrite N1, cross_orient. apply (Rmult_eq_reg_r (orient a z q - orient a z p)); [|exact D]. field_simplify; [|exact D]. lra. }
  rewrite EI in H. unfold in_range in H. rewrite EPS_R, fz_R in H. cbn -[eps] in H.
  assert (0 < eps) by (unfold eps; lra).
  rewrite (proj2 (rleb_true (- eps) s)) in H by lra. rewrite (proj2 (rleb_true s (1 + eps))) in H by lra. discriminate.
Qed.
Lemma bordered_meets a z p q k t s : p <> q -> 0 <= t <= 1 -> lerp a z t = lerp p q s -> 0 <= s <= 1 -> bordered (p, q, k) -> apart a z ->
  line_intersect_segment (vp a, vp z) (vp p, vp q) = None -> False.
Proof.
  intros Hpq Ht E Hs (u & w & t0 & t1 & HB & Ht0 & Ht1 & E0 & E1) HA H. cbn [fst snd] in *. pose proof (no_meet a z p q t s E Hs H) as Z.
  assert (Z1 : cross (psub a z) (psub u w) = 0).
  { assert (D : t0 <> t1) by (intro D; apply Hpq; rewrite E0, E1; now f_equal).
    assert (cross (psub a z) (psub p q) = (t1 - t0) * cross (psub a z) (psub u w)) as Q by (rewrite E0, E1; unfold lerp; pts; ring).
    rewrite Q in Z. apply Rmult_integral in Z. destruct Z as [Z|Z]; [exfalso; lra|exact Z]. }
  rewrite cross_orient2 in Z1.
  assert (Z2 : orient u w (lerp a z t) = 0).
  { rewrite E, E0, E1, lerp_lerp. apply orient_lerp. }
  rewrite orient_lerp3 in Z2. apply (HA u w HB). split; [nra|]. split; [nra|]. exists t, (t0 + s * (t1 - t0)). split; [exact Ht|].
  split; [|rewrite E, E0, E1, lerp_lerp; reflexivity]. replace (t0 + s * (t1 - t0)) with ((1 - s) * t0 + s * t1) by ring. nra.
Qed.
Lemma apart_later a z t : 0 <= t <= 1 -> lerp a z t <> z -> apart a z -> apart (lerp a z t) z.
Proof.
  intros Ht Hne HA s e HB (K1 & K2 & u & k & Hu & Hk & E). apply (HA s e HB). rewrite lerp_lerp_end in E. split; [|split; [exact K2|]].
  - rewrite orient_lerp3, K2 in K1. assert (1 - t <> 0). { intro Q. apply Hne. replace t with 1 by lra. apply lerp_1. }
    rewrite Rmult_0_r, Rplus_0_r in K1. apply Rmult_integral in K1. tauto.
  - exists (t + u * (1 - t)), k. split; [split; nra|]. auto.
Qed.
End Lanes.

Lemma point_meet z p q : p <> q -> line_intersect_segment (vp z, vp z) (vp p, vp q) = None.
Proof.
  intros Hpq. unfold line_intersect_segment. rewrite intersection_time_vp. destruct (Req_EM_T (cross (psub z z) (psub p q)) 0) as [D|D]; [reflexivity|].
  exfalso. apply D. pts. ring.
Qed.
Lemma sized_find es z l rest : Forall sized es ->
  find (fun w : vec2 RA * vec2 RA * N => veq (fst (fst w)) (snd (fst w))) (map tag es ++ (vp z, vp z, l) :: rest) = Some (vp z, vp z, l).
Proof.
  induction es as [|e es IH]; intros S2; cbn [map app find fst snd]; [rewrite (proj2 (veq_vp z z) eq_refl); reflexivity|].
  inversion_clear S2 as [|? ? S3 S4]. assert (EV : veq (fst (fst (tag e))) (snd (fst (tag e))) = false) by exact (proj2 (veq_vp_false _ _) S3). rewrite EV. now apply IH.
Qed.
Lemma sized_find_none es : Forall sized es -> find (fun w : vec2 RA * vec2 RA * N => veq (fst (fst w)) (snd (fst w))) (map tag es) = None.
Proof.
  induction es as [|e es IH]; intros S2; cbn [map find]; [reflexivity|].
  inversion_clear S2 as [|? ? S3 S4]. assert (EV : veq (fst (fst (tag e))) (snd (fst (tag e))) = false) by exact (proj2 (veq_vp_false _ _) S3). rewrite EV. now apply IH.
Qed.
Lemma lanes_through M es : forall l r z, lanes M l r z es -> through r z es.
Proof.
  induction es as [|[[a b] k] es IH]; intros l r z H; cbn [lanes through] in *; [exact I|]. destruct H as (t & s & Ht & Hs & E & _ & H).
  exists t, s. split; [exact Ht|]. split; [exact Hs|]. split; [exact E|]. exact (IH _ _ _ H).
Qed.
Lemma fill_point last l rest z es : Forall sized es ->
  fill last (vp z) (map tag es ++ (vp z, vp z, l) :: rest) = (vp z, l) :: fill last (vp z) rest.
Proof.
  induction es as [|[[p q] k] es IH]; intros HS.
  - cbn [map app fill]. rewrite (proj2 (veq_vp z z) eq_refl). reflexivity.
  - inversion_clear HS as [|? ? S1 S2]. cbn [sized fst snd] in S1.
    change (map tag ((p, q, k) :: es) ++ (vp z, vp z, l) :: rest) with ((vp p, vp q, k) :: (map tag es ++ (vp z, vp z, l) :: rest)). cbn [fill].
    rewrite (proj2 (veq_vp_false p q) S1), (sized_find es z l rest S2). cbn [fst]. rewrite (point_meet z p q S1). now apply IH.
Qed.
Lemma fill_point_end z es : Forall sized es -> fill (vp z) (vp z) (map tag es) = [].
Proof.
  induction es as [|[[p q] k] es IH]; intros HS; [reflexivity|]. inversion_clear HS as [|? ? S1 S2]. cbn [sized fst snd] in S1.
  change (map tag ((p, q, k) :: es)) with ((vp p, vp q, k) :: map tag es). cbn [fill].
  rewrite (proj2 (veq_vp_false p q) S1), (sized_find_none es S2), (point_meet z p q S1). now apply IH.
Qed.

(** the points of the layer changes on a leg, [ys], and what they are labelled with *)
Definition right_labels (M : Mesh RA) (a z : P2) (es : list Entry) (ys : list (P2 * N)) : Prop :=
  forall l, ready M l a z es -> forall k rest, in_layers M k z rest -> in_layers M l a (ys ++ (z, k) :: rest).
Lemma right_point M z es : right_labels M z z es [].
Proof.
  intros l H k rest HR. cbn [app in_layers]. split; [|exact HR]. intros t Ht. rewrite lerp_same. destruct H as [[_ H]|(H & _)]; [exact H|exact (lanes_here M es l z z H)].
Qed.
Lemma right_meet M a z p q k t s x es ys : p <> q -> 0 <= t <= 1 -> lerp a z t = lerp p q s ->
  line_intersect_segment (vp a, vp z) (vp p, vp q) = Some x ->
  right_labels M (lerp a z t) z es ys -> right_labels M a z ((p, q, k) :: es) ((lerp a z t, k) :: ys).
Proof.
  intros Hpq Ht E EX HR l [[-> _]|(H1 & H2 & H3)] k' rest HI; [rewrite (point_meet z p q Hpq) in EX; discriminate|].
  cbn [lanes] in H1. destruct H1 as (t' & s' & Ht' & Hs' & E' & G1 & G2). cbn [app in_layers].
  assert (EY : lerp a z t' = lerp a z t). { apply vp_inj. rewrite <- (meet_point a z p q t s x E EX). symmetry. exact (meet_point a z p q t' s' x E' EX). }
  rewrite EY in G1, G2. split; [exact G1|].
  apply HR; [|exact HI]. inversion_clear H2 as [|? ? B1 B2]. destruct (P2_dec (lerp a z t) z) as [E1|E1].
  - left. split; [exact E1|]. rewrite <- E1. exact (lanes_here M es k _ z G2).
  - right. split; [exact G2|]. split; [exact B2|]. now apply apart_later.
Qed.
Lemma right_none M a z p q k t s es ys : p <> q -> 0 <= t <= 1 -> 0 <= s <= 1 -> lerp a z t = lerp p q s ->
  line_intersect_segment (vp a, vp z) (vp p, vp q) = None ->
  (a = z -> ys = []) -> right_labels M a z ((p, q, k) :: es) ys.
Proof.
  intros Hpq Ht Hs E EX HR l [[H HL]|(H1 & H2 & H3)] k' rest HI.
  - rewrite (HR H). subst a. apply (right_point M z []); [|exact HI]. left. auto.
  - exfalso. inversion_clear H2 as [|? ? B1 B2]. exact (bordered_meets M a z p q k t s Hpq Ht E Hs B1 H3 EX).
Qed.

Lemma fill_leg M last l rest : forall es a z, Forall sized es -> through a z es ->
  exists ys, fill last (vp a) (map tag es ++ (vp z, vp z, l) :: rest) = map labelled ys ++ (vp z, l) :: fill last (vp z) rest /\ in_order a z (map fst ys) /\
    right_labels M a z es ys.
Proof.
  induction es as [|[[p q] k] es IH]; intros a z HS H.
  - exists []. cbn [map app fill in_order]. rewrite (proj2 (veq_vp z z) eq_refl). split; [reflexivity|]. split; [exact I|].
    intros l' [[-> HL]|(HL & _)] k r HI; [apply (right_point M z []); [left; auto|exact HI]|]. cbn [app in_layers lanes] in *. auto.
  - inversion_clear HS as [|? ? S1 S2]. pose proof H as H0. cbn [through] in H. destruct H as (t & s & Ht & Hs & E & H). cbn [sized fst snd] in S1.
    change (map tag ((p, q, k) :: es) ++ (vp z, vp z, l) :: rest) with ((vp p, vp q, k) :: (map tag es ++ (vp z, vp z, l) :: rest)). cbn [fill].
    rewrite (proj2 (veq_vp_false p q) S1), (sized_find es z l rest S2).
    cbn [fst]. destruct (line_intersect_segment (vp a, vp z) (vp p, vp q)) as [x|] eqn:EX.
    + rewrite (meet_point a z p q t s x E EX). destruct (IH _ z S2 H) as (ys & F1 & F2 & F3). exists ((lerp a z t, k) :: ys).
      cbn [map app in_order fst]. rewrite F1. split; [reflexivity|]. split; [split; [eauto|exact F2]|]. exact (right_meet M a z p q k t s x es ys S1 Ht E EX F3).
    + destruct (P2_dec a z) as [Ez|Ez].
      * subst a. exists []. rewrite (fill_point last l rest z es S2). split; [reflexivity|]. split; [exact I|]. apply (right_none M z z p q k t s es [] S1 Ht Hs E EX). auto.
      * destruct (IH a z S2 (through_before es a _ z t H Ht eq_refl)) as (ys & F1 & F2 & F3). exists ys. split; [exact F1|]. split; [exact F2|].
        apply (right_none M a z p q k t s es ys S1 Ht Hs E EX). contradiction.
Qed.
Lemma fill_end M : forall es a z, Forall sized es -> through a z es ->
  exists ys, fill (vp z) (vp a) (map tag es) = map labelled ys /\ in_order a z (map fst ys) /\ right_labels M a z es ys.
Proof.
  induction es as [|[[p q] k] es IH]; intros a z HS H.
  - exists []. split; [reflexivity|]. split; [exact I|].
    intros l' [[-> HL]|(HL & _)] k r HI; [apply (right_point M z []); [left; auto|exact HI]|]. cbn [app in_layers lanes] in *. auto.
  - inversion_clear HS as [|? ? S1 S2]. cbn [through] in H. destruct H as (t & s & Ht & Hs & E & H). cbn [sized fst snd] in S1.
    change (map tag ((p, q, k) :: es)) with ((vp p, vp q, k) :: map tag es). cbn [fill].
    rewrite (proj2 (veq_vp_false p q) S1), (sized_find_none es S2). destruct (line_intersect_segment (vp a, vp z) (vp p, vp q)) as [x|] eqn:EX.
    + rewrite (meet_point a z p q t s x E EX). destruct (IH _ z S2 H) as (ys & F1 & F2 & F3). exists ((lerp a z t, k) :: ys).
      cbn [map app in_order fst]. rewrite F1. split; [reflexivity|]. split; [split; [eauto|exact F2]|]. exact (right_meet M a z p q k t s x es ys S1 Ht E EX F3).
    + destruct (P2_dec a z) as [Ez|Ez].
      * subst a. exists []. rewrite (fill_point_end z es S2). split; [reflexivity|]. split; [exact I|]. apply (right_none M z z p q k t s es [] S1 Ht Hs E EX). auto.
      * destruct (IH a z S2 (through_before es a _ z t H Ht eq_refl)) as (ys & F1 & F2 & F3). exists ys. split; [exact F1|]. split; [exact F2|].
        apply (right_none M a z p q k t s es ys S1 Ht Hs E EX). contradiction.
Qed.

(** ** Legs *)
Record leg := mkLeg { lentries : list Entry; lturn : P2; llayer : N }.
Definition leg_points (g : leg) : list (vec2 RA * vec2 RA * N) := map tag (lentries g) ++ [(vp (lturn g), vp (lturn g), llayer g)].
Fixpoint legs_ok (a : P2) (gs : list leg) : Prop :=
  match gs with
  | [] => True
  | g :: r => Forall sized (lentries g) /\ through a (lturn g) (lentries g) /\ legs_ok (lturn g) r
  end.
Lemma legs_snoc g gs : forall a, legs_ok a gs -> Forall sized (lentries g) -> through (last (map lturn gs) a) (lturn g) (lentries g) -> legs_ok a (gs ++ [g]).
Proof.
  induction gs as [|h gs IH]; intros a H HS HT; cbn [legs_ok app map] in *; [auto|]. destruct H as (H1 & H2 & H3). split; [exact H1|]. split; [exact H2|].
  apply IH; auto. replace (last (map lturn gs) (lturn h)) with (last (lturn h :: map lturn gs) a); [exact HT|].
  clear. revert h. induction gs as [|g gs IH]; intro h; [reflexivity|]. cbn [map]. change (last (lturn h :: lturn g :: map lturn gs) a) with (last (lturn g :: map lturn gs) a). rewrite IH.
  destruct gs; [reflexivity|]. cbn [map]. clear. revert l. induction gs as [|g' gs IH]; intro l; [reflexivity|]. apply IH.
Qed.
Lemma last_cons {T} (x : T) xs d : last (x :: xs) d = last xs x.
Proof. revert x. induction xs as [|y xs IH]; intro x; [reflexivity|]. change (last (x :: y :: xs) d) with (last (y :: xs) d). rewrite IH. destruct xs as [|w xs]; [reflexivity|]. change (last (y :: w :: xs) x) with (last (w :: xs) x).
  clear IH. revert w. induction xs as [|v xs IH]; intro w; [reflexivity|]. apply IH. Qed.
(** the legs, each in the layers that its entries lead into *)
Fixpoint legs_in (M : Mesh RA) (l : N) (a : P2) (gs : list leg) : Prop :=
  match gs with
  | [] => True
  | g :: r => lanes M l a (lturn g) (lentries g) /\ Forall (bordered M) (lentries g) /\ legs_in M (llayer g) (lturn g) r
  end.
Lemma legs_in_snoc M g gs : forall l a, legs_in M l a gs -> lanes M (last (map llayer gs) l) (last (map lturn gs) a) (lturn g) (lentries g) -> Forall (bordered M) (lentries g) ->
  legs_in M l a (gs ++ [g]).
Proof.
  induction gs as [|h gs IH]; intros l a H H1 H2; cbn [legs_in app map last] in *; [auto|]. destruct H as (G1 & G2 & G3). split; [exact G1|]. split; [exact G2|].
  apply IH; auto. change (match map llayer gs with [] => llayer h | _ :: _ => last (map llayer gs) l end) with (last (llayer h :: map llayer gs) l) in H1.
  change (match map lturn gs with [] => lturn h | _ :: _ => last (map lturn gs) a end) with (last (lturn h :: map lturn gs) a) in H1. rewrite !last_cons in H1. exact H1.
Qed.
Lemma fill_legs M z m : forall gs a, legs_ok a gs -> Forall sized m -> through (last (map lturn gs) a) z m ->
  exists full, fill (vp z) (vp a) (concat (map leg_points gs) ++ map tag m) = map labelled full /\
    (forall tail, refines z tail tail -> refines a (map lturn gs ++ z :: tail) (map fst full ++ z :: tail)) /\
    (forall l, legs_in M l a gs -> lanes M (last (map llayer gs) l) (last (map lturn gs) a) z m -> Forall (bordered M) m -> off_borders M a (map lturn gs ++ [z]) ->
      forall k rest, in_layers M k z rest -> in_layers M l a (full ++ (z, k) :: rest)).
Proof.
  induction gs as [|g gs IH]; intros a HL HS HT; cbn [map concat app legs_ok] in *.
  - destruct (fill_end M m a z HS HT) as (ys & E & HO & HLb). exists ys. split; [exact E|]. split; [intros tail Ht; constructor; assumption|].
    intros l _ H1 H2 HB k rest HI. apply HLb; [|exact HI]. apply lanes_ready; auto. intros Hne s e Hse. apply (HB a z s e); [now left|exact Hne|exact Hse].
  - destruct HL as (H1 & H2 & H3). rewrite last_cons in HT.
    destruct (IH (lturn g) H3 HS HT) as (full & E & HR & HLs).
    destruct (fill_leg M (vp z) (llayer g) (concat (map leg_points gs) ++ map tag m) (lentries g) a (lturn g) H1 H2) as (ys & F1 & F2 & F3).
    exists (ys ++ (lturn g, llayer g) :: full). split; [|split].
    + unfold leg_points at 1. rewrite <- !app_assoc. cbn [app]. etransitivity; [exact F1|]. rewrite E, map_app. reflexivity.
    + intros tail Ht. rewrite map_app. cbn [map fst]. rewrite <- app_assoc. cbn [app]. constructor; [exact F2|]. now apply HR.
    + intros l (G1 & G2 & G3) G4 G5 HB k rest HI. rewrite <- app_assoc. cbn [app]. rewrite !last_cons in G4. apply F3.
      * apply lanes_ready; auto. intros Hne s e Hse. apply (HB a (lturn g) s e); [|exact Hne|exact Hse]. cbn [pairs]. destruct (map lturn gs ++ [z]); now left.
      * apply HLs; auto. intros u w s e Huw Hne Hse. apply (HB u w s e); [|exact Hne|exact Hse]. cbn [pairs] in *. destruct (map lturn gs ++ [z]); [destruct Huw|]. right. exact Huw.
Qed.

(** ** Nodes *)
Definition same_view (n n' : Node RA) : Prop :=
  npath n = npath n' /\ nroot n = nroot n' /\ ninterval n = ninterval n' /\ nedge n = nedge n' /\ nfrom n = nfrom n' /\ nto n = nto n' /\ nprev n = nprev n'.
Lemma same_edges (c : Ctx RA) n n' : same_view n n' -> edges_between c n = edges_between c n'.
Proof. intros (_ & E2 & E3 & E4 & _ & E6 & E7). unfold edges_between, right_index. now rewrite E2, E3, E4, E6, E7. Qed.
Lemma same_choice (c : Ctx RA) n n' l sv ev s root : same_view n n' -> root_choice c n l sv ev s root -> root_choice c n' l sv ev s root.
Proof. intros (_ & E2 & E3 & E4 & _ & E6 & E7). unfold root_choice, corner_ok. now rewrite E2, E3, E4, E7. Qed.

Definition own (q1 q2 : P2) (os from : N) : list Entry := if N.eqb (id_layer os) (id_layer from) then [] else [(q1, q2, id_layer os)].
Lemma own_through r q1 q2 os from k : 0 <= k <= 1 -> through r (lerp q1 q2 k) (own q1 q2 os from).
Proof. intros Hk. unfold own. destruct (N.eqb _ _); [exact I|]. cbn [through]. exists 1, k. rewrite lerp_1. repeat split; auto; lra. Qed.
Lemma own_sized q1 q2 os from : q1 <> q2 -> Forall sized (own q1 q2 os from).
Proof. intros Hne. unfold own. destruct (N.eqb _ _); [constructor|]. apply Forall_cons; [exact Hne|constructor]. Qed.
Lemma own_tag q1 q2 os from : map tag (own q1 q2 os from) = if N.eqb (id_layer os) (id_layer from) then [] else [(vp q1, vp q2, id_layer os)].
Proof. unfold own. destruct (N.eqb _ _); reflexivity. Qed.
Lemma own_snoc r q1 q2 os from k m : 0 <= k <= 1 -> through r (lerp q1 q2 k) m -> through r (lerp q1 q2 k) (m ++ own q1 q2 os from).
Proof. intros Hk H. unfold own. destruct (N.eqb _ _); [now rewrite app_nil_r|]. now apply (through_snoc m q1 q2 (id_layer os) k). Qed.

Section Shadow.
Variables (c : DCtx RA) (start goal : P2) (ps : N).
Let x := dctx c.
Hypothesis HM : plane_mesh (cmesh x).
Hypothesis HU : u32_ids (cmesh x).
Hypothesis HP32 : (ps < 2 ^ 32)%N.
Hypothesis Hto : cpto x <> MAX.
Hypothesis HG : cgoal x = vp goal.
Hypothesis HS : exists qs, corners (cmesh x) ps qs /\ inside qs start.
Hypothesis HC : forall n, reachable x (vp start) ps n -> clear_view (cmesh x) n.

Record shadow (n : DNode RA) : Prop := {
  sh_node : exists n0, reachable x (vp start) ps n0 /\ same_view n0 (dnode n) /\
    exists gs r i0 i1 m, nroot n0 = vp r /\ ninterval n0 = (vp i0, vp i1) /\ i0 <> i1 /\ npath n0 = map vp (map lturn gs) /\ r = last (map lturn gs) start /\
      legs_ok start gs /\ Forall sized m /\ (forall k, 0 <= k <= 1 -> through r (lerp i0 i1 k) m) /\ dpoints n = concat (map leg_points gs) ++ map tag m /\
      (* the layers: the entry of this node itself is pending *)
      exists m0, m = m0 ++ own i0 i1 (nto n0) (nfrom n0) /\ legs_in (cmesh x) (id_layer ps) start gs /\ Forall (bordered (cmesh x)) m /\
        (forall k, 0 <= k <= 1 -> lanes (cmesh x) (last (map llayer gs) (id_layer ps)) r (lerp i0 i1 k) m0) /\ label (last (map llayer gs) (id_layer ps)) m0 = id_layer (nfrom n0)
}.

(** where the interval of a node lies *)
Lemma node_place n i0 i1 : reachable x (vp start) ps n -> ninterval n = (vp i0, vp i1) ->
  (exists qs, corners (cmesh x) (nfrom n) qs /\ inside qs i0 /\ inside qs i1) /\
  (forall l p, polygon_at (cmesh x) (nto n) l p -> exists qs, corners (cmesh x) (nto n) qs /\ inside qs i0 /\ inside qs i1) /\
  Forall (bordered (cmesh x)) (own i0 i1 (nto n) (nfrom n)).
Proof using HM HU HP32 Hto HS HC.
  intros HR EI. pose proof (reachable_supported x (vp start) ps n RA_nan_sane Hto HR) as HSup.
  destruct (sup_chain _ _ _ _ HSup) as (xs & HX & _). apply (corridor_u32 _ _ _ _ _ HU HP32) in HX.
  destruct (reachable_seen x start ps HM HU HP32 Hto HS HC n HR) as [(l & p & a & b & t0 & t1 & r & tn & ids & ids' & zs & K1 & K2 & K3 & K4 & K5 & _)].
  assert (E0 : i0 = lerp a b t0) by (apply vp_inj; congruence). assert (E1 : i1 = lerp a b t1) by (apply vp_inj; congruence). rewrite E0, E1.
  split; [|split].
  - destruct (plane_corners _ _ _ _ HM K1) as (qs & Hqs & HF & Hcx & Hsp). exists qs. split; [exact Hqs|].
    destruct (proj1 HX) as (l2 & p2 & va & vb & G1 & G2 & _).
    assert (l2 = l /\ p2 = p) as [-> ->]. { cbn [node_crossing cr_from] in G1. destruct G1 as [G1 G1'], K1 as [K1 K1']. split; congruence. }
    pose proof (boundary_edge_plane l _ qs _ _ a b G2 HF K2 K3 (spaced_distinct _ Hsp)) as Hab. destruct (edge_In _ _ _ Hab) as [Ia Ib].
    pose proof (convex_corner qs a Hcx Ia) as Ja. pose proof (convex_corner qs b Hcx Ib) as Jb. split; apply inside_lerp; auto; lra.
  - intros l2 p2 HP2. destruct (plane_corners _ _ _ _ HM HP2) as (qs & Hqs & HF & Hcx & Hsp). exists qs. split; [exact Hqs|].
    pose proof (proj2 HM (node_crossing n) l p a b qs HX K1 K2 K3 Hqs) as Hab. destruct (edge_In _ _ _ Hab) as [Ib Ia].
    pose proof (convex_corner qs a Hcx Ia) as Ja. pose proof (convex_corner qs b Hcx Ib) as Jb. split; apply inside_lerp; auto; lra.
  - unfold own. destruct (N.eqb_spec (id_layer (nto n)) (id_layer (nfrom n))) as [D|D]; [constructor|]. apply Forall_cons; [|constructor].
    exists a, b, t0, t1. cbn [fst snd]. split; [|split; [lra|split; [lra|auto]]]. exists (node_crossing n), l, p. cbn [node_crossing cr_from cr_to cr_a cr_b].
    split; [exact (proj1 HX)|]. split; [congruence|]. auto.
Qed.
Lemma segment_layer id qs a b : corners (cmesh x) id qs -> inside qs a -> inside qs b -> segment_in (layer_area (cmesh x) (id_layer id)) a b.
Proof using. intros H1 H2 H3 t Ht. exists id, qs. split; [reflexivity|]. split; [exact H1|]. now apply inside_lerp. Qed.
(** the pending entry *)
Lemma own_lanes n r i0 i1 m0 lr l p : reachable x (vp start) ps n -> ninterval n = (vp i0, vp i1) -> polygon_at (cmesh x) (nto n) l p ->
  (forall k, 0 <= k <= 1 -> lanes (cmesh x) lr r (lerp i0 i1 k) m0) -> label lr m0 = id_layer (nfrom n) ->
  (forall k, 0 <= k <= 1 -> lanes (cmesh x) lr r (lerp i0 i1 k) (m0 ++ own i0 i1 (nto n) (nfrom n))) /\ label lr (m0 ++ own i0 i1 (nto n) (nfrom n)) = id_layer (nto n).
Proof using HM HU HP32 Hto HS HC.
  intros HR EI HP H1 H2. unfold own. destruct (N.eqb_spec (id_layer (nto n)) (id_layer (nfrom n))) as [D|D].
  - rewrite app_nil_r. split; [exact H1|congruence].
  - split; [|apply label_snoc]. intros k Hk. apply lanes_snoc with (s := k); auto.
    destruct (node_place n i0 i1 HR EI) as (_ & G & _). destruct (G l p HP) as (qs & Q1 & Q2 & Q3). exists (nto n), qs. split; [reflexivity|]. split; [exact Q1|]. now apply inside_lerp.
Qed.



Lemma shadow_start n : dgen_start c (vp start) ps n -> shadow n.
Proof using HM HU HP32 Hto HG HS HC.
  intros (l & p & a & b & sv & ev & HP & HB & Ha & Hb & H). cbv zeta in H. destruct H as (Hbl & Hos & Hn & Hg & Hh). fold x in HP, Hbl, Hos.
  set (os := other_side sv ev ps) in *. set (s := (vadd (coords sv) (offset l), a)) in *. set (e := (vadd (coords ev) (offset l), b)) in *.
  set (n0 := new_node x (vp start) os s e (empty_node (vp start) ps)).
  destruct (plane_corners _ _ _ _ HM HP) as (qs & Hqs & HF & Hcx & Hsp).
  assert (exists q, at_world l a q /\ In q qs) as (qa & Hqa & Hqain).
  { destruct HB as (i & H1 & _). destruct (nth_error_split _ _ H1) as (u & y & EV & _). rewrite EV in HF.
    destruct (Forall2_mid _ _ _ _ _ HF) as (X & q & Y & -> & _ & Fv & _). exists q. split; [exact Fv|]. apply in_or_app. right. now left. }
  assert (exists q, at_world l b q /\ In q qs) as (qb & Hqb & Hqbin).
  { destruct HB as (i & _ & H1). destruct (nth_error_split _ _ H1) as (u & y & EV & _). rewrite EV in HF.
    destruct (Forall2_mid _ _ _ _ _ HF) as (X & q & Y & -> & _ & Fv & _). exists q. split; [exact Fv|]. apply in_or_app. right. now left. }
  pose proof (boundary_edge_plane l _ qs a b qa qb HB HF Hqa Hqb (spaced_distinct _ Hsp)) as Hab.
  assert (Hne : qa <> qb). { intros ->. destruct (proj2 Hcx qb qb Hab) as (z & _ & Hz). replace (orient qb qb z) with 0 in Hz by (clear; pts; ring). lra. }
  assert (EA : fst s = vp qa). { destruct Hqa as (v & V1 & V2). unfold s. cbn [fst]. unfold world in V2. congruence. }
  assert (EB : fst e = vp qb). { destruct Hqb as (v & V1 & V2). unfold e. cbn [fst]. unfold world in V2. congruence. }
  assert (Hv : veq (vp start) (vp start) = true) by now apply veq_vp.
  assert (HR : reachable x (vp start) ps n0).
  { exists []. constructor. exists l, p, a, b, sv, ev. repeat (split; [assumption|]). cbv zeta. fold os. repeat (split; [assumption|]).
    split; [reflexivity|]. split.
    - unfold n0. cbn [ng new_node empty_node nroot]. rewrite Hv. reflexivity.
    - unfold n0. cbn [nh new_node]. rewrite EA, EB, HG, (heuristic_vp start goal qa qb Hne). reflexivity. }
  apply dnew_node_Ok in Hn. cbv zeta in Hn. cbn [dnode nroot empty_node npath nto dpoints app] in Hn. rewrite Hv in Hn. destruct Hn as (g & h & _ & ->).
  split. exists n0. split; [exact HR|]. split.
  { unfold n0, same_view. cbn [dnode new_node npath nroot ninterval nedge nfrom nto nprev empty_node]. rewrite Hv. cbn [negb]. repeat (split; [reflexivity|]). reflexivity. }
  exists [], start, qa, qb, (own qa qb os ps). unfold n0. cbn [new_node nroot ninterval npath empty_node map last concat app legs_ok dpoints]. rewrite Hv, EA, EB. cbn [negb].
  split; [reflexivity|]. split; [reflexivity|]. split; [exact Hne|]. split; [reflexivity|]. split; [reflexivity|]. split; [exact I|]. split; [|split].
  - now apply own_sized.
  - intros k Hk. now apply own_through.
  - split; [symmetry; apply own_tag|]. exists []. cbn [app nto nfrom legs_in map last label].
    assert (EN : ninterval n0 = (vp qa, vp qb)) by (unfold n0; cbn [ninterval new_node]; now rewrite EA, EB).
    destruct (node_place n0 qa qb HR EN) as ((qs' & Q1 & Q2 & Q3) & _ & Q4). change (nfrom n0) with ps in Q1, Q4. change (nto n0) with os in Q4.
    split; [reflexivity|]. split; [exact I|]. split; [exact Q4|]. split; [|reflexivity].
    intros k Hk. cbn [lanes]. destruct HS as (qs0 & S1 & S2). rewrite (corners_fun _ _ _ _ Q1 S1) in *.
    apply (segment_layer ps qs0 start _ S1 S2). now apply inside_lerp.
Qed.

Lemma reach_more n n' : reachable x (vp start) ps n -> gen_step x n n' -> reachable x (vp start) ps n'.
Proof using. intros [h Hh] H. exists (n :: h). now constructor. Qed.

Lemma shadow_step n n' : shadow n -> dgen_step c n n' -> shadow n'.
Proof using HM HU HP32 Hto HG HS HC.
  intros [(n0 & HR & SV & gs & r & i0 & i1 & m & ER & EI & Hne & EP & EL & HL & HSz & HT & ED & m0 & Em & HLI & HBd & HLa & HLb)]
    (s & root & l & ss & sv & ev & H). cbv zeta in H. fold x in H.
  destruct H as (Hl & Hss & Hs & Hsv & Hev & HosM & Hbl & Hos & Hfrom & HRC & Hfar & Hn & Hg & Hh).
  pose proof SV as (E1 & E2 & E3 & E4 & E5 & E6 & E7).
  set (os := other_side sv ev (nto (dnode n))) in *.
  rewrite <- (same_edges x n0 _ SV) in Hss. rewrite <- E6 in Hl.
  assert (SV' : same_view (dnode n) n0) by (unfold same_view; repeat (split; [congruence|]); congruence).
  apply (same_choice x _ n0 _ _ _ _ _ SV') in HRC. rewrite <- E5 in Hfrom.
  assert (Eos : os = other_side sv ev (nto n0)) by (unfold os; now rewrite E6).
  pose proof (reachable_supported x (vp start) ps n0 RA_nan_sane Hto HR) as HSup.
  destruct (sup_chain _ _ _ _ HSup) as (xs & HX & _). apply (corridor_u32 _ _ _ _ _ HU HP32) in HX. pose proof (sup_prev _ _ _ _ HSup) as Hprev.
  pose proof (reachable_seen x start ps HM HU HP32 Hto HS HC n0 HR) as HSn.
  set (n1 := new_node x root os (fst (sinterval s), fst (sedge s)) (snd (sinterval s), snd (sedge s)) n0).
  (* the numbers of the shadow *)
  assert (HI : exists q1 q2, sinterval s = (vp q1, vp q2) /\ q1 <> q2 /\ exists l p, polygon_at (cmesh x) (nto n0) l p).
  { destruct HSn as [(l1 & p1 & a & b & t0 & t1 & r1 & tn & ids & ids' & zs & K1 & K2 & K3 & K4 & K5 & K6 & K7 & _)].
    destruct (node_far x n0 l1 p1 a b r1 t0 t1 ss HM K1 K2 K3 Hprev HX K6 K5 K4 K7 (HC n0 HR) Hss) as (l' & p' & qs & M & HPn & _ & _ & _ & _ & _ & _ & _ & _ & HSS).
    destruct (HSS s Hs) as (pre & sp & ep & later & _ & _ & _ & (q1 & q2 & (EQI & _) & _)). exists q1, q2. split; [exact EQI|]. split; [|eauto].
    intro E. rewrite EQI, E in Hfar. cbn [fst snd] in Hfar. rewrite vdist2_vp in Hfar. assert (pdot (psub q2 q2) (psub q2 q2) < 1 / 10000000000) as Q.
    { replace (pdot (psub q2 q2) (psub q2 q2)) with 0 by (clear; pts; ring). lra. }
    apply (proj2 (lt_R _ _)) in Q. rewrite c1em10_R in Hfar. congruence. }
  destruct HI as (q1 & q2 & EQI & Hq & ln & pn & HPn).
  assert (HR' : exists r', root = vp r').
  { unfold root_choice in HRC. rewrite ER, EI in HRC. cbn [fst snd] in HRC. destruct (sty s).
    - destruct HRC as (_ & _ & ->). eauto.
    - rewrite HRC. eauto.
    - destruct HRC as (_ & _ & ->). eauto. }
  destruct HR' as (r' & Er').
  assert (Hgen : gen_step x n0 n1).
  { exists s, root, l, ss, sv, ev. repeat (split; [assumption|]). cbv zeta. rewrite <- Eos. repeat (split; [assumption|]). split; [reflexivity|].
    assert (HGn : exists g0, ng n0 = Some g0).
    { assert (fnan (ng n0) = false) as K. { destruct HR as [h Hh0]. inversion Hh0 as [? K|? ? ? ? K]; subst.
        - destruct K as (? & ? & ? & ? & ? & ? & _ & _ & _ & _ & K). cbv zeta in K. tauto.
        - destruct K as (? & ? & ? & ? & ? & ? & _ & _ & _ & _ & _ & K). cbv zeta in K. tauto. }
      destruct (ng n0) as [g0|]; [eauto|discriminate]. }
    destruct HGn as (g0 & Eg). unfold n1. cbn [ng nh new_node fst snd]. rewrite Eg, ER, Er', HG, EQI. cbn [fst snd]. rewrite (heuristic_vp r' goal q1 q2 Hq), vdist_vp. split; [|reflexivity].
    destruct (negb _); reflexivity. }
  assert (HR1 : reachable x (vp start) ps n1) by exact (reach_more n0 n1 HR Hgen).
  destruct (step_view x start ps n0 n1 HM Hprev HX (HC n0 HR) HSn Hgen) as (r2 & j0 & j1 & r3 & p1 & p2 & V1 & V2 & V3 & V4 & V5 & V6).
  assert (r2 = r) by (apply vp_inj; congruence). assert (j0 = i0) by (apply vp_inj; congruence). assert (j1 = i1) by (apply vp_inj; congruence). subst r2 j0 j1.
  assert (EN1 : nroot n1 = vp r') by (rewrite <- Er'; reflexivity). assert (r3 = r') by (apply vp_inj; congruence). subst r3.
  assert (EI1 : ninterval n1 = (vp q1, vp q2)) by (unfold n1; cbn [ninterval new_node fst snd]; now rewrite EQI).
  assert (p1 = q1) by (apply vp_inj; congruence). assert (p2 = q2) by (apply vp_inj; congruence). subst p1 p2.
  apply dnew_node_Ok in Hn. cbv zeta in Hn. rewrite EQI in Hn. cbn [fst snd] in Hn. destruct Hn as (g & h & _ & ->).
  split. exists n1. split; [exact HR1|]. split.
  { unfold n1, same_view. cbn [dnode new_node npath nroot ninterval nedge nfrom nto nprev]. rewrite EQI, E1, E2, E6. cbn [fst snd]. split; [destruct (veq root _); reflexivity|].
    repeat (split; [reflexivity|]). reflexivity. }
  destruct (node_place n0 i0 i1 HR EI) as (_ & PL & _). destruct (PL ln pn HPn) as (qn & Q1 & Q2 & Q3).
  destruct (own_lanes n0 r i0 i1 m0 _ ln pn HR EI HPn HLa HLb) as [HLm HLl]. rewrite <- Em in HLm, HLl.
  destruct (node_place n1 q1 q2 HR1 EI1) as ((qn' & Q1' & Q2' & Q3') & _ & HB1). change (nfrom n1) with (nto n0) in Q1', HB1. change (nto n1) with os in HB1.
  rewrite (corners_fun _ _ _ _ Q1' Q1) in Q2', Q3'.
  rewrite <- E2, ER, Er'. cbn [dpoints]. rewrite <- E6, ED.
  pose proof (own_through r' q1 q2 os (nto n0)) as HO. pose proof (own_sized q1 q2 os (nto n0) Hq) as HOz. pose proof (own_tag q1 q2 os (nto n0)) as EO.
  destruct V6 as [[-> V6]|(V6 & k & Hk & V7)].
  - (* straight on *)
    exists gs, r, q1, q2, (m ++ own q1 q2 os (nto n0)). rewrite (proj2 (veq_vp r r) eq_refl), app_nil_r.
    split; [exact EN1|]. split; [exact EI1|]. split; [exact Hq|]. split.
    { unfold n1. cbn [npath new_node]. rewrite ER, Er', (proj2 (veq_vp r r) eq_refl). exact EP. }
    split; [exact EL|]. split; [exact HL|]. split; [apply Forall_app; auto|]. split.
    + intros k Hk. destruct (V6 k Hk) as (t & sg & Ht & Hsg & E).
      assert (HTz : through r (lerp q1 q2 k) m) by (apply (through_further m r (lerp r (lerp q1 q2 k) t) _ t); auto; rewrite E; now apply HT).
      exact (own_snoc r q1 q2 os (nto n0) k m Hk HTz).
    + split; [rewrite map_app, EO, app_assoc; reflexivity|]. exists m. change (nfrom n1) with (nto n0). change (nto n1) with os. split; [reflexivity|]. split; [exact HLI|].
      split; [apply Forall_app; auto|]. split; [|exact HLl]. intros k Hk. destruct (V6 k Hk) as (t & sg & Ht & Hsg & E).
      apply (lanes_further (cmesh x) m _ r (lerp r (lerp q1 q2 k) t) _ t); auto; [rewrite E; now apply HLm|]. rewrite HLl, E. apply (segment_layer (nto n0) qn); auto; now apply inside_lerp.
  - (* a turn *)
    exists (gs ++ [mkLeg m r' (id_layer (nto n0))]), r', q1, q2, (own q1 q2 os (nto n0)).
    rewrite (proj2 (veq_vp_false r' r) V6). split; [exact EN1|]. split; [exact EI1|]. split; [exact Hq|]. split.
    { unfold n1. cbn [npath new_node]. rewrite ER, Er', (proj2 (veq_vp_false r' r) V6), EP, !map_app. reflexivity. }
    rewrite map_app. cbn [map lturn]. split; [now rewrite last_last|]. split.
    { apply legs_snoc; [exact HL|exact HSz|]. cbn [lturn lentries]. rewrite <- EL, V7. now apply HT. }
    split; [exact HOz|]. split; [exact HO|].
    split.
    { rewrite map_app, concat_app. cbn [map concat]. rewrite app_nil_r, EO. change (leg_points {| lentries := m; lturn := r'; llayer := id_layer (nto n0) |}) with (map tag m ++ [(vp r', vp r', id_layer (nto n0))]). rewrite <- !app_assoc. reflexivity. }
    exists []. change (nfrom n1) with (nto n0). change (nto n1) with os. split; [reflexivity|]. rewrite map_app. cbn [map llayer]. rewrite last_last. split.
    { apply legs_in_snoc; [exact HLI| |exact HBd]. cbn [lturn lentries]. rewrite <- EL, V7. now apply HLm. }
    split; [exact HB1|]. split; [|reflexivity]. intros k' Hk'. cbn [lanes]. apply (segment_layer (nto n0) qn); auto; [rewrite V7|]; now apply inside_lerp.
Qed.

Lemma pairs_more (e : P2 * P2) l l' : In e (pairs l) -> In e (pairs (l ++ l')).
Proof using.
  induction l as [|a l IH]; intro H; [destruct H|]. destruct l as [|b l]; [destruct H|]. cbn [pairs app] in *. destruct H as [H|H]; [now left|right]. exact (IH H).
Qed.

(** what a node of the goal polygon gives *)
Lemma shadow_final n p pe : shadow n -> pe = cpto x -> nto (dnode n) = pe -> fst (dfrom c) = vp start ->
  (exists qs, corners (cmesh x) pe qs /\ inside qs goal) -> (forall n, reachable x (vp start) ps n -> nto n = pe -> clear_goal n goal) ->
  dfinal c n = Ok p ->
  exists n0 pts full, reachable x (vp start) ps n0 /\ nto n0 = pe /\ dpath p = ppath (final_path x n0) /\
    dpath p = map vp pts /\ refines start pts (map fst full) /\ thinned (map labelled full) (dlayers p) /\
    (off_borders (cmesh x) start pts -> in_layers (cmesh x) (id_layer ps) start full) /\
    walked (dscales c) (fz 0) (vp start) (snd (dfrom c)) (dlayers p) (dlength p).
Proof using HM HU HP32 Hto HG HS HC.
  intros [(n0 & HR & SV & gs & r & i0 & i1 & m & ER & EI & Hne & EP & EL & HL & HSz & HT & ED & m0 & Em & HLI & HBd & HLa & HLb)] -> Hnto Hfrom HGi HCg H.
  pose proof SV as (E1 & E2 & E3 & E4 & E5 & E6 & E7). unfold dfinal in H. inv_bind H. injection H as <-. cbn [dpath dlayers dlength].
  assert (Hto0 : nto n0 = cpto x) by congruence.
  pose proof (reachable_supported x (vp start) ps n0 RA_nan_sane Hto HR) as HSup.
  destruct (sup_chain _ _ _ _ HSup) as (xs & HX & _). apply (corridor_u32 _ _ _ _ _ HU HP32) in HX.
  pose proof (reachable_seen x start ps HM HU HP32 Hto HS HC n0 HR) as HSn.
  rewrite <- Hto0 in HGi.
  destruct (final_view x start ps n0 goal HM HX HGi (HCg n0 HR Hto0) HSn) as (r2 & j0 & j1 & V1 & V2 & V3 & V4).
  assert (r2 = r) by (apply vp_inj; congruence). assert (j0 = i0) by (apply vp_inj; congruence). assert (j1 = i1) by (apply vp_inj; congruence). subst r2 j0 j1.
  assert (EF : npath (dnode n) ++ dend x (dnode n) = ppath (final_path x n0)).
  { unfold dend, final_path. cbn [ppath]. rewrite <- E1, <- E2, <- E3. destruct (turning_point (nroot n0) (cgoal x) (ninterval n0)); cbn [app]; [now rewrite <- app_assoc|reflexivity]. }
  destruct HGi as (qg & QG1 & QG2). pose proof QG1 as (lg & pg & HPg & _).
  destruct (node_place n0 i0 i1 HR EI) as (_ & PL & _). destruct (PL lg pg HPg) as (qn & Q1 & Q2 & Q3). rewrite (corners_fun _ _ _ _ Q1 QG1) in Q2, Q3.
  destruct (own_lanes n0 r i0 i1 m0 _ lg pg HR EI HPg HLa HLb) as [HLm HLl]. rewrite <- Em in HLm, HLl. rewrite EL in HLm.
  assert (Goal : exists pts full, npath (dnode n) ++ dend x (dnode n) = map vp pts /\ refines start pts (map fst full) /\
            (off_borders (cmesh x) start pts -> in_layers (cmesh x) (id_layer ps) start full) /\
            fill (hd (cgoal x) (dend x (dnode n))) (fst (dfrom c)) (dpoints n) ++ map (fun q => (q, id_layer (nto (dnode n)))) (dend x (dnode n)) = map labelled full).
  { unfold dend. rewrite <- E1, <- E2, <- E3, HG, Hfrom, ED, EP. set (ly := id_layer (nto (dnode n))). destruct (turning_point (nroot n0) (vp goal) (ninterval n0)) as [t|] eqn:Et.
    - destruct V4 as (i & -> & _ & Hi). cbn [hd app].
      assert (Hthr : through (last (map lturn gs) start) i m).
      { rewrite <- EL. destruct Hi as [-> | ->]; [rewrite <- (lerp_0 i0 i1)|rewrite <- (lerp_1 i0 i1)]; apply HT; lra. }
      destruct (fill_legs (cmesh x) i m gs start HL HSz Hthr) as (full & F1 & F2 & F3). exists (map lturn gs ++ [i; goal]), (full ++ [(i, ly); (goal, ly)]).
      split; [now rewrite map_app|]. split; [|split].
      + rewrite map_app. cbn [map fst]. apply F2. apply (refines_leg i goal [] [] []); [exact I|constructor].
      + intro HO. apply F3; auto.
        * destruct Hi as [-> | ->]; [rewrite <- (lerp_0 i0 i1)|rewrite <- (lerp_1 i0 i1)]; apply HLm; lra.
        * intros u w s e Huw Hd Hse. apply (HO u w s e); [|exact Hd|exact Hse]. replace (map lturn gs ++ [i; goal]) with ((map lturn gs ++ [i]) ++ [goal]) by (rewrite <- app_assoc; reflexivity). exact (pairs_more (u, w) (start :: map lturn gs ++ [i]) [goal] Huw).
        * cbn [in_layers]. split; [|exact I]. unfold ly. rewrite <- E6. apply (segment_layer (nto n0) qg); auto. destruct Hi as [-> | ->]; auto.
      + rewrite F1, map_app. reflexivity.
    - destruct V4 as (t & sg & Ht & Hsg & EM). cbn [hd app].
      assert (Hthr : through (last (map lturn gs) start) goal m).
      { rewrite <- EL. apply (through_further m r (lerp r goal t) goal t); auto. rewrite EM. now apply HT. }
      destruct (fill_legs (cmesh x) goal m gs start HL HSz Hthr) as (full & F1 & F2 & F3). exists (map lturn gs ++ [goal]), (full ++ [(goal, ly)]).
      split; [now rewrite map_app|]. split; [|split].
      + rewrite map_app. cbn [map fst]. apply F2. constructor.
      + intro HO. apply F3; auto; [|exact I]. apply (lanes_further (cmesh x) m _ _ (lerp r goal t) goal t); auto; [rewrite EM; now apply HLm|now rewrite <- EL|].
        rewrite HLl, EM. apply (segment_layer (nto n0) qg); auto. now apply inside_lerp.
      + rewrite F1, map_app. reflexivity. }
  destruct Goal as (pts & full & G1 & G2 & G4 & G3). exists n0, pts, full. split; [exact HR|]. split; [exact Hto0|]. split; [exact EF|]. split; [exact G1|]. split; [exact G2|].
  unfold dwith_layers. fold x. rewrite G3. split; [apply thin_thinned|]. split; [exact G4|].
  unfold dsum in E. inv_bind E. injection E as <-. destruct (dfrom c) as [f lf] eqn:Ef. cbn [fst snd] in *. rewrite Hfrom in *.
  unfold dwith_layers in E0. rewrite Ef in E0. cbn [fst] in E0. fold x in E0. rewrite G3 in E0. exact (dleg_walked c _ (fz 0) (vp start) lf a0 E0).
Qed.
End Shadow.
