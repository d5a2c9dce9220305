(** A clockwise convex line encloses the points on the right of all its sides. *)
From Coq Require Import List NArith Bool Reals Lra Psatz Lia.
From Verif Require Import Base Arith RealArith Mesh Triangulation Geometry Spec_outline.
Import ListNotations.
Open Scope R_scope.

Lemma pairs_combine a r : pairs ((a :: r) ++ [a]) = poly_edges (a :: r).
Proof.
  unfold poly_edges. cbn [tl firstn].
  assert (G : forall r x z, pairs ((x :: r) ++ [z]) = combine (x :: r) (r ++ [z])).
  { clear. induction r as [|b r IH]; intros x z; [reflexivity|]. specialize (IH b z). cbn [app pairs combine] in *. now rewrite IH. }
  apply G.
Qed.
Lemma hull_closed a r z : in_hull ((a :: r) ++ [a]) z <-> in_hull (a :: r) z.
Proof.
  split; intros H u c Hc; apply H; intros q Hq.
  - apply in_app_or in Hq. destruct Hq as [Hq|[<-|[]]]; apply Hc; [assumption|now left].
  - apply Hc. apply in_or_app. now left.
Qed.

(** the mirror image, to use the lemma about counterclockwise polygons *)
Definition flip (p : P2) : P2 := P (px p) (- py p).
Lemma orient_flip a b x : orient (flip a) (flip b) (flip x) = - orient a b x.
Proof. unfold orient, cross, psub, flip. cbn [px py]. ring. Qed.
Lemma combine_map {S T} (f : S -> T) : forall l l', combine (map f l) (map f l') = map (fun e => (f (fst e), f (snd e))) (combine l l').
Proof. induction l as [|x l IH]; intros l'; [reflexivity|]. destruct l' as [|y l']; [reflexivity|]. cbn. now rewrite IH. Qed.
Lemma right_of_all_in_hull qs x : qs <> [] -> (forall a b, In (a, b) (poly_edges qs) -> orient a b x < 0) -> in_hull qs x.
Proof.
  intros Hne H. assert (G : in_hull (map flip qs) (flip x)).
  { apply left_of_all_in_hull; [destruct qs; [congruence|discriminate]|]. intros a b Hab.
    unfold poly_edges in Hab. replace (tl (map flip qs) ++ firstn 1 (map flip qs)) with (map flip (tl qs ++ firstn 1 qs)) in Hab by (destruct qs; [reflexivity|]; cbn; now rewrite map_app).
    rewrite combine_map in Hab. apply in_map_iff in Hab. destruct Hab as ([c d] & E & Hin). cbn [fst snd] in E. injection E as <- <-.
    rewrite orient_flip. specialize (H c d Hin). lra. }
  intros u c Hc. specialize (G (flip u) c). assert (E : forall p q, pdot (flip p) (flip q) = pdot p q) by (intros; unfold pdot, flip; cbn [px py]; ring).
  rewrite E in G. apply G. intros q Hq. apply in_map_iff in Hq. destruct Hq as (q' & <- & Hq). rewrite E. now apply Hc.
Qed.

(** finitely many linear functions, negative at 0: all negative at 1, or one of them is the first to reach 0 *)
Lemma first_zero (f : P2 * P2 -> R) (g : P2 * P2 -> R) : forall es, (forall e, In e es -> f e < 0) ->
  (forall e, In e es -> g e < 0) \/
  exists t e, 0 <= t <= 1 /\ In e es /\ (1 - t) * f e + t * g e = 0 /\ forall e', In e' es -> (1 - t) * f e' + t * g e' <= 0.
Proof.
  induction es as [|e es IH]; intro Hf; [left; intros ? []|].
  assert (Fe : f e < 0) by (apply Hf; now left).
  destruct IH as [IH|(t & e0 & Ht & He0 & H0 & Hall)]; [intros; apply Hf; now right| |].
  - destruct (Rlt_le_dec (g e) 0) as [Ge|Ge]; [left; intros e' [<-|He']; auto|]. right.
    set (t := f e / (f e - g e)). assert (Ht : t * (f e - g e) = f e) by (unfold t; field; lra).
    assert (0 <= t <= 1) by (split; nra). exists t, e. split; [assumption|]. split; [now left|]. split; [lra|].
    intros e' [<-|He']; [lra|]. assert (f e' < 0) by (apply Hf; now right). specialize (IH e' He'). nra.
  - destruct (Rle_lt_dec ((1 - t) * f e + t * g e) 0) as [Ge|Ge].
    + right. exists t, e0. split; [assumption|]. split; [now right|]. split; [assumption|]. intros e' [<-|He']; auto.
    + right. set (h := (1 - t) * f e + t * g e) in *. set (s := f e / (f e - h)). assert (Hs : s * (f e - h) = f e) by (unfold s; field; lra).
      assert (0 <= s <= 1) by (split; nra). exists (s * t), e. split; [split; nra|]. split; [now left|].
      assert (EQ : forall e', (1 - s * t) * f e' + s * t * g e' = (1 - s) * f e' + s * ((1 - t) * f e' + t * g e')) by (intro; ring).
      rewrite EQ. fold h. split; [lra|]. intros e' [<-|He']; rewrite EQ; [fold h; lra|]. specialize (Hall e' He'). assert (f e' < 0) by (apply Hf; now right). nra.
Qed.

Section Convex.
Context (es : list (P2 * P2)).
Context (Hturn : forall a b, In (a, b) es -> a <> b /\ (exists c, In (c, a) es /\ orient c a b < 0) /\ (exists d, In (b, d) es /\ orient a b d < 0)).

Lemma orient_lerp_lin a b u v t : orient a b (lerp u v t) = (1 - t) * orient a b u + t * orient a b v.
Proof. unfold orient, cross, psub, lerp, padd, pscale, psub. cbn [px py]. ring. Qed.
Lemma leg_meets u v : (forall a b, In (a, b) es -> orient a b u < 0) -> ~ (forall a b, In (a, b) es -> orient a b v < 0) ->
  exists a b, In (a, b) es /\ meet u v a b.
Proof using Hturn.
  intros Hu Hv. destruct (first_zero (fun e => orient (fst e) (snd e) u) (fun e => orient (fst e) (snd e) v) es) as [H|(t & [a b] & Ht & Hab & H0 & Hall)].
  - intros [a b] Hab. now apply Hu.
  - exfalso. apply Hv. intros a b Hab. exact (H (a, b) Hab).
  - cbn [fst snd] in *. exists a, b. split; [exact Hab|]. destruct (Hturn a b Hab) as (Nab & (c & Hca & Oc) & (d & Hbd & Od)).
    pose proof (Hall (c, a) Hca) as Wc. pose proof (Hall (b, d) Hbd) as Wd. cbn [fst snd] in Wc, Wd. rewrite <- orient_lerp_lin in H0, Wc, Wd.
    destruct (on_line a b _ Nab H0) as [k Ek]. rewrite Ek in Wc, Wd. rewrite orient_lerp_lin in Wc, Wd. rewrite orient_end in Wc. rewrite orient_start in Wd.
    assert (orient b d a = orient a b d) as Eo by (symmetry; apply orient_cycle || (rewrite <- (orient_cycle a b d); reflexivity)).
    rewrite Eo in Wd. exists t, k. split; [exact Ht|]. split; [split; nra|exact Ek].
Qed.
Lemma walk_meets : forall stops x z, (forall a b, In (a, b) es -> orient a b x < 0) -> ~ (forall a b, In (a, b) es -> orient a b z < 0) ->
  exists u v a b, In (u, v) (pairs (x :: stops ++ [z])) /\ In (a, b) es /\ meet u v a b.
Proof using Hturn.
  induction stops as [|y r IH]; intros x z Hx Hz.
  - destruct (leg_meets x z Hx Hz) as (a & b & H1 & H2). exists x, z, a, b. split; [now left|auto].
  - destruct (first_zero (fun e => orient (fst e) (snd e) x) (fun e => orient (fst e) (snd e) y) es) as [H|(t & [a b] & Ht & Hab & H0 & Hall)].
    + intros [a b] Hab. now apply Hx.
    + destruct (IH y z) as (u & v & a & b & H1 & H2); [intros a b Hab; exact (H (a, b) Hab)|exact Hz|]. exists u, v, a, b. split; [right; exact H1|exact H2].
    + assert (~ (forall a b, In (a, b) es -> orient a b y < 0)) as Hy.
      { intro K. specialize (K a b Hab). specialize (Hx a b Hab). cbn [fst snd] in H0. destruct Ht. nra. }
      destruct (leg_meets x y Hx Hy) as (a' & b' & H1 & H2). exists x, y, a', b'. split; [now left|auto].
Qed.
End Convex.

(** the line through [qs] and back, turning right at every point *)
Lemma convex_encloses q0 r x :
  (forall a b, In (a, b) (poly_edges (q0 :: r)) -> a <> b /\ (exists c, In (c, a) (poly_edges (q0 :: r)) /\ orient c a b < 0) /\ (exists d, In (b, d) (poly_edges (q0 :: r)) /\ orient a b d < 0)) ->
  (forall a b, In (a, b) (poly_edges (q0 :: r)) -> orient a b x < 0) -> enclosed ((q0 :: r) ++ [q0]) x.
Proof.
  intros HT Hx stops z Hz. rewrite pairs_combine. apply (walk_meets _ HT); [exact Hx|]. intro K. apply Hz. apply hull_closed. now apply right_of_all_in_hull.
Qed.
Lemma enclosed_hull r x : enclosed r x -> in_hull r x.
Proof.
  intros H u c Hc. destruct (Rle_lt_dec (pdot u x) c) as [|L]; [assumption|]. exfalso.
  destruct (H [] x) as (p & q & a & b & Hpq & Hab & s & t & Hs & Ht & E); [intro K; specialize (K u c Hc); lra|].
  cbn in Hpq. destruct Hpq as [Hpq|[]]. injection Hpq as <- <-.
  assert (In a r /\ In b r) as [Ia Ib].
  { clear - Hab. induction r as [|y r IH]; [destruct Hab|]. destruct r as [|y' r]; [destruct Hab|]. cbn [pairs] in Hab. destruct Hab as [E|Hab]; [injection E as <- <-; split; [now left|right; now left]|].
    destruct (IH Hab). split; now right. }
  pose proof (Hc a Ia). pose proof (Hc b Ib). assert (x = lerp a b t) as E' by (rewrite <- E; unfold lerp, padd, pscale, psub; apply P2_eq; cbn [px py]; ring).
  assert (pdot u (lerp a b t) = (1 - t) * pdot u a + t * pdot u b) as EL by (unfold pdot, lerp, padd, pscale, psub; cbn [px py]; ring).
  rewrite E', EL in L. nra.
Qed.
