(** Meshes with integer coordinates (Zmesh.v): [seamless] by computation. *)
From Coq Require Import List NArith ZArith Bool Lia Reals Lra Psatz.
From Verif Require Import Base Arith U32 Mesh Helpers Locate Search StdLib Spec RealArith Geometry Heuristic Search_props Search_safe Checkers Islands_facts
  Properties_geometry Examples_exact Rings Spec_inside Sight Sight_search Sight_static Examples_inside Spec_shortest Shortest_cover Spec_area Zmesh.
Import ListNotations.
Open Scope R_scope.

(** ** Convex polygons are the hulls of their corners *)
Lemma strict_point qs : qs <> [] -> convex qs -> forall E, (forall e, In e E -> In e (poly_edges qs)) ->
  exists y, inside qs y /\ forall a b, In (a, b) E -> 0 < orient a b y.
Proof.
  intros Hne HC. induction E as [|[a b] E IH]; intro HE.
  - destruct qs as [|q r]; [congruence|]. exists q. split; [apply convex_corner; [exact HC|now left]|intros ? ? []].
  - destruct IH as (y & Y1 & Y2); [intros e He; apply HE; now right|]. destruct (proj2 HC a b (HE _ (or_introl eq_refl))) as (c & C1 & C2).
    pose proof (convex_corner qs c HC C1) as C3. exists (lerp y c (1 / 2)).
    assert (A : forall u w, orient u w (lerp y c (1 / 2)) = (orient u w y + orient u w c) / 2) by (intros u w; unfold orient, lerp, cross, psub, padd, pscale; cbn [px py]; field).
    split.
    + intros u w Hu. rewrite A. specialize (Y1 u w Hu). specialize (C3 u w Hu). lra.
    + intros u w [E1|Hu]; rewrite A.
      * injection E1 as <- <-. specialize (Y1 a b (HE _ (or_introl eq_refl))). lra.
      * specialize (Y2 u w Hu). specialize (C3 u w (HE _ (or_intror Hu))). lra.
Qed.
Lemma inside_hull qs x : qs <> [] -> convex qs -> inside qs x -> in_hull qs x.
Proof.
  intros Hne HC Hx u c Hc. destruct (strict_point qs Hne HC (poly_edges qs) (fun e H => H)) as (y & Y1 & Y2).
  assert (HL : forall t, 0 < t <= 1 -> pdot u (lerp x y t) <= c).
  { intros t Ht. apply (left_of_all_in_hull qs); [exact Hne| |exact Hc]. intros a b He. specialize (Hx a b He). specialize (Y2 a b He).
    replace (orient a b (lerp x y t)) with ((1 - t) * orient a b x + t * orient a b y) by (unfold orient, lerp, cross, psub, padd, pscale; cbn [px py]; ring). nra. }
  assert (A : forall t, pdot u (lerp x y t) = pdot u x + t * (pdot u y - pdot u x)) by (intro t; unfold lerp, pdot, psub, padd, pscale; cbn [px py]; ring).
  destruct (Rle_dec (pdot u x) c) as [|HN]; [assumption|exfalso]. apply Rnot_le_lt in HN.
  set (k := pdot u y - pdot u x) in *. set (g := pdot u x - c) in *. assert (0 < g) by (unfold g; lra).
  set (t := g / (g + Rabs k + 1)). assert (0 <= Rabs k) by apply Rabs_pos. assert (T : 0 < t <= 1).
  { unfold t. split; [apply Rdiv_lt_0_compat; lra|]. apply Rmult_le_reg_r with (g + Rabs k + 1); [lra|]. unfold Rdiv. rewrite Rmult_assoc, Rinv_l by lra. lra. }
  specialize (HL t T). rewrite A in HL. fold k in HL. assert (Q : g + t * k <= 0) by (unfold g; lra).
  assert (- Rabs k <= k) by (unfold Rabs; destruct (Rcase_abs k); lra). assert (E : t * (g + Rabs k + 1) = g) by (unfold t; field; lra). nra.
Qed.

(** ** The face of a hull on a supporting line *)
Lemma face qs u w x (z : P2 -> bool) : (forall q, In q qs -> if z q then orient u w q = 0 else orient u w q < 0) ->
  0 <= orient u w x -> in_hull qs x -> in_hull (filter z qs) x.
Proof.
  intros Hz Hx Hh v c Hc. set (n := P (py u - py w) (px w - px u)). set (k := pdot n u).
  assert (A : forall q, orient u w q = pdot n q - k) by (intro q; unfold orient, k, n, cross, pdot, psub; cbn [px py]; ring).
  assert (HL : exists l, 0 <= l /\ forall q, In q qs -> pdot v q + l * orient u w q <= c).
  { clear Hh. induction qs as [|q qs IH]; [exists 0; split; [lra|intros ? []]|].
    destruct IH as (l & L1 & L2). { intros p Hp. apply Hz. now right. } { intros p Hp. apply Hc. cbn [filter]. destruct (z q); [now right|exact Hp]. }
    assert (Mono : forall l', l <= l' -> forall p, In p qs -> pdot v p + l' * orient u w p <= c).
    { intros l' Hl p Hp. specialize (L2 p Hp). specialize (Hz p (or_intror Hp)). assert (orient u w p <= 0) by (destruct (z p); lra). nra. }
    pose proof (Hz q (or_introl eq_refl)) as Hq. destruct (z q) eqn:Ez.
    - exists l. split; [exact L1|]. intros p [<-|Hp]; [|now apply L2]. rewrite Hq. specialize (Hc q). cbn [filter] in Hc. rewrite Ez in Hc. specialize (Hc (or_introl eq_refl)). lra.
    - set (l' := Rabs (pdot v q - c) / (- orient u w q)).
      assert (E : l' * (- orient u w q) = Rabs (pdot v q - c)) by (unfold l'; field; lra).
      assert (0 <= l') by (unfold l'; apply Rmult_le_pos; [apply Rabs_pos|apply Rlt_le, Rinv_0_lt_compat; lra]).
      exists (l + l'). split; [lra|]. intros p [<-|Hp]; [|apply Mono; [lra|exact Hp]]. pose proof (Rle_abs (pdot v q - c)). nra. }
  destruct HL as (l & L1 & L2).
  assert (Q : pdot (padd v (pscale l n)) x <= c + l * k).
  { apply Hh. intros q Hq. specialize (L2 q Hq). rewrite A in L2. unfold pdot, padd, pscale in *; cbn [px py] in *. nra. }
  rewrite A in Hx. unfold pdot, padd, pscale in *; cbn [px py] in *. nra.
Qed.
Lemma hull_nil x : ~ in_hull [] x.
Proof. intro H. specialize (H (P 0 0) (-1) (fun q Hq => match Hq with end)). unfold pdot in H. cbn [px py] in H. lra. Qed.
Lemma hull_one z x : in_hull [z] x -> x = z.
Proof.
  intro H. assert (G : forall u, pdot u x <= pdot u z) by (intro u; apply H; intros q [<-|[]]; lra).
  pose proof (G (P 1 0)). pose proof (G (P (-1) 0)). pose proof (G (P 0 1)). pose proof (G (P 0 (-1))). unfold pdot in *. cbn [px py] in *. apply P2_eq; lra.
Qed.
Lemma hull_two a b x : in_hull [a; b] x -> exists t, 0 <= t <= 1 /\ x = lerp a b t.
Proof.
  intro H. assert (G : forall u, pdot u x <= Rmax (pdot u a) (pdot u b)).
  { intro u. apply H. intros q [<-|[<-|[]]]; [apply Rmax_l|apply Rmax_r]. }
  set (d := psub b a). set (D := pdot d d).
  destruct (P2_dec a b) as [E|E].
  - subst b. exists 0. split; [lra|].
    assert (x = a) as ->. { apply hull_one. intros u c Hc. apply H. intros q [<-|[<-|[]]]; apply Hc; now left. } unfold lerp, padd, pscale, psub. apply P2_eq; cbn [px py]; ring.
  - assert (HD : 0 < D) by (exact (pdot_pos a b E)). 
    assert (P1 : pdot (P (- py d) (px d)) x = pdot (P (- py d) (px d)) a).
    { pose proof (G (P (- py d) (px d))) as Q1. pose proof (G (P (py d) (- px d))) as Q2. rewrite Rmax_left in Q1, Q2; [|unfold d, pdot, psub; cbn [px py]; lra..]. unfold pdot in *. cbn [px py] in *. lra. }
    pose proof (G d) as Q1. pose proof (G (pscale (-1) d)) as Q2. rewrite Rmax_right in Q1 by (unfold D, d, pdot, psub in *; cbn [px py] in *; lra).
    rewrite Rmax_left in Q2 by (unfold D, d, pdot, psub, pscale in *; cbn [px py] in *; lra).
    assert (B : 0 <= pdot d (psub x a) <= D) by (unfold D, d, pdot, psub, pscale in *; cbn [px py] in *; lra).
    destruct (on_line a b x E) as (t & ->). { unfold orient, cross, d, pdot, psub in *. cbn [px py] in *. lra. }
    exists t. split; [|reflexivity]. replace (pdot d (psub (lerp a b t) a)) with (t * D) in B by (unfold D, d, lerp, pdot, psub, padd, pscale; cbn [px py]; ring). split; nra.
Qed.

Section Zarea.
Variables (vs : list (zpt * list N)) (ps : list (list N)).
Let m : Mesh RA := zmesh vs ps.
(** the common points of polygons [k] and [k'] are in the hull of [l] *)
Definition zcommonb (k k' : N) (l : list zpt) : bool :=
  match l with
  | [] => true
  | [z] => existsb (zeqb z) (zs_at vs ps k) && existsb (zeqb z) (zs_at vs ps k')
  | [z1; z2] => existsb (fun x => (cr_from x =? k)%N && (cr_to x =? k')%N &&
      ((zeqb z1 (zat vs (cr_a x)) && zeqb z2 (zat vs (cr_b x))) || (zeqb z2 (zat vs (cr_a x)) && zeqb z1 (zat vs (cr_b x))))) (zcross vs ps)
  | _ => false
  end.
(** the line through an edge of [zs] separates it from [zs'] *)
Definition zsepb (zs zs' : list zpt) (test : list zpt -> bool) : bool :=
  existsb (fun e => forallb (fun z => (zor (fst e) (snd e) z <=? 0)%Z) zs' && test (filter (fun z => (zor (fst e) (snd e) z =? 0)%Z) zs')) (zedges zs).
Definition zpairb (k k' : N) : bool :=
  zsepb (zs_at vs ps k) (zs_at vs ps k') (zcommonb k k') || zsepb (zs_at vs ps k') (zs_at vs ps k) (zcommonb k k').
Definition zseamb : bool := forallb (fun p => negb (N.eqb (lengthN p) 0)) ps && forallb (fun k => forallb (fun k' => (fst k =? fst k')%N || zpairb (fst k) (fst k')) (enumerate ps)) (enumerate ps).

Lemma zsep_hull zs zs' test x : zs' <> [] -> convex (map zp zs') -> zsepb zs zs' test = true -> inside (map zp zs) x -> inside (map zp zs') x ->
  exists l, test l = true /\ in_hull (map zp l) x.
Proof.
  intros Hne HC H H1 H2. unfold zsepb in H. apply existsb_exists in H. destruct H as ([u w] & He & H). cbn [fst snd] in H. apply andb_prop in H. destruct H as [H3 H4].
  eexists. split; [exact H4|]. rewrite forallb_forall in H3.
  assert (Hh : in_hull (map zp zs') x) by (apply inside_hull; auto; destruct zs'; [congruence|discriminate]).
  assert (Ho : 0 <= orient (zp u) (zp w) x). { apply H1. rewrite zedges_map. apply in_map_iff. exists (u, w). auto. }
  set (z := fun q => if Req_EM_T (orient (zp u) (zp w) q) 0 then true else false).
  assert (E : map zp (filter (fun z => (zor u w z =? 0)%Z) zs') = filter z (map zp zs')).
  { clear. induction zs' as [|a l IH]; [reflexivity|]. cbn [filter map]. unfold z at 1. rewrite zor_R. destruct (Z.eqb_spec (zor u w a) 0) as [->|N].
    - destruct (Req_EM_T (0 / 9) 0) as [_|N]; [cbn [map]; now rewrite IH|exfalso; apply N; lra].
    - destruct (Req_EM_T (IZR (zor u w a) / 9) 0) as [E|_]; [|exact IH]. exfalso. apply N. apply eq_IZR. lra. }
  rewrite E. apply (face _ (zp u) (zp w)); auto. intros q Hq. apply in_map_iff in Hq. destruct Hq as (a & <- & Ha). specialize (H3 a Ha). apply Z.leb_le, IZR_le in H3.
  unfold z. rewrite zor_R. destruct (Req_EM_T (IZR (zor u w a) / 9) 0); lra.
Qed.
Lemma zin z l : existsb (zeqb z) l = true -> In (zp z) (map zp l).
Proof. intro H. apply existsb_exists in H. destruct H as (a & Ha & E). apply zeqb_eq in E. subst a. now apply in_map. Qed.
Lemma zm_seamless start : zplaneb vs ps = true -> zidsb vs ps = true -> zseamb = true -> seamless m [] start.
Proof.
  intros HPl HS H id id' qs qs' x [L1 _] [L2 _] C1 C2 I1 I2.
  assert (HW : zwfb vs ps = true) by (unfold zplaneb in HPl; apply andb_prop in HPl; destruct HPl as [HPl _]; now apply andb_prop in HPl).
  pose proof (zm_plane vs ps HPl) as [HM _].
  assert (Cv : forall id qs, corners m id qs -> convex qs).
  { clear -HM. intros id qs HC. pose proof HC as (l & p & HP & HF). destruct (HM id l p HP) as (qs2 & F2 & HV & _). assert (qs2 = qs) as ->; [|exact HV].
    exact (Sight_search.corners_fun m id qs2 qs (ex_intro _ l (ex_intro _ p (conj HP F2))) HC). }
  pose proof (Cv _ _ C1) as V1. pose proof (Cv _ _ C2) as V2.
  destruct (zm_corners vs ps id qs C1) as (E1 & E2 & ->). destruct (zm_corners vs ps id' qs' C2) as (E3 & E4 & ->).
  pose proof (id_make_layer_polygon _ L1) as F1. pose proof (id_make_layer_polygon _ L2) as F2. rewrite E1, id_make_zero in F1. rewrite E3, id_make_zero in F2.
  destruct (nthN_lt_Some ps _ E2) as (p1 & Hp1). destruct (nthN_lt_Some ps _ E4) as (p2 & Hp2). rewrite F1 in Hp1. rewrite F2 in Hp2.
  unfold zseamb in H. apply andb_prop in H. destruct H as [HNO H]. rewrite forallb_forall in H. specialize (H (id, p1) (proj2 (enumerate_spec _ _ _) Hp1)). rewrite forallb_forall in H.
  specialize (H (id', p2) (proj2 (enumerate_spec _ _ _) Hp2)). cbn [fst] in H. apply orb_prop in H. destruct H as [H|H]; [left; now apply N.eqb_eq|right].
  assert (N1 : zs_at vs ps id <> [] -> zs_at vs ps id' <> [] -> exists l, zcommonb id id' l = true /\ in_hull (map zp l) x).
  { intros M1 M2. unfold zpairb in H. apply orb_prop in H. destruct H as [H|H]; [exact (zsep_hull _ _ _ x M2 V2 H I1 I2)|exact (zsep_hull _ _ _ x M1 V1 H I2 I1)]. }
  assert (HNE : (zs_at vs ps id <> [] /\ zs_at vs ps id' <> [])).
  { assert (HA : forallb (fun p => negb (N.eqb (lengthN p) 0)) ps = true -> zs_at vs ps id <> [] /\ zs_at vs ps id' <> []) by
      (intro Q; rewrite forallb_forall in Q; unfold zs_at; rewrite F1, F2, Hp1, Hp2; pose proof (Q p1 (nthN_In _ _ _ Hp1)); pose proof (Q p2 (nthN_In _ _ _ Hp2)); split; [destruct p1|destruct p2]; discriminate).
    now apply HA. }
  destruct (N1 (proj1 HNE) (proj2 HNE)) as (l & T1 & T2). clear N1 H.
  destruct l as [|z1 [|z2 [|z3 l]]].
  - destruct (hull_nil x T2).
  - left. cbn [map] in T2. apply hull_one in T2. subst x. cbn [zcommonb] in T1. apply andb_prop in T1. destruct T1 as [T1 T3]. split; now apply zin.
  - right. cbn [map] in T2. destruct (hull_two _ _ _ T2) as (t & Ht & ->). cbn [zcommonb] in T1. apply existsb_exists in T1. destruct T1 as (c & Hc & T1).
    apply andb_prop in T1. destruct T1 as [T1 T3]. apply andb_prop in T1. destruct T1 as [T1 T4]. apply N.eqb_eq in T1, T4.
    exists c. split; [split; [exact (zm_crossing_inv vs ps c HW HS Hc)|intros []]|]. split; [exact T1|]. split; [exact T4|]. pose proof (zm_ends_at vs ps c HW HS Hc) as HE.
    apply orb_prop in T3. destruct T3 as [T3|T3]; apply andb_prop in T3; destruct T3 as [T3 T5]; apply zeqb_eq in T3, T5; subst z1 z2.
    + exists (zp (zat vs (cr_a c))), (zp (zat vs (cr_b c))), t. auto.
    + exists (zp (zat vs (cr_a c))), (zp (zat vs (cr_b c))), (1 - t). split; [exact HE|]. split; [lra|]. unfold lerp, padd, pscale, psub. apply P2_eq; cbn [px py]; ring.
  - discriminate T1.
Qed.
End Zarea.
