(** C62 is not vacuous: two unit squares, a start and a goal in general position; checked with integer coordinates. *)
From Coq Require Import List NArith ZArith Bool Lia Reals Lra Psatz.
From Verif Require Import Base Arith U32 Mesh Helpers Locate Search StdLib Spec RealArith Geometry Heuristic Search_props Checkers
  Properties_geometry Examples_exact Rings Spec_inside Sight Sight_search Sight_static Properties_inside.
Import ListNotations.
Open Scope R_scope.

(** ** Points with coordinates in thirds *)
Notation zpt := (Z * Z)%type (only parsing).
Definition zp (z : zpt) : P2 := P (IZR (fst z) / 3) (IZR (snd z) / 3).
Definition zor (u w x : zpt) : Z :=
  ((fst w - fst u) * (snd x - snd u) - (snd w - snd u) * (fst x - fst u))%Z.
Definition zd2 (u w : zpt) : Z := ((fst w - fst u) * (fst w - fst u) + (snd w - snd u) * (snd w - snd u))%Z.
Lemma zor_R u w x : orient (zp u) (zp w) (zp x) = IZR (zor u w x) / 9.
Proof. unfold orient, zor, zp, cross, psub. cbn [px py]. rewrite minus_IZR, !mult_IZR, !minus_IZR. field. Qed.
Lemma zd2_R u w : pdot (psub (zp u) (zp w)) (psub (zp u) (zp w)) = IZR (zd2 u w) / 9.
Proof. unfold zd2, zp, pdot, psub. cbn [px py]. rewrite plus_IZR, !mult_IZR, !minus_IZR. field. Qed.
Lemma zp_inj u w : zp u = zp w -> u = w.
Proof.
  destruct u as [a b], w as [c d]. unfold zp. cbn [fst snd]. intros H. injection H as H1 H2.
  assert (IZR a = IZR c) by lra. assert (IZR b = IZR d) by lra. f_equal; now apply eq_IZR.
Qed.
Lemma zdist_ge u w k : 0 <= k -> k * k <= IZR (zd2 u w) / 9 -> k <= dist (zp u) (zp w).
Proof. intros Hk H. unfold dist, plen. rewrite zd2_R. rewrite <- (sqrt_square k Hk). apply sqrt_le_1_alt. exact H. Qed.
Lemma zdist_sq u w : dist (zp u) (zp w) * dist (zp u) (zp w) = IZR (zd2 u w) / 9.
Proof.
  unfold dist, plen. rewrite sqrt_sqrt; [apply zd2_R|]. unfold pdot.
  pose proof (Rle_0_sqr (px (psub (zp u) (zp w)))). pose proof (Rle_0_sqr (py (psub (zp u) (zp w)))). unfold Rsqr in *. lra.
Qed.
Lemma sq_le x y : 0 <= x -> 0 <= y -> x * x <= y * y -> x <= y.
Proof. intros Hx Hy H. nra. Qed.

Definition zedges (l : list zpt) : list (zpt * zpt) := combine l (tl l ++ firstn 1 l).
Lemma combine_map2 {X Y} (f : X -> Y) : forall l k, combine (map f l) (map f k) = map (fun e => (f (fst e), f (snd e))) (combine l k).
Proof. induction l as [|x l IH]; intros [|y k]; [reflexivity..|]. cbn. now rewrite IH. Qed.
Lemma zedges_map zs : poly_edges (map zp zs) = map (fun e => (zp (fst e), zp (snd e))) (zedges zs).
Proof.
  unfold poly_edges, zedges. rewrite <- combine_map2. f_equal. destruct zs as [|z zs]; [reflexivity|]. cbn. rewrite map_app. reflexivity.
Qed.
Definition pairs {X} (l : list X) : list (X * X) := list_prod l l.
Definition zeqb (a b : zpt) : bool := (fst a =? fst b)%Z && (snd a =? snd b)%Z.
Lemma zeqb_eq a b : zeqb a b = true <-> a = b.
Proof.
  unfold zeqb. rewrite andb_true_iff, !Z.eqb_eq. destruct a, b; cbn [fst snd]. split; [intros [-> ->]; reflexivity|intros H; injection H; auto].
Qed.

Section Check.
Variables (m : Mesh RA) (polys : list (list zpt)) (zstart zgoal : zpt) (pe : N) (zend : list zpt).
Hypothesis Hpolys : forall id qs, corners m id qs -> exists zs, In zs polys /\ qs = map zp zs.
Hypothesis Hend : forall qs, corners m pe qs -> qs = map zp zend.
Hypothesis Hend_at : corners m pe (map zp zend).

Definition zplaces : list zpt := zstart :: concat polys.
Lemma place_z x : place m (zp zstart) x -> exists z, In z zplaces /\ x = zp z.
Proof.
  intros [->|(id & qs & H & Hx)]; [exists zstart; split; [now left|reflexivity]|].
  destruct (Hpolys id qs H) as (zs & Hz & ->). apply in_map_iff in Hx. destruct Hx as (z & <- & Hz').
  exists z. split; [|reflexivity]. right. apply in_concat. eauto.
Qed.
Definition offb (u w x : zpt) : bool := (zor u w x =? 0)%Z || (9 * zd2 u w <=? 10000 * (zor u w x * zor u w x))%Z.
Lemma offb_ok u w x : offb u w x = true -> off_line (zp u) (zp w) (zp x).
Proof.
  unfold offb, off_line. rewrite orb_true_iff, Z.eqb_eq, Z.leb_le, zor_R. intros [->|H]; [left; field|]. right.
  apply IZR_le in H. rewrite !mult_IZR in H.
  apply sq_le; [pose proof (dist_nonneg (zp u) (zp w)); lra|apply Rabs_pos|].
  replace (dist (zp u) (zp w) / 100 * (dist (zp u) (zp w) / 100)) with (dist (zp u) (zp w) * dist (zp u) (zp w) / 10000) by field.
  rewrite zdist_sq. rewrite <- Rabs_mult, Rabs_right; [|apply Rle_ge, Rle_0_sqr]. lra.
Qed.
Definition strictb : bool := forallb (fun zs => forallb (fun a => forallb (fun b => forallb (fun c =>
  zeqb a b || zeqb b c || zeqb a c || negb (zor a b c =? 0)%Z) zs) zs) zs) polys.
Definition apartb : bool := forallb (fun u => forallb (fun w => zeqb u w || (9 <=? 10000 * zd2 u w)%Z) zplaces) zplaces.
Definition offsb : bool := forallb (fun u => forallb (fun w => zeqb u w || forallb (offb u w) (zgoal :: zplaces)) zplaces) zplaces.
Definition shortb : bool := forallb (fun zs => forallb (fun e => (zd2 (fst e) (snd e) <? 90000)%Z) (zedges zs)) polys.
(** the parameters at which lines through two places cut an edge: fractions *)
Definition cutsz (s e : zpt) : list (Z * Z) :=
  (0, 1)%Z :: (1, 1)%Z :: flat_map (fun uw => let fs := zor (fst uw) (snd uw) s in let fe := zor (fst uw) (snd uw) e in
    let d := (fs - fe)%Z in
    if (d =? 0)%Z then [] else if (0 <=? fs * d)%Z && (fs * d <=? d * d)%Z then [(fs, d)] else []) (pairs zplaces).
Definition gapb (s e : zpt) (p q : Z * Z) : bool :=
  let x := (fst p * snd q - fst q * snd p)%Z in let d := (snd p * snd q)%Z in
  (x =? 0)%Z || (9 * (d * d) <=? 10000 * (x * x * zd2 s e))%Z.
Definition cutsb : bool := forallb (fun e => let cs := cutsz (fst e) (snd e) in
  forallb (fun p => forallb (gapb (fst e) (snd e) p) cs) cs) (zedges zend).
Definition inb : bool := forallb (fun e => (0 <? zor (fst e) (snd e) zgoal)%Z) (zedges zend).

Lemma poly_edges_z zs s e : In (s, e) (poly_edges (map zp zs)) -> exists a b, In (a, b) (zedges zs) /\ s = zp a /\ e = zp b.
Proof.
  rewrite zedges_map. intros H. apply in_map_iff in H. destruct H as ([a b] & E & H). cbn [fst snd] in E. injection E as E1 E2. eauto.
Qed.

Lemma steady_ok : strictb = true -> apartb = true -> offsb = true -> shortb = true -> steady m (zp zstart).
Proof.
  unfold strictb, apartb, offsb, shortb. rewrite !forallb_forall. intros H1 H2 H3 H4. split.
  - intros id qs a b c H Ha Hb Hc N1 N2 N3. destruct (Hpolys id qs H) as (zs & Hz & ->).
    apply in_map_iff in Ha, Hb, Hc. destruct Ha as (x & <- & Ha), Hb as (y & <- & Hb), Hc as (z & <- & Hc).
    specialize (H1 zs Hz). rewrite forallb_forall in H1. specialize (H1 x Ha). rewrite forallb_forall in H1.
    specialize (H1 y Hb). rewrite forallb_forall in H1. specialize (H1 z Hc).
    rewrite !orb_true_iff, !zeqb_eq, negb_true_iff, Z.eqb_neq in H1.
    destruct H1 as [[[-> | ->] | ->] | H1]; try congruence. rewrite zor_R. intros E. apply H1. apply eq_IZR. lra.
  - intros u w Hu Hw N. destruct (place_z u Hu) as (x & Hx & ->), (place_z w Hw) as (y & Hy & ->).
    specialize (H2 x Hx). rewrite forallb_forall in H2. specialize (H2 y Hy). rewrite orb_true_iff, zeqb_eq, Z.leb_le in H2.
    destruct H2 as [->|H2]; [congruence|]. apply IZR_le in H2. rewrite mult_IZR in H2. apply zdist_ge; lra.
  - intros u w v Hu Hw Hv N. destruct (place_z u Hu) as (x & Hx & ->), (place_z w Hw) as (y & Hy & ->), (place_z v Hv) as (z & Hz & ->).
    specialize (H3 x Hx). rewrite forallb_forall in H3. specialize (H3 y Hy). rewrite orb_true_iff, zeqb_eq, forallb_forall in H3.
    destruct H3 as [->|H3]; [congruence|]. apply offb_ok, H3. now right.
  - intros id qs s e H He. destruct (Hpolys id qs H) as (zs & Hz & ->). destruct (poly_edges_z zs s e He) as (a & b & Hab & -> & ->).
    specialize (H4 zs Hz). rewrite forallb_forall in H4. specialize (H4 (a, b) Hab). cbn [fst snd] in H4. rewrite Z.ltb_lt in H4.
    apply IZR_lt in H4. pose proof (zdist_sq a b). pose proof (dist_nonneg (zp a) (zp b)). nra.
Qed.

Lemma cut_point_z s e i : cut_point m (zp zstart) (zp s) (zp e) i ->
  exists n d, In (n, d) (cutsz s e) /\ d <> 0%Z /\ i = lerp (zp s) (zp e) (IZR n / IZR d).
Proof.
  intros [-> | [-> | (t & u & w & Ht & -> & Hu & Hw & N & Ho & Hd)]].
  - exists 0%Z, 1%Z. split; [now left|]. split; [discriminate|]. unfold Rdiv. rewrite Rmult_0_l, lerp_0. reflexivity.
  - exists 1%Z, 1%Z. split; [right; now left|]. split; [discriminate|]. replace (1 / 1) with 1 by field. now rewrite lerp_1.
  - destruct (place_z u Hu) as (x & Hx & ->), (place_z w Hw) as (y & Hy & ->).
    rewrite orient_lerp3, !zor_R in Ho. rewrite !zor_R in Hd. set (fs := zor x y s) in *. set (fe := zor x y e) in *.
    assert (Hne : (fs - fe)%Z <> 0%Z).
    { intros E. assert (fs = fe) by lia. rewrite H in *. assert (IZR fe = 0) by lra. destruct Hd as [Hd|Hd]; apply Hd; lra. }
    assert (HneR : IZR (fs - fe) <> 0) by (intros E; apply Hne; now apply eq_IZR).
    assert (Et : t = IZR fs / IZR (fs - fe)).
    { apply Rmult_eq_reg_r with (IZR (fs - fe)); [|exact HneR]. replace (IZR fs / IZR (fs - fe) * IZR (fs - fe)) with (IZR fs) by (field; exact HneR).
      rewrite minus_IZR. lra. }
    exists fs, (fs - fe)%Z. split; [|split; [exact Hne|now rewrite Et]]. right. right. apply in_flat_map. exists (x, y).
    split; [now apply in_prod|]. cbn [fst snd]. fold fs fe. replace ((fs - fe)%Z =? 0)%Z with false by (symmetry; now apply Z.eqb_neq).
    assert (Hf : IZR fs = t * IZR (fs - fe)) by (rewrite Et; field; exact HneR).
    assert (Hp : 0 <= IZR (fs - fe) * IZR (fs - fe)) by apply Rle_0_sqr.
    replace (0 <=? fs * (fs - fe))%Z with true.
    2:{ symmetry. apply Z.leb_le. apply le_IZR. rewrite mult_IZR, Hf. nra. }
    replace (fs * (fs - fe) <=? (fs - fe) * (fs - fe))%Z with true; [now left|].
    symmetry. apply Z.leb_le. apply le_IZR. rewrite !mult_IZR, Hf. nra.
Qed.
Lemma gap_ok s e n d n' d' : gapb s e (n, d) (n', d') = true -> d <> 0%Z -> d' <> 0%Z ->
  lerp (zp s) (zp e) (IZR n / IZR d) <> lerp (zp s) (zp e) (IZR n' / IZR d') ->
  1 / 100 <= dist (lerp (zp s) (zp e) (IZR n / IZR d)) (lerp (zp s) (zp e) (IZR n' / IZR d')).
Proof.
  intros H D D' N. assert (R1 : IZR d <> 0) by (intros E; apply D; now apply eq_IZR). assert (R2 : IZR d' <> 0) by (intros E; apply D'; now apply eq_IZR).
  unfold gapb in H. cbn [fst snd] in H. rewrite orb_true_iff, Z.eqb_eq, Z.leb_le in H. destruct H as [H|H].
  { exfalso. apply N. f_equal. apply Rmult_eq_reg_r with (IZR d * IZR d'); [|now apply Rmult_integral_contrapositive].
    assert (E : IZR n * IZR d' = IZR n' * IZR d) by (rewrite <- !mult_IZR; f_equal; lia).
    replace (IZR n / IZR d * (IZR d * IZR d')) with (IZR n * IZR d') by (field; exact R1).
    replace (IZR n' / IZR d' * (IZR d * IZR d')) with (IZR n' * IZR d) by (field; exact R2). exact E. }
  set (t := IZR n / IZR d). set (u := IZR n' / IZR d').
  rewrite dist_lerp2, Rabs_minus_sym. apply sq_le; [lra|apply Rmult_le_pos; [apply Rabs_pos|apply dist_nonneg]|].
  replace (Rabs (t - u) * dist (zp s) (zp e) * (Rabs (t - u) * dist (zp s) (zp e)))
    with (Rabs (t - u) * Rabs (t - u) * (dist (zp s) (zp e) * dist (zp s) (zp e))) by ring.
  rewrite zdist_sq, <- Rabs_mult, Rabs_right; [|apply Rle_ge, Rle_0_sqr].
  apply IZR_le in H. rewrite !mult_IZR, minus_IZR, !mult_IZR in H.
  assert (Hq : 0 < IZR d * IZR d' * (IZR d * IZR d')).
  { assert (IZR d * IZR d' <> 0) by now apply Rmult_integral_contrapositive. nra. }
  apply Rmult_le_reg_r with (IZR d * IZR d' * (IZR d * IZR d')); [exact Hq|].
  replace ((t - u) * (t - u) * (IZR (zd2 s e) / 9) * (IZR d * IZR d' * (IZR d * IZR d')))
    with ((IZR n * IZR d' - IZR n' * IZR d) * (IZR n * IZR d' - IZR n' * IZR d) * (IZR (zd2 s e) / 9)) by (unfold t, u; field; auto).
  lra.
Qed.
Lemma steady_goal_ok : inb = true -> offsb = true -> cutsb = true -> steady_goal m (zp zstart) pe (zp zgoal).
Proof.
  unfold inb, offsb, cutsb. rewrite !forallb_forall. intros H1 H2 H3. split.
  - exists (map zp zend). split; [exact Hend_at|]. intros s e He. destruct (poly_edges_z zend s e He) as (a & b & Hab & -> & ->).
    specialize (H1 (a, b) Hab). cbn [fst snd] in H1. rewrite Z.ltb_lt in H1. rewrite zor_R. apply IZR_lt in H1. lra.
  - intros u w Hu Hw N. destruct (place_z u Hu) as (x & Hx & ->), (place_z w Hw) as (y & Hy & ->).
    specialize (H2 x Hx). rewrite forallb_forall in H2. specialize (H2 y Hy). rewrite orb_true_iff, zeqb_eq, forallb_forall in H2.
    destruct H2 as [->|H2]; [congruence|]. apply offb_ok, H2. now left.
  - intros qs s e i j Hq He Hi Hj N. rewrite (Hend qs Hq) in He. destruct (poly_edges_z zend s e He) as (a & b & Hab & -> & ->).
    specialize (H3 (a, b) Hab). cbn [fst snd] in H3. rewrite forallb_forall in H3.
    destruct (cut_point_z a b i Hi) as (n & d & I1 & I2 & ->), (cut_point_z a b j Hj) as (n' & d' & J1 & J2 & ->).
    specialize (H3 _ I1). rewrite forallb_forall in H3. specialize (H3 _ J1). now apply gap_ok.
Qed.
End Check.

(** ** The two unit squares of [two_exact] *)
Definition sq0 : list zpt := [(0, 0); (3, 0); (3, 3); (0, 3)]%Z.
Definition sq1 : list zpt := [(3, 0); (6, 0); (6, 3); (3, 3)]%Z.
Definition two_layer : Layer RA := match layers two_exact with l :: _ => l | [] => mkLayer [] [] (vp (P 0 0)) None None end.
Definition vert_z (i : N) : zpt := nth (N.to_nat i) [(0, 0); (3, 0); (3, 3); (0, 3); (6, 0); (6, 3)]%Z (0, 0)%Z.

Lemma two_polygon id l p : polygon_at two_exact id l p ->
  l = two_layer /\ id_layer id = 0%N /\
  (id_polygon id = 0%N /\ p = mkPolygon [0; 1; 2; 3]%N false \/ id_polygon id = 1%N /\ p = mkPolygon [1; 4; 5; 2]%N false).
Proof.
  intros [H1 H2]. assert (E : id_layer id = 0%N). { apply nthN_Some_lt in H1. cbn in H1. lia. }
  apply nthN_In in H1. destruct H1 as [<-|[]]. split; [reflexivity|]. split; [exact E|].
  apply nthN_Some_lt in H2 as H3. cbn in H3. assert (id_polygon id = 0 \/ id_polygon id = 1)%N as [Ei | Ei] by lia; [left|right]; rewrite Ei in H2;
    (split; [exact Ei|]); now inversion H2.
Qed.
Lemma two_at i q : (i < 6)%N -> at_world two_layer i q -> q = zp (vert_z i).
Proof.
  intros Hi (v & Hv & E). assert (i = 0 \/ i = 1 \/ i = 2 \/ i = 3 \/ i = 4 \/ i = 5)%N as Hc by lia.
  decompose [or] Hc; subst i; cbn in Hv; injection Hv as <-; unfold world in E; cbn [rv coords vertex_new offset two_layer layers two_exact] in E;
    rewrite vadd_vp in E; apply vp_inj in E; rewrite <- E; apply P2_eq; cbv [padd zp vert_z px py nth N.to_nat Pos.to_nat Pos.iter_op Init.Nat.add fst snd]; lra.
Qed.
Lemma two_vert i : (i < 6)%N -> at_world two_layer i (zp (vert_z i)).
Proof.
  intros Hi. assert (exists q, at_world two_layer i q) as (q & Hq); [|rewrite <- (two_at i q Hi Hq); exact Hq].
  assert (i = 0 \/ i = 1 \/ i = 2 \/ i = 3 \/ i = 4 \/ i = 5)%N as Hc by lia.
  decompose [or] Hc; subst i; eexists; eexists; (split; [reflexivity|]); unfold world; cbn [rv coords vertex_new offset two_layer layers two_exact];
    rewrite vadd_vp; reflexivity.
Qed.
Definition zs_of (id : N) : list zpt := if (id_polygon id =? 0)%N then sq0 else sq1.
Lemma two_corners id qs : corners two_exact id qs -> qs = map zp (zs_of id).
Proof.
  intros (l & p & HP & HF). destruct (two_polygon id l p HP) as (-> & _ & [[Ei ->] | [Ei ->]]); unfold zs_of; rewrite Ei; cbn [pverts] in HF;
    repeat match goal with H : Forall2 _ (_ :: _) _ |- _ => inversion H; subst; clear H | H : Forall2 _ [] _ |- _ => inversion H; subst; clear H end;
    repeat match goal with H : at_world _ _ _ |- _ => apply two_at in H; [subst|lia] end; reflexivity.
Qed.
Lemma two_corners_at id : id_layer id = 0%N -> (id_polygon id < 2)%N -> corners two_exact id (map zp (zs_of id)).
Proof.
  intros E1 E2. assert (id_polygon id = 0 \/ id_polygon id = 1)%N as [Ei | Ei] by lia; unfold zs_of; rewrite Ei.
  - exists two_layer, (mkPolygon [0; 1; 2; 3]%N false). split; [split; [rewrite E1|rewrite Ei]; reflexivity|].
    repeat constructor; [apply (two_vert 0)|apply (two_vert 1)|apply (two_vert 2)|apply (two_vert 3)]; lia.
  - exists two_layer, (mkPolygon [1; 4; 5; 2]%N false). split; [split; [rewrite E1|rewrite Ei]; reflexivity|].
    repeat constructor; [apply (two_vert 1)|apply (two_vert 4)|apply (two_vert 5)|apply (two_vert 2)]; lia.
Qed.

(** convex quadrilaterals with integer corners *)
Lemma quad_convex a b c d : (0 < zor a b c)%Z -> (0 < zor a b d)%Z -> (0 < zor a c d)%Z -> (0 < zor b c d)%Z -> convex (map zp [a; b; c; d]).
Proof.
  intros H1 H2 H3 H4. apply IZR_lt in H1, H2, H3, H4. pose proof (zor_R a b c) as E1. pose proof (zor_R a b d) as E2. pose proof (zor_R a c d) as E3. pose proof (zor_R b c d) as E4.
  cbn [map]. set (A := zp a) in *. set (B := zp b) in *. set (C := zp c) in *. set (D := zp d) in *. clearbody A B C D. split.
  - intros x u y v z w t E. repeat (destruct x as [|? x]; cbn [app] in E; try discriminate E; injection E as ? E; subst);
      repeat (destruct y as [|? y]; cbn [app] in E; try discriminate E; injection E as ? E; subst);
      repeat (destruct z as [|? z]; cbn [app] in E; try discriminate E; injection E as ? E; subst); try lra.
  - intros s e He. cbn in He. decompose [or] He; try contradiction; clear He;
      match goal with H : (_, _) = _ |- _ => injection H as <- <- end.
    + exists C. split; [cbn; auto|lra].
    + exists D. split; [cbn; auto 6|lra].
    + exists A. split; [cbn; auto|]. rewrite (orient_cycle A C D). lra.
    + exists B. split; [cbn; auto|]. rewrite <- (orient_cycle D A B). lra.
Qed.

Lemma quad_spaced a b c d : (1 <= zd2 a b)%Z -> (1 <= zd2 a c)%Z -> (1 <= zd2 a d)%Z -> (1 <= zd2 b c)%Z -> (1 <= zd2 b d)%Z -> (1 <= zd2 c d)%Z ->
  spaced (map zp [a; b; c; d]).
Proof.
  intros H1 H2 H3 H4 H5 H6. apply IZR_le in H1, H2, H3, H4, H5, H6.
  pose proof (zd2_R a b). pose proof (zd2_R a c). pose proof (zd2_R a d). pose proof (zd2_R b c). pose proof (zd2_R b d). pose proof (zd2_R c d).
  cbn [map]. set (A := zp a) in *. set (B := zp b) in *. set (C := zp c) in *. set (D := zp d) in *. clearbody A B C D.
  intros x u y v z E. repeat (destruct x as [|? x]; cbn [app] in E; try discriminate E; injection E as ? E; subst);
      repeat (destruct y as [|? y]; cbn [app] in E; try discriminate E; injection E as ? E; subst); try lra.
Qed.
Lemma quad_boundary u v w z a b : boundary_edge [u; v; w; z] a b ->
  (a = u /\ b = v) \/ (a = v /\ b = w) \/ (a = w /\ b = z) \/ (a = z /\ b = u).
Proof.
  intros (i & H1 & H2). destruct i as [|[|[|[|i]]]]; cbn in H1, H2.
  1-4: injection H1 as <-; injection H2 as <-; auto.
  destruct i; discriminate.
Qed.
Lemma two_glued : glued two_exact.
Proof.
  intros x l p a b qs [(l' & p' & va & vb & HP' & HB & Hva & Hvb & Ia & Ib & HM & HN) H32] HP Ha Hb Hqs.
  assert (l' = l) as ->. { destruct HP', HP. congruence. } assert (p' = p) as ->. { destruct HP', HP. congruence. }
  destruct (two_polygon _ _ _ HP) as (-> & E0 & Hid). pose proof (id_make_layer_polygon _ H32) as Ef. rewrite E0, id_make_zero in Ef.
  apply two_corners in Hqs. subst qs.
  assert (Hcr : (cr_a x = 1 /\ cr_b x = 2 /\ cr_to x = 1 \/ cr_a x = 2 /\ cr_b x = 1 /\ cr_to x = 0)%N).
  { destruct Hid as [[Ei ->] | [Ei ->]]; cbn [pverts] in HB; apply quad_boundary in HB; rewrite Ei in Ef; rewrite <- Ef in HN;
      decompose [or and] HB; clear HB; repeat match goal with E : cr_a x = _ |- _ => rewrite E in *; clear E | E : cr_b x = _ |- _ => rewrite E in *; clear E end;
      cbn in Hva, Hvb; injection Hva as <-; injection Hvb as <-; cbn in Ia, Ib; decompose [or] Ia; decompose [or] Ib; try contradiction; try congruence;
      clear Ia Ib; try (left; now auto); right; auto. }
  assert (T : forall i j : N, (i < 6)%N -> (j < 6)%N -> at_world two_layer i a -> at_world two_layer j b -> a = zp (vert_z i) /\ b = zp (vert_z j)) by
    (intros i j Hi Hj Q1 Q2; split; now apply two_at).
  destruct Hcr as [(C1 & C2 & C3) | (C1 & C2 & C3)]; rewrite C1 in Ha; rewrite C2 in Hb; rewrite C3.
  - destruct (T 1%N 2%N ltac:(lia) ltac:(lia) Ha Hb) as [-> ->]. rewrite zedges_map. apply in_map_iff.
    exists ((3, 3)%Z, (3, 0)%Z). split; [reflexivity|]. cbn. auto.
  - destruct (T 2%N 1%N ltac:(lia) ltac:(lia) Ha Hb) as [-> ->]. rewrite zedges_map. apply in_map_iff.
    exists ((3, 0)%Z, (3, 3)%Z). split; [reflexivity|]. cbn. auto.
Qed.
Lemma two_plane : plane_mesh two_exact.
Proof.
  split; [|exact two_glued]. intros id l p HP. destruct (two_polygon _ _ _ HP) as (-> & E0 & Hid).
  destruct Hid as [[Ei ->] | [Ei ->]]; cbn [pverts].
  - exists (map zp sq0). split; [|split; [apply quad_convex|apply quad_spaced]; reflexivity || (vm_compute; discriminate)].
    repeat constructor; [apply (two_vert 0)|apply (two_vert 1)|apply (two_vert 2)|apply (two_vert 3)]; lia.
  - exists (map zp sq1). split; [|split; [apply quad_convex|apply quad_spaced]; reflexivity || (vm_compute; discriminate)].
    repeat constructor; [apply (two_vert 1)|apply (two_vert 4)|apply (two_vert 5)|apply (two_vert 2)]; lia.
Qed.
Lemma two_u32 : u32_ids two_exact.
Proof.
  intros l v id [<-|[]] Hv Hid. cbn in Hv. decompose [or] Hv; try contradiction; subst v; cbn in Hid; decompose [or] Hid; try contradiction; subst id; reflexivity.
Qed.
Lemma two_polys id qs : corners two_exact id qs -> exists zs, In zs [sq0; sq1] /\ qs = map zp zs.
Proof.
  intros H. exists (zs_of id). split; [unfold zs_of; destruct (id_polygon id =? 0)%N; [left|right; left]; reflexivity|now apply two_corners].
Qed.
(** start (1/3, 1/3), goal (5/3, 2/3) *)
Lemma two_steady : steady two_exact (zp (1, 1)%Z).
Proof. apply (steady_ok two_exact [sq0; sq1] (1, 1)%Z (5, 2)%Z two_polys); vm_compute; reflexivity. Qed.
Lemma two_steady_goal : steady_goal two_exact (zp (1, 1)%Z) 1 (zp (5, 2)%Z).
Proof.
  apply (steady_goal_ok two_exact [sq0; sq1] (1, 1)%Z (5, 2)%Z 1 sq1 two_polys).
  - intros qs H. exact (two_corners 1 qs H).
  - apply (two_corners_at 1); [reflexivity|cbn; lia].
  - vm_compute; reflexivity.
  - vm_compute; reflexivity.
  - vm_compute; reflexivity.
Qed.
(** The hypotheses of C62_general_position are met: start and goal in two different polygons. *)
Example ex_C62 : exists p, let start := zp (1, 1)%Z in let goal := zp (5, 2)%Z in
  pop_perm (lpop (@std_lib RA)) /\ mesh_small two_exact /\ plane_mesh two_exact /\ u32_ids two_exact /\ (0 < 2^32)%N /\
  located std_lib two_exact (in_polygon start 0) 0 /\ located std_lib two_exact (in_polygon goal 1) 1 /\
  (exists qs, corners two_exact 0 qs /\ inside qs start) /\ steady two_exact start /\ steady_goal two_exact start 1 goal /\
  path_on_layers std_lib two_exact (in_polygon start 0) (in_polygon goal 1) [] = Ok (Some p).
Proof.
  destruct (two_exact_path (zp (1, 1)%Z) (zp (5, 2)%Z)) as (p & H). exists p. cbv zeta.
  split; [apply std_pop_perm|]. split; [apply two_exact_small|]. split; [apply two_plane|]. split; [apply two_u32|]. split; [reflexivity|].
  split; [left; split; [discriminate|reflexivity]|]. split; [left; split; [discriminate|reflexivity]|].
  split. { exists (map zp sq0). split; [apply (two_corners_at 0); [reflexivity|cbn; lia]|]. intros s e He. rewrite zedges_map in He.
    apply in_map_iff in He. destruct He as ([u w] & E & Hu). cbn [fst snd] in E. injection E as <- <-. rewrite zor_R.
    assert (0 <= zor u w (1, 1))%Z. { cbn in Hu. decompose [or] Hu; try contradiction; match goal with E : (_, _) = _ |- _ => injection E as <- <- end; vm_compute; discriminate. }
    apply IZR_le in H0. lra. }
  split; [apply two_steady|]. split; [apply two_steady_goal|exact H].
Qed.
