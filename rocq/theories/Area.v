(** C65: a segment inside of the area of a seamless mesh is a way through its polygons. *)
From Coq Require Import List NArith ZArith Bool Reals Lra Psatz Lia Classical_Prop.
From Verif Require Import Base Arith U32 Mesh Helpers Search Spec RealArith Geometry Spec_inside Sight Sight_search Spec_shortest Spec_area.
Import ListNotations.
Open Scope R_scope.

(** ** Closed intervals given by finitely many inequalities *)
Definition ineq : Type := (R * R)%type.
Definition holds (t : R) (e : ineq) : Prop := 0 <= fst e + t * snd e.
Definition sat (es : list ineq) (t : R) : Prop := Forall (holds t) es.
Lemma sat_between es t u s : sat es t -> sat es u -> t <= s <= u -> sat es s.
Proof.
  unfold sat. rewrite !Forall_forall. intros H1 H2 Hs e He. specialize (H1 e He). specialize (H2 e He). unfold holds in *.
  destruct (Rle_dec 0 (snd e)); nra.
Qed.
(** there is a last point, at most 1 *)
Lemma sat_last es t : sat es t -> t <= 1 -> exists b, t <= b <= 1 /\ sat es b /\ forall s, b < s <= 1 -> ~ sat es s.
Proof.
  intros H Ht. induction H as [|e es He Hes IH].
  - exists 1. split; [lra|]. split; [constructor|]. intros s Hs. lra.
  - destruct IH as (b & Hb & Hsat & Hmax). destruct (Rle_dec 0 (fst e + b * snd e)) as [Q|Q].
    + exists b. split; [exact Hb|]. split; [now constructor|]. intros s Hs HS. inversion_clear HS as [|? ? S1 S2]. exact (Hmax s Hs S2).
    + unfold holds in He. assert (Hn : snd e < 0) by nra. exists (- fst e / snd e).
      assert (E : fst e + (- fst e / snd e) * snd e = 0) by (field; lra).
      assert (t <= - fst e / snd e) by nra. assert (- fst e / snd e < b) by nra.
      split; [lra|]. split.
      * constructor; [unfold holds; lra|]. apply (sat_between es t b); auto. lra.
      * intros s Hs HS. inversion_clear HS as [|? ? S1 S2]. unfold holds in S1. nra.
Qed.
(** if a point is not in the interval, neither are the next ones *)
Lemma sat_open es t : ~ sat es t -> exists d, 0 < d /\ forall s, t <= s <= t + d -> ~ sat es s.
Proof.
  intro H. induction es as [|e es IH]; [exfalso; apply H; constructor|].
  destruct (Rle_dec 0 (fst e + t * snd e)) as [Q|Q].
  - destruct IH as (d & Hd & Hs). { intro S. apply H. now constructor. }
    exists d. split; [exact Hd|]. intros s Hs1 HS. inversion_clear HS as [|? ? S1 S2]. exact (Hs s Hs1 S2).
  - set (k := - (fst e + t * snd e)). assert (0 < k) by (unfold k; lra). exists (k / (2 * (Rabs (snd e) + 1))).
    pose proof (Rabs_pos (snd e)). pose proof (Rle_abs (snd e)). split; [apply Rdiv_lt_0_compat; lra|].
    intros s Hs HS. inversion_clear HS as [|? ? S1 _]. unfold holds in S1.
    assert (D : k / (2 * (Rabs (snd e) + 1)) * (2 * (Rabs (snd e) + 1)) = k) by (field; lra).
    set (d := k / (2 * (Rabs (snd e) + 1))) in *. assert ((s - t) * snd e <= d * Rabs (snd e)) by (destruct (Rle_dec 0 (snd e)); nra).
    unfold k in *. nra.
Qed.
Lemma sat_open_all (L : list (list ineq)) t : (forall es, In es L -> ~ sat es t) -> exists d, 0 < d /\ forall s, t <= s <= t + d -> forall es, In es L -> ~ sat es s.
Proof.
  induction L as [|es L IH]; intro H; [exists 1; split; [lra|intros s _ es []]|].
  destruct IH as (d & Hd & IH); [intros e He; apply H; now right|]. destruct (sat_open es t) as (d' & Hd' & H'); [apply H; now left|].
  exists (Rmin d d'). pose proof (Rmin_l d d'). pose proof (Rmin_r d d'). split; [now apply Rmin_glb_lt|]. intros s Hs e [<-|He]; [apply H'; lra|apply IH; [lra|exact He]].
Qed.

(** A chain of intervals: from the one that holds [t] to one that holds 1, each meeting the next. *)
Lemma chain_cover {X} (f : X -> list ineq) (Q : X -> R -> Prop) :
  (forall L i t, Q i t -> sat (f i) t -> 0 <= t <= 1 ->
     (forall s, t < s <= 1 -> sat (f i) s \/ exists j, In j L /\ sat (f j) s) ->
     (forall i s u, Q i s -> s <= u <= 1 -> 0 <= s -> sat (f i) s -> sat (f i) u -> Q i u) ->
     (forall i j s, (j = i \/ In j L) -> 0 <= s <= 1 -> Q i s -> sat (f i) s -> sat (f j) s -> Q j s) ->
     exists j, (j = i \/ In j L) /\ Q j 1 /\ sat (f j) 1).
Proof.
  intro L. remember (length L) as n eqn:En. revert L En. induction n as [|n IH]; intros L En i t HQ Hi Ht Hcov Hmove Hjump.
  - destruct L; [|discriminate]. exists i. split; [now left|]. destruct (Rle_lt_or_eq_dec t 1 (proj2 Ht)) as [Hlt|Heq].
    + destruct (Hcov 1 ltac:(lra)) as [S|(j & [] & _)]. split; [|exact S]. apply (Hmove i t 1); auto; lra.
    + subst t. auto.
  - destruct (sat_last (f i) t Hi (proj2 Ht)) as (b & Hb & Sb & Hmax).
    assert (Qb : Q i b) by (apply (Hmove i t b); auto; lra).
    destruct (Rle_lt_or_eq_dec b 1 (proj2 Hb)) as [Hlt|Heq].
    2:{ subst b. exists i. split; [now left|]. auto. }
    assert (HJ : exists j, In j L /\ sat (f j) b).
    { apply NNPP. intro HN. destruct (sat_open_all (map f L) b) as (d & Hd & Hopen).
      - intros es He. apply in_map_iff in He. destruct He as (j & <- & Hj). intro S. apply HN. now exists j.
      - set (s := Rmin (b + d) ((b + 1) / 2)). pose proof (Rmin_l (b + d) ((b + 1) / 2)). pose proof (Rmin_r (b + d) ((b + 1) / 2)). fold s in H, H0.
        assert (b < s) by (apply Rmin_glb_lt; lra).
        destruct (Hcov s ltac:(lra)) as [S|(j & Hj & S)]; [exact (Hmax s ltac:(lra) S)|]. apply (Hopen s ltac:(lra) (f j)); [now apply in_map|exact S]. }
    destruct HJ as (j & Hj & Sj). destruct (in_split _ _ Hj) as (L1 & L2 & EL).
    destruct (IH (L1 ++ L2)) with (i := j) (t := b) as (k & Hk & Qk & Sk).
    + subst L. rewrite app_length in *. cbn [length] in En. lia.
    + apply (Hjump i j b); auto; lra.
    + exact Sj.
    + lra.
    + intros s Hs. destruct (Hcov s ltac:(lra)) as [S|(k & Hk & S)]; [exfalso; exact (Hmax s ltac:(lra) S)|]. subst L. apply in_app_or in Hk.
      destruct Hk as [Hk|[<-|Hk]]; [right; exists k; split; [apply in_or_app; now left|exact S]|now left|right; exists k; split; [apply in_or_app; now right|exact S]].
    + exact Hmove.
    + intros i' j' s' H'. apply Hjump. destruct H' as [->|H']; [now left|right]. subst L. apply in_app_or in H'. apply in_or_app. destruct H'; [now left|right; now right].
    + exists k. split; [|auto]. right. subst L. destruct Hk as [->|Hk]; [exact Hj|]. apply in_app_or in Hk. apply in_or_app. destruct Hk; [now left|right; now right].
Qed.

(** ** The segment *)
Definition slice (x y : P2) (qs : list P2) : list ineq := map (fun e => (orient (fst e) (snd e) x, orient (fst e) (snd e) y - orient (fst e) (snd e) x)) (poly_edges qs).
Lemma slice_sat x y qs t : sat (slice x y qs) t <-> inside qs (lerp x y t).
Proof.
  unfold sat, slice, inside. rewrite Forall_map, Forall_forall. split.
  - intros H a b He. specialize (H _ He). unfold holds in H. cbn [fst snd] in H. rewrite orient_lerp3. lra.
  - intros H [a b] He. specialize (H a b He). rewrite orient_lerp3 in H. unfold holds. cbn [fst snd]. lra.
Qed.
Lemma all_below (n : N) : exists ids : list N, forall id, (id < n)%N -> In id ids.
Proof.
  induction n as [|n (ids & IH)] using N.peano_ind; [exists []; intros id H; lia|].
  exists (n :: ids). intros id H. destruct (N.eq_dec id n) as [->|E]; [now left|right; apply IH; lia].
Qed.
Lemma all_usable m blocked ps : exists L : list (N * list P2), forall id qs, usable blocked ps id /\ corners m id qs <-> In (id, qs) L.
Proof.
  destruct (all_below (2 ^ 32)) as (ids & Hids).
  assert (H : exists L : list (N * list P2), forall id qs, In id ids /\ usable blocked ps id /\ corners m id qs <-> In (id, qs) L).
  { clear Hids. induction ids as [|k ids (L & IH)]; [exists []; intros; split; [intros ([] & _)|intros []]|].
    destruct (classic (exists qs, usable blocked ps k /\ corners m k qs)) as [(qs & Hk1 & Hk2)|HN].
    - exists ((k, qs) :: L). intros id qs'. split.
      + intros ([->|Hi] & H1 & H2); [left; f_equal; exact (corners_fun m id qs qs' Hk2 H2)|right; apply (proj1 (IH id qs')); auto].
      + intros [E|Hi]; [injection E as <- <-; split; [now left|auto]|apply (proj2 (IH id qs')) in Hi; destruct Hi as (H1 & H2); split; [now right|exact H2]].
    - exists L. intros id qs'. split.
      + intros ([->|Hi] & H1 & H2); [exfalso; apply HN; exists qs'; auto|apply (proj1 (IH id qs')); auto].
      + intro Hi. apply (proj2 (IH id qs')) in Hi. destruct Hi as (H1 & H2). split; [now right|exact H2]. }
  destruct H as (L & HL). exists L. intros id qs. rewrite <- HL. split; [|tauto]. intros [H1 H2]. split; [apply Hids, H1|auto].
Qed.

Lemma dist_part a b s u : 0 <= s <= u -> u <= 1 -> dist a (lerp a b s) + dist (lerp a b s) (lerp a b u) = dist a (lerp a b u).
Proof.
  intros H1 H2. assert (D : forall t v, 0 <= t <= v -> dist (lerp a b t) (lerp a b v) = (v - t) * dist a b).
  { intros t v Htv. unfold dist. replace (psub (lerp a b t) (lerp a b v)) with (pscale (v - t) (psub a b)) by (unfold lerp; pts; apply P2_eq; cbn [px py]; ring).
    rewrite plen_scale, Rabs_right by lra. reflexivity. }
  pose proof (D 0 s ltac:(lra)) as D1. pose proof (D 0 u ltac:(lra)) as D2. rewrite lerp_0 in D1, D2. rewrite D1, D2, D by lra. ring.
Qed.

Lemma way_moves m blocked P x Q y L qs z M : way m blocked P x Q y L -> corners m Q qs -> inside qs z -> M = L + dist y z -> way m blocked P x Q z M.
Proof. intros H1 H2 H3 ->. now apply (way_move m blocked P x Q y L qs z). Qed.

Section Area.
Context (m : Mesh RA) (blocked : list N) (ps : N).
Context (HF : faultless m blocked ps) (HS : seamless m blocked ps).

(** changing the polygon at a common point *)
Lemma way_switch P x L id id' qs qs' y : usable blocked ps id -> usable blocked ps id' -> corners m id qs -> corners m id' qs' -> inside qs y -> inside qs' y ->
  way m blocked P x id y L -> way m blocked P x id' y L.
Proof using HF HS.
  intros U1 U2 C1 C2 I1 I2 HW. destruct (HS id id' qs qs' y U1 U2 C1 C2 I1 I2) as [<-|[[J1 J2]|(c & Hc & <- & <- & He)]].
  - exact HW.
  - assert (HV : exists v, vertex_of m id v y).
    { destruct C1 as (l & p & HP & HFo). clear -J1 HP HFo. assert (H : exists i, In i (pverts p) /\ at_world l i y).
      { induction HFo as [|i q is qs Hi HFo IH]; [destruct J1|]. destruct J1 as [->|J1]; [exists i; split; [now left|exact Hi]|].
        destruct (IH J1) as (i' & H1 & H2). exists i'. split; [now right|exact H2]. }
      destruct H as (i & Hi & v & Hv & Hw). exists v, l, p, i. auto. }
    destruct HV as (v & HV). pose proof (fl_fan _ _ _ HF id v y HV id id' qs qs' y y (proj1 U1) (proj1 U2) (proj2 U1) (proj2 U2) C1 J1 C2 J2 I1 I2) as HA.
    rewrite !dist_refl in HA. specialize (HA (Rle_refl 0) (Rle_refl 0)). clear -HA HW.
    remember 0 as z eqn:Ez. revert Ez. assert (HT : forall a b Q w, way m blocked a y Q w b -> forall L0, way m blocked P x a y L0 -> a = id -> way m blocked P x Q w (L0 + b)).
    { clear. intros a b Q w H. induction H as [a qs y H1 H2|a y Q w L qs z H IH H1 H2|a y c w L H IH H1 H2]; intros L0 HL E.
      - now rewrite Rplus_0_r.
      - specialize (IH L0 HL E). rewrite <- Rplus_assoc. now apply (way_move m blocked P x Q w _ qs z).
      - specialize (IH L0 HL E). now apply way_cross. }
    intros ->. specialize (HT id 0 id' y HA L HW eq_refl). now rewrite Rplus_0_r in HT.
  - apply way_cross; auto.
Qed.

(** Going straight from a point of polygon [P] to a point of polygon [Q]. *)
Lemma way_segment start P x L id qs y id' qs' : usable blocked ps id -> corners m id qs -> inside qs x -> usable blocked ps id' -> corners m id' qs' -> inside qs' y ->
  segment_in (area m blocked ps) x y -> way m blocked P start id x L -> way m blocked P start id' y (L + dist x y).
Proof using HF HS.
  intros U1 C1 I1 U2 C2 I2 HA HW. destruct (all_usable m blocked ps) as (Ls & HL).
  destruct (chain_cover (fun k : N * list P2 => slice x y (snd k))
    (fun k t => (usable blocked ps (fst k) /\ corners m (fst k) (snd k)) /\ way m blocked P start (fst k) (lerp x y t) (L + dist x (lerp x y t)))
    Ls (id, qs) 0) as ([k ks] & _ & ((U3 & C3) & W3) & S3).
  - cbn [fst snd]. rewrite lerp_0, dist_refl, Rplus_0_r. auto.
  - cbn [snd]. apply slice_sat. now rewrite lerp_0.
  - lra.
  - intros s Hs. right. destruct (HA s ltac:(lra)) as (j & js & Uj & Cj & Ij). exists (j, js). split; [apply HL; auto|]. cbn [snd]. now apply slice_sat.
  - intros [i is] s u (UC & HWs) Hsu Hs Ss Su. cbn [fst snd] in *. split; [exact UC|]. apply slice_sat in Su.
    apply (way_moves m blocked P start i (lerp x y s) _ is (lerp x y u) _ HWs (proj2 UC) Su). rewrite <- (dist_part x y s u) by lra. ring.
  - intros [i is] [j js] s Hj Hs (UC & HWs) Si Sj. cbn [fst snd] in *. apply slice_sat in Si. apply slice_sat in Sj.
    assert (UCj : usable blocked ps j /\ corners m j js). { destruct Hj as [E|Hj]; [injection E as -> ->; exact UC|now apply HL]. }
    split; [exact UCj|]. exact (way_switch P start _ i j is js _ (proj1 UC) (proj1 UCj) (proj2 UC) (proj2 UCj) Si Sj HWs).
  - cbn [fst snd] in *. rewrite lerp_1 in W3. apply slice_sat in S3. rewrite lerp_1 in S3.
    exact (way_switch P start _ k id' ks qs' y U3 U2 C3 C2 S3 I2 W3).
Qed.

Lemma segment_ends W a b : segment_in W a b -> W a /\ W b.
Proof using. intro H. split; [rewrite <- (lerp_0 a b)|rewrite <- (lerp_1 a b)]; apply H; lra. Qed.
Lemma polyline_start W a pts : polyline_in W a pts -> W a.
Proof using. destruct pts as [|q r]; [auto|]. intros [H _]. now apply segment_ends in H. Qed.

Lemma way_polyline start P pts : forall x L id qs y id' qs', usable blocked ps id -> corners m id qs -> inside qs x -> usable blocked ps id' -> corners m id' qs' -> inside qs' y ->
  polyline_in (area m blocked ps) x pts -> last pts x = y -> way m blocked P start id x L -> way m blocked P start id' y (L + total x pts).
Proof using HF HS.
  induction pts as [|q r IH]; intros x L id qs y id' qs' U1 C1 I1 U2 C2 I2 HA HE HW; cbn [total polyline_in] in *.
  - cbn [last] in HE. subst y. rewrite Rplus_0_r. exact (way_switch P start L id id' qs qs' x U1 U2 C1 C2 I1 I2 HW).
  - destruct HA as [HA1 HA2]. destruct (polyline_start _ _ _ HA2) as (k & ks & U3 & C3 & I3).
    pose proof (way_segment start P x L id qs q k ks U1 C1 I1 U3 C3 I3 HA1 HW) as HW2. rewrite <- Rplus_assoc.
    refine (IH q _ k ks y id' qs' U3 C3 I3 U2 C2 I2 HA2 _ HW2). destruct r; [exact HE|]. clear -HE. cbn [last] in *. revert HE. 
    assert (H : forall (l : list P2) d d', l <> [] -> last l d = last l d'). { induction l as [|a [|b l] IH]; intros d d' Hne; [congruence|reflexivity|]. cbn [last]. apply IH. discriminate. }
    change (last (p :: r) x = y -> last (p :: r) q = y). intros <-. apply H. discriminate.
Qed.
End Area.

(** ** A way is a polyline in the area *)
Lemma way_usable m blocked P x Q y L : u32_ids m -> (P < 2 ^ 32)%N -> way m blocked P x Q y L -> usable blocked P Q.
Proof.
  intros HU HP H. induction H as [P qs x H1 H2|P x Q y L qs z H IH H1 H2|P x c y L H IH H1 H2]; [split; auto|auto|].
  destruct H1 as [[(l & p & va & vb & HP1 & HB & Hva & Hvb & Ia & Ib & HM & HN) H32] Hb]. split; [|now right].
  destruct HP1 as [HP1 _]. apply nthN_In in HP1. apply nthN_In in Hva. exact (HU l va (cr_to c) HP1 Hva Ia).
Qed.
