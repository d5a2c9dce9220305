(** C68, C69: answers do not depend on the numbers of the vertices nor on where the mesh is. *)
From Coq Require Import List NArith ZArith Bool Lia Reals Lra.
From Verif Require Import Base Arith U32 Mesh Helpers Locate Search AsyncPath Cleanup StdLib RealArith Spec Spec_alike Search_facts Detailed_sim Cleanup_facts Alike Alike_locate Properties_cleanup Properties_merge.
Import ListNotations.
Open Scope N_scope.

(** ** C68 *)
Section Any.
Context {A : Arith}.
Implicit Types (l : Layer A) (m : Mesh A).

(** The two meshes give the same answers to every query and every search. *)
Record same_answers (lib : Lib A) (m m' : Mesh A) : Prop := {
  sa_location : forall c, get_point_location (lbvh lib) m' c = get_point_location (lbvh lib) m c;
  sa_locations : forall c, get_point_locations (lbvh lib) m' c = get_point_locations (lbvh lib) m c;
  sa_in_mesh : forall c, point_in_mesh (lbvh lib) m' c = point_in_mesh (lbvh lib) m c;
  sa_closest : forall c, get_closest_point (lbvh lib) m' c = get_closest_point (lbvh lib) m c;
  sa_towards : forall c t, get_closest_point_towards (lbvh lib) m' c t = get_closest_point_towards (lbvh lib) m c t;
  sa_path : forall from to blocked, path_on_layers lib m' from to blocked = path_on_layers lib m from to blocked;
  sa_future : forall k from to, poll_times k lib (get_path m' from to) = poll_times k lib (get_path m from to)
}.

Lemma id_option {X} (g : X -> X) (o : option X) : (forall x, g x = x) -> option_map g o = o.
Proof. intro H. destruct o; cbn; now rewrite ?H. Qed.
Lemma id_motion : motion (fun x : vec2 A => x).
Proof. constructor; intros; try reflexivity; symmetry; now apply id_option. Qed.
Lemma id_path (p : Path A) : path_moved (fun x => x) p = p.
Proof. destruct p. unfold path_moved. cbn. now rewrite map_id. Qed.
Lemma id_coords (c : Coords A) : coords_moved (fun x => x) c = c.
Proof. now destruct c. Qed.
Lemma bind_id {T} (r : res T) (g : T -> T) : (forall x, g x = x) -> (let* x := r in Ok (g x)) = r.
Proof. intro H. destruct r; cbn; now rewrite ?H. Qed.

Lemma same_answers_alike lib m m' : mesh_alike (fun x => x) m m' -> Forall2 (layer_queries lib (fun x => x)) (layers m) (layers m') ->
  search_delta m' = search_delta m -> search_steps m' = search_steps m -> pop_blind (lpop lib) -> same_answers lib m m'.
Proof.
  intros HM HQ HD HT HP.
  assert (C : forall r, closest_moved (fun x : vec2 A => x) r = r) by (intro r; apply bind_id; intro; apply id_option; apply id_coords).
  assert (E : forall c, get_point_location (lbvh lib) m' c = get_point_location (lbvh lib) m c).
  { intro c. rewrite <- (id_coords c) at 1. apply location_alike; assumption. }
  constructor.
  - exact E.
  - intro c. rewrite <- (id_coords c) at 1. apply locations_alike; assumption.
  - intro c. unfold point_in_mesh. now rewrite E.
  - intro c. rewrite <- (id_coords c) at 1. rewrite (closest_alike lib _ m m' HQ HD HT). apply C.
  - intros c t. rewrite <- (id_coords c) at 1. rewrite (towards_alike lib _ m m' HQ HD HT c t); [apply C|reflexivity].
  - intros from to blocked. rewrite <- (id_coords from) at 1. rewrite <- (id_coords to) at 1.
    rewrite (path_alike lib _ m m' HQ HD HT id_motion HM HP). apply bind_id. intro. apply id_option. apply id_path.
  - intros k from to. rewrite (polls_alike lib _ m m' HQ HD id_motion HM HP k (get_path m from to)).
    + apply bind_id. intros [o w]. cbn [fst snd]. f_equal. apply id_option. intro. apply id_option. apply id_path.
    + split; [reflexivity|]. split; [reflexivity|]. split; [reflexivity|]. split; [reflexivity|]. exact I.
Qed.

(** The two numbers mean the same vertex. *)
Definition same_vertex l l' (i i' : N) : Prop := exists v, nthN (vertices l) i = Some v /\ nthN (vertices l') i' = Some v.
Definition same_edge l l' (e e' : N * N) : Prop := same_vertex l l' (fst e) (fst e') /\ same_vertex l l' (snd e) (snd e').
Lemma pip_loop_same l l' p es es' : Forall2 (same_edge l l') es es' -> forall b, pip_loop (vertices l') p es' b = pip_loop (vertices l) p es b.
Proof.
  induction 1 as [|[i j] [i' j'] r r' [(v & V1 & V2) (w & W1 & W2)] _ IH]; intro b; [reflexivity|]. cbn [pip_loop]. cbn [fst snd] in *. unfold get_unchecked. rewrite V1, V2, W1, W2. cbn [bind].
  apply nthN_Some_lt in V1, V2, W1, W2. assert ((lengthN (vertices l) <=? N.max i j) = false) as -> by (apply N.leb_gt; lia).
  assert ((lengthN (vertices l') <=? N.max i' j') = false) as -> by (apply N.leb_gt; lia). rewrite IH. reflexivity.
Qed.
Lemma edges_same l l' vs vs' : Forall2 (same_vertex l l') vs vs' -> forall o o', rsim (Forall2 (same_edge l l')) (edges_index (mkPolygon vs o)) (edges_index (mkPolygon vs' o')).
Proof.
  intros H o o'. unfold edges_index. cbn [pverts]. destruct H as [|a a' r r' Ha H]; [exact I|]. cbn [rsim]. apply Forall2_app.
  - assert (G : Forall2 (same_vertex l l') (a :: r) (a' :: r')) by now constructor. clear Ha H. induction G as [|x x' s s' Hx G IH]; [constructor|].
    destruct G as [|y y' s s' Hy G]; [constructor|]. cbn [windows2] in *. constructor; [now split|exact IH].
  - constructor; [|constructor]. split; [|exact Ha]. cbn [fst]. revert a a' Ha. induction H as [|b b' r r' Hb H IH]; intros a a' Ha; [exact Ha|].
    destruct H as [|d d' r r' Hd H]; [exact Hb|]. exact (IH a a' Ha).
Qed.
Lemma pip_same l l' x p p' : Forall2 (same_vertex l l') (pverts p) (pverts p') -> point_in_polygon l' x p' = point_in_polygon l x p.
Proof.
  destruct p as [vs o], p' as [vs' o']. cbn [pverts]. intro H. unfold point_in_polygon. pose proof (edges_same l l' vs vs' H o o') as HE.
  destruct (edges_index (mkPolygon vs o)), (edges_index (mkPolygon vs' o')); try contradiction; try reflexivity. cbn [bind rsim] in *. now apply pip_loop_same.
Qed.
Lemma any_same bvh l l' x : baked l' = baked l -> Forall2 (fun p p' => Forall2 (same_vertex l l') (pverts p) (pverts p')) (polygons l) (polygons l') ->
  loc_any bvh l' x = loc_any bvh l x.
Proof.
  intros HB H. unfold loc_any. rewrite HB. destruct (baked l) as [boxes|].
  - unfold loc_unit_baked. f_equal. induction (bvh boxes x) as [|i r IH]; [reflexivity|]. cbn [findM]. unfold index at 1 3. pose proof (Forall2_nth_both _ _ _ H i) as Hi.
    destruct (nthN (polygons l) i) as [p|], (nthN (polygons l') i) as [p'|]; try contradiction; [|reflexivity]. cbn [unwrap bind]. rewrite (pip_same l l' x p p' Hi), IH. reflexivity.
  - unfold loc_unit. unfold enumerate. generalize 0. assert (G : forall ps ps', Forall2 (fun p p' => Forall2 (same_vertex l l') (pverts p) (pverts p')) ps ps' ->
      forall k, match findM (fun ip => point_in_polygon l x (snd ip)) (enum_from k ps), findM (fun ip => point_in_polygon l' x (snd ip)) (enum_from k ps') with
        | Ok o, Ok o' => option_map fst o' = option_map fst o | Panic, Panic | Oob, Oob | NoFuel, NoFuel => True | _, _ => False end).
    { induction 1 as [|p p' r r' Hp _ IH]; intro k; [reflexivity|]. cbn [enum_from findM snd]. rewrite (pip_same l l' x p p' Hp).
      destruct (point_in_polygon l x p) as [[|]| | |]; cbn [bind]; try exact I; [reflexivity|apply IH]. }
    intro k. specialize (G _ _ H k). destruct (findM _ (enum_from k (polygons l))) as [[[i p]|]| | |], (findM _ (enum_from k (polygons l'))) as [[[i' p']|]| | |]; try contradiction; try reflexivity;
      cbn in G; try discriminate G. cbn [bind]. injection G as ->. reflexivity.
Qed.

Lemma remove_alike lib l l' b : lengthN (vertices l) < 2^32 -> consistent l -> layer_remove_useless l = Ok (l', b) ->
  layer_alike (fun x => x) l l' /\ layer_queries lib (fun x => x) l l'.
Proof.
  intros HL Hc E. destruct (C33_remove_useless l HL Hc) as (l1 & b1 & E1 & _ & Eo & Eb & Ei & HF & _). assert (l1 = l') by congruence. subst l1. clear E E1.
  split; [split; [exact Ei|]|].
  - eapply Forall2_weaken; [|exact HF]. intros p p' [H1 H2]. split; [exact H1|]. eapply Forall2_weaken; [|exact H2]. intros i i' (_ & v & V1 & V2). exists v, v.
    split; [exact V1|]. split; [exact V2|]. unfold world. rewrite Eo. auto.
  - constructor; [|intro p; now rewrite Eo|intro p; now rewrite Eo]. intro x. apply any_same; [exact Eb|]. eapply Forall2_weaken; [|exact HF]. intros p p' [_ H2].
    eapply Forall2_weaken; [|exact H2]. intros i i' (_ & v & V1 & V2). now exists v.
Qed.
Lemma self_alike lib l : (forall p, In p (polygons l) -> forall i, In i (pverts p) -> i < lengthN (vertices l)) -> layer_alike (fun x => x) l l /\ layer_queries lib (fun x => x) l l.
Proof.
  intro HW. split; [split; [reflexivity|]|now constructor].
  assert (G : forall ps : list Polygon, (forall p, In p ps -> forall i, In i (pverts p) -> i < lengthN (vertices l)) ->
     Forall2 (fun p p' => is_one_way p' = is_one_way p /\ Forall2 (vertex_alike (fun x => x) l l) (pverts p) (pverts p')) ps ps).
  { induction ps as [|p r IH]; intro H; constructor; [|apply IH; intros q Hq; apply H; now right]. split; [reflexivity|].
    pose proof (H p (or_introl eq_refl)) as Hp. clear -Hp. induction (pverts p) as [|i r IH]; constructor; [|apply IH; intros j Hj; apply Hp; now right].
    destruct (nthN_lt_Some (vertices l) i (Hp i (or_introl eq_refl))) as [v V]. exists v, v. auto. }
  apply G. exact HW.
Qed.

(** Removing the unused vertices does not change any answer: neither of the queries, nor of searches, blocking or polled. *)
Theorem C68_remove_useless_same_answers lib m m' b : pop_blind (lpop lib) ->
  (forall l, In l (layers m) -> lengthN (vertices l) < 2^32 /\ consistent l) ->
  mesh_remove_useless m = Ok (m', b) -> same_answers lib m m'.
Proof.
  intros HP HL H. unfold mesh_remove_useless in H. inv_bind H. destruct a as [ls' b']. cbn [fst snd] in H. inversion H; subst m' b'. clear H.
  assert (G : Forall2 (fun l l' => layer_alike (fun x => x) l l' /\ layer_queries lib (fun x => x) l l') (layers m) ls').
  { revert ls' b E. induction (layers m) as [|l r IH]; intros ls' b E; cbn [until_true] in E; [injection E as <- <-; constructor|].
    inv_bind E. destruct a as [l1 b1]. cbn [fst snd] in E. destruct (HL l (or_introl eq_refl)) as [H1 H2]. destruct b1.
    - injection E as <- <-. constructor; [exact (remove_alike lib l l1 true H1 H2 E0)|]. clear -HL. assert (HR : forall q, In q r -> consistent q) by (intros q Hq; apply (HL q); now right).
      clear HL. induction r as [|q r IH]; constructor; [|apply IH; intros x Hx; apply HR; now right]. apply self_alike. intros p Hp i Hi. destruct (HR q (or_introl eq_refl) p i Hp Hi) as (v & V & _). exact (nthN_Some_lt _ _ _ V).
    - inv_bind E. destruct a as [r' b2]. injection E as <- <-. constructor; [exact (remove_alike lib l l1 false H1 H2 E0)|]. apply (IH ltac:(intros; apply HL; now right) _ _ E1). }
  apply same_answers_alike; try reflexivity; try exact HP; cbn [layers].
  - unfold mesh_alike. cbn [layers]. eapply Forall2_weaken; [|exact G]. intros l l' [H1 _]. exact H1.
  - eapply Forall2_weaken; [|exact G]. intros l l' [_ H2]. exact H2.
Qed.
Lemma same_answers_trans lib m1 m2 m3 : same_answers lib m1 m2 -> same_answers lib m2 m3 -> same_answers lib m1 m3.
Proof.
  intros [A1 A2 A3 A4 A5 A6 A7] [B1 B2 B3 B4 B5 B6 B7]. constructor; intros.
  - now rewrite B1. - now rewrite B2. - now rewrite B3. - now rewrite B4. - now rewrite B5. - now rewrite B6. - now rewrite B7.
Qed.
(** Neither does repeating it until nothing is left to remove. *)
Theorem C68_repeated_same_answers lib m m' : pop_blind (lpop lib) ->
  (forall l, In l (layers m) -> lengthN (vertices l) < 2^32 /\ consistent l) ->
  repeated m m' -> same_answers lib m m'.
Proof.
  intros HP HL H. induction H as [m m' H|m m1 m' H _ IH]; [exact (C68_remove_useless_same_answers lib m m' false HP HL H)|].
  apply (same_answers_trans lib m m1 m'); [exact (C68_remove_useless_same_answers lib m m1 true HP HL H)|]. apply IH.
  destruct (until_true_ok (layers m) HL) as (ls' & b & E & I1 & _). unfold mesh_remove_useless in H. rewrite E in H. cbn [bind fst snd] in H. inversion H; subst m1. exact I1.
Qed.
End Any.

(** ** C69 *)
(** the mesh, every layer moved by [t] (the public field `offset` of the layers) *)
Definition mesh_shift {A : Arith} (t : vec2 A) (m : Mesh A) : Mesh A :=
  mkMesh (map (fun l => mkLayer (vertices l) (polygons l) (vadd (offset l) t) (baked l) (islands l)) (layers m)) (search_delta m) (search_steps m).
Definition coords_shift {A : Arith} (t : vec2 A) (c : Coords A) : Coords A := mkCoords (vadd (cpos c) t) (clayer c) (cpoly c).
Definition path_shift {A : Arith} (t : vec2 A) (p : Path A) : Path A := mkPath (Search.plength p) (map (fun x => vadd x t) (ppath p)).

Section Shift.
Context {A : Arith}.
Variable f : vec2 A -> vec2 A.
Hypotheses (H1 : forall a b, vsub (f a) (f b) = vsub a b) (H2 : forall a b, vadd (f a) b = f (vadd a b)) (H3 : forall a b, veq (f a) (f b) = veq a b).
Lemma shift_side p a b : side (f p) (f a, f b) = side p (a, b).
Proof using H1. unfold side. cbn [fst snd]. now rewrite !H1. Qed.
Lemma shift_mirrored r g a b : mirrored_goal (f r) (f g) (f a, f b) = f (mirrored_goal r g (a, b)).
Proof using H1 H2. unfold mirrored_goal. rewrite !shift_side. destruct (side_eqb _ _); [|reflexivity]. unfold mirror. cbn [fst snd]. now rewrite !H1, H2. Qed.
Lemma shift_dist a b : vdist (f a) (f b) = vdist a b. Proof using H1. unfold vdist. now rewrite H1. Qed.
Lemma shift_time a b s e : intersection_time (f a, f b) (f s, f e) = intersection_time (a, b) (s, e).
Proof using H1. unfold intersection_time. cbn [fst snd]. now rewrite !H1. Qed.
Lemma shift_motion : motion f.
Proof using H1 H2 H3.
  constructor.
  - exact H3.
  - exact shift_dist.
  - intros a b. unfold vdist2. now rewrite H1.
  - exact shift_side.
  - intros a b s e. unfold line_intersect_segment. rewrite shift_time. destruct (_ || _); [reflexivity|]. cbn [fst snd option_map]. now rewrite H1, H2.
  - intros r g a b. unfold heuristic. rewrite shift_mirrored. cbn [fst snd]. rewrite !H3, shift_time, !shift_dist. reflexivity.
  - intros r g a b. unfold turning_point. rewrite shift_mirrored. cbn [fst snd]. rewrite !H3, !shift_side. destruct (veq r a); [reflexivity|].
    destruct (side_eqb _ _); [reflexivity|]. destruct (side_eqb _ _); reflexivity.
Qed.
End Shift.

Section Exact.
Variable t : P2.
Definition by_t (x : vec2 RA) : vec2 RA := vadd x (vp t).
Lemma lift_sub x y (u : R) : lift2 Rminus (lift2 Rplus x (Some u)) (lift2 Rplus y (Some u)) = lift2 Rminus x y.
Proof. destruct x, y; cbn; try reflexivity. f_equal. ring. Qed.
Lemma by_sub a b : vsub (by_t a) (by_t b) = vsub a b.
Proof. destruct a as [a1 a2], b as [b1 b2]. unfold by_t, vsub, vadd, vp, pt. cbn [vx vy]. f_equal; apply lift_sub. Qed.
Lemma lift_add x y (u : R) : lift2 Rplus (lift2 Rplus x (Some u)) y = lift2 Rplus (lift2 Rplus x y) (Some u).
Proof. destruct x, y; cbn; try reflexivity. f_equal. ring. Qed.
Lemma by_add a b : vadd (by_t a) b = by_t (vadd a b).
Proof. destruct a as [a1 a2], b as [b1 b2]. unfold by_t, vadd, vp, pt. cbn [vx vy]. f_equal; apply lift_add. Qed.
Lemma lift_eq x y (u : R) : rcmp reqb (lift2 Rplus x (Some u)) (lift2 Rplus y (Some u)) = rcmp reqb x y.
Proof.
  destruct x as [x|], y as [y|]; cbn; try reflexivity. destruct (reqb x y) eqn:E.
  - apply reqb_true in E. apply reqb_true. now rewrite E.
  - apply reqb_false in E. apply reqb_false. lra.
Qed.
Lemma by_eq a b : veq (by_t a) (by_t b) = veq a b.
Proof. destruct a as [a1 a2], b as [b1 b2]. unfold by_t, veq, vadd, vp, pt. cbn [vx vy]. f_equal; apply lift_eq. Qed.
Lemma by_motion : motion by_t.
Proof. exact (shift_motion by_t by_sub by_add by_eq). Qed.
Lemma lift_out x (o u : option R) : lift2 Rplus x (lift2 Rplus o u) = lift2 Rplus (lift2 Rplus x o) u.
Proof. destruct x, o, u; cbn; try reflexivity. f_equal. ring. Qed.
Lemma by_out (p o : vec2 RA) : vadd p (vadd o (vp t)) = by_t (vadd p o).
Proof. destruct p as [p1 p2], o as [o1 o2]. unfold by_t, vadd, vp, pt. cbn [vx vy]. f_equal; apply lift_out. Qed.

Definition shifted (l : Layer RA) : Layer RA := mkLayer (vertices l) (polygons l) (vadd (offset l) (vp t)) (baked l) (islands l).
Lemma shift_queries lib l : layer_queries lib by_t l (shifted l).
Proof. constructor; [reflexivity|intro p; apply by_sub|intro p; apply by_out]. Qed.
Lemma shift_alike (l : Layer RA) : layer_wf l -> layer_alike by_t l (shifted l).
Proof.
  intro HW. split; [reflexivity|]. cbn [shifted polygons].
  assert (G : forall ps : list Polygon, (forall p, In p ps -> forall i, In i (pverts p) -> i < lengthN (vertices l)) ->
     Forall2 (fun p p' => is_one_way p' = is_one_way p /\ Forall2 (vertex_alike by_t l (shifted l)) (pverts p) (pverts p')) ps ps).
  { induction ps as [|p r IH]; intro H; constructor; [|apply IH; intros q Hq; apply H; now right]. split; [reflexivity|].
    pose proof (H p (or_introl eq_refl)) as Hp. clear -Hp. induction (pverts p) as [|i r IH]; constructor; [|apply IH; intros j Hj; apply Hp; now right].
    destruct (nthN_lt_Some (vertices l) i (Hp i (or_introl eq_refl))) as [v V]. exists v, v. split; [exact V|]. split; [exact V|]. split; [apply by_out|auto]. }
  apply G. intros p Hp i Hi. exact (proj2 (HW p Hp) i Hi).
Qed.
Variable m : Mesh RA.
Lemma shift_layers_queries lib : Forall2 (layer_queries lib by_t) (layers m) (layers (mesh_shift (vp t) m)).
Proof. cbn [mesh_shift layers]. induction (layers m) as [|l r IH]; constructor; [apply shift_queries|exact IH]. Qed.
Lemma shift_mesh_alike : (forall l, In l (layers m) -> layer_wf l) -> mesh_alike by_t m (mesh_shift (vp t) m).
Proof.
  unfold mesh_alike. cbn [mesh_shift layers]. induction (layers m) as [|l r IH]; intro H; constructor; [apply shift_alike, H; now left|apply IH; intros; apply H; now right].
Qed.
End Exact.

(** Exact arithmetic.  Moving all the layers and the query points by the same vector does not change which polygons are found, and moves
    the closest points along. *)
Theorem C69_queries_move lib (m : Mesh RA) (t : P2) c :
  get_point_location (lbvh lib) (mesh_shift (vp t) m) (coords_shift (vp t) c) = get_point_location (lbvh lib) m c /\
  get_point_locations (lbvh lib) (mesh_shift (vp t) m) (coords_shift (vp t) c) = get_point_locations (lbvh lib) m c /\
  get_closest_point (lbvh lib) (mesh_shift (vp t) m) (coords_shift (vp t) c) =
    (let* o := get_closest_point (lbvh lib) m c in Ok (option_map (coords_shift (vp t)) o)) /\
  (forall target, get_closest_point_towards (lbvh lib) (mesh_shift (vp t) m) (coords_shift (vp t) c) (vadd target (vp t)) =
    (let* o := get_closest_point_towards (lbvh lib) m c target in Ok (option_map (coords_shift (vp t)) o))).
Proof.
  pose proof (shift_layers_queries t m lib) as HQ.
  split; [exact (location_alike lib (by_t t) m _ HQ eq_refl c)|]. split; [exact (locations_alike lib (by_t t) m _ HQ eq_refl c)|].
  split; [exact (closest_alike lib (by_t t) m _ HQ eq_refl eq_refl c)|]. intro target. exact (towards_alike lib (by_t t) m _ HQ eq_refl eq_refl c target (by_sub t)).
Qed.

(** The path moves along, its length stays, whatever the mesh; and a polled future does the same at every poll. *)
Theorem C69_paths_move lib (m : Mesh RA) (t : P2) : pop_blind (lpop lib) -> (forall l, In l (layers m) -> layer_wf l) ->
  (forall from to blocked, path_on_layers lib (mesh_shift (vp t) m) (coords_shift (vp t) from) (coords_shift (vp t) to) blocked =
    let* o := path_on_layers lib m from to blocked in Ok (option_map (path_shift (vp t)) o)) /\
  (forall k from to, poll_times k lib (get_path (mesh_shift (vp t) m) (vadd from (vp t)) (vadd to (vp t))) =
    let* r := poll_times k lib (get_path m from to) in Ok (option_map (option_map (path_shift (vp t))) (fst r), snd r)).
Proof.
  intros HP HW. pose proof (shift_layers_queries t m lib) as HQ. pose proof (shift_mesh_alike t m HW) as HM. split.
  - intros from to blocked. exact (path_alike lib (by_t t) m _ HQ eq_refl eq_refl (by_motion t) HM HP from to blocked).
  - intros k from to. apply (polls_alike lib (by_t t) m _ HQ eq_refl (by_motion t) HM HP k).
    split; [reflexivity|]. split; [reflexivity|]. split; [reflexivity|]. split; [reflexivity|]. exact I.
Qed.
