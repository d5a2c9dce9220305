(** C81: Turning, moving, mirroring or scaling the world changes the length of the paths by the same factor. *)
From Coq Require Import List NArith ZArith Bool Lia Reals Lra Psatz.
From Verif Require Import Base Arith U32 Mesh Helpers Locate Search AsyncPath StdLib Spec RealArith Geometry Heuristic Cleanup_facts Search_facts Search_props Search_hist Search_cost Search_safe
  Properties_async Properties_geometry Properties_heuristic Spec_inside Sight_static Sight Sight_search Spec_shortest Shortest_bend Shortest_always Properties_shortest Properties_complete
  Spec_area Properties_area Spec_moved.
Import ListNotations.
Open Scope R_scope.

(** ** Similarities keep straight lines straight *)
Lemma pdot_dist a b : dist a b * dist a b = pdot (psub a b) (psub a b).
Proof. unfold dist. apply plen_sqr. Qed.
Lemma between_unique a b y t : 0 <= t <= 1 -> dist a y = t * dist a b -> dist y b = (1 - t) * dist a b -> y = lerp a b t.
Proof.
  intros Ht H1 H2. pose proof (pdot_dist a y) as E1. pose proof (pdot_dist y b) as E2. pose proof (pdot_dist a b) as E3. rewrite H1 in E1. rewrite H2 in E2.
  set (D := dist a b) in *. clearbody D. assert (Q : (px y - (px a + t * (px b - px a))) * (px y - (px a + t * (px b - px a))) + (py y - (py a + t * (py b - py a))) * (py y - (py a + t * (py b - py a))) = 0).
  { unfold pdot, psub in E1, E2, E3. cbn [px py] in E1, E2, E3. clear H1 H2. nra. }
  apply sq_sum_zero in Q. destruct Q as [Q1 Q2]. apply P2_eq; unfold lerp, padd, pscale, psub; cbn [px py]; lra.
Qed.
Lemma similarity_lerp k f a b t : similarity k f -> 0 <= t <= 1 -> f (lerp a b t) = lerp (f a) (f b) t.
Proof.
  intros [Hk Hf] Ht. assert (E1 : dist a (lerp a b t) = t * dist a b).
  { unfold dist. replace (psub a (lerp a b t)) with (pscale (- t) (psub b a)) by (apply P2_eq; unfold lerp, padd, pscale, psub; cbn [px py]; ring).
    rewrite plen_scale, Rabs_Ropp, Rabs_right by lra. f_equal. exact (dist_sym b a). }
  assert (E2 : dist (lerp a b t) b = (1 - t) * dist a b) by (pose proof (dist_between a b t Ht); lra).
  apply between_unique; [exact Ht| |]; rewrite !Hf; [rewrite E1|rewrite E2]; ring.
Qed.
Lemma similarity_inj k f a b : similarity k f -> f a = f b -> a = b.
Proof. intros [Hk Hf] E. apply dist_zero. pose proof (Hf a b) as Q. rewrite E, dist_refl in Q. nra. Qed.
Lemma similarity_total k f pts : similarity k f -> forall a, total (f a) (map f pts) = k * total a pts.
Proof. intros [Hk Hf]. induction pts as [|q r IH]; intro a; cbn [total map]; [ring|]. rewrite IH, Hf. ring. Qed.
Lemma last_map {X Y} (f : X -> Y) l d : last (map f l) (f d) = f (last l d).
Proof. induction l as [|x [|y r] IH]; cbn [map last] in *; auto. Qed.

(** If a similarity maps the area of one query onto that of the other, the start to the start and the goal to the goal, then
    the length of the path is multiplied by the factor of the similarity.  (The meshes may be quite different.) *)
Theorem C81_similar_areas (lib1 lib2 : Lib RA) m1 m2 from1 to1 from2 to2 blocked1 blocked2 path1 path2 start goal ps1 pe1 ps2 pe2 k f :
  similarity k f ->
  proper lib1 m1 blocked1 start goal ps1 pe1 -> proper lib2 m2 blocked2 (f start) (f goal) ps2 pe2 ->
  cpos from1 = vp start -> cpos to1 = vp goal -> located lib1 m1 from1 ps1 -> located lib1 m1 to1 pe1 ->
  cpos from2 = vp (f start) -> cpos to2 = vp (f goal) -> located lib2 m2 from2 ps2 -> located lib2 m2 to2 pe2 ->
  (forall y, area m2 blocked2 ps2 y <-> exists x, area m1 blocked1 ps1 x /\ y = f x) ->
  path_on_layers lib1 m1 from1 to1 blocked1 = Ok (Some path1) -> path_on_layers lib2 m2 from2 to2 blocked2 = Ok (Some path2) ->
  exists d, plength path1 = Some d /\ plength path2 = Some (k * d).
Proof.
  intros HS P1 P2 Es1 Eg1 L1 L2 Es2 Eg2 L3 L4 HA H1 H2. pose proof HS as [Hk _].
  destruct (C65_shortest_in_the_area lib1 m1 from1 to1 blocked1 path1 start goal ps1 pe1 P1 Es1 Eg1 L1 L2 H1) as (pts1 & A1 & A2 & A3 & A4 & A5).
  destruct (C65_shortest_in_the_area lib2 m2 from2 to2 blocked2 path2 (f start) (f goal) ps2 pe2 P2 Es2 Eg2 L3 L4 H2) as (pts2 & B1 & B2 & B3 & B4 & B5).
  exists (total start pts1). split; [exact A3|]. rewrite B3. f_equal. apply Rle_antisym.
  - rewrite <- (similarity_total k f pts1 HS start). apply B5; [|rewrite last_map, A2; reflexivity].
    clear -HS HA A4. revert A4. generalize start. induction pts1 as [|q r IH]; intros a; cbn [polyline_in map]; [intro H; apply HA; now exists a|].
    intros [H1 H2]. split; [|now apply IH]. intros t Ht. apply HA. exists (lerp a q t). split; [now apply H1|]. symmetry. exact (similarity_lerp k f a q t HS Ht).
  - assert (G : forall pts a, polyline_in (area m2 blocked2 ps2) (f a) pts -> exists others, pts = map f others /\ polyline_in (area m1 blocked1 ps1) a others).
    { clear -HS HA. induction pts as [|q r IH]; intros a; cbn [polyline_in].
      - intro H. exists []. split; [reflexivity|]. apply HA in H. destruct H as (x & Hx & E). apply (similarity_inj k f a x HS) in E. subst x. exact Hx.
      - intros [H1 H2]. assert (Hq : area m2 blocked2 ps2 q) by (specialize (H1 1 ltac:(lra)); rewrite lerp_1 in H1; exact H1).
        apply HA in Hq. destruct Hq as (q' & Hq' & ->). destruct (IH q' H2) as (o & -> & Ho). exists (q' :: o). split; [reflexivity|]. split; [|exact Ho].
        intros t Ht. specialize (H1 t Ht). rewrite <- (similarity_lerp k f a q' t HS Ht) in H1. apply HA in H1. destruct H1 as (x & Hx & E). apply (similarity_inj k f _ x HS) in E. rewrite E. exact Hx. }
    destruct (G pts2 start B4) as (others & -> & Ho). rewrite (similarity_total k f others HS start). apply Rmult_le_compat_l; [lra|]. apply A5; [exact Ho|].
    rewrite last_map in B2. exact (similarity_inj k f _ _ HS B2).
Qed.

(** ** Turning and scaling *)
Lemma turned_dist c s t a b : dist (turned c s t a) (turned c s t b) = sqrt (c * c + s * s) * dist a b.
Proof.
  unfold dist, plen. rewrite <- sqrt_mult_alt by nra. f_equal. unfold pdot, psub, turned. cbn [px py]. ring.
Qed.
Lemma turned_similarity c s t : c * c + s * s <> 0 -> similarity (sqrt (c * c + s * s)) (turned c s t).
Proof. intro H. split; [apply sqrt_lt_R0; nra|]. apply turned_dist. Qed.
Lemma turned_orient c s t a b x : orient (turned c s t a) (turned c s t b) (turned c s t x) = (c * c + s * s) * orient a b x.
Proof. unfold orient, cross, psub, turned. cbn [px py]. ring. Qed.
Lemma turned_lerp c s t a b u : turned c s t (lerp a b u) = lerp (turned c s t a) (turned c s t b) u.
Proof. apply P2_eq; unfold lerp, padd, pscale, psub, turned; cbn [px py]; ring. Qed.
(** the map back *)
Definition back_c c s := c / (c * c + s * s).
Definition back_s c s := - s / (c * c + s * s).
Definition back_t c s (t : P2) := turned (back_c c s) (back_s c s) (P 0 0) (P (- px t) (- py t)).
Lemma turned_back c s t x : c * c + s * s <> 0 -> turned (back_c c s) (back_s c s) (back_t c s t) (turned c s t x) = x.
Proof. intro H. apply P2_eq; unfold back_t, back_c, back_s, turned; cbn [px py]; field; exact H. Qed.
Lemma turned_there c s t x : c * c + s * s <> 0 -> turned c s t (turned (back_c c s) (back_s c s) (back_t c s t) x) = x.
Proof. intro H. apply P2_eq; unfold back_t, back_c, back_s, turned; cbn [px py]; field; exact H. Qed.
Lemma back_norm c s : c * c + s * s <> 0 -> back_c c s * back_c c s + back_s c s * back_s c s = 1 / (c * c + s * s).
Proof. intro H. unfold back_c, back_s. field. exact H. Qed.


(** ** A moved mesh *)
Section Moved.
Variables (c s : R) (t : P2) (m m' : Mesh RA).
Let k2 : R := c * c + s * s.
Hypothesis Hk : 0 < k2.
Let f : P2 -> P2 := turned c s t.
Hypothesis HM : moved f m m'.

Lemma mv_polygon id l p : polygon_at m id l p -> exists l', polygon_at m' id l' p /\ layer_moved f l l'.
Proof using HM.
  intros [H1 H2]. destruct (Forall2_nthN _ _ _ HM _ _ H1) as (l' & E & HL). exists l'. split; [|exact HL]. split; [exact E|]. destruct HL as [HL _]. rewrite HL. exact H2.
Qed.
Lemma mv_at l l' i q : layer_moved f l l' -> at_world l i q -> at_world l' i (f q).
Proof using.
  intros [_ HL] (v & Hv & E). destruct (Forall2_nthN _ _ _ HL _ _ Hv) as (v' & Hv' & _ & _ & q' & E1 & E2). exists v'. split; [exact Hv'|].
  rewrite E in E1. apply vp_inj in E1. rewrite E1. exact E2.
Qed.
Lemma mv_corners id qs : corners m id qs -> corners m' id (map f qs).
Proof using HM.
  intros (l & p & HP & HF). destruct (mv_polygon id l p HP) as (l' & HP' & HL). exists l', p. split; [exact HP'|]. clear HP HP'.
  induction HF as [|i q is qs Hi HF IH]; cbn [map]; [apply Forall2_nil|apply Forall2_cons; [exact (mv_at l l' i q HL Hi)|exact IH]].
Qed.
Lemma mv_edges qs a b : In (a, b) (poly_edges (map f qs)) -> exists u w, In (u, w) (poly_edges qs) /\ a = f u /\ b = f w.
Proof using.
  unfold poly_edges. replace (tl (map f qs) ++ firstn 1 (map f qs)) with (map f (tl qs ++ firstn 1 qs)) by (destruct qs; [reflexivity|cbn [tl map firstn]; rewrite map_app; reflexivity]).
  generalize (tl qs ++ firstn 1 qs) as r. induction qs as [|x qs IH]; intros r H; [destruct H|]. destruct r as [|y r]; [destruct H|]. cbn [map combine In] in H. destruct H as [H|H].
  - exists x, y. injection H as <- <-. split; [now left|auto].
  - destruct (IH r H) as (u & w & H1 & H2). exists u, w. split; [now right|exact H2].
Qed.
Lemma mv_edges_in qs a b : In (a, b) (poly_edges qs) -> In (f a, f b) (poly_edges (map f qs)).
Proof using.
  unfold poly_edges. replace (tl (map f qs) ++ firstn 1 (map f qs)) with (map f (tl qs ++ firstn 1 qs)) by (destruct qs; [reflexivity|cbn [tl map firstn]; rewrite map_app; reflexivity]).
  generalize (tl qs ++ firstn 1 qs) as r. induction qs as [|x qs IH]; intros r H; [destruct H|]. destruct r as [|y r]; [destruct H|]. cbn [map combine In] in *. destruct H as [H|H].
  - left. congruence.
  - right. now apply IH.
Qed.
Lemma mv_orient a b x : orient (f a) (f b) (f x) = k2 * orient a b x.
Proof using. apply turned_orient. Qed.
Lemma mv_inside qs x : inside qs x -> inside (map f qs) (f x).
Proof using Hk. intros H a b He. destruct (mv_edges qs a b He) as (u & w & Hu & -> & ->). rewrite mv_orient. apply Rmult_le_pos; [lra|]. exact (H u w Hu). Qed.
Lemma mv_area blocked ps x : area m blocked ps x -> area m' blocked ps (f x).
Proof using Hk HM. intros (id & qs & HU & HC & HI). exists id, (map f qs). split; [exact HU|]. split; [now apply mv_corners|now apply mv_inside]. Qed.

Lemma mv_crossing x : u32_crossing m x -> u32_crossing m' x.
Proof using HM.
  intros [(l & p & va & vb & HP & HB & Hva & Hvb & Ia & Ib & HN & HN') H32]. split; [|exact H32]. destruct (mv_polygon _ l p HP) as (l' & HP' & HL).
  destruct HL as [_ HL]. destruct (Forall2_nthN _ _ _ HL _ _ Hva) as (va' & Va & E1 & _). destruct (Forall2_nthN _ _ _ HL _ _ Hvb) as (vb' & Vb & E2 & _).
  exists l', p, va', vb'. rewrite E1, E2. auto 10.
Qed.
Lemma mv_open blocked x : open_crossing m blocked x -> open_crossing m' blocked x.
Proof using HM. intros [H1 H2]. split; [now apply mv_crossing|exact H2]. Qed.
Lemma mv_ends x a b : ends m x a b -> ends m' x (f a) (f b).
Proof using HM. intros (l & p & HP & Ha & Hb). destruct (mv_polygon _ l p HP) as (l' & HP' & HL). exists l', p. split; [exact HP'|]. split; [exact (mv_at _ _ _ _ HL Ha)|exact (mv_at _ _ _ _ HL Hb)]. Qed.
Lemma mv_on_edge x y : on_edge m x y -> on_edge m' x (f y).
Proof using HM. intros (a & b & u & HE & Hu & ->). exists (f a), (f b), u. split; [now apply mv_ends|]. split; [exact Hu|]. apply turned_lerp. Qed.
Lemma mv_vertex id v q : vertex_of m id v q -> exists v', vertex_of m' id v' (f q) /\ vpolys v' = vpolys v /\ is_corner v' = is_corner v.
Proof using HM.
  intros (l & p & i & HP & Hi & Hv & E). destruct (mv_polygon _ l p HP) as (l' & HP' & HL). destruct HL as [_ HL].
  destruct (Forall2_nthN _ _ _ HL _ _ Hv) as (v' & Hv' & E1 & E2 & q' & Q1 & Q2). rewrite E in Q1. apply vp_inj in Q1. subst q'. exists v'. split; [|auto]. now exists l', p, i.
Qed.
Lemma turnable_same blocked (v v' : Vertex RA) : vpolys v' = vpolys v -> is_corner v' = is_corner v -> turnable blocked v -> turnable blocked v'.
Proof using. unfold turnable. intros -> ->. auto. Qed.
Lemma mv_place start x : place m start x -> place m' (f start) (f x).
Proof using HM. intros [->|(id & qs & H1 & H2)]; [now left|right]. exists id, (map f qs). split; [now apply mv_corners|now apply in_map]. Qed.
Lemma mv_inj a b : f a = f b -> a = b.
Proof using Hk. apply (similarity_inj (sqrt k2)). apply turned_similarity. fold k2. lra. Qed.
Lemma mv_cut start a b i : cut_point m start a b i -> cut_point m' (f start) (f a) (f b) (f i).
Proof using HM Hk.
  intros [->|[->|(u & w & z & H1 & -> & H2 & H3 & H4 & H5 & H6)]]; [now left|now right; left|]. right. right. exists u, (f w), (f z).
  split; [exact H1|]. split; [apply turned_lerp|]. split; [now apply mv_place|]. split; [now apply mv_place|]. split; [intro E; apply H4; now apply mv_inj|].
  split; [rewrite mv_orient, H5; ring|]. destruct H6 as [H6|H6]; [left|right]; rewrite mv_orient; intro E; apply Rmult_integral in E; destruct E; [lra|contradiction|lra|contradiction].
Qed.
Lemma mv_turning blocked q right P xs Q : turning m blocked q right P xs Q -> turning m' blocked (f q) right P xs Q.
Proof using HM.
  intro H. induction H as [right x HO (o & Ho)|right x xs Q HO (o & Ho) H IH].
  - apply turning_one; [now apply mv_open|]. exists (f o). destruct right; now apply mv_ends.
  - apply turning_more; [now apply mv_open| |exact IH]. exists (f o). destruct right; now apply mv_ends.
Qed.
End Moved.

(** Going back. *)
Lemma moved_back c s t m m' : c * c + s * s <> 0 -> moved (turned c s t) m m' -> moved (turned (back_c c s) (back_s c s) (back_t c s t)) m' m.
Proof.
  intros Hn H. unfold moved in *. induction H as [|l l' r r' [E HL] HF IH]; constructor; [|exact IH]. split; [congruence|].
  clear -Hn HL. assert (G : forall vs vs', Forall2 (vertex_moved (turned c s t) l l') vs vs' -> Forall2 (vertex_moved (turned (back_c c s) (back_s c s) (back_t c s t)) l' l) vs' vs).
  { induction 1 as [|v v' a b (E1 & E2 & q & Q1 & Q2) HF IH]; constructor; [|exact IH]. split; [congruence|]. split; [congruence|]. exists (turned c s t q). split; [exact Q2|].
    rewrite (turned_back c s t q Hn). exact Q1. }
  now apply G.
Qed.
Lemma moved_area c s t m m' blocked ps : c * c + s * s <> 0 -> moved (turned c s t) m m' ->
  forall y, area m' blocked ps y <-> exists x, area m blocked ps x /\ y = turned c s t x.
Proof.
  intros Hn H y. assert (Hk : 0 < c * c + s * s) by nra. split.
  - intro Hy. exists (turned (back_c c s) (back_s c s) (back_t c s t) y). split; [|symmetry; now apply turned_there].
    refine (mv_area (back_c c s) (back_s c s) (back_t c s t) m' m _ (moved_back c s t m m' Hn H) blocked ps y Hy). rewrite back_norm by exact Hn. apply Rdiv_lt_0_compat; lra.
  - intros (x & Hx & ->). exact (mv_area c s t m m' Hk H blocked ps x Hx).
Qed.

(** Turning, scaling and moving a mesh multiplies the lengths of the paths by the factor of the scaling. *)
Theorem C81_moved_mesh (lib1 lib2 : Lib RA) m m' from1 to1 from2 to2 blocked path1 path2 start goal ps pe c s t :
  c * c + s * s <> 0 -> moved (turned c s t) m m' ->
  proper lib1 m blocked start goal ps pe -> proper lib2 m' blocked (turned c s t start) (turned c s t goal) ps pe ->
  cpos from1 = vp start -> cpos to1 = vp goal -> located lib1 m from1 ps -> located lib1 m to1 pe ->
  cpos from2 = vp (turned c s t start) -> cpos to2 = vp (turned c s t goal) -> located lib2 m' from2 ps -> located lib2 m' to2 pe ->
  path_on_layers lib1 m from1 to1 blocked = Ok (Some path1) -> path_on_layers lib2 m' from2 to2 blocked = Ok (Some path2) ->
  exists d, plength path1 = Some d /\ plength path2 = Some (sqrt (c * c + s * s) * d).
Proof.
  intros Hn HM P1 P2 Es1 Eg1 L1 L2 Es2 Eg2 L3 L4 H1 H2.
  exact (C81_similar_areas lib1 lib2 m m' from1 to1 from2 to2 blocked blocked path1 path2 start goal ps pe ps pe _ _ (turned_similarity c s t Hn) P1 P2 Es1 Eg1 L1 L2 Es2 Eg2 L3 L4
    (moved_area c s t m m' blocked ps Hn HM) H1 H2).
Qed.

(** ** Rotations: all that the theorems ask of a mesh and a query is kept *)
Section Rigid.
Variables (c s : R) (t : P2) (m m' : Mesh RA).
Hypothesis H1 : c * c + s * s = 1.
Let f : P2 -> P2 := turned c s t.
Let bc : R := back_c c s.
Let bs : R := back_s c s.
Let bt : P2 := back_t c s t.
Let g : P2 -> P2 := turned bc bs bt.
Hypothesis HM : moved f m m'.
Lemma rg_pos : 0 < c * c + s * s. Proof using H1. lra. Qed.
Lemma rg_nz : c * c + s * s <> 0. Proof using H1. lra. Qed.
Lemma rg_back1 : bc * bc + bs * bs = 1. Proof using H1. unfold bc, bs. rewrite (back_norm c s rg_nz), H1. field. Qed.
Lemma rg_back_pos : 0 < bc * bc + bs * bs. Proof using H1. rewrite rg_back1. lra. Qed.
Lemma rg_moved_back : moved g m' m. Proof using H1 HM. exact (moved_back c s t m m' rg_nz HM). Qed.
Lemma rg_gf x : g (f x) = x. Proof using H1. exact (turned_back c s t x rg_nz). Qed.
Lemma rg_fg x : f (g x) = x. Proof using H1. exact (turned_there c s t x rg_nz). Qed.
Lemma rg_dist a b : dist (f a) (f b) = dist a b. Proof using H1. unfold f. rewrite turned_dist, H1, sqrt_1. ring. Qed.
Lemma rg_orient a b x : orient (f a) (f b) (f x) = orient a b x. Proof using H1. unfold f. rewrite turned_orient, H1. ring. Qed.
Lemma rg_neq a b : f a <> f b -> a <> b. Proof using. congruence. Qed.
(** every point and every object of the moved mesh comes from one of the mesh *)
Lemma rg_corners id qs : corners m' id qs -> exists qs', corners m id qs' /\ qs = map f qs'.
Proof using H1 HM.
  intro H. exists (map g qs). split; [exact (mv_corners bc bs bt m' m rg_moved_back id qs H)|]. rewrite map_map. rewrite <- (map_id qs) at 1. apply map_ext. intro x. symmetry. apply rg_fg.
Qed.
Lemma rg_inside qs x : inside (map f qs) (f x) -> inside qs x.
Proof using H1. intros H a b He. rewrite <- (rg_orient a b x). apply H. now apply mv_edges_in. Qed.
Lemma rg_crossing x : u32_crossing m' x -> u32_crossing m x.
Proof using H1 HM. exact (mv_crossing bc bs bt m' m rg_moved_back x). Qed.
Lemma rg_open blocked x : open_crossing m' blocked x -> open_crossing m blocked x.
Proof using H1 HM. exact (mv_open bc bs bt m' m rg_moved_back blocked x). Qed.
Lemma rg_ends x a b : ends m' x (f a) (f b) -> ends m x a b.
Proof using H1 HM. intro H. apply (mv_ends bc bs bt m' m rg_moved_back) in H. fold g in H. rewrite !rg_gf in H. exact H. Qed.
Lemma rg_vertex id v q : vertex_of m' id v (f q) -> exists v', vertex_of m id v' q /\ vpolys v' = vpolys v /\ is_corner v' = is_corner v.
Proof using H1 HM. intro H. destruct (mv_vertex bc bs bt m' m rg_moved_back id v _ H) as (v' & Hv & E). fold g in Hv. rewrite rg_gf in Hv. now exists v'. Qed.
Lemma rg_place start x : place m' (f start) x -> exists y, place m start y /\ x = f y.
Proof using H1 HM. intro H. exists (g x). split; [|symmetry; apply rg_fg]. apply (mv_place bc bs bt m' m rg_moved_back) in H. fold g in H. rewrite rg_gf in H. exact H. Qed.
Lemma rg_cut start a b i : cut_point m' (f start) (f a) (f b) i -> exists j, cut_point m start a b j /\ i = f j.
Proof using H1 HM.
  intro H. exists (g i). split; [|symmetry; apply rg_fg]. apply (mv_cut bc bs bt m' m rg_back_pos rg_moved_back) in H. fold g in H. rewrite !rg_gf in H. exact H.
Qed.
Lemma rg_way blocked P x Q y L : way m blocked P x Q y L -> way m' blocked P (f x) Q (f y) L.
Proof using H1 HM.
  intro H. induction H as [P qs x Hc Hi|P x Q y L qs z HW IH Hc Hi|P x cr y L HW IH Ho He].
  - apply (way_here m' blocked P (map f qs)); [exact (mv_corners c s t m m' HM _ _ Hc)|exact (mv_inside c s t rg_pos _ _ Hi)].
  - rewrite <- (rg_dist y z). apply (way_move m' blocked P (f x) Q (f y) L (map f qs)); [exact IH|exact (mv_corners c s t m m' HM _ _ Hc)|exact (mv_inside c s t rg_pos _ _ Hi)].
  - apply way_cross; [exact IH|exact (mv_open c s t m m' HM _ _ Ho)|exact (mv_on_edge c s t m m' HM _ _ He)].
Qed.
Lemma rg_in_map x qs : In (f x) (map f qs) -> In x qs.
Proof using H1. intro H. apply in_map_iff in H. destruct H as (y & E & Hy). apply (mv_inj c s t rg_pos) in E. now subst y. Qed.
Lemma rg_around blocked ps v d : around m blocked ps v d -> around m' blocked ps (f v) d.
Proof using H1 HM.
  intros H id id' qs qs' x y A1 A2 A3 A4 C1 I1 C2 I2 J1 J2 D1 D2. destruct (rg_corners id qs C1) as (q1 & Q1 & ->). destruct (rg_corners id' qs' C2) as (q2 & Q2 & ->).
  rewrite <- (rg_fg x) in *. rewrite <- (rg_fg y) in *. set (x' := g x) in *. set (y' := g y) in *. rewrite rg_dist in *.
  apply rg_way. apply (H id id' q1 q2 x' y' A1 A2 A3 A4 Q1 (rg_in_map _ _ I1) Q2 (rg_in_map _ _ I2) (rg_inside _ _ J1) (rg_inside _ _ J2) D1 D2).
Qed.
Lemma map_split3' {X Y} (h : X -> Y) l x a y b z e w : map h l = x ++ a :: y ++ b :: z ++ e :: w ->
  exists x' a' y' b' z' e' w', l = x' ++ a' :: y' ++ b' :: z' ++ e' :: w' /\ a = h a' /\ b = h b' /\ e = h e'.
Proof using.
  intro H. apply map_eq_app in H. destruct H as (x' & l1 & -> & _ & H). apply map_eq_cons in H. destruct H as (a' & l2 & -> & <- & H).
  apply map_eq_app in H. destruct H as (y' & l3 & -> & _ & H). apply map_eq_cons in H. destruct H as (b' & l4 & -> & <- & H).
  apply map_eq_app in H. destruct H as (z' & l5 & -> & _ & H). apply map_eq_cons in H. destruct H as (c' & w' & -> & <- & _).
  now exists x', a', y', b', z', c', w'.
Qed.
Lemma rg_convex qs : convex qs -> convex (map f qs).
Proof using H1.
  intros [C1 C2]. split.
  - intros x a y b z e w E. destruct (map_split3' f qs _ _ _ _ _ _ _ E) as (x' & a' & y' & b' & z' & e' & w' & E' & -> & -> & ->). rewrite rg_orient. exact (C1 _ _ _ _ _ _ _ E').
  - intros a b He. destruct (mv_edges c s t qs a b He) as (u & w & Hu & -> & ->). destruct (C2 u w Hu) as (e & I & Q). exists (f e). split; [now apply in_map|]. fold f. rewrite rg_orient. exact Q.
Qed.
Lemma rg_spaced qs : spaced qs -> spaced (map f qs).
Proof using H1.
  intros C x a y b z E. apply map_eq_app in E. destruct E as (x' & l1 & -> & _ & E). apply map_eq_cons in E. destruct E as (a' & l2 & -> & <- & E).
  apply map_eq_app in E. destruct E as (y' & l3 & -> & _ & E). apply map_eq_cons in E. destruct E as (b' & l4 & -> & <- & _).
  rewrite <- pdot_dist, rg_dist, pdot_dist. exact (C _ _ _ _ _ eq_refl).
Qed.
Lemma rg_polygon id l' p : polygon_at m' id l' p -> exists l, polygon_at m id l p /\ layer_moved f l l'.
Proof using HM.
  intros [P1 P2]. destruct (Forall2_nthN_r _ _ _ HM _ _ P1) as (l & E & HL). exists l. split; [|exact HL]. split; [exact E|]. destruct HL as [HL _]. rewrite <- HL. exact P2.
Qed.
Lemma rg_plane : plane_mesh m -> plane_mesh m'.
Proof using H1 HM.
  intros [Q1 Q2]. split.
  - intros id l' p HP. destruct (rg_polygon id l' p HP) as (l & HP' & HL). destruct (Q1 id l p HP') as (qs & F1 & F2 & F3). exists (map f qs).
    split; [|split; [now apply rg_convex|now apply rg_spaced]]. clear -F1 HL. induction F1 as [|i q is qs Hi HF IH]; cbn [map]; [apply Forall2_nil|apply Forall2_cons; [exact (mv_at c s t l l' i q HL Hi)|exact IH]].
  - intros x l' p a b qs HX HP Ha Hb Hqs. destruct (rg_polygon _ l' p HP) as (l & HP' & HL). destruct (rg_corners _ _ Hqs) as (q1 & C1 & ->).
    assert (HE : ends m x (g a) (g b)). { apply rg_ends. rewrite !rg_fg. now exists l', p. }
    destruct HE as (l1 & p1 & HP1 & Ha1 & Hb1). pose proof (Q2 x l1 p1 (g a) (g b) q1 (rg_crossing x HX) HP1 Ha1 Hb1 C1) as I.
    apply (mv_edges_in c s t) in I. fold f in I. rewrite !rg_fg in I. exact I.
Qed.
Lemma rg_layer l' : In l' (layers m') -> exists l, In l (layers m) /\ layer_moved f l l'.
Proof using HM. intro H. destruct (In_nthN _ _ H) as (i & E). destruct (Forall2_nthN_r _ _ _ HM _ _ E) as (l & E' & HL). exists l. split; [exact (nthN_In _ _ _ E')|exact HL]. Qed.
Lemma rg_vert l l' v' : layer_moved f l l' -> In v' (vertices l') -> exists v, In v (vertices l) /\ vertex_moved f l l' v v'.
Proof using. intros [_ HL] H. destruct (In_nthN _ _ H) as (i & E). destruct (Forall2_nthN_r _ _ _ HL _ _ E) as (v & E' & Hv). exists v. split; [exact (nthN_In _ _ _ E')|exact Hv]. Qed.
Lemma rg_ids : ids_wf m -> ids_wf m'.
Proof using HM.
  intros H l' v' id Hl Hv Hid HN. destruct (rg_layer l' Hl) as (l & Hl0 & HL). destruct (rg_vert l l' v' HL Hv) as (v & Hv0 & E & _). rewrite E in Hid.
  destruct (H l v id Hl0 Hv0 Hid HN) as (l2 & p2 & HP). destruct (mv_polygon c s t m m' HM id l2 p2 HP) as (l3 & HP3 & _). now exists l3, p2.
Qed.
Lemma rg_u32 : u32_ids m -> u32_ids m'.
Proof using HM.
  intros H l' v' id Hl Hv Hid. destruct (rg_layer l' Hl) as (l & Hl0 & HL). destruct (rg_vert l l' v' HL Hv) as (v & Hv0 & E & _). rewrite E in Hid. exact (H l v id Hl0 Hv0 Hid).
Qed.
Lemma F2_lengthN {X Y} (R : X -> Y -> Prop) xs ys : Forall2 R xs ys -> lengthN xs = lengthN ys.
Proof using. unfold lengthN. induction 1; cbn [length]; lia. Qed.
Lemma rg_small : mesh_small m -> mesh_small m'.
Proof using HM.
  intros [S1 S2]. split; [rewrite <- (F2_lengthN _ _ _ HM); exact S1|]. intros l' Hl. destruct (rg_layer l' Hl) as (l & Hl0 & HL & _). rewrite HL. exact (S2 l Hl0).
Qed.
Lemma rg_wf : mesh_wf m -> mesh_wf m'.
Proof using HM.
  intros [W1 W2]. split; [|now apply rg_ids]. intros l' Hl p Hp. destruct (rg_layer l' Hl) as (l & Hl0 & HL & HV). rewrite HL in Hp. destruct (W1 l Hl0 p Hp) as [X1 X2].
  split; [exact X1|]. intros v Hv. rewrite <- (F2_lengthN _ _ _ HV). exact (X2 v Hv).
Qed.
Lemma rg_generic start ps pe goal : generic m start ps pe goal -> generic m' (f start) ps pe (f goal).
Proof using H1 HM.
  intros [G1 G2 G3 G4 G5 G6 G7 G8].
  assert (IN : forall id q, (exists qs, corners m id qs /\ forall a b, In (a, b) (poly_edges qs) -> 0 < orient a b q) -> exists qs, corners m' id qs /\ forall a b, In (a, b) (poly_edges qs) -> 0 < orient a b (f q)).
  { intros id q (qs & C1 & C2). exists (map f qs). split; [exact (mv_corners c s t m m' HM _ _ C1)|]. intros a b He. destruct (mv_edges c s t qs a b He) as (u & w & Hu & -> & ->). fold f. rewrite rg_orient. now apply C2. }
  split.
  - intros u w x Pu Pw Px N1 N2 N3. destruct (rg_place start u Pu) as (u' & Qu & ->), (rg_place start w Pw) as (w' & Qw & ->), (rg_place start x Px) as (x' & Qx & ->).
    rewrite rg_dist, rg_orient. apply G1; auto; now apply rg_neq.
  - intros u w Pu Pw N1. destruct (rg_place start u Pu) as (u' & Qu & ->), (rg_place start w Pw) as (w' & Qw & ->). rewrite rg_dist, rg_orient. apply G2; auto; now apply rg_neq.
  - intros u w Pu Pw N1. destruct (rg_place start u Pu) as (u' & Qu & ->), (rg_place start w Pw) as (w' & Qw & ->). rewrite rg_dist. apply G3; auto; now apply rg_neq.
  - intros id qs a b i j C He Hi Hj Hn. destruct (rg_corners id qs C) as (q1 & Q1 & ->). destruct (mv_edges c s t q1 a b He) as (u & w & Hu & -> & ->). fold f in Hi, Hj.
    destruct (rg_cut start u w i Hi) as (i' & Ci & ->), (rg_cut start u w j Hj) as (j' & Cj & ->). rewrite rg_dist. apply (G4 id q1 u w i' j' Q1 Hu Ci Cj). now apply rg_neq.
  - intros id qs a b C He. destruct (rg_corners id qs C) as (q1 & Q1 & ->). destruct (mv_edges c s t q1 a b He) as (u & w & Hu & -> & ->). fold f. rewrite rg_dist. exact (G5 id q1 u w Q1 Hu).
  - exact (IN ps start G6).
  - intros id qs C HI. destruct (rg_corners id qs C) as (q1 & Q1 & ->). apply rg_in_map in HI. exact (G7 id q1 Q1 HI).
  - exact (IN pe goal G8).
Qed.
Lemma rg_faultless blocked ps : faultless m blocked ps -> faultless m' blocked ps.
Proof using H1 HM.
  intros [F1 F2 F3 F4 F5 F6].
  assert (BK : forall id v q, vertex_of m' id v q -> exists v', vertex_of m id v' (g q) /\ vpolys v' = vpolys v /\ is_corner v' = is_corner v).
  { intros id v q H. apply rg_vertex. rewrite rg_fg. exact H. }
  split.
  - intros x y Hx Hy. apply F1; now apply rg_crossing.
  - intros x y a b Hx Hy E X1 X2. rewrite <- (rg_fg a), <- (rg_fg b) in X1, X2. apply rg_ends in X1, X2. exact (F2 x y _ _ (rg_crossing _ Hx) (rg_crossing _ Hy) E X1 X2).
  - intros l' p x y HP Ho Hx Hy E. destruct (rg_polygon _ l' p HP) as (l & HP' & _). exact (F3 l p x y HP' Ho (rg_open _ _ Hx) (rg_open _ _ Hy) E).
  - intros id id' v v' q Hv Hv' Ht. destruct (BK id v q Hv) as (w & Hw & E1 & E2). destruct (BK id' v' q Hv') as (w' & Hw' & E3 & E4).
    apply (turnable_same blocked w' v'); [congruence|congruence|]. apply (F4 id id' w w' (g q) Hw Hw'). apply (turnable_same blocked v w); auto.
  - intros id v q Hv. destruct (BK id v q Hv) as (w & Hw & _). rewrite <- (rg_fg q). apply rg_around. exact (F5 id w (g q) Hw).
  - intros id v q Hv Hn. destruct (BK id v q Hv) as (w & Hw & E1 & E2). destruct (F6 id w (g q) Hw) as (d & Hd & HA).
    + intro Ht. apply Hn. apply (turnable_same blocked w v); [congruence|congruence|exact Ht].
    + exists d. split; [exact Hd|]. rewrite <- (rg_fg q). now apply rg_around.
Qed.
Lemma rg_seamless blocked ps : seamless m blocked ps -> seamless m' blocked ps.
Proof using H1 HM.
  intros S id id' qs qs' x U1 U2 C1 C2 I1 I2. destruct (rg_corners id qs C1) as (q1 & Q1 & ->). destruct (rg_corners id' qs' C2) as (q2 & Q2 & ->). rewrite <- (rg_fg x) in *. set (y := g x) in *.
  destruct (S id id' q1 q2 y U1 U2 Q1 Q2 (rg_inside _ _ I1) (rg_inside _ _ I2)) as [E|[[A B]|(cr & O1 & O2 & O3 & O4)]]; [now left|right; left; split; now apply in_map|].
  right. right. exists cr. split; [exact (mv_open c s t m m' HM _ _ O1)|]. split; [exact O2|]. split; [exact O3|]. exact (mv_on_edge c s t m m' HM _ _ O4).
Qed.
Lemma rg_border blocked : at_border m blocked -> at_border m' blocked.
Proof using H1 HM.
  intros B id v q right P xs Hv Ht H. rewrite <- (rg_fg q) in *. destruct (rg_vertex id v (g q) Hv) as (w & Hw & E1 & E2).
  apply (mv_turning bc bs bt m' m rg_moved_back) in H. fold g in H. rewrite rg_gf in H. exact (B id w (g q) right P xs Hw (turnable_same blocked v w E1 E2 Ht) H).
Qed.
Lemma rg_proper (lib lib' : Lib RA) blocked start goal ps pe : pop_ok (lpop lib') -> proper lib m blocked start goal ps pe -> proper lib' m' blocked (f start) (f goal) ps pe.
Proof using H1 HM.
  intros Hp [Q1 Q2 Q3 Q4 Q5 Q6 Q7 Q8 Q9]. split; [exact Hp|now apply rg_small|now apply rg_plane|now apply rg_ids|now apply rg_u32|exact Q6|now apply rg_generic|now apply rg_faultless|now apply rg_seamless].
Qed.
End Rigid.

(** A rotation (and translation) of the mesh, the start and the goal leaves the lengths of the paths as they are: no
    condition on the moved mesh is needed except that it is the moved mesh. *)
Theorem C81_rotated_mesh (lib1 lib2 : Lib RA) m m' from1 to1 from2 to2 blocked path1 path2 start goal ps pe c s t :
  c * c + s * s = 1 -> moved (turned c s t) m m' -> pop_ok (lpop lib2) ->
  proper lib1 m blocked start goal ps pe ->
  cpos from1 = vp start -> cpos to1 = vp goal -> located lib1 m from1 ps -> located lib1 m to1 pe ->
  cpos from2 = vp (turned c s t start) -> cpos to2 = vp (turned c s t goal) -> located lib2 m' from2 ps -> located lib2 m' to2 pe ->
  path_on_layers lib1 m from1 to1 blocked = Ok (Some path1) -> path_on_layers lib2 m' from2 to2 blocked = Ok (Some path2) ->
  plength path1 = plength path2.
Proof.
  intros H1 HM Hp P1 Es1 Eg1 L1 L2 Es2 Eg2 L3 L4 Q1 Q2. assert (Hn : c * c + s * s <> 0) by lra.
  destruct (C81_moved_mesh lib1 lib2 m m' from1 to1 from2 to2 blocked path1 path2 start goal ps pe c s t Hn HM P1 (rg_proper c s t m m' H1 HM lib1 lib2 blocked start goal ps pe Hp P1)
    Es1 Eg1 L1 L2 Es2 Eg2 L3 L4 Q1 Q2) as (d & D1 & D2).
  rewrite D1, D2, H1, sqrt_1. f_equal. ring.
Qed.

(** The same for the futures: with a rotated mesh the future of get_path finds a path of the same length, or both answer "no path". *)
Theorem C81_futures_rotated (lib1 lib2 : Lib RA) m m' start goal ps pe c s t :
  c * c + s * s = 1 -> moved (turned c s t) m m' -> pop_ok (lpop lib2) ->
  proper lib1 m [] start goal ps pe -> mesh_wf m -> real_mesh m -> real_mesh m' -> at_border m [] -> (pe < 2 ^ 32)%N -> ps <> MAX -> pe <> MAX ->
  get_point_location (lbvh lib1) m (coords_on_mesh (vp start)) = Ok ps ->
  get_point_location (lbvh lib1) m (coords_on_mesh (vp goal)) = Ok pe -> async_islands_reject m ps pe = Ok false ->
  get_point_location (lbvh lib2) m' (coords_on_mesh (vp (turned c s t start))) = Ok ps ->
  get_point_location (lbvh lib2) m' (coords_on_mesh (vp (turned c s t goal))) = Ok pe -> async_islands_reject m' ps pe = Ok false ->
  exists k1 log1 k2 log2 r1 r2,
    poll_times k1 lib1 (get_path m (vp start) (vp goal)) = Ok (Some r1, log1) /\
    poll_times k2 lib2 (get_path m' (vp (turned c s t start)) (vp (turned c s t goal))) = Ok (Some r2, log2) /\
    option_map plength r1 = option_map plength r2.
Proof.
  intros H1 HM Hp P1 W R R' B E N1 N2 F1 F2 F3 G1 G2 G3. assert (Hn : c * c + s * s <> 0) by lra.
  pose proof (rg_proper c s t m m' H1 HM lib1 lib2 [] start goal ps pe Hp P1) as P2.
  destruct (C65_future_decides lib1 m start goal ps pe P1 W R B E F1 N1 F2 N2 F3) as (k1 & log1 & D1).
  destruct (C65_future_decides lib2 m' _ _ ps pe P2 (rg_wf c s t m m' HM W) R' (rg_border c s t m m' H1 HM [] B) E G1 N1 G2 N2 G3) as (k2 & log2 & D2).
  set (f := turned c s t) in *. assert (HS : similarity 1 f) by (rewrite <- sqrt_1, <- H1; exact (turned_similarity c s t Hn)).
  pose proof (moved_area c s t m m' [] ps Hn HM) as HA. fold f in HA.
  assert (FW : forall pts a, polyline_in (area m [] ps) a pts -> polyline_in (area m' [] ps) (f a) (map f pts)).
  { clear -HS HA. induction pts as [|q r IH]; intros a; cbn [polyline_in map]; [intro H; apply HA; now exists a|].
    intros [X1 X2]. split; [|now apply IH]. intros u Hu. apply HA. exists (lerp a q u). split; [now apply X1|]. symmetry. exact (similarity_lerp 1 f a q u HS Hu). }
  assert (BW : forall pts a, polyline_in (area m' [] ps) (f a) pts -> exists others, pts = map f others /\ polyline_in (area m [] ps) a others).
  { clear -HS HA. induction pts as [|q r IH]; intros a; cbn [polyline_in].
    - intro H. exists []. split; [reflexivity|]. apply HA in H. destruct H as (x & Hx & E). apply (similarity_inj 1 f a x HS) in E. subst x. exact Hx.
    - intros [X1 X2]. assert (Hq : area m' [] ps q) by (specialize (X1 1 ltac:(lra)); rewrite lerp_1 in X1; exact X1).
      apply HA in Hq. destruct Hq as (q' & Hq' & ->). destruct (IH q' X2) as (o & -> & Ho). exists (q' :: o). split; [reflexivity|]. split; [|exact Ho].
      intros u Hu. specialize (X1 u Hu). rewrite <- (similarity_lerp 1 f a q' u HS Hu) in X1. apply HA in X1. destruct X1 as (x & Hx & E). apply (similarity_inj 1 f _ x HS) in E. rewrite E. exact Hx. }
  assert (ST : forall pts a, total (f a) (map f pts) = total a pts) by (intros; rewrite (similarity_total 1 f _ HS); ring).
  exists k1, log1, k2, log2. destruct D1 as [(p1 & pts1 & A1 & A2 & A3 & A4 & A5)|[A1 A2]]; destruct D2 as [(p2 & pts2 & C1 & C2 & C3 & C4 & C5)|[C1 C2]].
  - exists (Some p1), (Some p2). split; [exact A1|]. split; [exact C1|]. cbn [option_map]. rewrite A2, C2. do 2 f_equal.
    destruct (BW pts2 start C3) as (o & -> & Ho). rewrite last_map in C4. apply (similarity_inj 1 f _ _ HS) in C4. rewrite ST in *. pose proof (A5 o Ho C4) as X1.
    pose proof (C5 (map f pts1) (FW pts1 start A3)) as X2. rewrite last_map, A4, ST in X2. specialize (X2 eq_refl). lra.
  - exfalso. apply (C2 (map f pts1) (FW pts1 start A3)). rewrite last_map, A4. reflexivity.
  - exfalso. destruct (BW pts2 start C3) as (o & -> & Ho). rewrite last_map in C4. apply (similarity_inj 1 f _ _ HS) in C4. exact (A2 o Ho C4).
  - exists None, None. auto.
Qed.
