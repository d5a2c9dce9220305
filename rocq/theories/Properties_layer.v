(** Theorems for C75: the closest point searches of one layer (Layer::get_closest_point, Layer::get_closest_point_towards). *)
From Coq Require Import List NArith ZArith Bool Reals Lra Lia.
From Verif Require Import Base Arith RealArith U32 Mesh Helpers Locate Bake Search StdLib Spec Locate_facts Closest_facts
  Geometry Search_cost Properties_geometry Properties_locate Properties_contain Properties_rings.
Import ListNotations.
Open Scope N_scope.

Section Any.
Context {A : Arith} (bvh : list (vec2 A * vec2 A) -> vec2 A -> list N).
Implicit Types (l : Layer A).

Lemma mapped {S T} (r : res (option S)) (f : S -> T) o : (let* x := r in Ok (option_map f x)) = Ok o ->
  exists x, r = Ok x /\ o = option_map f x.
Proof. intro H. destruct r as [x| | |]; try discriminate. cbn in H. exists x. split; [reflexivity|congruence]. Qed.

(** The point found is a sample of the circle of radius delta * step around the query, for a step of at most [steps] (included), inside a
    polygon of the layer; without polygon finder no smaller circle has a sample in the layer. *)
Theorem C75_closest_point_sound l p delta steps np :
  layer_get_closest_point bvh l p delta steps = Ok (Some np) ->
  exists step i, step <= steps /\ i <= 10 * step /\ np = circle_sample p delta step i /\ in_layer l np /\
    (baked l = None -> small_layer l -> forall step' i', step' < step -> i' <= 10 * step' -> ~ in_layer l (circle_sample p delta step' i')).
Proof.
  intro H. apply mapped in H. destruct H as (o & H & E). destruct o as [[np' k]|]; [|discriminate]. injection E as ->.
  apply first_step_range in H. destruct H as (s & Hs & H & HP). apply inner_Some in H. destruct H as (i & q & Hi & -> & Hk & Hc).
  exists s, i. split; [lia|]. split; [exact Hi|]. split; [reflexivity|]. split; [exists q; split; [now apply nthN_In in Hk|exact Hc]|].
  intros Hb Hl s' i' Hs' Hi'. exact (inner_None bvh l p delta s' Hb Hl (HP s' Hs') i' Hi').
Qed.
(** No answer: no sample of any of the circles, up to and including [steps], is in the layer. *)
Theorem C75_closest_point_none l p delta steps : baked l = None -> small_layer l ->
  layer_get_closest_point bvh l p delta steps = Ok None ->
  forall step i, step <= steps -> i <= 10 * step -> ~ in_layer l (circle_sample p delta step i).
Proof.
  intros Hb Hl H step i Hs Hi. apply mapped in H. destruct H as (o & H & E). destruct o; [discriminate|].
  pose proof (proj1 (first_step_None _ _) H step) as G. apply (inner_None bvh l p delta step Hb Hl); [|exact Hi]. apply G. apply rangeN_spec. lia.
Qed.
(** The same along a ray, but only for steps below [steps]. *)
Theorem C75_towards_sound l p delta steps t np :
  layer_get_closest_point_towards bvh l p delta steps t = Ok (Some np) ->
  exists step, step < steps /\ np = line_sample p delta (direction p t) step /\ in_layer l np /\
    (baked l = None -> small_layer l -> forall step', step' < step -> ~ in_layer l (line_sample p delta (direction p t) step')).
Proof.
  intro H. apply mapped in H. destruct H as (o & H & E). destruct o as [[np' k]|]; [|discriminate]. injection E as ->.
  apply first_step_range in H. destruct H as (s & Hs & H & HP). unfold get_closest_point_towards_inner in H. inv_bind H.
  destruct (N.eqb_spec a MAX) as [|N]; [discriminate|]. injection H as <- <-. exists s. split; [lia|]. split; [reflexivity|].
  destruct (loc_any_found bvh l _ a E N) as (q & Hk & Hc). split; [exists q; split; [now apply nthN_In in Hk|exact Hc]|].
  intros Hb Hl s' Hs' (q' & Hq' & Hc'). specialize (HP s' Hs'). unfold get_closest_point_towards_inner in HP. inv_bind HP.
  destruct (N.eqb_spec a0 MAX) as [->|]; [|discriminate]. apply In_nthN in Hq'. destruct Hq' as [k' Hk'].
  exact (loc_any_none bvh l _ Hb Hl E0 k' q' Hk' Hc').
Qed.
Theorem C75_towards_none l p delta steps t : baked l = None -> small_layer l ->
  layer_get_closest_point_towards bvh l p delta steps t = Ok None ->
  forall step, step < steps -> ~ in_layer l (line_sample p delta (direction p t) step).
Proof.
  intros Hb Hl H step Hs (q' & Hq' & Hc'). apply mapped in H. destruct H as (o & H & E). destruct o; [discriminate|].
  pose proof (proj1 (first_step_None _ _) H step) as G. assert (HP : get_closest_point_towards_inner bvh l p delta (direction p t) step = Ok None) by (apply G; apply rangeN_spec; lia).
  unfold get_closest_point_towards_inner in HP. inv_bind HP. destruct (N.eqb_spec a MAX) as [->|]; [|discriminate]. apply In_nthN in Hq'. destruct Hq' as [k' Hk'].
  exact (loc_any_none bvh l _ Hb Hl E0 k' q' Hk' Hc').
Qed.

(** They always answer, when no polygon is empty and the numbers of samples fit in 32 bits. *)
Lemma ring_total l p delta step is : baked l = None -> (forall q, In q (polygons l) -> pverts q <> []) -> exists o, ring_loop bvh l p delta step is = Ok o.
Proof.
  intros Hb Hne. induction is as [|i r [o IH]]; cbn [ring_loop]; [eauto|]. destruct (loc_any_total bvh l (ring_point p delta step i) Hne Hb) as [k ->]. cbn [bind].
  destruct (N.eqb k MAX); eauto.
Qed.
Lemma first_step_total {T} (f : N -> res (option T)) ss : (forall s, In s ss -> exists o, f s = Ok o) -> exists o, first_step f ss = Ok o.
Proof.
  induction ss as [|s r IH]; intro H; cbn [first_step]; [eauto|]. destruct (H s (or_introl eq_refl)) as [o ->]. cbn [bind]. destruct o; [eauto|]. apply IH. intros; apply H; now right.
Qed.
Theorem C75_always_answers l p delta steps t : baked l = None -> (forall q, In q (polygons l) -> pverts q <> []) -> 10 * (steps + 1) < 2 ^ 32 ->
  (exists o, layer_get_closest_point bvh l p delta steps = Ok o) /\ (exists o, layer_get_closest_point_towards bvh l p delta steps t = Ok o).
Proof.
  intros Hb Hne Hs. split.
  - unfold layer_get_closest_point. destruct (first_step_total (fun step => get_closest_point_inner bvh l p delta step) (rangeN (steps + 1))) as [o ->]; [|cbn [bind]; eauto].
    intros s Hi. apply rangeN_spec in Hi. unfold get_closest_point_inner. destruct (N.leb_spec (2 ^ 32) (10 * (s + 1))); [lia|]. now apply ring_total.
  - unfold layer_get_closest_point_towards.
    destruct (first_step_total (fun step => get_closest_point_towards_inner bvh l p delta (direction p t) step) (rangeN steps)) as [o ->]; [|cbn [bind]; eauto].
    intros s _. unfold get_closest_point_towards_inner. destruct (loc_any_total bvh l (towards_point p delta (direction p t) s) Hne Hb) as [k ->]. cbn [bind]. eauto.
Qed.

(** The mesh made of that layer alone finds the same point with one more step (put where the layer is). *)
Lemma first_step_map {S T} (f : N -> res (option S)) (g : N -> res (option T)) h ss :
  (forall s, g s = let* o := f s in Ok (option_map h o)) -> first_step g ss = let* o := first_step f ss in Ok (option_map h o).
Proof.
  intro H. induction ss as [|s r IH]; cbn [first_step]; [reflexivity|]. rewrite H. destruct (f s) as [[x|]| | |]; cbn [bind option_map]; try reflexivity. exact IH.
Qed.
Theorem C75_mesh_of_one_layer l c delta steps : clayer c = None \/ clayer c = Some 0 ->
  let m := mkMesh [l] delta (steps + 1) in
  (let* o := get_closest_point bvh m c in Ok (option_map cpos o)) =
  (let* o := layer_get_closest_point bvh l (vsub (cpos c) (offset l)) delta steps in Ok (option_map (fun np => vadd np (offset l)) o)).
Proof.
  intros Hc m. set (h := fun x : vec2 A * N => mkCoords (vadd (fst x) (offset l)) (Some 0) (id_make 0 (snd x))).
  assert (G : forall s, gcp_layers bvh (cpos c) delta s [(0, l)] = let* o := get_closest_point_inner bvh l (vsub (cpos c) (offset l)) delta s in Ok (option_map h o)).
  { intro s. cbn [gcp_layers]. destruct (get_closest_point_inner _ _ _ _ _) as [[[np k]|]| | |]; reflexivity. }
  assert (E : get_closest_point bvh m c = let* o := first_step (fun step => get_closest_point_inner bvh l (vsub (cpos c) (offset l)) delta step) (rangeN (steps + 1)) in Ok (option_map h o)).
  { rewrite <- (first_step_map _ _ h _ G). unfold get_closest_point, m. cbn [layers search_delta search_steps]. destruct Hc as [-> | ->]; reflexivity. }
  rewrite E. unfold layer_get_closest_point. destruct (first_step _ _) as [[[np k]|]| | |]; reflexivity.
Qed.
End Any.

Open Scope R_scope.
(** Exact arithmetic: the point found is at distance delta * step of the query, at most delta * steps; it is the query itself when the query is in the layer. *)
Theorem C75_distance (bvh : list (vec2 RA * vec2 RA) -> vec2 RA -> list N) (l : Layer RA) x d steps np : 0 <= d ->
  layer_get_closest_point bvh l (vp x) (Some d) steps = Ok (Some np) ->
  exists y step, np = vp y /\ (step <= steps)%N /\ dist x y = d * IZR (Z.of_N step) /\ dist x y <= d * IZR (Z.of_N steps) /\
    (baked l = None -> small_layer l -> in_layer l (vp x) -> y = x).
Proof.
  intros Hd H. destruct (C75_closest_point_sound bvh l (vp x) (Some d) steps np H) as (step & i & H1 & H2 & -> & _ & H3). rewrite circle_sample_R.
  eexists _, step. split; [reflexivity|]. split; [exact H1|]. rewrite dist_polar.
  assert (0 <= d * IZR (Z.of_N step)) by (apply Rmult_le_pos; [assumption|apply IZR_le; lia]). rewrite Rabs_pos_eq by assumption. split; [reflexivity|].
  split; [apply Rmult_le_compat_l; [assumption|apply IZR_le; lia]|]. intros Hb Hs Hin.
  assert (E0 : forall s, s = 0%N -> forall i, polar x (d * IZR (Z.of_N s)) (sample_angle s i) = x).
  { intros s -> j. unfold polar. apply P2_eq; cbn [px py]; cbn; ring. }
  destruct (N.eq_dec step 0) as [E|Hne]; [now apply E0|]. exfalso.
  refine (H3 Hb Hs 0%N 0%N _ _ _); [lia|lia|]. rewrite circle_sample_R, E0 by reflexivity. exact Hin.
Qed.
(** The point found towards [t] is on the ray from the query to [t], at distance delta * step, below delta * steps. *)
Theorem C75_on_the_ray (bvh : list (vec2 RA * vec2 RA) -> vec2 RA -> list N) (l : Layer RA) x t d steps np : x <> t ->
  layer_get_closest_point_towards bvh l (vp x) (Some d) steps (vp t) = Ok (Some np) ->
  exists step, (step < steps)%N /\ np = vp (padd x (pscale (d * IZR (Z.of_N step) / dist x t) (psub t x))).
Proof.
  intros Hne H. destruct (C75_towards_sound bvh l (vp x) (Some d) steps (vp t) np H) as (step & H1 & -> & _). exists step. split; [exact H1|].
  assert (HD : 0 < dist x t).
  { destruct (dist_nonneg x t) as [|E]; [assumption|]. symmetry in E. apply dist_zero in E. contradiction. }
  unfold direction, line_sample, vnormalize. rewrite vsub_vp. unfold vlen. rewrite vdot_vp, fz_R. cbn [fsqrt RA rsqrt].
  destruct (Rlt_dec _ 0) as [L|_]; [exfalso; pose proof (pdot_nonneg (psub x t)); lra|].
  change (sqrt (pdot (psub x t) (psub x t))) with (dist x t).
  unfold vneg, vscale, vadd, vp, RealArith.pt. rewrite ?fz_R. cbn.
  repeat (destruct (Req_EM_T _ 0) as [E|_]; [exfalso; lra|]). cbn.
  unfold padd, pscale, psub. cbn [px py]. f_equal; f_equal; field; lra.
Qed.

(** The hypotheses are met: a layer of the test meshes, from a point at its right. *)
From Verif Require Import F32 Tests Checkers.
Definition strip : Layer F32 := mkLayer [vtx 0 0 [0%N; MAX]; vtx 1 0 [0%N; MAX]; vtx 1 1 [0%N; MAX]; vtx 0 1 [0%N; MAX]] [mkPolygon [0; 1; 2; 3]%N true] vzero None None.
Definition foundb (r : res (option (vec2 F32))) (p : vec2 F32) : bool := match r with Ok (Some x) => feq (a:=F32) (vx x) (vx p) && feq (a:=F32) (vy x) (vy p) | _ => false end.
Definition noneb (r : res (option (vec2 F32))) : bool := match r with Ok None => true | _ => false end.
Example ex_C75 : baked strip = None /\ small_layer strip /\ (forall q, In q (polygons strip) -> pverts q <> []) /\
  foundb (layer_get_closest_point std_bvh strip (pt10 5 5) (q 1 2) 3) (pt10 5 5) = true /\ noneb (layer_get_closest_point std_bvh strip (pt 5 5) (q 1 2) 0) = true /\
  foundb (layer_get_closest_point_towards std_bvh strip (pt 2 1) (q 1 1) 2 (pt 0 1)) (pt 1 1) = true /\
  noneb (layer_get_closest_point_towards std_bvh strip (pt 2 1) (q 1 1) 1 (pt 0 1)) = true.
Proof.
  split; [reflexivity|]. split; [apply N.leb_le; vm_compute; reflexivity|]. split; [|split; [vmc|split; [vmc|split; vmc]]].
  intros p Hp. unfold strip in Hp. cbn [polygons] in Hp. destruct Hp as [<-|[]]. discriminate.
Qed.
