(** The search does not look at the islands (C20): every function gives the same answer on the mesh without them. *)
From Coq Require Import List NArith ZArith Bool Lia Relations.
From Verif Require Import Base Arith U32 Mesh Helpers Locate Bake Search AsyncPath Spec Locate_facts Bake_facts
  Search_facts Search_props.
Import ListNotations.
Open Scope N_scope.

Lemma nthN_map {T U} (f : T -> U) (l : list T) i : nthN (map f l) i = option_map f (nthN l i).
Proof. revert i. induction l as [|x r IH]; intro i; simpl; [reflexivity|]. destruct (N.eqb i 0); [reflexivity|apply IH]. Qed.
Lemma index_map {T U} (f : T -> U) (l : list T) i : index (map f l) i = bind (index l i) (fun x => Ok (f x)).
Proof. unfold index, unwrap. rewrite nthN_map. destruct (nthN l i); reflexivity. Qed.
Lemma bind_bind {T U V} (r : res T) (f : T -> res U) (g : U -> res V) :
  bind (bind r f) g = bind r (fun x => bind (f x) g).
Proof. destruct r; reflexivity. Qed.
Lemma bind_ext {T U} (r : res T) (f g : T -> res U) : (forall a, r = Ok a -> f a = g a) -> bind r f = bind r g.
Proof. destruct r; simpl; intro H; auto. Qed.
Lemma foldM_ext {T S} (f g : S -> T -> res S) l : (forall s x, f s x = g s x) -> forall s, foldM f s l = foldM g s l.
Proof. intro H. induction l; simpl; intro s; [reflexivity|]. rewrite H. apply bind_ext. auto. Qed.
Lemma enum_from_map {T U} (f : T -> U) (l : list T) : forall k,
  enum_from k (map f l) = map (fun ix => (fst ix, f (snd ix))) (enum_from k l).
Proof. induction l; intro k; simpl; [reflexivity|]. now rewrite IHl. Qed.

Section Strip.
Context {A : Arith}.

(** the same layer, mesh, context without islands *)
Definition strip_l (l : Layer A) : Layer A := mkLayer (vertices l) (polygons l) (offset l) (baked l) None.
Definition strip (m : Mesh A) : Mesh A := mkMesh (map strip_l (layers m)) (search_delta m) (search_steps m).
Definition strip_c (c : Ctx A) : Ctx A := mkCtx (strip (cmesh c)) (cgoal c) (cpto c) (cblocked c).

Context (bvh : list (vec2 A * vec2 A) -> vec2 A -> list N).
Lemma ring_strip l p d s is : ring_loop bvh (strip_l l) p d s is = ring_loop bvh l p d s is.
Proof. induction is; simpl; [reflexivity|]. apply bind_ext. intros k _. destruct (N.eqb k MAX); auto. Qed.
Lemma probe_strip l p ds : probe_loop bvh (strip_l l) p ds = probe_loop bvh l p ds.
Proof. induction ds; simpl; [reflexivity|]. apply bind_ext. intros k _. destruct (N.eqb k MAX); auto. Qed.
Lemma gcp_strip (p : vec2 A) d s ls :
  gcp_layers bvh p d s (map (fun ix => (fst ix, strip_l (snd ix))) ls) = gcp_layers bvh p d s ls.
Proof.
  induction ls as [|[i l] r IH]; cbn [gcp_layers map fst snd]; [reflexivity|].
  unfold get_closest_point_inner. rewrite ring_strip. cbn [offset strip_l]. apply bind_ext. intros [[np k]|] _; auto.
Qed.
Lemma first_step_ext {T} (f g : N -> res (option T)) ss : (forall s, f s = g s) -> first_step f ss = first_step g ss.
Proof. intro H. induction ss; simpl; [reflexivity|]. rewrite H. apply bind_ext. intros [] _; auto. Qed.
Lemma get_closest_point_strip m q : get_closest_point bvh (strip m) q = get_closest_point bvh m q.
Proof.
  unfold get_closest_point. cbn [layers strip search_delta search_steps]. destruct (clayer q) as [li|].
  - rewrite index_map, bind_bind. apply bind_ext. intros l _. cbn [bind]. apply first_step_ext. intro s.
    apply (gcp_strip (cpos q) (search_delta m) s [(li, l)]).
  - apply first_step_ext. intro s. unfold enumerate. rewrite enum_from_map. apply gcp_strip.
Qed.
Lemma locate_end_strip lib m q : lbvh lib = bvh -> locate_end lib (strip m) q = locate_end lib m q.
Proof. intros E. unfold locate_end. rewrite E, get_closest_point_strip. reflexivity. Qed.
Lemma get_point_location_strip m q : get_point_location bvh (strip m) q = get_point_location bvh m q.
Proof.
  unfold get_point_location. cbn [layers strip search_delta]. destruct (clayer q) as [li|].
  - rewrite nthN_map. destruct (nthN (layers m) li) as [l|]; [|reflexivity]. cbn [option_map].
    unfold layer_get_point_location. rewrite probe_strip. reflexivity.
  - unfold enumerate. rewrite enum_from_map. generalize (enum_from 0 (layers m)). intro ls.
    induction ls as [|[i l] r IH]; cbn [gpl_loop map fst snd]; [reflexivity|].
    unfold layer_get_point_location. rewrite probe_strip. cbn [offset strip_l search_delta strip].
    apply bind_ext. intros [k|] _; [|exact IH]. destruct (N.eqb _ MAX); [exact IH|reflexivity].
Qed.

(** ** the search *)
Lemma mesh_polygon_strip m id : mesh_polygon (strip m) id = mesh_polygon m id.
Proof. unfold mesh_polygon. cbn [layers strip]. rewrite index_map, bind_bind. apply bind_ext. reflexivity. Qed.
Lemma add_node_strip c st root other s e n : add_node (strip_c c) st root other s e n = add_node c st root other s e n.
Proof. reflexivity. Qed.
Lemma setup_strip c from ps : setup (strip_c c) from ps = setup c from ps.
Proof.
  unfold setup. cbn [cmesh strip_c layers strip]. rewrite index_map, bind_bind. apply bind_ext. intros l _. cbn [bind polygons strip_l].
  apply bind_ext. intros p _. apply bind_ext. intros es _. f_equal. apply foldM_ext. intros st e.
  unfold setup_edge. cbn [cmesh strip_c vertices strip_l offset cblocked cpto].
  destruct (nthN (vertices l) (fst e)); [|reflexivity]. destruct (nthN (vertices l) (snd e)); [|reflexivity].
  rewrite mesh_polygon_strip. reflexivity.
Qed.
Lemma close_index_strip l pt vs : forall i, close_index (strip_l l) pt vs i = close_index l pt vs i.
Proof. induction vs; intro i; simpl; [reflexivity|]. apply bind_ext. intros v _. now rewrite IHvs. Qed.
Lemma cut_edges_strip l root i es : forall ty, cut_edges (strip_l l) root i es ty = cut_edges l root i es ty.
Proof.
  induction es as [|[a b] r IH]; intro ty; cbn [cut_edges]; [reflexivity|]. cbn [vertices strip_l offset]. rewrite IH.
  destruct (_ <? _); [reflexivity|]. apply bind_ext. intros sv _. apply bind_ext. intros ev _.
  destruct (cut_edge _ _ _ _ _ _). now rewrite IH.
Qed.
Lemma right_index_strip c l p n : right_index (strip_c c) (strip_l l) p n = right_index c l p n.
Proof.
  unfold right_index. cbn [cmesh strip_c layers strip]. rewrite index_map, bind_bind. apply bind_ext. intros pl _. cbn [bind].
  cbn [vertices strip_l offset]. apply bind_ext. intros v _. rewrite close_index_strip. reflexivity.
Qed.
Lemma edges_between_strip c n : edges_between (strip_c c) n = edges_between c n.
Proof.
  unfold edges_between. cbn [cmesh strip_c layers strip]. rewrite index_map, bind_bind. apply bind_ext. intros l _. cbn [bind].
  cbn [polygons strip_l]. apply bind_ext. intros p _. rewrite right_index_strip. apply bind_ext. intros ri _.
  apply bind_ext. intros es _. apply cut_edges_strip.
Qed.
Lemma corner_ok_strip c n vi pt : corner_ok (strip_c c) n vi pt = corner_ok c n vi pt.
Proof.
  unfold corner_ok. cbn [cmesh strip_c layers strip]. rewrite index_map, bind_bind. apply bind_ext. reflexivity.
Qed.
Lemma expand_strip c n st : expand (strip_c c) n st = expand c n st.
Proof.
  unfold expand. rewrite edges_between_strip. apply bind_ext. intros ss _. cbn [cmesh strip_c layers strip].
  rewrite index_map, bind_bind. apply bind_ext. intros l _. cbn [bind]. apply foldM_ext. intros s x.
  unfold expand_one. cbn [vertices strip_l offset cblocked strip_c cpto cmesh].
  apply bind_ext. intros sv _. apply bind_ext. intros ev _. rewrite mesh_polygon_strip, !corner_ok_strip. reflexivity.
Qed.
Lemma successors_strip c : forall fuel vis n st, successors fuel (strip_c c) vis n st = successors fuel c vis n st.
Proof.
  induction fuel as [|fuel IH]; intros; [reflexivity|]. cbn [successors]. rewrite expand_strip. apply bind_ext. intros st' _.
  destruct (sbuffer st') as [|n' [|]]; try reflexivity. cbn [cpto strip_c]. rewrite IH. reflexivity.
Qed.
Lemma succ_fuel_strip m : succ_fuel (strip m) = succ_fuel m.
Proof.
  unfold succ_fuel. f_equal. f_equal. cbn [layers strip]. induction (layers m) as [|l r IH]; cbn [map fold_right]; [reflexivity|].
  now rewrite IH.
Qed.
Lemma next_strip lib c st : next lib (strip_c c) st = next lib c st.
Proof.
  unfold next. destruct (lpop lib (squeue st)) as [[n q]|]; [|reflexivity]. cbn [cpto strip_c cmesh].
  rewrite succ_fuel_strip, successors_strip. reflexivity.
Qed.
Lemma run_strip lib c : forall k st, run k lib (strip_c c) st = run k lib c st.
Proof.
  induction k as [|k IH]; intro st; [reflexivity|]. cbn [run]. rewrite next_strip. apply bind_ext. intros [st' s] _.
  cbn [fst snd]. destruct s; auto.
Qed.
Lemma three_strip lib c : forall k st, three k lib (strip_c c) st = three k lib c st.
Proof.
  induction k as [|k IH]; intro st; [reflexivity|]. cbn [three]. rewrite next_strip. apply bind_ext. intros [st' s] _.
  cbn [fst snd]. destruct s; auto.
Qed.
Lemma count_polygons_strip m : count_polygons (strip m) = count_polygons m.
Proof.
  unfold count_polygons. cbn [layers strip]. induction (layers m) as [|l r IH]; cbn [map fold_right]; [reflexivity|].
  now rewrite IH.
Qed.

(** ** corridors stay inside an island *)
Lemma corridor_neighbours (m : Mesh A) (l : Layer A) ps xs pe :
  layers m = [l] -> layer_ids_ok l -> lengthN (polygons l) < 2^24 ->
  corridor m ps xs pe -> clos_refl_trans _ (neighbour l) (id_polygon ps) (id_polygon pe).
Proof.
  intros Hm Hok Hlen HC. induction HC as [p|p xs x HC IH HV]; [apply rt_refl|].
  eapply rt_trans; [exact IH|]. apply rt_step.
  destruct HV as (l0 & pl & va & vb & [Hl Hp] & Hb & Ha1 & Hb1 & Hin & _ & HM & _).
  assert (l0 = l).
  { rewrite Hm in Hl. apply nthN_In in Hl. destruct Hl as [->|[]]. reflexivity. }
  subst l0.
  assert (Hid : id_polygon (cr_to x) = cr_to x).
  { rewrite id_polygon_eq. apply N.mod_small. pose proof (proj2 Hok va (nthN_In _ _ _ Ha1) (cr_to x) Hin HM). lia. }
  rewrite Hid. exists pl, (cr_a x), va. destruct Hb as (i & H1 & _). apply nth_error_In in H1. auto 10.
Qed.
End Strip.
