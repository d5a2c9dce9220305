(** Theorems for C18 and C19 (search): no panic, no out-of-range access. *)
From Coq Require Import List NArith ZArith Bool Lia.
From Verif Require Import Base Arith F32 U32 Mesh Helpers Locate Bake Search AsyncPath StdLib Spec Locate_facts Closest_facts
  Search_facts Search_props Search_cost F32_facts F32_finite Checkers Search_safe Tests Properties_locate.
Import ListNotations.
Open Scope N_scope.

(** ** C18, for every arithmetic.

    Hypotheses: the library oracles behave ([bvh_ok], [pop_perm]); the mesh is consistent: vertex indices and neighbour
    ids in range, polygons not empty ([mesh_wf]), at most 256 layers of less than 2^24 polygons ([mesh_small]), a polygon
    finder made from the polygons of the layer ([baked_ok]); squared distances of vertices are numbers ([dists_ok]);
    `10 * search_steps` fits in u32; the end points do not name a layer or polygon that does not exist ([end_ok]). *)
Theorem C18_path_never_fails {A} (lib : Lib A) (m : Mesh A) (from to : Coords A) (blocked : list N) :
  bvh_ok (lbvh lib) -> pop_perm (lpop lib) ->
  mesh_wf m -> mesh_small m -> (forall l, In l (layers m) -> baked_ok l) -> dists_ok m -> 10 * search_steps m < 2^32 ->
  end_ok m from -> end_ok m to ->
  exists r, path_on_layers lib m from to blocked = Ok r.
Proof. apply path_on_layers_safe. Qed.

(** binary32: it is enough that the vertices are at finite positions *)
Theorem C18_path_never_fails_f32 sin cos acos (lib : Lib (F32with sin cos acos)) m from to blocked :
  bvh_ok (lbvh lib) -> pop_perm (lpop lib) ->
  mesh_wf m -> mesh_small m -> (forall l, In l (layers m) -> baked_ok l) -> finite_mesh sin cos acos m ->
  10 * search_steps m < 2^32 -> end_ok m from -> end_ok m to ->
  exists r, path_on_layers lib m from to blocked = Ok r.
Proof. intros. apply path_on_layers_safe; auto. now apply finite_dists_ok. Qed.

(** the future: however often it is polled (it only takes plain positions, which always satisfy [end_ok]) *)
Theorem C18_get_path_never_fails {A} (lib : Lib A) (m : Mesh A) (from to : vec2 A) (polls : nat) :
  bvh_ok (lbvh lib) -> pop_perm (lpop lib) ->
  mesh_wf m -> mesh_small m -> (forall l, In l (layers m) -> baked_ok l) -> dists_ok m ->
  let r := poll_times polls lib (get_path m from to) in r <> Panic /\ r <> Oob.
Proof. intros. apply poll_times_safe; auto. intros c st H5. discriminate. Qed.

Theorem C18_get_path_never_fails_f32 sin cos acos (lib : Lib (F32with sin cos acos)) m from to (polls : nat) :
  bvh_ok (lbvh lib) -> pop_perm (lpop lib) ->
  mesh_wf m -> mesh_small m -> (forall l, In l (layers m) -> baked_ok l) -> finite_mesh sin cos acos m ->
  let r := poll_times polls lib (get_path m from to) in r <> Panic /\ r <> Oob.
Proof. intros. apply C18_get_path_never_fails; auto. now apply finite_dists_ok. Qed.

(** the point queries *)
Theorem C18_queries_never_fail {A} (lib : Lib A) (m : Mesh A) (q : Coords A) :
  bvh_ok (lbvh lib) -> mesh_wf m -> (forall l, In l (layers m) -> baked_ok l) -> 10 * search_steps m < 2^32 ->
  (forall li, clayer q = Some li -> li < lengthN (layers m)) ->
  let good {T} (r : res T) := r <> Panic /\ r <> Oob in
  good (point_in_mesh (lbvh lib) m q) /\ good (get_point_layer (lbvh lib) m q) /\
  good (get_closest_point (lbvh lib) m q) /\ (forall towards, good (get_closest_point_towards (lbvh lib) m q towards)).
Proof.
  intros Hb Hw Hbk Hs Hc good.
  assert (Hl : layers_ok m) by (intros l Hl; split; [now apply Hw|now apply Hbk]).
  repeat split; try (apply safe_get_closest_point; assumption); try (intro; apply safe_get_closest_point_towards; assumption);
    try (apply safe_get_closest_point_towards; assumption).
  1-2: unfold point_in_mesh; refine (_ : _ <> _); destruct (safe_get_point_location (lbvh lib) Hb m q Hl) as [G1 G2];
    destruct (get_point_location _ _ _); simpl; congruence.
  1-2: unfold get_point_layer; destruct (safe_get_point_locations (lbvh lib) Hb m q Hl) as [G1 G2];
    destruct (get_point_locations _ _ _); simpl; congruence.
Qed.

(** ** Examples: the hypotheses are met by a concrete baked mesh *)
Example ex_grid_baked : exists m, mesh_bake mesh_u_grid = Ok m.
Proof. apply is_Ok_ex. vmc. Qed.
Definition baked_okb (m : Mesh F32) : bool :=
  forallb (fun l => match baked l with None => true | Some b => Nat.eqb (length b) (length (polygons l)) end) (layers m).
Lemma baked_okb_ok m : baked_okb m = true -> forall l, In l (layers m) -> baked_ok l.
Proof.
  unfold baked_okb. rewrite forallb_forall. intros H l Hl b Hb. specialize (H l Hl). rewrite Hb in H. now apply Nat.eqb_eq.
Qed.
Example ex_C18 : let m := baked_of mesh_u_grid in
  bvh_ok (lbvh lib32) /\ pop_perm (lpop lib32) /\ mesh_wf m /\ mesh_small m /\
  (forall l, In l (layers m) -> baked_ok l) /\ finite_mesh t_sin t_cos t_acos m /\ 10 * search_steps m < 2^32 /\
  end_ok m (at_ (pt10 1 19)) /\ end_ok m (at_ (pt10 29 19)) /\ (exists l, In l (layers m) /\ baked l <> None).
Proof.
  cbv zeta. split; [apply std_bvh_ok|]. split; [apply std_pop_perm|].
  split; [apply mesh_wfb_ok; vmc|]. split; [apply mesh_smallb_ok; vmc|]. split; [apply baked_okb_ok; vmc|].
  split; [apply finite_meshb_ok; vmc|]. split; [apply N.ltb_lt; vmc|].
  split; [intros li H; discriminate|]. split; [intros li H; discriminate|].
  assert (match layers (baked_of mesh_u_grid) with l :: _ => match baked l with None => false | _ => true end | _ => false end = true) as H by vmc.
  destruct (layers (baked_of mesh_u_grid)) as [|l r]; [discriminate|]. exists l. split; [now left|].
  destruct (baked l); [congruence|discriminate].
Qed.

(** ** C19, search: the only index that reads out of bounds is the one just past the end.
    On any mesh, however inconsistent, as long as no polygon uses the index `vertices.len()`.  (Panics are possible.) *)
Section Oob.
Context {A : Arith}.
Definition no_end_index (m : Mesh A) : Prop :=
  forall l p, In l (layers m) -> In p (polygons l) -> ~ In (lengthN (vertices l)) (pverts p).

Lemma no_bind_eq {T U} (r : res T) (k : T -> res U) : no_oob r -> (forall a, r = Ok a -> no_oob (k a)) -> no_oob (bind r k).
Proof. intros H1 H2. destruct r; simpl; unfold no_oob in *; auto; congruence. Qed.
Lemma no_mapM {T U} (f : T -> res U) l : (forall x, no_oob (f x)) -> no_oob (mapM f l).
Proof. intro H. induction l; simpl; [apply no_Ok|]. apply no_bind; auto. intro. apply no_bind; auto. intro; apply no_Ok. Qed.
Lemma no_foldM {T S} (f : S -> T -> res S) l : (forall s x, In x l -> no_oob (f s x)) -> forall s, no_oob (foldM f s l).
Proof.
  induction l as [|x r IH]; simpl; intros H s; [apply no_Ok|]. apply no_bind; [apply H; now left|].
  intro. apply IH. intros; apply H; now right.
Qed.
Lemma no_edges_index p : no_oob (edges_index p).
Proof. unfold edges_index, no_oob. destruct (pverts p); discriminate. Qed.
Lemma no_mesh_polygon (m : Mesh A) id : no_oob (mesh_polygon m id).
Proof. unfold mesh_polygon. apply no_bind; [apply no_index|]. intro; apply no_index. Qed.
Lemma no_unchecked {T} (l : list T) i : (exists x, nthN l i = Some x) -> no_oob (get_unchecked l i).
Proof. intros [x Hx]. apply get_unchecked_Ok in Hx. rewrite Hx. apply no_Ok. Qed.

Lemma no_close_index (l : Layer A) pt vs : forall i, no_oob (close_index l pt vs i).
Proof.
  induction vs as [|v r IH]; intro i; simpl; [apply no_Ok|]. apply no_bind; [apply no_index|]. intro.
  destruct (flt _ _); [apply no_Ok|apply IH].
Qed.
Lemma no_right_index (c : Ctx A) l p n : no_oob (right_index c l p n).
Proof.
  unfold right_index. apply no_bind; [apply no_index|]. intro. apply no_bind; [apply no_index|]. intro.
  apply no_bind; [apply no_close_index|]. intros [i|]; [apply no_Ok|].
  apply no_bind; [apply no_mapM; intro; apply no_bind; [apply no_index|intro; apply no_Ok]|]. intro ds.
  apply no_bind; [|intro; apply no_Ok]. unfold nearest_index. destruct (enumerate ds) as [|x [|]]; try discriminate.
  destruct (existsb _ _); discriminate.
Qed.
Lemma no_cut_edges (l : Layer A) root i es :
  (forall a b, In (a, b) es -> a <> lengthN (vertices l) /\ b <> lengthN (vertices l)) ->
  forall ty, no_oob (cut_edges l root i es ty).
Proof.
  induction es as [|[a b] r IH]; intros H ty; cbn [cut_edges]; [apply no_Ok|].
  assert (HR : forall a b, In (a, b) r -> a <> lengthN (vertices l) /\ b <> lengthN (vertices l)) by (intros; apply H; now right).
  destruct (H a b (or_introl eq_refl)). destruct (N.ltb_spec (lengthN (vertices l)) (N.max a b)); [now apply IH|].
  apply no_bind; [apply no_unchecked, nthN_lt_Some; lia|]. intro.
  apply no_bind; [apply no_unchecked, nthN_lt_Some; lia|]. intro.
  destruct (cut_edge _ _ _ _ _ _). apply no_bind; [now apply IH|]. intro; apply no_Ok.
Qed.
Lemma no_expand (c : Ctx A) n st : no_end_index (cmesh c) -> no_oob (expand c n st).
Proof.
  intro HE. unfold expand. apply no_bind_eq.
  - unfold edges_between. apply no_bind_eq; [apply no_index|]. intros l Hl. apply no_bind_eq; [apply no_index|]. intros p Hp.
    apply no_bind; [apply no_right_index|]. intro ri. apply no_bind_eq.
    + unfold circular_edges_index. apply no_bind; [apply no_edges_index|]. intro; apply no_Ok.
    + intros es Hes. apply no_cut_edges. intros a b Hab. eapply circular_edges_In in Hab; [|exact Hes].
      apply boundary_In in Hab. apply index_Ok, nthN_In in Hl. apply index_Ok, nthN_In in Hp.
      specialize (HE l p Hl Hp). destruct Hab. split; intros ->; contradiction.
  - intros ss Hss. apply no_bind_eq; [apply no_index|]. intros l Hl. apply no_foldM. intros s x Hx.
    assert (HV : (exists va, nthN (vertices l) (fst (sedge x)) = Some va) /\ (exists vb, nthN (vertices l) (snd (sedge x)) = Some vb)).
    { unfold edges_between in Hss. rewrite Hl in Hss. cbn [bind] in Hss. inv_bind Hss. inv_bind Hss. inv_bind Hss.
      eapply cut_edges_edges in Hss; [|exact Hx]. apply Hss. }
    destruct HV as [V1 V2]. unfold expand_one.
    apply no_bind; [now apply no_unchecked|]. intro sv. apply no_bind; [now apply no_unchecked|]. intro ev.
    destruct (N.eqb _ MAX); [apply no_Ok|]. destruct (memN _ _); [apply no_Ok|]. apply no_bind.
    + destruct (N.eqb _ _); [apply no_Ok|]. apply no_bind; [apply no_mesh_polygon|intro; apply no_Ok].
    + intro dead. destruct dead; [apply no_Ok|]. destruct (N.eqb _ _); [apply no_Ok|]. apply no_bind.
      * assert (forall vi pt, no_oob (corner_ok c n vi pt)) as HC.
        { intros. unfold corner_ok. apply no_bind; [apply no_index|]. intro. apply no_bind; [apply no_index|]. intro; apply no_Ok. }
        destruct (sty x); try apply no_Ok; (destruct (fgt _ _); [apply no_Ok|]); (apply no_bind; [apply HC|intro; apply no_Ok]).
      * intros [r|]; [|apply no_Ok]. destruct (flt _ _); apply no_Ok.
Qed.
Lemma no_successors (c : Ctx A) : no_end_index (cmesh c) -> forall fuel vis n st, no_oob (successors fuel c vis n st).
Proof.
  intro HE. induction fuel as [|fuel IH]; intros vis n st; [discriminate|]. cbn [successors].
  apply no_bind; [now apply no_expand|]. intro st'. destruct (sbuffer st') as [|n' [|]]; try apply no_Ok.
  destruct (N.eqb _ _); [apply no_Ok|]. destruct (reverse_of _ _); [apply no_Ok|]. destruct (memN _ _); [apply no_Ok|apply IH].
Qed.
Lemma no_run (lib : Lib A) c : no_end_index (cmesh c) -> forall k st, no_oob (run k lib c st).
Proof.
  intro HE. induction k as [|k IH]; intro st; cbn [run]; [apply no_Ok|]. apply no_bind.
  - unfold next. destruct (lpop lib (squeue st)) as [[n q]|]; [|apply no_Ok]. cbn [shist sbuffer].
    destruct (match hist_get (shist st) (nroot n) with Some o => flt o (ng n) | None => false end); [apply no_Ok|].
    destruct (N.eqb _ _); [apply no_Ok|]. apply no_bind; [now apply no_successors|]. intro; apply no_Ok.
  - intros [st' s]. cbn [fst snd]. destruct s; [apply no_Ok|apply IH|apply IH].
Qed.

Theorem C19_search_in_bounds_partial (lib : Lib A) (m : Mesh A) (from to : Coords A) (blocked : list N) :
  no_end_index m -> path_on_layers lib m from to blocked <> Oob.
Proof.
  intro HE. change (no_oob (path_on_layers lib m from to blocked)). unfold path_on_layers.
  assert (HL : forall q, no_oob (locate_end lib m q)).
  { intro q. unfold locate_end. destruct (negb _); [apply no_Ok|]. apply no_bind; [|intro; apply no_Ok].
    apply (C19_queries_never_out_of_bounds (lbvh lib) m q (cpos q)). }
  apply no_bind; [apply HL|]. intros [ps|]; [|apply no_Ok]. apply no_bind; [apply HL|]. intros [pe|]; [|apply no_Ok].
  apply no_bind.
  - unfold islands_reject. destruct (N.eqb _ 1); [|apply no_Ok]. apply no_bind; [apply no_index|intro; apply no_Ok].
  - intro rej. destruct rej; [apply no_Ok|]. destruct (N.eqb _ _); [apply no_Ok|]. apply no_bind; [|intro; now apply no_run].
    unfold setup. apply no_bind; [apply no_index|]. intro. apply no_bind; [apply no_index|]. intro.
    apply no_bind; [apply no_edges_index|]. intro. apply no_bind; [|intro; apply no_Ok]. apply no_foldM. intros s x _.
    unfold setup_edge. destruct (nthN _ _); [|apply no_Ok]. destruct (nthN _ _); [|apply no_Ok].
    destruct (memN _ _); [apply no_Ok|]. apply no_bind; [|intro; apply no_Ok].
    destruct (N.eqb _ _); [apply no_Ok|]. destruct (N.eqb _ _); [apply no_Ok|].
    apply no_bind; [apply no_mesh_polygon|intro; apply no_Ok].
Qed.
End Oob.

(** ** C19, refuted: edges_between guards `get_unchecked` with `>` instead of `>=`.
    Three quads side by side; the middle one uses vertex index 8, one past the end of the eight vertices.
    Path from the left to the right quad reads vertex 8 (undefined behaviour). *)
Definition mesh_oob : Mesh F32 := mesh1
  [vtx 0 0 [0; MAX]; vtx 1 0 [0; 1; MAX]; vtx 1 1 [1; 0; MAX]; vtx 0 1 [0; MAX];
   vtx 2 0 [2; 1; MAX]; vtx 3 0 [2; MAX]; vtx 3 1 [2; MAX]; vtx 2 1 [1; 2; MAX]]
  [mkPolygon [0; 1; 2; 3] false; mkPolygon [2; 1; 4; 8] false; mkPolygon [4; 5; 6; 7] false].
Theorem C19_search_out_of_bounds_refuted :
  exists (m : Mesh F32) from to, finite_mesh t_sin t_cos t_acos m /\ mesh_small m /\ unbaked m /\
    (forall l p, In l (layers m) -> In p (polygons l) -> pverts p <> []) /\
    path lib32 m from to = Oob.
Proof.
  exists mesh_oob, (at_ (pt10 5 5)), (at_ (pt10 25 5)).
  split; [apply finite_meshb_ok; vmc|]. split; [apply mesh_smallb_ok; vmc|]. split; [apply unbakedb_ok; vmc|].
  split; [intros l p Hl Hp; eapply (no_emptyb_ok mesh_oob); eauto; vmc|]. vmc.
Qed.

Print Assumptions C18_path_never_fails.
Print Assumptions C18_path_never_fails_f32.
Print Assumptions C18_get_path_never_fails.
Print Assumptions C18_get_path_never_fails_f32.
Print Assumptions C18_queries_never_fail.
Print Assumptions C19_search_in_bounds_partial.
Print Assumptions C19_search_out_of_bounds_refuted.
