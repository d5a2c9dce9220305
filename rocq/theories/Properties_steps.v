(** C92: raising the number of search steps (Mesh::set_search_steps) never loses or changes an answer. *)
From Coq Require Import List NArith ZArith Bool Lia.
From Verif Require Import Base Arith U32 Mesh Helpers Locate Search AsyncPath Detailed.
Import ListNotations.
Open Scope N_scope.

Section Any.
Context {A : Arith}.

Lemma rangeN_prefix a b : a <= b -> exists more, rangeN b = rangeN a ++ more.
Proof.
  intro H. unfold rangeN. exists (map N.of_nat (seq (0 + N.to_nat a) (N.to_nat b - N.to_nat a))).
  rewrite <- map_app, <- seq_app. do 2 f_equal. lia.
Qed.
Lemma first_step_more {T} (f : N -> res (option T)) a b r : a <= b -> first_step f (rangeN a) = r -> r <> Ok None -> first_step f (rangeN b) = r.
Proof.
  intros H E N. destruct (rangeN_prefix a b H) as [more ->]. revert E. induction (rangeN a) as [|s l IH]; cbn [app first_step]; intro E.
  - now destruct N.
  - destruct (f s) as [[t|]| | |]; cbn [bind] in *; auto.
Qed.

Lemma steps_mesh (m m' : Mesh A) n : set_search_steps m n = Ok m' -> m' = mkMesh (layers m) (search_delta m) n.
Proof. unfold set_search_steps. destruct (N.eqb n 0); [discriminate|]. intro H. inversion H. reflexivity. Qed.

(** what a query gives, other than "nothing found": an answer or a failure *)
Lemma closest_more bvh (m m' : Mesh A) n c r :
  set_search_steps m n = Ok m' -> search_steps m <= n -> get_closest_point bvh m c = r -> r <> Ok None -> get_closest_point bvh m' c = r.
Proof.
  intros E H G N. rewrite (steps_mesh _ _ _ E). revert G. unfold get_closest_point. cbn [layers search_delta search_steps].
  destruct (clayer c) as [li|]; [destruct (index (layers m) li); cbn [bind]; try (intros <-; reflexivity)|];
    intro G; eapply first_step_more; eauto.
Qed.
Lemma towards_more bvh (m m' : Mesh A) n c t r :
  set_search_steps m n = Ok m' -> search_steps m <= n -> get_closest_point_towards bvh m c t = r -> r <> Ok None ->
  get_closest_point_towards bvh m' c t = r.
Proof.
  intros E H G N. rewrite (steps_mesh _ _ _ E). revert G. unfold get_closest_point_towards. cbn [layers search_delta search_steps].
  destruct (clayer c) as [li|]; [destruct (index (layers m) li); cbn [bind]; try (intros <-; reflexivity)|];
    intro G; eapply first_step_more; eauto.
Qed.

(** the search does not look at the number of steps *)
Section Same.
Variables (L : list (Layer A)) (d : F A) (s s' : N).
Let M := mkMesh L d s.
Let M' := mkMesh L d s'.

Lemma successors_same g pe b fuel : forall visited n st,
  successors fuel (mkCtx M g pe b) visited n st = successors fuel (mkCtx M' g pe b) visited n st.
Proof using.
  induction fuel as [|k IH]; intros; cbn [successors]; [reflexivity|].
  change (expand (mkCtx M' g pe b)) with (expand (mkCtx M g pe b)).
  destruct (expand (mkCtx M g pe b) n st) as [st'| | |]; cbn [bind]; try reflexivity.
  destruct (sbuffer st') as [|n' [|? ?]]; try reflexivity.
  cbn [cpto]. rewrite IH. reflexivity.
Qed.
Lemma next_same lib g pe b st : next lib (mkCtx M g pe b) st = next lib (mkCtx M' g pe b) st.
Proof using.
  unfold next. destruct (lpop lib (squeue st)) as [[n q]|]; [|reflexivity].
  cbn [cpto cmesh]. rewrite successors_same. reflexivity.
Qed.
Lemma run_same lib g pe b k : forall st, run k lib (mkCtx M g pe b) st = run k lib (mkCtx M' g pe b) st.
Proof using.
  induction k as [|k IH]; intros; cbn [run]; [reflexivity|]. rewrite next_same.
  destruct (next lib (mkCtx M' g pe b) st) as [[st' r]| | |]; cbn [bind fst snd]; try reflexivity. destruct r; auto.
Qed.
Lemma three_same lib g pe b k : forall st, three k lib (mkCtx M g pe b) st = three k lib (mkCtx M' g pe b) st.
Proof using.
  induction k as [|k IH]; intros; cbn [three]; [reflexivity|]. rewrite next_same.
  destruct (next lib (mkCtx M' g pe b) st) as [[st' r]| | |]; cbn [bind fst snd]; try reflexivity. destruct r; auto.
Qed.
Lemma location_same bvh c : get_point_location bvh M c = get_point_location bvh M' c.
Proof using.
  unfold get_point_location. cbn [layers search_delta M M']. destruct (clayer c); [reflexivity|].
  generalize (enumerate L). intro ls. induction ls as [|[i l] ls IH]; cbn [gpl_loop]; [reflexivity|].
  rewrite IH. reflexivity.
Qed.
Lemma locations_same bvh c : get_point_locations bvh M c = get_point_locations bvh M' c.
Proof using.
  unfold get_point_locations. cbn [layers search_delta M M']. destruct (clayer c); [reflexivity|].
  generalize (enumerate L). intro ls. induction ls as [|[i l] ls IH]; cbn [gpls_loop]; [reflexivity|].
  rewrite IH. reflexivity.
Qed.

Lemma dsuccessors_same g pe b sc f0 fuel : forall visited n st,
  dsuccessors fuel (mkDCtx (mkCtx M g pe b) sc f0) visited n st = dsuccessors fuel (mkDCtx (mkCtx M' g pe b) sc f0) visited n st.
Proof using.
  induction fuel as [|k IH]; intros; cbn [dsuccessors]; [reflexivity|].
  change (dexpand (mkDCtx (mkCtx M' g pe b) sc f0)) with (dexpand (mkDCtx (mkCtx M g pe b) sc f0)).
  destruct (dexpand (mkDCtx (mkCtx M g pe b) sc f0) n st) as [st'| | |]; cbn [bind]; try reflexivity.
  destruct (dbuffer st') as [|n' [|? ?]]; try reflexivity.
  cbn [cpto dctx]. rewrite IH. reflexivity.
Qed.
Lemma dnext_same lib g pe b sc f0 st : dnext lib (mkDCtx (mkCtx M g pe b) sc f0) st = dnext lib (mkDCtx (mkCtx M' g pe b) sc f0) st.
Proof using.
  unfold dnext. destruct (dpop lib (dqueue st)) as [[n q]|]; [|reflexivity].
  cbn [cpto cmesh dctx]. rewrite dsuccessors_same. reflexivity.
Qed.
Lemma drun_same lib g pe b sc f0 k : forall st ps,
  drun k lib (mkDCtx (mkCtx M g pe b) sc f0) st ps = drun k lib (mkDCtx (mkCtx M' g pe b) sc f0) st ps.
Proof using.
  induction k as [|k IH]; intros; cbn [drun]; [reflexivity|]. rewrite dnext_same.
  destruct (dnext lib (mkDCtx (mkCtx M' g pe b) sc f0) st) as [[st' r]| | |]; cbn [bind fst snd]; try reflexivity. apply IH.
Qed.
Lemma dfirst_same lib g pe b sc f0 k : forall st,
  dfirst k lib (mkDCtx (mkCtx M g pe b) sc f0) st = dfirst k lib (mkDCtx (mkCtx M' g pe b) sc f0) st.
Proof using.
  induction k as [|k IH]; intros; cbn [dfirst]; [reflexivity|]. rewrite dnext_same.
  destruct (dnext lib (mkDCtx (mkCtx M' g pe b) sc f0) st) as [[st' r]| | |]; cbn [bind fst snd]; try reflexivity. destruct r; auto.
Qed.
End Same.

(** ** point location queries do not depend on the number of steps *)
Theorem C92_locations_the_same bvh (m m' : Mesh A) n c :
  set_search_steps m n = Ok m' ->
  get_point_location bvh m' c = get_point_location bvh m c /\
  get_point_locations bvh m' c = get_point_locations bvh m c /\
  point_in_mesh bvh m' c = point_in_mesh bvh m c.
Proof.
  intro E. rewrite (steps_mesh _ _ _ E). destruct m as [L d s]. cbn [layers search_delta].
  pose proof (location_same L d n s bvh c) as H. split; [exact H|]. split; [apply locations_same|].
  unfold point_in_mesh. rewrite H. reflexivity.
Qed.

(** ** a closest point found with fewer steps is the closest point found with more *)
Theorem C92_closest_point_kept bvh (m m' : Mesh A) n c p :
  set_search_steps m n = Ok m' -> search_steps m <= n ->
  get_closest_point bvh m c = Ok (Some p) -> get_closest_point bvh m' c = Ok (Some p).
Proof. intros E H G. eapply closest_more; eauto. discriminate. Qed.
Theorem C92_closest_point_towards_kept bvh (m m' : Mesh A) n c t p :
  set_search_steps m n = Ok m' -> search_steps m <= n ->
  get_closest_point_towards bvh m c t = Ok (Some p) -> get_closest_point_towards bvh m' c t = Ok (Some p).
Proof. intros E H G. eapply towards_more; eauto. discriminate. Qed.
Theorem C92_layer_closest_point_kept bvh (l : Layer A) p delta s s' t r : s <= s' ->
  (layer_get_closest_point bvh l p delta s = Ok (Some r) -> layer_get_closest_point bvh l p delta s' = Ok (Some r)) /\
  (layer_get_closest_point_towards bvh l p delta s t = Ok (Some r) -> layer_get_closest_point_towards bvh l p delta s' t = Ok (Some r)).
Proof.
  intro H. unfold layer_get_closest_point, layer_get_closest_point_towards. split.
  - destruct (first_step _ (rangeN (s + 1))) as [o| | |] eqn:E; cbn [bind]; try discriminate. destruct o as [x|]; [|discriminate]. intro G.
    rewrite (first_step_more _ (s + 1) (s' + 1) (Ok (Some x)) ltac:(lia) E ltac:(discriminate)). exact G.
  - destruct (first_step _ (rangeN s)) as [o| | |] eqn:E; cbn [bind]; try discriminate. destruct o as [x|]; [|discriminate]. intro G.
    rewrite (first_step_more _ s s' (Ok (Some x)) H E ltac:(discriminate)). exact G.
Qed.

(** an end point of a query that is found with the number of steps of the mesh (or whose polygon the caller gives) *)
Definition end_found bvh (m : Mesh A) (c : Coords A) := cpoly c <> MAX \/ exists p, get_closest_point bvh m c = Ok (Some p).

Lemma locate_kept lib (m m' : Mesh A) n c r : set_search_steps m n = Ok m' -> search_steps m <= n ->
  locate_end lib m c = r -> r <> Ok None -> locate_end lib m' c = r.
Proof.
  intros E H G N. revert G. unfold locate_end. destruct (negb (cpoly c =? MAX)); [auto|].
  destruct (get_closest_point (lbvh lib) m c) as [[x|]| | |] eqn:EC; cbn [bind option_map]; intro G;
    try (rewrite (closest_more _ _ _ _ _ _ E H EC ltac:(discriminate)); exact G).
  congruence.
Qed.

(** ** a path found with fewer steps is the path found with more *)
Lemma path_kept lib (m m' : Mesh A) n from to blocked os oe :
  set_search_steps m n = Ok m' -> search_steps m <= n ->
  locate_end lib m from = Ok (Some os) -> locate_end lib m to = Ok (Some oe) ->
  path_on_layers lib m' from to blocked = path_on_layers lib m from to blocked.
Proof.
  intros E H G1 G2. unfold path_on_layers.
  rewrite (locate_kept _ _ _ _ _ _ E H G1 ltac:(discriminate)), (locate_kept _ _ _ _ _ _ E H G2 ltac:(discriminate)), G1, G2. cbn [bind].
  rewrite (steps_mesh _ _ _ E). destruct m as [L d s]. cbn [layers search_delta].
  change (islands_reject (mkMesh L d n) os oe) with (islands_reject (mkMesh L d s) os oe).
  destruct (islands_reject (mkMesh L d s) os oe) as [[]| | |]; cbn [bind]; try reflexivity.
  destruct (os =? oe); [reflexivity|].
  change (setup (mkCtx (mkMesh L d n) (cpos to) oe blocked)) with (setup (mkCtx (mkMesh L d s) (cpos to) oe blocked)).
  destruct (setup _ _ _) as [st| | |]; cbn [bind]; try reflexivity. apply run_same.
Qed.
Lemma dpath_kept (lib : DLib A) (m m' : Mesh A) n scales from to blocked os oe :
  set_search_steps m n = Ok m' -> search_steps m <= n ->
  locate_end (dlib_lib lib) m from = Ok (Some os) -> locate_end (dlib_lib lib) m to = Ok (Some oe) ->
  dpath_on_layers lib m' scales from to blocked = dpath_on_layers lib m scales from to blocked.
Proof.
  intros E H G1 G2. unfold dpath_on_layers.
  rewrite (locate_kept _ _ _ _ _ _ E H G1 ltac:(discriminate)), (locate_kept _ _ _ _ _ _ E H G2 ltac:(discriminate)), G1, G2. cbn [bind].
  rewrite (steps_mesh _ _ _ E). destruct m as [L d s]. cbn [layers search_delta].
  change (islands_reject (mkMesh L d n) os oe) with (islands_reject (mkMesh L d s) os oe).
  destruct (islands_reject (mkMesh L d s) os oe) as [[]| | |]; cbn [bind]; try reflexivity.
  destruct (os =? oe); [reflexivity|].
  change (dsetup (mkDCtx (mkCtx (mkMesh L d n) (cpos to) oe blocked) scales (cpos from, id_layer os)))
    with (dsetup (mkDCtx (mkCtx (mkMesh L d s) (cpos to) oe blocked) scales (cpos from, id_layer os))).
  destruct (dsetup _ _ _) as [st| | |]; cbn [bind]; try reflexivity. rewrite (drun_same L d n s). reflexivity.
Qed.

Lemma end_located lib (m : Mesh A) c : end_found (lbvh lib) m c -> exists k, locate_end lib m c = Ok (Some k).
Proof.
  unfold locate_end. intros [H|[p E]].
  - destruct (N.eqb_spec (cpoly c) MAX); [contradiction|]. eexists. reflexivity.
  - destruct (negb (cpoly c =? MAX)); [eexists; reflexivity|]. rewrite E. eexists. reflexivity.
Qed.

Theorem C92_path_kept lib (m m' : Mesh A) n from to blocked :
  set_search_steps m n = Ok m' -> search_steps m <= n ->
  (forall p, path_on_layers lib m from to blocked = Ok (Some p) -> path_on_layers lib m' from to blocked = Ok (Some p)) /\
  (end_found (lbvh lib) m from -> end_found (lbvh lib) m to ->
   path_on_layers lib m' from to blocked = path_on_layers lib m from to blocked).
Proof.
  intros E H. split.
  - intros p G. pose proof G as G'. unfold path_on_layers in G'.
    destruct (locate_end lib m from) as [[os|]| | |] eqn:E1; cbn [bind] in G'; try discriminate G'.
    destruct (locate_end lib m to) as [[oe|]| | |] eqn:E2; cbn [bind] in G'; try discriminate G'.
    rewrite (path_kept _ _ _ _ _ _ _ _ _ E H E1 E2). exact G.
  - intros F1 F2. destruct (end_located _ _ _ F1) as [os E1]. destruct (end_located _ _ _ F2) as [oe E2].
    exact (path_kept _ _ _ _ _ _ _ _ _ E H E1 E2).
Qed.
Theorem C92_detailed_path_kept (lib : DLib A) (m m' : Mesh A) n scales from to blocked :
  set_search_steps m n = Ok m' -> search_steps m <= n ->
  (forall p, dpath_on_layers lib m scales from to blocked = Ok (Some p) -> dpath_on_layers lib m' scales from to blocked = Ok (Some p)) /\
  (end_found (dbvh lib) m from -> end_found (dbvh lib) m to ->
   dpath_on_layers lib m' scales from to blocked = dpath_on_layers lib m scales from to blocked).
Proof.
  intros E H. split.
  - intros p G. pose proof G as G'. unfold dpath_on_layers in G'.
    destruct (locate_end (dlib_lib lib) m from) as [[os|]| | |] eqn:E1; cbn [bind] in G'; try discriminate G'.
    destruct (locate_end (dlib_lib lib) m to) as [[oe|]| | |] eqn:E2; cbn [bind] in G'; try discriminate G'.
    rewrite (dpath_kept _ _ _ _ _ _ _ _ _ _ E H E1 E2). exact G.
  - intros F1 F2. destruct (end_located (dlib_lib lib) _ _ F1) as [os E1]. destruct (end_located (dlib_lib lib) _ _ F2) as [oe E2].
    exact (dpath_kept _ _ _ _ _ _ _ _ _ _ E H E1 E2).
Qed.

(** ** the future does not depend on the number of steps: it only finds ends that are on the mesh *)
Theorem C92_get_path_the_same lib (m m' : Mesh A) n from to k :
  set_search_steps m n = Ok m' -> poll_times k lib (get_path m' from to) = poll_times k lib (get_path m from to).
Proof.
  intro E. rewrite (steps_mesh _ _ _ E). destruct m as [L d s]. cbn [layers search_delta].
  assert (R : forall k st pe, poll_times k lib (mkFuture from to (mkMesh L d n) (Some (mkCtx (mkMesh L d n) to pe [], st)))
                            = poll_times k lib (mkFuture from to (mkMesh L d s) (Some (mkCtx (mkMesh L d s) to pe [], st)))).
  { intro k0. induction k0 as [|k0 IH]; intros; cbn [poll_times]; [reflexivity|].
    unfold poll. cbn [finst ffrom fto fmesh]. rewrite (three_same L d n s).
    destruct (three _ _ _ _) as [[st' [o|]]| | |]; cbn [bind fst snd]; try reflexivity. rewrite IH. reflexivity. }
  destruct k as [|k]; [reflexivity|]. cbn [poll_times]. unfold poll, get_path. cbn [finst ffrom fto fmesh].
  rewrite !(location_same L d n s).
  destruct (get_point_location (lbvh lib) (mkMesh L d s) (coords_on_mesh from)) as [ps| | |]; cbn [bind]; try reflexivity.
  destruct (ps =? MAX); [reflexivity|].
  destruct (get_point_location (lbvh lib) (mkMesh L d s) (coords_on_mesh to)) as [pe| | |]; cbn [bind]; try reflexivity.
  destruct (pe =? MAX); [reflexivity|].
  change (async_islands_reject (mkMesh L d n) ps pe) with (async_islands_reject (mkMesh L d s) ps pe).
  destruct (async_islands_reject (mkMesh L d s) ps pe) as [[]| | |]; cbn [bind]; try reflexivity.
  destruct (ps =? pe); [reflexivity|].
  change (setup (mkCtx (mkMesh L d n) to pe [])) with (setup (mkCtx (mkMesh L d s) to pe [])).
  destruct (setup _ _ _) as [st| | |]; cbn [bind]; try reflexivity. rewrite R. reflexivity.
Qed.
Theorem C92_detailed_get_path_the_same (lib : DLib A) (m m' : Mesh A) n scales from to k :
  set_search_steps m n = Ok m' -> dget_path k lib m' scales from to = dget_path k lib m scales from to.
Proof.
  intro E. rewrite (steps_mesh _ _ _ E). destruct m as [L d s]. cbn [layers search_delta].
  unfold dget_path. rewrite !(location_same L d n s).
  destruct (get_point_location (dbvh lib) (mkMesh L d s) (coords_on_mesh from)) as [ps| | |]; cbn [bind]; try reflexivity.
  destruct (ps =? MAX); [reflexivity|].
  destruct (get_point_location (dbvh lib) (mkMesh L d s) (coords_on_mesh to)) as [pe| | |]; cbn [bind]; try reflexivity.
  destruct (pe =? MAX); [reflexivity|].
  change (async_islands_reject (mkMesh L d n) ps pe) with (async_islands_reject (mkMesh L d s) ps pe).
  destruct (async_islands_reject (mkMesh L d s) ps pe) as [[]| | |]; cbn [bind]; try reflexivity.
  destruct (ps =? pe); [reflexivity|].
  change (dsetup (mkDCtx (mkCtx (mkMesh L d n) to pe []) scales (from, id_layer ps)))
    with (dsetup (mkDCtx (mkCtx (mkMesh L d s) to pe []) scales (from, id_layer ps))).
  destruct (dsetup _ _ _) as [st| | |]; cbn [bind]; try reflexivity. apply dfirst_same.
Qed.

End Any.
