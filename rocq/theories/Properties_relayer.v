(** C71: the answers of a search depend neither on the numbers of the polygons nor on the layers that hold them. *)
From Coq Require Import List NArith ZArith Bool Lia.
From Verif Require Import Base Arith U32 Mesh Helpers Locate Search AsyncPath StdLib Spec Spec_alike Spec_relayer Search_facts Search_props Search_cost Detailed_sim Cleanup_facts Alike Alike_locate Properties_async Relayer.
Import ListNotations.
Open Scope N_scope.

Section Any.
Context {A : Arith}.
Implicit Types (l : Layer A) (m : Mesh A).

Lemma not_separated m ps pe : is_polygon m ps -> is_polygon m pe -> (lengthN (layers m) = 1 -> ~ separated m ps pe) -> islands_reject m ps pe = Ok false.
Proof.
  intros (_ & l & p & H1 & _) (_ & l2 & p2 & H2 & _) HS. unfold islands_reject. destruct (N.eqb_spec (lengthN (layers m)) 1) as [E|E]; [|reflexivity].
  assert (Z1 : id_layer ps = 0) by (apply nthN_Some_lt in H1; lia). assert (Z2 : id_layer pe = 0) by (apply nthN_Some_lt in H2; lia).
  rewrite (proj2 (index_Ok _ _ _) H1). cbn [bind]. f_equal. destruct (islands l) as [isl|] eqn:EI; [|reflexivity]. unfold islands_differ.
  destruct (nthN isl (id_polygon ps)) as [a|] eqn:Ea; [|reflexivity]. destruct (nthN isl (id_polygon pe)) as [b|] eqn:Eb; [|reflexivity].
  destruct (N.eqb_spec a b) as [D|D]; [reflexivity|]. exfalso. apply (HS E). split; [exact Z1|]. split; [exact Z2|]. rewrite Z1 in H1. exists l, isl, a, b. auto.
Qed.
Lemma not_separated_future m ps pe : mesh_small m -> islands_fit m -> is_polygon m ps -> is_polygon m pe -> ~ separated m ps pe -> async_islands_reject m ps pe = Ok false.
Proof.
  intros Hm Hf (L1 & l & p & H1 & _) (L2 & l2 & p2 & H2 & _) HS. unfold async_islands_reject. destruct (N.eqb_spec (id_layer ps) (id_layer pe)) as [E|E]; [|reflexivity].
  rewrite (proj2 (index_Ok _ _ _) H1). cbn [bind]. f_equal. destruct (islands l) as [isl|] eqn:EI; [|reflexivity].
  pose proof (Hf l isl (nthN_In _ _ _ H1) EI) as HL. pose proof (proj2 Hm l (nthN_In _ _ _ H1)) as HP.
  assert (HB : forall id x, nthN isl id = Some x -> id_layer id = 0 /\ id_polygon id = id).
  { intros id x Hx. apply nthN_Some_lt in Hx. assert (id < 2^24) by lia. rewrite id_layer_eq, id_polygon_eq.
    rewrite (N.div_small id), (N.mod_small id) by assumption. split; reflexivity. }
  unfold islands_differ. destruct (nthN isl ps) as [a|] eqn:Ea; [|reflexivity]. destruct (nthN isl pe) as [b|] eqn:Eb; [|reflexivity].
  destruct (N.eqb_spec a b) as [D|D]; [reflexivity|]. destruct (HB ps a Ea) as [Z1 W1]. destruct (HB pe b Eb) as [Z2 W2].
  exfalso. apply HS. split; [exact Z1|]. split; [exact Z2|]. rewrite Z1 in H1. exists l, isl, a, b. rewrite W1, W2. auto.
Qed.

Variables (new : N -> N) (m m' : Mesh A).
Hypothesis (HM : renumbered new m m') (HK : ids_known m).
Lemma new_polygon id : is_polygon m id -> is_polygon m' (new id).
Proof using HM. intros (H1 & l & p & H2). split; [exact (proj1 (rn_small _ _ _ HM id (conj H1 (ex_intro _ l (ex_intro _ p H2)))))|]. destruct (rn_polygon _ _ _ HM id l p H1 H2) as (l' & p' & H3 & _). eauto. Qed.
Lemma polygon_not_max id : is_polygon m id -> id <> MAX.
Proof using HM. intros K E. destruct (rn_small _ _ _ HM id K) as [_ H]. apply H. rewrite E. apply (rn_none _ _ _ HM). Qed.
Lemma count_many : as_many m m' -> count_polygons m' = count_polygons m.
Proof.
  unfold as_many, count_polygons. intro H.
  assert (G : forall ls : list (Layer A), fold_right (fun l n => (length (polygons l) + n)%nat) 0%nat ls = list_sum (map (fun l => length (polygons l)) ls)).
  { induction ls as [|l r IH]; [reflexivity|]. cbn. now rewrite IH. }
  rewrite !G. now symmetry.
Qed.

Lemma run_renumbered lib (from goal : vec2 A) ps pe blocked blocked' k : pop_blind (lpop lib) -> same_blocked new m blocked blocked' -> is_polygon m ps -> is_polygon m pe ->
  (let* st := setup (mkCtx m' goal (new pe) blocked') from (new ps) in run k lib (mkCtx m' goal (new pe) blocked') st) =
  (let* st := setup (mkCtx m goal pe blocked) from ps in run k lib (mkCtx m goal pe blocked) st).
Proof using HM HK.
  intros HP HB KS KE. pose proof (setup_same new m m' HM HK goal pe blocked blocked' HB KE from ps KS) as H. pose proof (setup_buffer (mkCtx m goal pe blocked) from ps) as HU.
  destruct (setup (mkCtx m goal pe blocked) from ps) as [s| | |], (setup (mkCtx m' goal (new pe) blocked') from (new ps)) as [s'| | |]; try contradiction; try reflexivity. cbn [rsim bind] in *.
  pose proof (run_same new m m' HM HK goal pe blocked blocked' HB KE lib HP k s s' H (HU s eq_refl)) as Q.
  destruct (run k lib _ s) as [o| | |], (run k lib _ s') as [o'| | |]; try contradiction; try reflexivity. cbn [rsim] in Q. now subst.
Qed.

(** One poll of the future. *)
Definition inst_same (i i' : option (Ctx A * State A)) : Prop :=
  exists g pe s s', i = Some (mkCtx m g pe [], s) /\ i' = Some (mkCtx m' g (new pe) [], s') /\ is_polygon m pe /\ state_same new m m' s s' /\ sbuffer s = [].
Definition future_same (x x' : Future A) : Prop := ffrom x' = ffrom x /\ fto x' = fto x /\ inst_same (finst x) (finst x').
Lemma none_blocked : same_blocked new m [] [].
Proof. split; [split; intros _; reflexivity|]. intros id _. split; intros []. Qed.
Lemma poll_same lib x x' : pop_blind (lpop lib) -> future_same x x' ->
  rsim (fun r r' => future_same (fst (fst r)) (fst (fst r')) /\ snd (fst r') = snd (fst r) /\ snd r' = snd r) (poll lib x) (poll lib x').
Proof using HM HK.
  intros HP (E3 & E4 & (g & pe & s & s' & I1 & I2 & KE & HS & HB0)). unfold poll. rewrite I1, I2, E3, E4.
  apply (rsim_bind _ _ _ _ _ _ (three_same new m m' HM HK g pe [] [] none_blocked KE lib HP 3 s s' HS HB0)).
  intros [t o] [t' o'] _ (T1 & T2 & T3). cbn [fst snd] in *. subst o'.
  assert (HX : future_same (mkFuture (ffrom x) (fto x) (fmesh x) (Some (mkCtx m g pe [], t))) (mkFuture (ffrom x) (fto x) (fmesh x') (Some (mkCtx m' g (new pe) [], t')))).
  { split; [reflexivity|]. split; [reflexivity|]. exists g, pe, t, t'. auto. }
  destruct o as [o|]; cbn [rsim fst snd]; auto.
Qed.
Lemma polls_same lib k : pop_blind (lpop lib) -> forall x x', future_same x x' -> poll_times k lib x' = poll_times k lib x.
Proof using HM HK.
  intro HP. induction k as [|k IH]; intros x x' H; [reflexivity|]. cbn [poll_times]. pose proof (poll_same lib x x' HP H) as P.
  destruct (poll lib x) as [[[y w] p]| | |], (poll lib x') as [[[y' w'] p']| | |]; try contradiction; try reflexivity. cbn [rsim fst snd bind] in *. destruct P as (P1 & -> & ->).
  destruct p as [o|]; [reflexivity|]. now rewrite (IH _ _ P1).
Qed.
End Any.

Section Results.
Context {A : Arith}.
Variables (new : N -> N) (m m' : Mesh A) (lib : Lib A) (ps pe : N).
(** Two meshes with the same polygons under other numbers, and two polygons of them. *)
Record renumbering : Prop := {
  re_mesh : renumbered new m m';
  re_ids : ids_known m;
  re_many : as_many m m';
  re_start : is_polygon m ps;
  re_end : is_polygon m pe
}.
(** Mesh::path only looks at the islands of a mesh with one layer. *)
Definition joined (m : Mesh A) (ps pe : N) : Prop := lengthN (layers m) = 1 -> ~ separated m ps pe.

(** Every search between two positions found in the same polygons has the same result, with whatever layers blocked. *)
Theorem C71_same_path (from to from' to' : Coords A) blocked blocked' : pop_blind (lpop lib) -> renumbering -> same_blocked new m blocked blocked' -> joined m ps pe -> joined m' (new ps) (new pe) ->
  cpos from' = cpos from -> cpos to' = cpos to -> located lib m from ps -> located lib m to pe -> located lib m' from' (new ps) -> located lib m' to' (new pe) ->
  path_on_layers lib m' from' to' blocked' = path_on_layers lib m from to blocked.
Proof.
  intros HP [HM HK HN KS KE] HB J J' F1 F2 L1 L2 L3 L4. unfold path_on_layers.
  apply locate_end_located in L1. apply locate_end_located in L2. apply locate_end_located in L3. apply locate_end_located in L4. rewrite L1, L3. cbn [bind]. rewrite L2, L4. cbn [bind].
  rewrite (not_separated m ps pe KS KE J), (not_separated m' _ _ (new_polygon new m m' HM ps KS) (new_polygon new m m' HM pe KE) J'). cbn [bind].
  rewrite (new_eqb new m m' HM ps pe (or_intror KS) (or_intror KE)), F1, F2. destruct (N.eqb ps pe); [reflexivity|]. rewrite (count_many m m' HN).
  now apply run_renumbered.
Qed.

(** The future answers the same at the same poll, with the same wakes. *)
Theorem C71_same_future (from to : vec2 A) k : pop_blind (lpop lib) -> renumbering -> ~ separated m ps pe -> ~ separated m' (new ps) (new pe) -> mesh_small m -> mesh_small m' -> islands_fit m -> islands_fit m' ->
  get_point_location (lbvh lib) m (coords_on_mesh from) = Ok ps -> get_point_location (lbvh lib) m (coords_on_mesh to) = Ok pe ->
  get_point_location (lbvh lib) m' (coords_on_mesh from) = Ok (new ps) -> get_point_location (lbvh lib) m' (coords_on_mesh to) = Ok (new pe) ->
  poll_times k lib (get_path m' from to) = poll_times k lib (get_path m from to).
Proof.
  intros HP [HM HK HN KS KE] J J' S1 S2 I1 I2 L1 L2 L3 L4. destruct k as [|k]; [reflexivity|]. cbn [poll_times]. unfold poll, get_path. cbn [finst ffrom fto fmesh].
  rewrite L1, L3. cbn [bind]. rewrite (proj2 (N.eqb_neq _ _) (proj2 (rn_small _ _ _ HM ps KS))), (proj2 (N.eqb_neq _ _) (polygon_not_max new m m' HM ps KS)).
  rewrite L2, L4. cbn [bind]. rewrite (proj2 (N.eqb_neq _ _) (proj2 (rn_small _ _ _ HM pe KE))), (proj2 (N.eqb_neq _ _) (polygon_not_max new m m' HM pe KE)).
  rewrite (not_separated_future m ps pe S1 I1 KS KE J), (not_separated_future m' _ _ S2 I2 (new_polygon new m m' HM ps KS) (new_polygon new m m' HM pe KE) J'). cbn [bind].
  rewrite (new_eqb new m m' HM ps pe (or_intror KS) (or_intror KE)). destruct (N.eqb ps pe); [reflexivity|].
  pose proof (setup_same new m m' HM HK to pe [] [] (none_blocked new m) KE from ps KS) as H. pose proof (setup_buffer (mkCtx m to pe []) from ps) as HU.
  destruct (setup (mkCtx m to pe []) from ps) as [s| | |], (setup (mkCtx m' to (new pe) []) from (new ps)) as [s'| | |]; try contradiction; try reflexivity. cbn [rsim bind] in *.
  rewrite (polls_same new m m' HM HK lib k HP (mkFuture from to m (Some (mkCtx m to pe [], s))) (mkFuture from to m' (Some (mkCtx m' to (new pe) [], s')))); [reflexivity|].
  split; [reflexivity|]. split; [reflexivity|]. exists to, pe, s, s'. split; [reflexivity|]. split; [reflexivity|]. split; [exact KE|]. split; [exact H|]. now apply HU.
Qed.
End Results.
