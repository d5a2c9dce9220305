(** C43, the lines of a triangulation: the outer edge (inflated if asked for), the edges of the layer it was made from, and the outlines of
    the obstacles; and nothing else. *)
From Coq Require Import List NArith ZArith Bool Lia.
From Verif Require Import Base Arith U32 Mesh Helpers Locate Cleanup_facts Islands_facts Spec Search_facts Triangulation Triangulation_facts Spec_triangulation F32 StdLib Tests
  Tests_triangulation Tests_stitch Properties_triangulation.
Import ListNotations.
Open Scope N_scope.

Section Builder.
Context {A : Arith}.
Implicit Types (lib : TriLib A) (t : Triangulation A) (l : Layer A).

(** The ring used for the outer edge [ext]: with a radius above 1e-5 that also applies to the outer edge, the first hole of the inflated
    outer edge. *)
Definition outer_ring lib (a : AgentRadius A) (ext r : ring A) : Prop :=
  match a with
  | REverything radius n _ =>
      if fgt radius (flit 1 100000) then exists e holes, inflate_ring lib ext radius n = Ok (e, holes) /\ exists h, nthN holes 0 = Some h /\ r = close (close h)
      else r = ext
  | _ => r = ext
  end.
(** A line along an edge of a polygon of the layer. *)
Definition layer_line l (x y : vec2 A) : Prop :=
  exists p a b va vb, In p (polygons l) /\ boundary_edge (pverts p) a b /\ nthN (vertices l) a = Some va /\ nthN (vertices l) b = Some vb /\ x = coords va /\ y = coords vb.

Lemma foldM_reach {S X} (f : S -> X -> res S) (I : S -> Prop) (R : X -> S -> Prop) (K : S -> S -> Prop) xs :
  (forall s, K s s) -> (forall s1 s2 s3, K s1 s2 -> K s2 s3 -> K s1 s3) -> (forall x s s', K s s' -> R x s -> R x s') ->
  (forall s x s', In x xs -> I s -> f s x = Ok s' -> I s' /\ R x s' /\ K s s') ->
  forall s s', I s -> foldM f s xs = Ok s' -> I s' /\ (forall x, In x xs -> R x s') /\ K s s'.
Proof.
  intros K1 K2 K3. induction xs as [|x xs IH]; intros HS s s' HI H; cbn [foldM] in H; [injection H as <-; split; [exact HI|]; split; [intros x []|apply K1]|].
  inv_bind H. destruct (HS _ _ _ (or_introl eq_refl) HI E) as (I1 & R1 & M1).
  destruct (IH (fun s x s' Hx => HS s x s' (or_intror Hx)) _ _ I1 H) as (I2 & R2 & M2).
  split; [exact I2|]. split; [|exact (K2 _ _ _ M1 M2)]. intros y [<-|Hy]; [exact (K3 _ _ _ M2 R1)|now apply R2].
Qed.

Lemma edge_mem_In e s : edge_mem e s = true <-> In e s.
Proof.
  unfold edge_mem. rewrite existsb_exists. destruct e as [a b]. split.
  - intros ([x y] & Hx & H). apply andb_prop in H. destruct H as [H1 H2]. apply N.eqb_eq in H1, H2. cbn [fst snd] in *. now subst.
  - intro H. exists (a, b). split; [exact H|]. cbn. now rewrite !N.eqb_refl.
Qed.

(** ** The edges of the layer *)
Section Base.
Context (lib : TriLib A) (l : Layer A) (c0 : list (vec2 A * vec2 A)).
Definition drawn (s : list (N * N) * list (vec2 A * vec2 A)) (a b : N) : Prop :=
  exists va vb, nthN (vertices l) a = Some va /\ nthN (vertices l) b = Some vb /\ (In (coords va, coords vb) (snd s) \/ In (coords vb, coords va) (snd s)).
Definition base_inv (s : list (N * N) * list (vec2 A * vec2 A)) : Prop :=
  (forall a b, In (a, b) (fst s) -> a <> b -> drawn s a b) /\ (forall x y, In (x, y) (snd s) -> In (x, y) c0 \/ layer_line l x y).
Definition grows (s s' : list (N * N) * list (vec2 A * vec2 A)) : Prop := incl (fst s) (fst s') /\ incl (snd s) (snd s').
Lemma drawn_grows s s' a b : grows s s' -> drawn s a b -> drawn s' a b.
Proof. intros [_ G] (va & vb & H1 & H2 & H3). exists va, vb. split; [exact H1|]. split; [exact H2|]. destruct H3; [left|right]; now apply G. Qed.
Lemma drawn_swap s a b : drawn s a b -> drawn s b a.
Proof. intros (va & vb & H1 & H2 & H3). exists vb, va. tauto. Qed.

Lemma base_edge_inv p s e s' : In p (polygons l) -> boundary_edge (pverts p) (fst e) (snd e) -> base_inv s -> base_edge lib l s e = Ok s' ->
  base_inv s' /\ In e (fst s') /\ grows s s'.
Proof.
  intros Hp He [B1 B2] H. destruct s as [seen c]. cbn [fst snd] in *. destruct e as [a b]. cbn [fst snd] in *. unfold base_edge in H. cbn [fst snd] in H.
  destruct (edge_mem (a, b) seen) eqn:E1.
  { injection H as <-. apply edge_mem_In in E1. split; [split; assumption|]. split; [exact E1|]. split; apply incl_refl. }
  destruct (edge_mem (b, a) ((a, b) :: seen)) eqn:E2.
  { injection H as <-. apply edge_mem_In in E2. cbn [fst snd]. split; [|split; [now left|split; [apply incl_tl, incl_refl|apply incl_refl]]].
    split; [|exact B2]. cbn [fst snd]. intros x y [F|F] Hne; [|exact (B1 x y F Hne)]. injection F as <- <-. destruct E2 as [E2|E2]; [congruence|].
    apply drawn_swap. exact (B1 b a E2 (not_eq_sym Hne)). }
  inv_bind H. apply index_Ok in E. rename a0 into va. inv_bind H. inv_bind H. apply index_Ok in E3. rename a1 into vb. inv_bind H. injection H as <-. cbn [fst snd].
  assert (G : grows (seen, c) ((b, a) :: (a, b) :: seen, c ++ [(coords va, coords vb)])) by (split; cbn [fst snd]; [apply incl_tl, incl_tl, incl_refl|apply incl_appl, incl_refl]).
  assert (D : drawn ((b, a) :: (a, b) :: seen, c ++ [(coords va, coords vb)]) a b).
  { exists va, vb. split; [exact E|]. split; [exact E3|]. left. cbn [snd]. apply in_or_app. right. now left. }
  split; [|split; [right; now left|exact G]]. split; cbn [fst snd].
  - intros x y [F|[F|F]] Hne; [injection F as <- <-; now apply drawn_swap|injection F as <- <-; exact D|]. exact (drawn_grows _ _ _ _ G (B1 x y F Hne)).
  - intros x y F. apply in_app_or in F. destruct F as [F|[F|[]]]; [now apply B2|]. injection F as <- <-. right. exists p, a, b, va, vb. auto 10.
Qed.
Lemma base_constraints_spec c : base_constraints lib l c0 = Ok c ->
  (forall p a b, In p (polygons l) -> boundary_edge (pverts p) a b -> a <> b -> drawn ([], c) a b) /\
  (forall x y, In (x, y) c -> In (x, y) c0 \/ layer_line l x y) /\ incl c0 c.
Proof.
  intro H. unfold base_constraints in H. inv_bind H. rename a into s. injection H as <-.
  assert (G0 : forall s, grows s s) by (intro; split; apply incl_refl).
  assert (G1 : forall s1 s2 s3, grows s1 s2 -> grows s2 s3 -> grows s1 s3) by (intros s1 s2 s3 [X1 Y1] [X2 Y2]; split; eapply incl_tran; eassumption).
  assert (HP : forall s p s', In p (polygons l) -> base_inv s -> (let* es := edges_index p in foldM (base_edge lib l) s es) = Ok s' ->
    base_inv s' /\ (forall a b, boundary_edge (pverts p) a b -> In (a, b) (fst s')) /\ grows s s').
  { intros s1 p s2 Hp HI HH. inv_bind HH. rename a into es. destruct (edges_index_spec _ _ E0) as [_ HS].
    destruct (foldM_reach (base_edge lib l) base_inv (fun e s => In e (fst s)) grows es G0 G1) with (s := s1) (s' := s2) as (I & R & K); [| |exact HI|exact HH|].
    - intros x u v [F _] Hx. now apply F.
    - intros u e v He HI' HE. destruct e as [a b]. apply (base_edge_inv p u (a, b) v Hp); [now apply HS|exact HI'|exact HE].
    - split; [exact I|]. split; [|exact K]. intros a b Hab. apply R. now apply HS. }
  destruct (foldM_reach (fun st p => let* es := edges_index p in foldM (base_edge lib l) st es) base_inv (fun p s => forall a b, boundary_edge (pverts p) a b -> In (a, b) (fst s)) grows (polygons l) G0 G1)
    with (s := (@nil (N * N), c0)) (s' := s) as (I & R & K); [| | |exact E|].
  - intros p u v [F _] Hx a b Hab. apply F. now apply Hx.
  - exact HP.
  - split; cbn [fst snd]; [intros a b []|]. intros x y Hxy. now left.
  - destruct I as [I1 I2]. split; [|split; [exact I2|exact (proj2 K)]]. intros p a b Hp Hab Hne. destruct (I1 a b (R p Hp a b Hab) Hne) as (va & vb & V). exists va, vb. exact V.
Qed.
End Base.

(** ** Histories without prebuild *)
Lemma run_plain lib cs : forall t t' os0, prebuilds cs = O -> close (exterior (inner t)) = exterior (inner t) -> (forall o, In o (os0 ++ added cs) -> comparable o) ->
  interiors (inner t) = map close os0 -> run_calls lib t cs = Ok t' ->
  agent_radius t' = agent_radius t /\ base_layer t' = base_layer t /\ prebuilt t' = prebuilt t /\ exterior (inner t') = exterior (inner t) /\ interiors (inner t') = map close (os0 ++ added cs).
Proof.
  induction cs as [|c cs IH]; intros t t' os0 HP HX HC HI H.
  - injection H as <-. cbn [added]. rewrite app_nil_r. auto.
  - unfold run_calls in H. cbn [foldM] in H. inv_bind H. destruct c as [o|os|]; cbn [prebuilds] in HP; [| |discriminate].
    + cbn [apply_call] in E. injection E as <-. cbn [added] in *. destruct (IH (add_obstacle t o) t' (os0 ++ [o]) HP) as (E1 & E2 & E3 & E4 & E5); try assumption.
      * now rewrite <- app_assoc.
      * unfold add_obstacle, with_inner, interiors_push. cbn [inner interiors]. now rewrite HI, map_app.
      * rewrite E1, E2, E3, E4, E5, <- app_assoc. auto.
    + cbn [apply_call] in E. injection E as <-. cbn [added] in *. destruct (IH (add_obstacles t os) t' (os0 ++ os) HP) as (E1 & E2 & E3 & E4 & E5); try assumption.
      * unfold add_obstacles, with_inner, geo_new. cbn [inner exterior]. now rewrite !HX.
      * now rewrite <- app_assoc.
      * unfold add_obstacles, with_inner, geo_new. cbn [inner interiors]. rewrite HI, !map_app, map_map. f_equal. apply map_ext_in. intros x Hx. apply close_comparable. apply HC.
        apply in_or_app. now left.
      * rewrite E1, E2, E3, E4, E5, <- app_assoc. unfold add_obstacles, with_inner, geo_new. cbn [inner exterior]. auto.
Qed.

Theorem C43_lines lib t0 cs t c : fresh t0 -> (forall o, In o (added cs) -> comparable o) -> prebuilds cs = O -> run_calls lib t0 cs = Ok t -> constraints lib t = Ok c ->
  exists r, outer_ring lib (agent_radius t0) (exterior (inner t0)) r /\ (forall e, In e (ring_lines r) -> In e c) /\
  (* the edges of the layer, in one direction *)
  (forall l p a b, base_layer t0 = Some l -> In p (polygons l) -> boundary_edge (pverts p) a b -> a <> b ->
     exists va vb, nthN (vertices l) a = Some va /\ nthN (vertices l) b = Some vb /\ (In (coords va, coords vb) c \/ In (coords vb, coords va) c)) /\
  (* the obstacles *)
  (forall o, In o (added cs) -> exists r, outline lib (agent_radius t0) o r /\ forall e, In e (ring_lines r) -> In e c) /\
  (* nothing else *)
  (forall x y, In (x, y) c -> In (x, y) (ring_lines r) \/ (exists l, base_layer t0 = Some l /\ layer_line l x y) \/
     exists o r', In o (added cs) /\ outline lib (agent_radius t0) o r' /\ In (x, y) (ring_lines r')).
Proof.
  intros (F1 & F2 & F3) HQ HP HR HC. destruct (run_plain lib cs t0 t [] HP F3 HQ F2 HR) as (E1 & E2 & E3 & E4 & E5). cbn [app] in E5. rewrite F1 in E3.
  unfold constraints in HC. inv_bind HC. rename a into ci. inv_bind HC. rename a into cb. inv_bind HC. rename a into g.
  destruct (add_rings_Ok lib _ _ _ HC) as [-> _]. pose proof (inflated_interiors lib t g E6) as EO. rewrite E1, E5 in EO.
  assert (HO : exists r, outer_ring lib (agent_radius t0) (exterior (inner t0)) r /\ ci = ring_lines r).
  { unfold initial_constraints in E. rewrite E3, E1, E4 in E. unfold outer_ring.
    assert (HD : forall r, add_constraint_edges lib [] r = Ok ci -> ci = ring_lines r) by (intros r HH; exact (proj1 (add_edges_Ok lib _ _ _ HH))).
    destruct (agent_radius t0) as [|d n q|d n q]; [eexists; split; [reflexivity|now apply HD]..|]. change (fgt d (flit 1 100000)) with (enough d). destruct (enough d); [|eexists; split; [reflexivity|now apply HD]].
    inv_bind E. rename a into gi. exists (exterior gi). split; [|now apply HD]. unfold inflate in E7. rewrite E4 in E7. inv_bind E7. inv_bind E7. inv_bind E7. injection E7 as <-. cbn [exterior].
    destruct a as [e holes]. exists e, holes. split; [exact E8|]. cbn [snd] in E10. apply index_Ok in E10. rewrite nthN_map in E10. destruct (nthN holes 0) as [h|]; [|discriminate]. injection E10 as <-. now exists h. }
  destruct HO as (r & HO & ->). exists r. split; [exact HO|].
  assert (HB : incl (ring_lines r) cb /\ (forall l p a b, base_layer t0 = Some l -> In p (polygons l) -> boundary_edge (pverts p) a b -> a <> b ->
       exists va vb, nthN (vertices l) a = Some va /\ nthN (vertices l) b = Some vb /\ (In (coords va, coords vb) cb \/ In (coords vb, coords va) cb)) /\
     (forall x y, In (x, y) cb -> In (x, y) (ring_lines r) \/ (exists l, base_layer t0 = Some l /\ layer_line l x y))).
  { rewrite E2 in E0. destruct (base_layer t0) as [l|].
    - destruct (base_constraints_spec lib l (ring_lines r) cb E0) as (B1 & B2 & B3). split; [exact B3|]. split.
      + intros l' p a b EL. injection EL as <-. exact (B1 p a b).
      + intros x y Hxy. destruct (B2 x y Hxy); [now left|]. right. now exists l.
    - injection E0 as <-. split; [apply incl_refl|]. split; [discriminate|]. intros x y Hxy. now left. }
  destruct HB as (B1 & B2 & B3). split; [intros e He; apply in_or_app; left; now apply B1|]. split; [|split].
  - intros l p a b El Hp Hab Hne. destruct (B2 l p a b El Hp Hab Hne) as (va & vb & V1 & V2 & V3). exists va, vb. split; [exact V1|]. split; [exact V2|].
    destruct V3; [left|right]; apply in_or_app; now left.
  - intros o Ho. apply In_nthN in Ho. destruct Ho as [k Hk].
    assert (Hk' : nthN (map close (added cs)) k = Some (close o)) by (rewrite nthN_map, Hk; reflexivity).
    destruct (Forall2_nthN _ _ _ EO _ _ Hk') as (r' & R1 & R2). exists r'. split; [exact R2|]. intros e He. apply in_or_app. right. apply in_flat_map. exists r'. split; [exact (nthN_In _ _ _ R1)|exact He].
  - intros x y Hxy. apply in_app_or in Hxy. destruct Hxy as [Hxy|Hxy]; [destruct (B3 x y Hxy); auto|]. right. right.
    apply in_flat_map in Hxy. destruct Hxy as (r' & Hr & Hin). apply In_nthN in Hr. destruct Hr as [k Hk]. destruct (Forall2_nthN_r _ _ _ EO _ _ Hk) as (i & I1 & I2).
    rewrite nthN_map in I1. destruct (nthN (added cs) k) as [o|] eqn:Eo; [|discriminate]. injection I1 as <-. exists o, r'. split; [exact (nthN_In _ _ _ Eo)|]. split; [exact I2|exact Hin].
Qed.

(** Cutting obstacles out of a layer of a mesh: the edges of that layer are lines of the triangulation. *)
Corollary C43_lines_of_the_layer lib m i t0 cs t c l p a b : from_mesh m i = Ok t0 -> (forall o, In o (added cs) -> comparable o) -> prebuilds cs = O -> run_calls lib t0 cs = Ok t -> constraints lib t = Ok c ->
  nthN (layers m) i = Some l -> In p (polygons l) -> boundary_edge (pverts p) a b -> a <> b ->
  exists va vb, nthN (vertices l) a = Some va /\ nthN (vertices l) b = Some vb /\ (In (coords va, coords vb) c \/ In (coords vb, coords va) c).
Proof.
  intros H HQ HP HR HC Hl. unfold from_mesh in H. inv_bind H. apply index_Ok in E. assert (a0 = l) as -> by congruence. injection H as <-.
  destruct (C43_lines lib (from_mesh_layer l) cs t c) as (r & _ & _ & HL & _); [split; [reflexivity|]; split; reflexivity|exact HQ|exact HP|exact HR|exact HC|].
  exact (HL l p a b eq_refl).
Qed.
End Builder.

(** ** The hypotheses are met: obstacles cut out of the second of three layers, and a square whose outer edge is inflated *)
Definition history0 : list (@call F32) := [AddObstacle obstacle1; AddObstacles [obstacle2]].
Example C43_lines_example : exists t0 t c l p, from_mesh basic_layers 1 = Ok t0 /\ fresh t0 /\ (forall o, In o (added history0) -> comparable o) /\ prebuilds history0 = O /\
  run_calls tri32 t0 history0 = Ok t /\ constraints tri32 t = Ok c /\ nthN (layers basic_layers) 1 = Some l /\ In p (polygons l) /\ boundary_edge (pverts p) 3 2.
Proof.
  destruct (is_okb_ex (from_mesh basic_layers 1)) as [t0 H0]; [vmc|].
  destruct (is_okb_ex (let* t0 := from_mesh basic_layers 1 in run_calls tri32 t0 history0)) as [t Ht]; [vmc|].
  destruct (is_okb_ex (let* t0 := from_mesh basic_layers 1 in let* t := run_calls tri32 t0 history0 in constraints tri32 t)) as [c Hc]; [vmc|].
  rewrite H0 in Ht, Hc. cbn [bind] in Ht, Hc. rewrite Ht in Hc. cbn [bind] in Hc.
  destruct (nthN (layers basic_layers) 1) as [l|] eqn:El; [|discriminate El].
  - exists t0, t, c, l, (mkPolygon [0; 1; 3; 2] true). split; [exact H0|]. split.
    { unfold from_mesh in H0. inv_bind H0. injection H0 as <-. split; [reflexivity|]. split; reflexivity. }
    split; [apply history_comparable; vmc|]. split; [reflexivity|]. split; [exact Ht|]. split; [exact Hc|]. split; [reflexivity|]. split.
    + assert (EP : match nthN (layers basic_layers) 1 with Some l => polygons l | None => [] end = [mkPolygon [0; 1; 3; 2] true]) by reflexivity. rewrite El in EP. rewrite EP. now left.
    + exists 2%nat. split; reflexivity.
Qed.
(** a union with one hole: half of the square *)
Definition half_square : ring F32 := [pt100 25 25; pt100 75 25; pt100 75 75; pt100 25 75].
Definition hole_lib : TriLib F32 :=
  mkTriLib (simplify_vw tri32) (fun a _ => [(a, [half_square])]) (contains tri32) (insertable tri32) (cdt tri32) (atan2 tri32) (hypot tri32) (sign_negative tri32) (finder tri32).
Definition inflated_square : Triangulation F32 := agent_radius_on_outer_edge (set_agent_radius (from_outer_edges square_outer) (q 1 4)) true.
Example C43_outer_example : fresh inflated_square /\ exists t c, run_calls hole_lib inflated_square [] = Ok t /\ constraints hole_lib t = Ok c /\
  existsb (edge_same (pt100 25 25, pt100 75 25)) c = true /\ existsb (edge_same (pt 0 0, pt 1 0)) c = false.
Proof.
  split; [split; [reflexivity|]; split; [reflexivity|]; apply close_closed; vmc|].
  destruct (is_okb_ex (constraints hole_lib inflated_square)) as [c Hc]; [vmc|]. exists inflated_square, c. split; [reflexivity|]. split; [exact Hc|].
  assert (E : match constraints hole_lib inflated_square with Ok c => (existsb (edge_same (pt100 25 25, pt100 75 25)) c, existsb (edge_same (pt 0 0, pt 1 0)) c) | _ => (false, true) end = (true, false)) by vmc.
  rewrite Hc in E. split; [exact (f_equal fst E)|exact (f_equal snd E)].
Qed.
