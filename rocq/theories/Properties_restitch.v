(** C31 for stitch points. *)
From Coq Require Import List NArith ZArith Bool Lia.
From Verif Require Import Base Arith U32 Mesh Helpers Spec Spec_mesh Cleanup Stitch Cleanup_facts Tests_stitch F32 Checkers Tests Alike Stitch_facts StitchPoints_facts Properties_stitch.
Import ListNotations.
Open Scope N_scope.

Section Any.
Context {A : Arith}.
Implicit Types (m : Mesh A).

Lemma position_same (vs vs' : list (Vertex A)) p : Forall2 same_vertex vs vs' -> forall i, position vs' p i = position vs p i.
Proof. induction 1 as [|v v' r r' E _ IH]; intro i; [reflexivity|]. cbn [position]. unfold same_vertex in E. rewrite E, IH. reflexivity. Qed.
Lemma mapM_same {X Y} (f g : X -> res Y) l : (forall x, f x = g x) -> mapM f l = mapM g l.
Proof. intro H. induction l as [|x r IH]; [reflexivity|]. cbn [mapM]. now rewrite H, IH. Qed.
(** which vertices have the points does not depend on the neighbours of the vertices *)
Lemma points_same m m' S : Forall2 same_layer (layers m) (layers m') -> points_to_vertices m' S = points_to_vertices m S.
Proof.
  intro H. unfold points_to_vertices. apply mapM_same. intro s. f_equal.
  assert (L : forall i p, (let* l := index (layers m') i in unwrap (position (vertices l) p 0)) = (let* l := index (layers m) i in unwrap (position (vertices l) p 0))).
  { intros i p. unfold index. pose proof (Forall2_nth_both _ _ _ H i) as Hi. destruct (nthN (layers m) i) as [l|], (nthN (layers m') i) as [l'|]; try contradiction; [|reflexivity].
    cbn [unwrap bind]. destruct Hi as (_ & _ & _ & _ & Hv). now rewrite (position_same _ _ p Hv). }
  assert (G : forall ps, mapM (fun p => let* lf := index (layers m') (fst (fst s)) in let* f := unwrap (position (vertices lf) p 0) in
                              let* lt := index (layers m') (snd (fst s)) in let* t := unwrap (position (vertices lt) p 0) in Ok (f, t)) ps =
                         mapM (fun p => let* lf := index (layers m) (fst (fst s)) in let* f := unwrap (position (vertices lf) p 0) in
                              let* lt := index (layers m) (snd (fst s)) in let* t := unwrap (position (vertices lt) p 0) in Ok (f, t)) ps).
  { intro ps. apply mapM_same. intro p. pose proof (L (fst (fst s)) p) as L1. pose proof (L (snd (fst s)) p) as L2.
    assert (B : forall (m : Mesh A) (i : N) {T} (k : N -> res T), (let* l := index (layers m) i in let* f := unwrap (position (vertices l) p 0) in k f) =
      bind (let* l := index (layers m) i in unwrap (position (vertices l) p 0)) k) by (intros m0 i T k; destruct (index (layers m0) i); reflexivity).
    rewrite (B m'), (B m), L1. destruct (bind (index (layers m) (fst (fst s))) _) as [f| | |]; cbn [bind]; try reflexivity.
    rewrite (B m'), (B m), L2. reflexivity. }
  now rewrite G.
Qed.

(** C31 for points: removing the stitches of one layer and stitching that layer again at the same points gives the same neighbours as
    stitching everything at these points. *)
Theorem C31_restitch_layer_at_points sort m S one_way m' t : sort_ok sort -> plain m -> (forall l, In l (layers m) -> layer_wf l) ->
  (forall from to ps, In ((from, to), ps) S -> from <> to /\ ps <> []) ->
  stitch_at_points sort m S one_way = Ok m' ->
  exists m3, restitch_layer_at_points sort (remove_stitches_to_layer m' t) t S one_way = Ok m3 /\ same_geometry m m3 /\ mesh_wf m3 /\
    (forall li vi w, vertex_at m3 li vi w -> (is_corner w = true <-> In MAX (vpolys w))) /\
    forall li vi id, lists m3 li vi id <-> lists m' li vi id.
Proof.
  intros Hs Hp Hw HS E. unfold stitch_at_points in E. inv_bind E. rename a into sv.
  assert (HV : stitches_ok m sv). { apply (points_stitches_ok m S sv); [intros [a b] ps H _; exact (proj1 (HS a b ps H))|exact E0|intros [a b] ps H; exact (proj2 (HS a b ps H))]. }
  destruct (stitch_plain sort m sv one_way Hs Hp Hw HV) as (m1 & E1 & Hg & _). assert (m1 = m') by congruence. subst m1.
  destruct (C31_restitch_layer sort m sv one_way m' t Hs Hp Hw HV E) as (m3 & E3 & R). exists m3. split; [|exact R].
  unfold restitch_layer_at_points. rewrite (points_same m), E0; [exact E3|].
  destruct Hg as (_ & _ & Hg). eapply Stitch_facts.Forall2_trans; [apply same_layer_trans|exact Hg|]. apply (map_layers_same (remove_to t)).
Qed.
End Any.

(** The stitch points of the tests, layer 1 being stitched again. *)
Example ex_C31_at_points : exists m' m3, plain basic_layers /\ (forall l, In l (layers basic_layers) -> layer_wf l) /\
  (forall from to ps, In ((from, to), ps) basic_points -> from <> to /\ ps <> []) /\
  stitch_at_points std_sort basic_layers basic_points false = Ok m' /\
  restitch_layer_at_points std_sort (remove_stitches_to_layer m' 1) 1 basic_points false = Ok m3 /\
  lists m3 1 3 L2 /\ ~ lists (remove_stitches_to_layer m' 1) 1 3 L2.
Proof.
  assert (HP : plain basic_layers) by (apply plainb_ok; vmc). assert (HW : forall l, In l (layers basic_layers) -> layer_wf l) by (apply layers_wfb_ok; vmc).
  assert (HS : forall from to ps, In ((from, to), ps) basic_points -> from <> to /\ ps <> []).
  { intros from to ps [H|[H|[H|[]]]]; injection H as <- <- <-; (split; [discriminate|discriminate]). }
  assert (G : match stitch_at_points std_sort basic_layers basic_points false with
              | Ok m' => match corner_at m' 1 3, corner_at (remove_stitches_to_layer m' 1) 1 3 with
                         | Some (a, _), Some (b, _) => memN L2 a && negb (memN L2 b)
                         | _, _ => false
                         end
              | _ => false end = true) by vmc.
  destruct (stitch_at_points std_sort basic_layers basic_points false) as [m'| | |] eqn:E; try discriminate G.
  destruct (C31_restitch_layer_at_points std_sort basic_layers basic_points false m' 1 std_sort_ok HP HW HS E) as (m3 & E3 & _ & _ & _ & HL).
  exists m', m3. split; [exact HP|]. split; [exact HW|]. split; [exact HS|]. split; [reflexivity|]. split; [exact E3|].
  unfold corner_at in G.
  destruct (nthN (layers m') 1) as [l1|] eqn:E1; [|discriminate G]. destruct (nthN (vertices l1) 3) as [v1|] eqn:E2; [|discriminate G]. cbn [option_map] in G.
  destruct (nthN (layers (remove_stitches_to_layer m' 1)) 1) as [l2|] eqn:E4; [|discriminate G]. destruct (nthN (vertices l2) 3) as [v2|] eqn:E5; [|discriminate G]. cbn [option_map] in G.
  apply andb_true_iff in G. destruct G as [G1 G2]. apply negb_true_iff in G2. split.
  - apply HL. exists v1. split; [exists l1; auto|]. split; [now apply memN_In|discriminate].
  - intros (w & (l & W1 & W2) & Hi & _). assert (l = l2) by congruence. subst l. assert (w = v2) by congruence. subst w. apply memN_In in Hi. congruence.
Qed.
