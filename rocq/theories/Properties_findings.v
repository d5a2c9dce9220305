(** Counterexamples, in binary32, to properties a user would expect (C15, C24), and what does hold for C24. *)
From Coq Require Import List NArith ZArith Bool Lia.
From Verif Require Import Base Arith F32 U32 Mesh Helpers Locate Bake Search StdLib Tests Spec Checkers Search_facts Properties_mesh.
Import ListNotations.
Open Scope N_scope.

(** ** C15 *)
(** Two polygons share the short edge from (0, 0) to (0, 0.00005).  The cross product with so short an edge is below the
    side tolerance for every point within 2 of its line, so the start (-1, 0) and the destination (1, 0) both count as on
    the line of the edge, and the heuristic mirrors one onto the other: the reported length is 0. *)
Definition sliver_mesh : Mesh F32 := mesh1
  [vtx (-1) 1 [0; MAX]; vtx (-1) (-1) [0; MAX]; vtx 0 0 [0; 1; MAX]; vertex_new (V (q 0 1) (q 5 100000)) [1; 0; MAX];
   vtx 1 (-1) [1; MAX]; vtx 1 1 [1; MAX]]
  [mkPolygon [0; 1; 2; 3] true; mkPolygon [4; 5; 3; 2] true].

Theorem C15_refuted : exists (m : Mesh F32) (from to : vec2 F32) (p : Path F32),
  mesh_wf m /\ mesh_small m /\ path lib32 m (at_ from) (at_ to) = Ok (Some p) /\
  vdist from to = q 2 1 /\ plength p = q 0 1.
Proof.
  assert (G : exists p, path lib32 sliver_mesh (at_ (pt (-1) 0)) (at_ (pt 1 0)) = Ok (Some p) /\ plength p = q 0 1).
  { assert (H : match path lib32 sliver_mesh (at_ (pt (-1) 0)) (at_ (pt 1 0)) with
                         | Ok (Some p) => plength p | _ => q 1 1 end = q 0 1) by vmc.
    destruct (path lib32 sliver_mesh (at_ (pt (-1) 0)) (at_ (pt 1 0))) as [[p|]| | |]; try discriminate H. now exists p. }
  destruct G as (p & G1 & G2). exists sliver_mesh, (pt (-1) 0), (pt 1 0), p.
  split; [apply mesh_wfb_ok; vmc|]. split; [apply mesh_smallb_ok; vmc|]. split; [exact G1|]. split; [vmc|exact G2].
Qed.

(** ** C24 *)
(** A run of the search: [k] steps (FindPath::next), none of which finds the path, lead from [st] to [st']. *)
Inductive steps {A : Arith} (lib : Lib A) (c : Ctx A) : nat -> State A -> State A -> Prop :=
| steps_0 st : steps lib c 0 st st
| steps_S k st st1 st2 : next lib c st = Ok (st1, Continue) -> steps lib c k st1 st2 -> steps lib c (S k) st st2.

(** When no path is returned, then one of the ends is not on the mesh, or the islands say that it is useless to try,
    or the search has run out of open nodes, or it has made 10 x (number of polygons) steps. *)
Theorem C24_why_no_path_partial {A : Arith} (lib : Lib A) (m : Mesh A) (from to : Coords A) (blocked : list N) :
  path_on_layers lib m from to blocked = Ok None ->
  locate_end lib m from = Ok None \/ locate_end lib m to = Ok None \/
  exists ps pe, locate_end lib m from = Ok (Some ps) /\ locate_end lib m to = Ok (Some pe) /\
    (islands_reject m ps pe = Ok true \/
     (ps <> pe /\
      exists st k st', setup (mkCtx m (cpos to) pe blocked) (cpos from) ps = Ok st /\
        steps lib (mkCtx m (cpos to) pe blocked) k st st' /\
        ((k <= 10 * length (flat_map polygons (layers m)))%nat /\ lpop lib (squeue st') = None \/
         k = (10 * length (flat_map polygons (layers m)))%nat))).
Proof.
  unfold path_on_layers. intro H. inv_bind H. destruct a as [ps|]; [|left; exact E].
  inv_bind H. destruct a as [pe|]; [|right; left; exact E0]. inv_bind H. right; right. exists ps, pe.
  split; [exact E|]. split; [exact E0|].
  destruct a; [left; exact E1|right]. destruct (N.eqb_spec ps pe); [discriminate|]. split; [assumption|].
  inv_bind H. exists a.
  assert (G : forall k st, run k lib (mkCtx m (cpos to) pe blocked) st = Ok None ->
    exists j st', steps lib (mkCtx m (cpos to) pe blocked) j st st' /\
      ((j <= k)%nat /\ lpop lib (squeue st') = None \/ j = k)).
  { clear. induction k as [|k IH]; intros st H.
    - exists 0%nat, st. split; [constructor|now right].
    - cbn [run] in H. inv_bind H. destruct a as [st1 s]. cbn [fst snd] in H. destruct s as [p| |].
      + discriminate.
      + exists 0%nat, st. split; [constructor|]. left. split; [lia|]. unfold next in E.
        destruct (lpop lib (squeue st)) as [[n q]|]; [|reflexivity]. cbv zeta in E.
        destruct (match hist_get _ _ with Some o => _ | None => _ end); [discriminate|].
        destruct (N.eqb _ _); [discriminate|]. inv_bind E. discriminate.
      + destruct (IH st1 H) as (j & st' & H1 & H2). exists (S j), st'. split; [econstructor; eassumption|].
        destruct H2 as [[H2 H3]| ->]; [left; split; [lia|assumption]|now right]. }
  destruct (G _ _ H) as (k & st' & H1 & H2). exists k, st'. split; [exact E2|]. split; [exact H1|].
  assert (EC : count_polygons m = length (flat_map polygons (layers m))).
  { unfold count_polygons. induction (layers m) as [|l ls IH]; [reflexivity|]. simpl. rewrite app_length. lia. }
  rewrite EC, Nat.mul_comm in H2. exact H2.
Qed.

(** A comb: a flat polygon below with 40 collinear vertices on its upper side, shared with a second one on top of it, that
    only opens on its far right on a third one, with the destination on the left above.  All nodes through the
    comb look better than those through the right, and there are more of them than the 30 steps allowed. *)
Definition comb_mesh : Mesh F32 := mesh1
  (map (fun k => vtx (Z.of_N k) 0 (if (k =? 0) || (k =? 40) then [0; 1; MAX] else [0; 1])) (rangeN 41) ++
   [vtx 0 (-1) [0; MAX]; vtx 40 (-1) [0; MAX]; vtx 40 1 [1; 2; MAX]; vtx 39 1 [1; MAX; 2]; vtx 0 1 [1; MAX];
    vtx 40 3 [2; MAX]; vtx 0 3 [2; MAX]])
  [mkPolygon (41 :: 42 :: rev (rangeN 41)) true; mkPolygon (rangeN 41 ++ [43; 44; 45]) false; mkPolygon [44; 43; 46; 47] true].

Theorem C24_refuted : exists (m : Mesh F32) (from to : vec2 F32) (xs : list Crossing),
  mesh_wf m /\ mesh_small m /\ unbaked m /\
  loc m from = Ok 0 /\ loc m to = Ok 2 /\ corridor m 0 xs 2 /\
  path lib32 m (at_ from) (at_ to) = Ok None.
Proof.
  exists comb_mesh, (pt10 10 (-5)), (V (q 15 10) (q 297 100)), ([] ++ [mkCross 0 40 39 1] ++ [mkCross 1 43 44 2]).
  split; [apply mesh_wfb_ok; vmc|]. split; [apply mesh_smallb_ok; vmc|]. split; [apply unbakedb_ok; vmc|].
  split; [vmc|]. split; [vmc|]. split; [|vmc].
  set (l := mkLayer (A:=F32) (match layers comb_mesh with l :: _ => vertices l | [] => [] end)
                    (match layers comb_mesh with l :: _ => polygons l | [] => [] end) vzero None None).
  rewrite app_assoc. apply (corridor_snoc comb_mesh 0 _ (mkCross 1 43 44 2)).
  - apply (corridor_snoc comb_mesh 0 [] (mkCross 0 40 39 1)); [constructor|].
    exists l, (mkPolygon (41 :: 42 :: rev (rangeN 41)) true), (vtx 40 0 [0; 1; MAX]), (vtx 39 0 [0; 1]).
    split; [split; vmc|]. split; [exists 2%nat; split; vmc|]. split; [vmc|]. split; [vmc|].
    split; [right; left; reflexivity|]. split; [right; left; reflexivity|]. split; discriminate.
  - exists l, (mkPolygon (rangeN 41 ++ [43; 44; 45]) false), (vtx 40 1 [1; 2; MAX]), (vtx 39 1 [1; MAX; 2]).
    split; [split; vmc|]. split; [exists 41%nat; split; vmc|]. split; [vmc|]. split; [vmc|].
    split; [right; left; reflexivity|]. split; [right; right; left; reflexivity|]. split; discriminate.
Qed.

Print Assumptions C15_refuted.
Print Assumptions C24_why_no_path_partial.
Print Assumptions C24_refuted.
