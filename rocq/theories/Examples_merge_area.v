(** C70 is not vacuous: a fan of three triangles, two of which are merged. *)
From Coq Require Import List NArith ZArith Bool Lia Reals Lra Psatz Permutation.
From Verif Require Import Base Arith U32 Mesh Helpers Cleanup Locate Search AsyncPath StdLib Spec RealArith Geometry Islands_facts Merger Merger_facts Rings Tests_merge Properties_geometry Properties_contain Examples_exact Spec_inside Sight Sight_search Examples_inside
  Spec_merge Spec_merge_area Spec_shortest Spec_area Zmesh Checkers Zarea Properties_area Examples_area Merge_area Properties_merge_area.
Import ListNotations.
Open Scope R_scope.

(** ** Tilings with integer coordinates, by computation *)
Definition zsplitb (p q : list zpt) : bool :=
  existsb (fun e => forallb (fun c => (zor (fst e) (snd e) c <=? 0)%Z) q) (zedges p) || existsb (fun e => forallb (fun c => (zor (fst e) (snd e) c <=? 0)%Z) p) (zedges q).
Fixpoint nodupb (l : list N) : bool := match l with [] => true | a :: r => negb (memN a r) && nodupb r end.
Definition zgeneralb vs (is : list N) : bool :=
  forallb (fun i => forallb (fun j => forallb (fun k => N.eqb i j || N.eqb i k || N.eqb j k || negb (Z.eqb (zor (zat vs i) (zat vs j) (zat vs k)) 0)) is) is) is.
Definition zlistedb (vs : list (zpt * list N)) (ps : list (list N)) : bool :=
  forallb (fun iv => forallb (fun id => match nthN ps id with Some p => memN (fst iv) p | None => true end) (snd (snd iv))) (enumerate vs).
Definition ztilingb (vs : list (zpt * list N)) (ps : list (list N)) : bool :=
  zwfb vs ps && forallb (fun p => negb (N.eqb (lengthN p) 0) && convexb (map (zat vs) p) && nodupb p) ps && 
  forallb (fun ip => forallb (fun jq => N.eqb (fst ip) (fst jq) || zsplitb (map (zat vs) (snd ip)) (map (zat vs) (snd jq))) (enumerate ps)) (enumerate ps) &&
  zgeneralb vs (concat ps) && zlistedb vs ps.
Lemma nodupb_ok l : nodupb l = true -> NoDup l.
Proof.
  induction l as [|a r IH]; intro H; constructor; cbn [nodupb] in H; apply andb_prop in H; destruct H as [H1 H2]; [|now apply IH].
  intro K. apply memN_In in K. rewrite K in H1. discriminate.
Qed.
Lemma split_out p q x : q <> [] -> convex (map zp q) -> existsb (fun e => forallb (fun c => (zor (fst e) (snd e) c <=? 0)%Z) q) (zedges p) = true ->
  strictly_inside (map zp p) x -> inside (map zp q) x -> False.
Proof.
  intros Hq Cq H X1 X2. apply existsb_exists in H. destruct H as ([a b] & He & H). cbn [fst snd] in H. rewrite forallb_forall in H.
  assert (G : In (zp a, zp b) (poly_edges (map zp p))) by (rewrite zedges_map; exact (in_map (fun e => (zp (fst e), zp (snd e))) _ _ He)).
  specialize (X1 _ _ G). apply inside_hull in X2; [|destruct q; [contradiction|discriminate]|exact Cq].
  specialize (X2 (P (py (zp a) - py (zp b)) (px (zp b) - px (zp a))) (pdot (P (py (zp a) - py (zp b)) (px (zp b) - px (zp a))) (zp a))).
  assert (E : forall y, orient (zp a) (zp b) y = pdot (P (py (zp a) - py (zp b)) (px (zp b) - px (zp a))) y - pdot (P (py (zp a) - py (zp b)) (px (zp b) - px (zp a))) (zp a)).
  { generalize (zp a), (zp b). clear. intros [x1 y1] [x2 y2] [x3 y3]. unfold orient, cross, psub, pdot. cbn [px py]. ring. }
  rewrite E in X1. apply Rle_not_lt in X2; [apply X2; lra|]. intros c Hc. apply in_map_iff in Hc. destruct Hc as (z & <- & Hz). specialize (H z Hz). apply Z.leb_le, IZR_le in H.
  pose proof (E (zp z)) as K. rewrite zor_R in K. lra.
Qed.
Lemma zm_tiling vs ps : ztilingb vs ps = true -> tiling (zlayer vs ps).
Proof.
  unfold ztilingb. rewrite !andb_true_iff. intros ((((HW & HC) & HS) & HG) & HL). unfold zwfb in HW. rewrite forallb_forall in HW, HC, HS.
  assert (HP : forall p, In p (polygons (zlayer vs ps)) -> exists p', In p' ps /\ p = mkPolygon p' false).
  { intros p Hp. cbn [polygons zlayer] in Hp. apply in_map_iff in Hp. destruct Hp as (p' & <- & H). eauto. }
  assert (HC' : forall p, In p ps -> p <> [] /\ convex (map zp (map (zat vs) p)) /\ NoDup p).
  { intros p Hp. specialize (HC p Hp). rewrite !andb_true_iff in HC. destruct HC as ((H1 & H2) & H3). split; [intros ->; discriminate|]. split; [now apply convexb_ok|now apply nodupb_ok]. }
  assert (HR : forall p, In p ps -> ring_at (zlayer vs ps) (mkPolygon p false) (map zp (map (zat vs) p))).
  { intros p Hp. specialize (HW p Hp). unfold ring_at. cbn [pverts]. clear Hp. induction p as [|i p IH]; [constructor|]. cbn [forallb] in HW. apply andb_prop in HW. destruct HW as [H1 H2].
    cbn [map]. constructor; [|now apply IH]. apply zm_at_self. now apply N.ltb_lt. }
  constructor.
  - intros p Hp. destruct (HP p Hp) as (p' & H & ->). destruct (HC' p' H) as (H1 & H2 & _). exists (map zp (map (zat vs) p')). split; [now apply HR|]. split; [destruct p'; [contradiction|discriminate]|exact H2].
  - intros p Hp. destruct (HP p Hp) as (p' & H & ->). exact (proj2 (proj2 (HC' p' H))).
  - intros i j p q qs qs' x Hne Hp Hq R1 R2 X1 X2. cbn [polygons zlayer] in Hp, Hq. rewrite nthN_map in Hp, Hq.
    destruct (nthN ps i) as [p'|] eqn:Ep; [|discriminate]. destruct (nthN ps j) as [q'|] eqn:Eq; [|discriminate]. cbn [option_map] in Hp, Hq.
    assert (p = mkPolygon p' false) by congruence. assert (q = mkPolygon q' false) by congruence. subst p q.
    assert (Hp' := nthN_In _ _ _ Ep). assert (Hq' := nthN_In _ _ _ Eq). destruct (HC' _ Hp') as (N1 & C1 & _). destruct (HC' _ Hq') as (N2 & C2 & _).
    rewrite (ring_at_pos _ _ _ R1), <- (ring_at_pos _ _ _ (HR p' Hp')) in X1. rewrite (ring_at_pos _ _ _ R2), <- (ring_at_pos _ _ _ (HR q' Hq')) in X2.
    assert (Ii : In (i, p') (enumerate ps)) by (apply enumerate_spec; exact Ep). assert (Ij : In (j, q') (enumerate ps)) by (apply enumerate_spec; exact Eq).
    specialize (HS _ Ii). rewrite forallb_forall in HS. specialize (HS _ Ij). cbn [fst snd] in HS. apply orb_prop in HS. destruct HS as [HS|HS]; [apply N.eqb_eq in HS; contradiction|].
    assert (N1' : map (zat vs) p' <> []) by (destruct p'; [contradiction|discriminate]). assert (N2' : map (zat vs) q' <> []) by (destruct q'; [contradiction|discriminate]).
    unfold zsplitb in HS. apply orb_prop in HS. destruct HS as [HS|HS]; [exact (split_out _ _ x N2' C2 HS X1 X2)|].
    assert (N3 : map zp (map (zat vs) q') <> []) by (destruct q'; [contradiction|discriminate]).
    destruct (strict_point _ N3 C2 (poly_edges (map zp (map (zat vs) q'))) (fun e He => He)) as (y & _ & Y).
    destruct (nearby x y (poly_edges (map zp (map (zat vs) p'))) X1) as (t & Ht & Z).
    apply (split_out _ _ (lerp x y t) N1' C1 HS).
    + intros a0 b0 He. rewrite orient_lerp3. pose proof (X2 a0 b0 He) as K1. pose proof (Y a0 b0 He) as K2. nra.
    + intros a0 b0 He. apply Rlt_le, Z; [lra|exact He].
  - intros i j k a b c N1 N2 N3 (p & Hp & Ii) (q & Hq & Ij) (r & Hr & Ik) W1 W2 W3.
    destruct (HP p Hp) as (p' & Hp' & ->). destruct (HP q Hq) as (q' & Hq' & ->). destruct (HP r Hr) as (r' & Hr' & ->). cbn [pverts] in Ii, Ij, Ik.
    assert (Gi : In i (concat ps)) by (apply in_concat; eauto). assert (Gj : In j (concat ps)) by (apply in_concat; eauto). assert (Gk : In k (concat ps)) by (apply in_concat; eauto).
    unfold zgeneralb in HG. rewrite forallb_forall in HG. specialize (HG i Gi). rewrite forallb_forall in HG. specialize (HG j Gj). rewrite forallb_forall in HG. specialize (HG k Gk).
    apply N.eqb_neq in N1, N2, N3. rewrite N1, N2, N3 in HG. cbn [orb] in HG. apply negb_true_iff, Z.eqb_neq in HG.
    apply zm_at in W1, W2, W3. destruct W1 as [_ ->], W2 as [_ ->], W3 as [_ ->]. rewrite zor_R. intro E. apply HG. apply eq_IZR. change (IZR 0) with 0. lra.
  - intros i v id p Hv Hid Hp. cbn [vertices polygons zlayer] in Hv, Hp. rewrite nthN_map in Hv. rewrite nthN_map in Hp. destruct (nthN vs i) as [[z nb]|] eqn:Ev; [|discriminate].
    destruct (nthN ps id) as [p'|] eqn:Ep; [|discriminate]. cbn [option_map] in Hv, Hp. assert (v = zv (z, nb)) by congruence. assert (p = mkPolygon p' false) by congruence. subst v p. cbn [vpolys zv vertex_new snd] in Hid.
    unfold zlistedb in HL. rewrite forallb_forall in HL. assert (Ii : In (i, (z, nb)) (enumerate vs)) by (apply enumerate_spec; exact Ev).
    specialize (HL _ Ii). cbn [fst snd] in HL. rewrite forallb_forall in HL. specialize (HL id Hid). rewrite Ep in HL. now apply memN_In in HL.
Qed.

(** ** The exact convexity test on integers *)
Fixpoint ztriples (l : list zpt) : list (zpt * zpt * zpt) := match l with a :: ((b :: c :: _) as r) => (a, b, c) :: ztriples r | _ => [] end.
Definition zring (l : list zpt) : list (zpt * zpt * zpt) := match l with a :: b :: _ => ztriples (l ++ [a; b]) | _ => [] end.
Definition zturn (t : zpt * zpt * zpt) : Z := zor (fst (fst t)) (snd (fst t)) (snd t).
Definition zconvex (l : list zpt) : bool := forallb (fun t => (0 <=? zturn t)%Z) (zring l) && existsb (fun t => (0 <? zturn t)%Z) (zring l).
Definition zt (t : zpt * zpt * zpt) : vec2 RA * vec2 RA * vec2 RA := (vp (zp (fst (fst t))), vp (zp (snd (fst t))), vp (zp (snd t))).
Lemma ztriples_map l : triples (map (fun z => vp (zp z)) l) = map zt (ztriples l).
Proof.
  induction l as [|a l IH]; [reflexivity|]. destruct l as [|b [|c l]]; [reflexivity|reflexivity|]. 
  change (triples (map (fun z => vp (zp z)) (a :: b :: c :: l))) with (zt (a, b, c) :: triples (map (fun z => vp (zp z)) (b :: c :: l))).
  change (ztriples (a :: b :: c :: l)) with ((a, b, c) :: ztriples (b :: c :: l)). cbn [map]. f_equal. exact IH.
Qed.
Lemma zturn_R t : turn (zt t) = Some (IZR (zturn t) / 9).
Proof.
  destruct t as [[a b] c]. unfold turn, zt, zturn. cbn [fst snd]. rewrite !vsub_vp, perp_dot_vp, <- zor_R. f_equal. generalize (zp a), (zp b), (zp c). clear. intros [x1 y1] [x2 y2] [x3 y3].
  unfold orient, cross, psub. cbn [px py]. ring.
Qed.
Lemma std_convex_z l : std_convex (map (fun z => vp (zp z)) l) = zconvex l.
Proof.
  unfold std_convex, zconvex. assert (E : ring_triples (map (fun z => vp (zp z)) l) = map zt (zring l)).
  { destruct l as [|a [|b l]]; [reflexivity|reflexivity|]. unfold ring_triples, zring. rewrite <- ztriples_map, map_app. reflexivity. }
  rewrite E. generalize (zring l). clear. intro ts. f_equal.
  - induction ts as [|t ts IH]; [reflexivity|]. cbn [map forallb]. rewrite IH, zturn_R, fz_R. f_equal. cbn [fle RA].
    destruct (Z.leb_spec 0 (zturn t)) as [H|H]; [apply rleb_true; apply IZR_le in H; lra|apply rleb_false; apply IZR_lt in H; lra].
  - induction ts as [|t ts IH]; [reflexivity|]. cbn [map existsb]. rewrite IH, zturn_R, fz_R. f_equal. cbn [flt RA].
    destruct (Z.ltb_spec 0 (zturn t)) as [H|H]; [apply rltb_true; apply IZR_lt in H; lra|apply rltb_false; apply IZR_le in H; lra].
Qed.

(** ** Merging the fan, in exact arithmetic *)
Definition no_area (cs : list (vec2 RA)) : F RA := Some 0.
Definition no_sort (l : list (N * F RA)) : list (N * F RA) := l.
Definition half_vs : list (zpt * list N) := [((0, 0)%Z, [0; 1; MAX]%N); ((9, -4)%Z, [0; MAX]%N); ((10, 9)%Z, [0; MAX]%N); ((-9, 11)%Z, [0; 1; MAX]%N); ((-8, -5)%Z, [1; MAX]%N)].
Definition half_ps : list (list N) := [[0; 1; 2; 3]%N; [0; 3; 4]%N].
Definition half : Mesh RA := zmesh half_vs half_ps.
Lemma fine_tiling : tiling (zlayer fine_vs fine_ps).
Proof. apply zm_tiling. vm_compute. reflexivity. Qed.
Section Fan.
Context {A : Arith}.
Variable cvx : list (vec2 A) -> bool.
Variable z : F A.
Hypothesis Hz : fnan z = false.
Variables p0 p1 p2 p3 p4 o : vec2 A.
Definition fan_before : Layer A := mkLayer [vertex_new p0 [0; 1; 2; MAX]%N; vertex_new p1 [0; MAX]%N; vertex_new p2 [0; 1; MAX]%N; vertex_new p3 [1; 2; MAX]%N; vertex_new p4 [2; MAX]%N]
  [mkPolygon [0; 1; 2]%N false; mkPolygon [0; 2; 3]%N false; mkPolygon [0; 3; 4]%N false] o None None.
Definition fan_after : Layer A := mkLayer [vertex_new p0 [0; 1; MAX]%N; vertex_new p1 [0; MAX]%N; vertex_new p2 [0; MAX]%N; vertex_new p3 [0; 1; MAX]%N; vertex_new p4 [1; MAX]%N]
  [mkPolygon [0; 1; 2; 3]%N false; mkPolygon [0; 3; 4]%N false] o None None.
Lemma fan_once : cvx [p0; p1; p2; p3] = true -> layer_merge (fun _ => z) (fun l => l) cvx fan_before = Ok (fan_after, true).
Proof using Hz.
  intro H. unfold layer_merge. assert (EO : merge_order (fun _ => z) (fun l => l) fan_before = Ok [0; 1; 2]%N) by (unfold merge_order; cbn; rewrite Hz; reflexivity).
  rewrite EO. cbn [bind foldM].
  assert (E0 : merge_step cvx (vertices fan_before) (polygons fan_before, uf_new (polygons fan_before)) 0 =
    Ok ([mkPolygon [0; 1; 2; 3]%N false; mkPolygon [0; 2; 3]%N false; mkPolygon [0; 3; 4]%N false], [0; 0; 2]%N)).
  { unfold merge_step. lazy. rewrite H. reflexivity. }
  rewrite E0. cbn [bind]. lazy. reflexivity.
Qed.
Lemma fan_done : cvx [p0; p1; p2; p3; p4] = false -> cvx [p3; p4; p0; p1; p2] = false -> layer_merge (fun _ => z) (fun l => l) cvx fan_after = Ok (fan_after, false).
Proof using Hz.
  intros H1 H2. unfold layer_merge. assert (EO : merge_order (fun _ => z) (fun l => l) fan_after = Ok [0; 1]%N) by (unfold merge_order; cbn; rewrite Hz; reflexivity).
  rewrite EO. cbn [bind foldM].
  assert (E0 : merge_step cvx (vertices fan_after) (polygons fan_after, uf_new (polygons fan_after)) 0 = Ok (polygons fan_after, uf_new (polygons fan_after))).
  { unfold merge_step. lazy. try rewrite H1; try rewrite H2. reflexivity. }
  rewrite E0. cbn [bind]. 
  assert (E1 : merge_step cvx (vertices fan_after) (polygons fan_after, uf_new (polygons fan_after)) 1 = Ok (polygons fan_after, uf_new (polygons fan_after))).
  { unfold merge_step. lazy. try rewrite H1; try rewrite H2. reflexivity. }
  rewrite E1. lazy. reflexivity.
Qed.
End Fan.
Lemma merge_twice {A : Arith} ar so cvx (l l1 : Layer A) d s : layer_merge ar so cvx l = Ok (l1, true) -> layer_merge ar so cvx l1 = Ok (l1, false) ->
  merge_all ar so cvx 2 (mkMesh [l] d s) = Ok (mkMesh [l1] d s).
Proof.
  intros H1 H2. cbn [merge_all]. unfold mesh_merge. cbn [layers until_true]. rewrite H1. cbn [bind fst snd merge_all search_delta search_steps layers until_true]. rewrite H2. reflexivity.
Qed.
Lemma zero_number : fnan (Some 0 : F RA) = false.
Proof. reflexivity. Qed.
Lemma fine_merged : merge_all no_area no_sort std_convex 2 fine = Ok half.
Proof.
  assert (C1 : std_convex (A:=RA) [vp (zp (0, 0)%Z); vp (zp (9, -4)%Z); vp (zp (10, 9)%Z); vp (zp (-9, 11)%Z)] = true) by exact (std_convex_z [(0, 0); (9, -4); (10, 9); (-9, 11)]%Z).
  assert (C2 : std_convex (A:=RA) [vp (zp (0, 0)%Z); vp (zp (9, -4)%Z); vp (zp (10, 9)%Z); vp (zp (-9, 11)%Z); vp (zp (-8, -5)%Z)] = false)
    by exact (std_convex_z [(0, 0); (9, -4); (10, 9); (-9, 11); (-8, -5)]%Z).
  assert (C3 : std_convex (A:=RA) [vp (zp (-9, 11)%Z); vp (zp (-8, -5)%Z); vp (zp (0, 0)%Z); vp (zp (9, -4)%Z); vp (zp (10, 9)%Z)] = false)
    by exact (std_convex_z [(-9, 11); (-8, -5); (0, 0); (9, -4); (10, 9)]%Z).
  pose proof (fan_once std_convex (Some 0 : F RA) zero_number _ _ _ _ (vp (zp (-8, -5)%Z)) (vp (P 0 0)) C1) as M1.
  pose proof (fan_done std_convex (Some 0 : F RA) zero_number _ _ _ _ _ (vp (P 0 0)) C2 C3) as M2.
  exact (merge_twice no_area no_sort std_convex _ _ _ _ M1 M2).
Qed.

(** The hypotheses of C70_merge_layer, C70_merge_mesh, C70_merge_loop and C70_same_area. *)
Example ex_C70 : tiling (zlayer fine_vs fine_ps) /\ never_right std_convex /\
  layer_merge no_area no_sort std_convex (zlayer fine_vs fine_ps) = Ok (zlayer half_vs half_ps, true) /\
  merge_all no_area no_sort std_convex 2 fine = Ok half /\ (forall x, area half [] 0 x <-> area fine [] 0 x) /\
  (exists x, area half [] 0 x) /\ ~ area half [] 0 (zp (0, -3)%Z).
Proof.
  split; [exact fine_tiling|]. split; [exact std_convex_never_right|]. split.
  { assert (C1 : std_convex (A:=RA) [vp (zp (0, 0)%Z); vp (zp (9, -4)%Z); vp (zp (10, 9)%Z); vp (zp (-9, 11)%Z)] = true) by exact (std_convex_z [(0, 0); (9, -4); (10, 9); (-9, 11)]%Z).
    exact (fan_once std_convex (Some 0 : F RA) zero_number _ _ _ _ (vp (zp (-8, -5)%Z)) (vp (P 0 0)) C1). }
  split; [exact fine_merged|]. split; [|split].
  - apply (C70_same_area no_area no_sort std_convex 2 fine half 0 0 std_convex_never_right); [|apply mesh_smallb_ok; reflexivity|exact fine_merged].
    intros l [<-|[]]. exact fine_tiling.
  - exists (zp (5, -1)%Z). unfold half. apply zm_area; [vm_compute; reflexivity|vm_compute; reflexivity|]. exists [0; 1; 2; 3]%N. split; [now left|].
    change (inside [zp (0, 0); zp (9, -4); zp (10, 9); zp (-9, 11)]%Z (zp (5, -1)%Z)). apply (proj2 (inside4 _ _ _ _ _)). rewrite !zor_R. cbn. repeat split; lra.
  - unfold half. intro H. apply (proj1 (zm_area half_vs half_ps 0 _ eq_refl eq_refl)) in H. destruct H as (p & Hp & H). destruct Hp as [<-|[<-|[]]].
    + change (inside [zp (0, 0); zp (9, -4); zp (10, 9); zp (-9, 11)]%Z (zp (0, -3)%Z)) in H. apply (proj1 (inside4 _ _ _ _ _)) in H. rewrite !zor_R in H. cbn in H. lra.
    + change (inside [zp (0, 0); zp (-9, 11); zp (-8, -5)]%Z (zp (0, -3)%Z)) in H. apply (proj1 (inside3 _ _ _ _)) in H. rewrite !zor_R in H. cbn in H. lra.
Qed.

(** ** Two triangles merged into one quadrilateral: the hypotheses of C70_same_length *)
Definition one_vs : list (zpt * list N) := [((0, 0)%Z, [0; MAX]%N); ((10, -1)%Z, [0; MAX]%N); ((12, 9)%Z, [0; MAX]%N); ((-1, 10)%Z, [0; MAX]%N)].
Definition one_ps : list (list N) := [[0; 1; 2; 3]%N].
Definition one : Mesh RA := zmesh one_vs one_ps.
Section Pair.
Context {A : Arith}.
Variable cvx : list (vec2 A) -> bool.
Variable z : F A.
Hypothesis Hz : fnan z = false.
Variables p0 p1 p2 p3 o : vec2 A.
Definition pair_before : Layer A := mkLayer [vertex_new p0 [0; 1; MAX]%N; vertex_new p1 [0; MAX]%N; vertex_new p2 [0; 1; MAX]%N; vertex_new p3 [1; MAX]%N]
  [mkPolygon [0; 1; 2]%N false; mkPolygon [0; 2; 3]%N false] o None None.
Definition pair_after : Layer A := mkLayer [vertex_new p0 [0; MAX]%N; vertex_new p1 [0; MAX]%N; vertex_new p2 [0; MAX]%N; vertex_new p3 [0; MAX]%N]
  [mkPolygon [0; 1; 2; 3]%N false] o None None.
Lemma pair_once : cvx [p0; p1; p2; p3] = true -> layer_merge (fun _ => z) (fun l => l) cvx pair_before = Ok (pair_after, true).
Proof using Hz.
  intro H. unfold layer_merge. assert (EO : merge_order (fun _ => z) (fun l => l) pair_before = Ok [0; 1]%N) by (unfold merge_order; cbn; rewrite Hz; reflexivity).
  rewrite EO. cbn [bind foldM].
  assert (E0 : merge_step cvx (vertices pair_before) (polygons pair_before, uf_new (polygons pair_before)) 0 =
    Ok ([mkPolygon [0; 1; 2; 3]%N false; mkPolygon [0; 2; 3]%N false], [0; 0]%N)).
  { unfold merge_step. lazy. rewrite H. reflexivity. }
  rewrite E0. cbn [bind]. lazy. reflexivity.
Qed.
Lemma pair_done : layer_merge (fun _ => z) (fun l => l) cvx pair_after = Ok (pair_after, false).
Proof. lazy. reflexivity. Qed.
End Pair.
Lemma cut1_merged : merge_all no_area no_sort std_convex 2 cut1 = Ok one.
Proof.
  assert (C1 : std_convex (A:=RA) [vp (zp (0, 0)%Z); vp (zp (10, -1)%Z); vp (zp (12, 9)%Z); vp (zp (-1, 10)%Z)] = true) by exact (std_convex_z [(0, 0); (10, -1); (12, 9); (-1, 10)]%Z).
  pose proof (pair_once std_convex (Some 0 : F RA) zero_number _ _ _ _ (vp (P 0 0)) C1) as M1.
  exact (merge_twice no_area no_sort std_convex _ _ _ _ M1 (pair_done std_convex (Some 0 : F RA) _ _ _ _ _)).
Qed.
Lemma one_proper : proper std_lib one [] low high 0 0.
Proof. apply zm_proper; [apply mesh_smallb_ok; reflexivity|vm_compute; reflexivity..]. Qed.
Example ex_C70_same_length : exists p1 p2, (forall l, In l (layers cut1) -> tiling l) /\ merge_all no_area no_sort std_convex 2 cut1 = Ok one /\
  proper std_lib cut1 [] low high 0 1 /\ proper std_lib one [] low high 0 0 /\
  path_on_layers std_lib cut1 (in_polygon low 0) (in_polygon high 1) [] = Ok (Some p1) /\ path_on_layers std_lib one (in_polygon low 0) (in_polygon high 0) [] = Ok (Some p2) /\
  plength p1 = plength p2.
Proof.
  assert (HT : forall l, In l (layers cut1) -> tiling l) by (intros l [<-|[]]; apply zm_tiling; vm_compute; reflexivity).
  destruct (first_step cut1 low high 0 1 (padd (zp (12, 9)%Z) (P 0 0)) (padd (zp (0, 0)%Z) (P 0 0)) 2 0 19) as (p1 & H1); try discriminate; try reflexivity.
  { intro H. unfold padd, zp in H. cbn [px py fst snd] in H. injection H as H _. lra. }
  assert (H2 : path_on_layers std_lib one (in_polygon low 0) (in_polygon high 0) [] = Ok (Some (mkPath (vdist (vp low) (vp high)) [vp high]))) by reflexivity.
  eexists p1, _. split; [exact HT|]. split; [exact cut1_merged|]. split; [exact cut1_proper|]. split; [exact one_proper|]. split; [exact H1|]. split; [exact H2|].
  exact (C70_same_length no_area no_sort std_convex 2 cut1 one std_lib std_lib (in_polygon low 0) (in_polygon high 1) (in_polygon low 0) (in_polygon high 0) p1 _ low high 0 1 0 0
    std_convex_never_right HT (mesh_smallb_ok cut1 eq_refl) cut1_merged cut1_proper one_proper eq_refl eq_refl (at_polygon _ _ _ M0) (at_polygon _ _ _ M1) eq_refl eq_refl (at_polygon _ _ _ M0) (at_polygon _ _ _ M0) H1 H2).
Qed.
