(** C73 and C74: concrete cases that meet the hypotheses. *)
From Coq Require Import List NArith ZArith Bool Lia Reals Lra.
From Coq.Floats Require Import SpecFloat.
From Flocq Require Import Core BinarySingleNaN.
From Verif Require Import Base Arith RealArith F32 Decimal32_real Spec_f32 F32_real Side32 Length32 Reach32 End32 U32 Mesh Helpers Locate Bake Search StdLib Spec Tests
  Checkers Search_facts Search_props Properties_contain Geometry Heuristic Properties_search Properties_f32 Properties_length32.
Import ListNotations.
Open Scope R_scope.

(** integers and halves *)
Lemma num_lit (n : Z) (d : positive) s m (e : Z) r : s_lit n d = S754_finite s m e -> valid_binary prec32 emax32 (S754_finite s m e) = true ->
  F2R (Float radix2 (cond_Zopp s (Z.pos m)) e) = r -> num (q n d) r.
Proof. intros E V R. unfold q. cbn [flit F32 F32with]. rewrite E. split; [exact V|]. split; [reflexivity|exact R]. Qed.
Ltac lit s m e k := apply (num_lit _ _ s m e); [vm_compute; reflexivity|reflexivity|unfold F2R; cbn [Fnum Fexp cond_Zopp]; change (bpow radix2 e) with k; lra].
Lemma n0 : num (q 0 1) 0. Proof. unfold q. cbn [flit F32 F32with]. change (s_lit 0 1) with (S754_zero false). apply num_zero. Qed.
Lemma n1 : num (q 1 1) 1. Proof. lit false 8388608%positive (-23)%Z (/ 8388608). Qed.
Lemma nh : num (q 5 10) (1 / 2). Proof. lit false 8388608%positive (-24)%Z (/ 16777216). Qed.

Definition ulayer : Layer F32 := match layers mesh_u_grid with l :: _ => l | [] => mkLayer [] [] vzero None None end.
Definition square : Polygon := mkPolygon [0; 1; 5; 4]%N false.
Definition usquare : list P2 := [P 0 0; P 1 0; P 1 1; P 0 1].
Lemma vertex_eq (i : N) x y : nthN (map coords (vertices ulayer)) i = Some (pt x y) -> exists v, nthN (vertices ulayer) i = Some v /\ coords v = pt x y.
Proof.
  generalize (vertices ulayer). intro l. revert i. induction l as [|v l IH]; intros i; [destruct i; discriminate|].
  cbn [map nthN]. destruct (N.eqb i 0); [intro H; injection H as H; exists v; auto|apply IH].
Qed.
Lemma corner_of (i : N) x y a b : nthN (map coords (vertices ulayer)) i = Some (pt x y) -> num (q x 1) a -> num (q y 1) b ->
  exists v, nthN (vertices ulayer) i = Some v /\ at32 (coords v) (P a b).
Proof. intros H Ha Hb. destruct (vertex_eq i x y H) as (v & H1 & H2). exists v. split; [exact H1|]. pose proof (f_equal vx H2) as E1. pose proof (f_equal vy H2) as E2. split; cbn [px py]; [cut (num (vx (coords v)) a)|cut (num (vy (coords v)) b)]; auto; [rewrite E1|rewrite E2]; assumption. Qed.
Lemma corners_square : corners32 ulayer square usquare.
Proof.
  unfold corners32, square, usquare. cbn [pverts]. repeat (apply Forall2_cons); [..|apply Forall2_nil].
  - exact (corner_of 0 0 0 0 0 eq_refl n0 n0).
  - exact (corner_of 1 1 0 1 0 eq_refl n1 n0).
  - exact (corner_of 5 1 1 1 1 eq_refl n1 n1).
  - exact (corner_of 4 0 1 0 1 eq_refl n0 n1).
Qed.
Lemma edges_square (Q : P2 -> P2 -> Prop) : Q (P 0 0) (P 1 0) -> Q (P 1 0) (P 1 1) -> Q (P 1 1) (P 0 1) -> Q (P 0 1) (P 0 0) -> forall a b, In (a, b) (poly_edges usquare) -> Q a b.
Proof. intros H1 H2 H3 H4 a b H. cbn in H. destruct H as [H|[H|[H|[H|[]]]]]; injection H as <- <-; assumption. Qed.
Lemma square_convex : strictly_convex usquare.
Proof.
  split; [cbn; lia|]. split.
  - unfold usquare. repeat (apply NoDup_cons; [cbn; intro H; repeat destruct H as [H|H]; try contradiction; injection H; lra|]). apply NoDup_nil.
  - intros a b c Hab Hc. revert a b Hab. apply (edges_square (fun a b => c <> a -> c <> b -> 0 < orient a b c)); cbn in Hc; intros N1 N2; (destruct Hc as [<-|[<-|[<-|[<-|[]]]]]); try contradiction; unfold orient, cross, psub; cbn [px py]; lra.
Qed.
Lemma square_moderate : Forall moderate usquare.
Proof. unfold usquare. repeat (apply Forall_cons; [split; cbn [px py]; rewrite Rabs_pos_eq; lra|]). apply Forall_nil. Qed.
Lemma grid1 (m n : Z) a b : (Z.abs m <= 1024)%Z -> (Z.abs n <= 1024)%Z -> a = IZR m / 2 -> b = IZR n / 2 -> on_grid 1 (P a b).
Proof. intros H1 H2 -> ->. exists m, n. auto. Qed.
Lemma square_grid : Forall (on_grid 1) usquare.
Proof.
  unfold usquare. apply Forall_cons; [apply (grid1 0 0); try lia; lra|]. apply Forall_cons; [apply (grid1 2 0); try lia; lra|].
  apply Forall_cons; [apply (grid1 2 2); try lia; lra|]. apply Forall_cons; [apply (grid1 0 2); try lia; lra|]. apply Forall_nil.
Qed.
(** the unit square, and its centre: the hypotheses of C73_inside_complete, C73_inside_sound and C73_exact_on_grids *)
Example ex_C73 : corners32 ulayer square usquare /\ at32 (pt10 5 5) (P (1 / 2) (1 / 2)) /\ moderate (P (1 / 2) (1 / 2)) /\ Forall moderate usquare /\ usquare <> [] /\
  on_grid 1 (P (1 / 2) (1 / 2)) /\ Forall (on_grid 1) usquare /\ strictly_convex usquare /\
  (forall a b, In (a, b) (poly_edges usquare) -> eps + slack a b (P (1 / 2) (1 / 2)) <= orient a b (P (1 / 2) (1 / 2))) /\
  point_in_polygon ulayer (pt10 5 5) square = Ok true.
Proof.
  assert (HA : at32 (pt10 5 5) (P (1 / 2) (1 / 2))) by (split; exact nh).
  assert (HM : moderate (P (1 / 2) (1 / 2))) by (split; cbn [px py]; rewrite Rabs_pos_eq; lra).
  assert (HE : forall a b, In (a, b) (poly_edges usquare) -> eps + slack a b (P (1 / 2) (1 / 2)) <= orient a b (P (1 / 2) (1 / 2))).
  { apply (edges_square (fun a b => eps + slack a b (P (1 / 2) (1 / 2)) <= orient a b (P (1 / 2) (1 / 2)))); unfold slack, spread, orient, cross, psub, eps; cbn [px py]; unfold Rabs; repeat destruct (Rcase_abs _); lra. }
  split; [exact corners_square|]. split; [exact HA|]. split; [exact HM|]. split; [exact square_moderate|]. split; [discriminate|].
  split; [apply (grid1 1 1); try lia; lra|]. split; [exact square_grid|]. split; [exact square_convex|]. split; [exact HE|].
  exact (C73_inside_complete ulayer square usquare (pt10 5 5) _ corners_square ltac:(discriminate) HA HM square_moderate HE).
Qed.

(** a mesh of small coordinates, by computation *)
Definition smallb (x : spec_float) : bool := valid_binary prec32 emax32 x && is_finite_SF x && SFleb (SFabs x) (s_lit 70368744177664 1).
Lemma smallb_ok x : smallb x = true -> num x (SF2R radix2 x) /\ Rabs (SF2R radix2 x) <= 70368744177664.
Proof.
  intro H. apply andb_prop in H. destruct H as [H H3]. apply andb_prop in H. destruct H as [H1 H2].
  pose proof (num_of x H1 H2) as N. split; [exact N|].
  assert (NB : num (s_lit 70368744177664 1) 70368744177664).
  { assert (E : s_lit 70368744177664 1 = S754_finite false 8388608 23) by (vm_compute; reflexivity). rewrite E. split; [reflexivity|]. split; [reflexivity|].
    unfold SF2R, F2R. cbn [Fnum Fexp cond_Zopp]. change (bpow radix2 23) with 8388608. lra. }
  now apply (num_le _ _ _ _ (num_abs _ _ N) NB).
Qed.
Definition mesh32b (m : Mesh F32) : bool :=
  forallb (fun l : Layer F32 => forallb (fun v : Vertex F32 => let w : vec2 F32 := vadd (coords v) (offset l) in smallb (vx w) && smallb (vy w)) (vertices l)) (layers m).
Lemma mesh32b_ok m : mesh32b m = true -> mesh32 m.
Proof.
  intros H l v Hl Hv. unfold mesh32b in H. rewrite forallb_forall in H. specialize (H l Hl). rewrite forallb_forall in H. specialize (H v Hv).
  cbv zeta in H. apply andb_prop in H. destruct H as [H1 H2]. apply smallb_ok in H1. apply smallb_ok in H2.
  exists (P (SF2R radix2 (vx (vadd (coords v) (offset l)))) (SF2R radix2 (vy (vadd (coords v) (offset l))))). split; split; cbn [px py]; tauto.
Qed.
(** from one leg of the U to the other: all the hypotheses of C74, but the position of the last corner *)
Example ex_C74 : pop_perm (lpop lib32) /\ mesh_small mesh_u_grid /\ mesh32 mesh_u_grid /\
  (exists a b, at32 (cpos ex_from) a /\ at32 (cpos ex_to) b /\ within 1125899906842624 a /\ within 1125899906842624 b) /\
  located lib32 mesh_u_grid ex_from 3 /\ located lib32 mesh_u_grid ex_to 4 /\ 3%N <> 4%N /\
  exists p, path_on_layers lib32 mesh_u_grid ex_from ex_to [] = Ok (Some p) /\ INR (length (ppath p)) <= 4194300.
Proof.
  split; [apply ex_lib_ok|]. split; [apply ex_mesh_small|]. split; [apply mesh32b_ok; vmc|].
  assert (HS : forall n d, smallb (q n d) = true -> num (q n d) (SF2R radix2 (q n d)) /\ Rabs (SF2R radix2 (q n d)) <= 1125899906842624).
  { intros n d H. apply smallb_ok in H. destruct H. split; [assumption|lra]. }
  destruct (HS 1%Z 10%positive ltac:(vmc)) as [A1 A2]. destruct (HS 19%Z 10%positive ltac:(vmc)) as [B1 B2]. destruct (HS 29%Z 10%positive ltac:(vmc)) as [C1 C2].
  split. { exists (P (SF2R radix2 (q 1 10)) (SF2R radix2 (q 19 10))), (P (SF2R radix2 (q 29 10)) (SF2R radix2 (q 19 10))). repeat split; cbn [px py]; assumption. }
  split; [apply ex_located|]. split; [apply ex_located|]. split; [discriminate|].
  destruct ex_path as (p & H & L). exists p. split; [exact H|]. rewrite L. cbn. lra.
Qed.
(** the end of that path: the last corner (2, 1) is an end of the last edge, from (3, 1) to (2, 1); and a corner in front of that edge *)
Example ex_C74_end : clear_end (P 2 1) (P 3 1) (P 2 1) (P (29 / 10) (19 / 10)) /\ clear_end (P (5 / 2) 0) (P 3 1) (P 2 1) (P (27 / 10) (19 / 10)) /\
  clear_end (P (5 / 2) 0) (P 3 1) (P 2 1) (P 5 (19 / 10)).
Proof.
  assert (HA : forall x, Rabs x <= 100 -> Rabs x <= 100) by auto.
  assert (HS : forall a b x, Rabs ((px b - px a) * (py x - py a)) <= 10 -> Rabs ((py b - py a) * (px x - px a)) <= 10 -> slack a b x <= / 10000).
  { intros. unfold slack, spread. lra. }
  assert (HR : forall r i0 i1 g, slack r i0 g <= / 10000 -> slack r i1 g <= / 10000 -> slack i0 i1 r <= / 10000 -> slack i0 i1 g <= / 10000 -> eps + rounding r i0 i1 g <= / 1000).
  { intros. unfold rounding, eps. lra. }
  assert (HC : forall r i0 i1 g, eps + rounding r i0 i1 g <= / 1000 -> orient i0 i1 g <= - / 1000 ->
     r = i0 \/ r = i1 \/ (/ 1000 <= orient i0 i1 r /\ / 1000 <= Rabs (orient r i0 g) /\ / 1000 <= Rabs (orient r i1 g)) -> clear_end r i0 i1 g).
  { intros r i0 i1 g H1 H2 H3. unfold clear_end. cbv zeta. split; [lra|]. destruct H3 as [H3|[H3|(H3 & H4 & H5)]]; auto. right; right. repeat split; lra. }
  split; [|split]; apply HC; try (apply HR; apply HS; cbn [px py]; apply abs_le; lra); unfold orient, cross, psub; cbn [px py]; try lra.
  - right; now left.
  - right; right. split; [lra|]. split; unfold Rabs; destruct (Rcase_abs _); lra.
  - right; right. split; [lra|]. split; unfold Rabs; destruct (Rcase_abs _); lra.
Qed.
