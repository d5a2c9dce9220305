(** C05 in binary32: a mesh and a point that meet the hypotheses. *)
From Coq Require Import List NArith ZArith Bool Lia Reals Lra.
From Coq.Floats Require Import SpecFloat.
From Flocq Require Import Core BinarySingleNaN.
From Verif Require Import Base Arith RealArith F32 Spec_f32 F32_real Side32 U32 Mesh Helpers Locate Bake StdLib Spec Tests Checkers Geometry
  Locate_facts Properties_contain Properties_f32 Examples_f32 Properties_finder32.
Import ListNotations.
Open Scope R_scope.

(** the unit square *)
Definition tile : Mesh F32 :=
  mesh1 [vtx 0 0 [0%N; MAX]; vtx 1 0 [0%N; MAX]; vtx 1 1 [0%N; MAX]; vtx 0 1 [0%N; MAX]] [mkPolygon [0; 1; 2; 3]%N true].
Lemma small_num (w : spec_float) r : num w r -> Rabs r <= 1 -> exists d, Rabs d <= 2 /\ num (s_add (s_sub (q 5 10) (q 0 1)) w) d.
Proof.
  intros Hw Hr. destruct (num_sub (q 5 10) (q 0 1) (1 / 2) 0 nh n0) as (d & D & N); [rewrite bpow127, abs_le; lra|].
  pose proof u32_small as [U0 U1]. apply abs_le in D. apply abs_le in Hr.
  destruct (num_add _ _ _ _ N Hw) as (d' & D' & N'); [rewrite bpow127, abs_le; nra|]. apply abs_le in D'.
  eexists. split; [|exact N']. apply abs_le. nra.
Qed.
Lemma tenth : exists r, num (q 1 10) r /\ Rabs r <= 1.
Proof.
  exists (13421773 / 134217728). split; [lit false 13421773%positive (-27)%Z (/ 134217728)|]. rewrite abs_le. lra.
Qed.
Lemma probed_small (v : vec2 F32) : probed (q 1 10) v -> exists a b, num (vx v) a /\ num (vy v) b /\ Rabs a <= 1 /\ Rabs b <= 1.
Proof.
  intros (x & y & Hx & Hy & ->). cbn [vx vy]. destruct tenth as (r & Hr & Lr).
  assert (G : forall z, z = fz (A:=F32) 0 \/ z = q 1 10 \/ z = fneg (a:=F32) (q 1 10) -> exists a, num z a /\ Rabs a <= 1).
  { intros z [->|[->| ->]]; [exists 0; split; [exact n0|rewrite Rabs_R0; lra]|exists r; auto|].
    exists (- r). split; [exact (num_opp _ _ Hr)|now rewrite Rabs_Ropp]. }
  destruct (G x Hx) as (a & A1 & A2). destruct (G y Hy) as (b & B1 & B2). exists a, b. auto.
Qed.
Example ex_C05_small_worlds : bvh_ok (A:=F32) std_bvh /\ mesh_small tile /\ no_empty tile /\ unbaked tile /\ 1 * 4 <= 160 /\
  (forall li l p v, queried tile (at_ (pt10 5 5)) li l -> In p (polygons l) -> probed (search_delta tile) v ->
    exists qs x, corners32 l p qs /\ Forall moderate qs /\ at32 (vadd (vsub (cpos (at_ (pt10 5 5))) (offset l)) v) x /\ moderate x /\
      (forall a b, In (a, b) (poly_edges qs) -> within 1 (psub b a)) /\ forall a, In a qs -> within 4 (psub x a)) /\
  point_in_mesh std_bvh tile (at_ (pt10 5 5)) = Ok true.
Proof.
  split; [apply std_bvh_ok|]. split; [apply mesh_smallb_ok; vmc|]. split; [apply no_emptyb_ok; vmc|]. split; [apply unbakedb_ok; vmc|]. split; [lra|]. split; [|vmc].
  intros li l p v [Hl _] Hp Hv. apply nthN_In in Hl. cbn [tile mesh1 layers] in Hl. destruct Hl as [<-|[]]. cbn [polygons] in Hp. destruct Hp as [<-|[]].
  destruct (probed_small v Hv) as (a & b & Na & Nb & La & Lb). destruct (small_num _ _ Na La) as (c & Lc & Nc). destruct (small_num _ _ Nb Lb) as (d & Ld & Nd).
  exists usquare, (P c d). split; [|split; [exact square_moderate|]; split; [exact (conj Nc Nd)|]; split; [split; cbn [px py]; lra|]; split].
  - unfold corners32, usquare. cbn [pverts]. repeat (apply Forall2_cons); [..|apply Forall2_nil]; eexists; (split; [reflexivity|]); [exact (conj n0 n0)|exact (conj n1 n0)|exact (conj n1 n1)|exact (conj n0 n1)].
  - apply (edges_square (fun a b => within 1 (psub b a))); split; cbn [psub px py]; apply abs_le; lra.
  - intros x Hx. apply abs_le in Lc. apply abs_le in Ld. cbn in Hx. destruct Hx as [<-|[<-|[<-|[<-|[]]]]]; split; cbn [psub px py]; apply abs_le; lra.
Qed.
