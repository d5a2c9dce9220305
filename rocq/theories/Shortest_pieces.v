(** C63: every point of the far boundary is on one of the pieces of the expansion, and the type of the piece fits the position of
    the point: seen through the interval, or on the right or left of what is seen. *)
From Coq Require Import List NArith ZArith Bool Reals Lra Psatz Lia.
From Verif Require Import Base Arith U32 Mesh Helpers Search Spec Search_facts Search_props RealArith Geometry Heuristic Properties_expand Rings Spec_inside
  Sight Sight_search Sight_static Spec_shortest Shortest_routes Shortest_bend.
Import ListNotations.
Open Scope R_scope.

Section Cover.
Context (a b : P2) (M : list P2).
Let L := a :: M ++ [b].
Context (HT : turns_left L) (HDis : distinct L) (HZ : exists z, In z L /\ orient a b z < 0).
Context (r : P2) (t0 t1 : R) (Ht : 0 <= t0 < t1 /\ t1 <= 1).
Let i0 := lerp a b t0.
Let i1 := lerp a b t1.
Context (HS : forall pre sp ep later, L = pre ++ sp :: ep :: later -> sharp r i0 sp ep /\ sharp r i1 sp ep /\ 1 / 1000 < dist sp ep).
Context (Hr : 0 <= orient a b r).

(** seen from the root through the interval *)
Definition through (y : P2) : Prop := exists x, between i0 i1 x /\ dist r x + dist x y = dist r y.
Definition fits (sp ep : P2) (ty : SuccType) (q1 q2 y : P2) : Prop :=
  match ty with
  | Obs => forall y', between q1 q2 y' -> through y'
  | RightNonObs => q1 = sp /\ 0 < orient a b r /\ orient r i0 y <= 0 /\ (i0 = a \/ orient r i0 y < 0)
  | LeftNonObs => q2 = ep /\ (0 < orient a b r \/ r = i1) /\ 0 <= orient r i1 y /\ (i1 = b \/ 0 < orient r i1 y)
  end.
Definition covers (sp ep : P2) (out : list (Successor RA)) : Prop :=
  forall k, 0 <= k <= 1 -> exists s s0 s1, In s out /\ sinterval s = (vp (lerp sp ep s0), vp (lerp sp ep s1)) /\
    0 <= s0 < s1 /\ s1 <= 1 /\ s0 <= k <= s1 /\ fits sp ep (sty s) (lerp sp ep s0) (lerp sp ep s1) (lerp sp ep k).
Definition cover_step (J : SuccType -> P2 -> list P2 -> Prop) : Prop :=
  forall pre sp ep later ty e, L = pre ++ sp :: ep :: later -> J ty sp (ep :: later) ->
    let o := cut_edge (vp r) (vp i0, vp i1) e ty (vp sp) (vp ep) in
    covers sp ep (fst o) /\ J (snd o) ep later.

Lemma through_on y : between i0 i1 r -> through y.
Proof using. intro H. exists r. split; [exact H|]. rewrite dist_refl. ring. Qed.
Lemma through_cone pre sp ep later s0 s1 : 0 < orient a b r -> L = pre ++ sp :: ep :: later -> 0 <= s0 <= s1 -> s1 <= 1 ->
  in_cone (orient r i0) (orient r i1) (lerp sp ep s0) -> in_cone (orient r i0) (orient r i1) (lerp sp ep s1) ->
  forall y, between (lerp sp ep s0) (lerp sp ep s1) y -> through y.
Proof using HT HDis Ht.
  intros HP E H0 H1 [A1 A2] [B1 B2] y (k & Hk & ->).
  destruct (cone_through a b M HDis r t0 t1 Ht HP (lerp (lerp sp ep s0) (lerp sp ep s1) k)) as (t & s & Htt & Hs & Eq & _).
  - rewrite lerp_lerp. apply (far_edge_side a b M HT pre sp ep later); auto. split; nra.
  - fold i0 i1. split; rewrite orient_lerp3; [apply affine_between; auto|].
    assert (0 <= (1 - k) * - orient r i1 (lerp sp ep s0) + k * - orient r i1 (lerp sp ep s1)) by (apply affine_between; lra). lra.
  - exists (lerp i0 i1 s). split; [exists s; auto|]. fold i0 i1 in Eq. rewrite <- Eq. now apply dist_between.
Qed.

Lemma in_L_edge pre sp ep later : L = pre ++ sp :: ep :: later -> In sp L /\ In ep L.
Proof using. intro E. rewrite E. split; apply in_or_app; right; [left|right; left]; reflexivity. Qed.
Lemma part_unique sp ep s q1 q2 s0 s1 : part sp ep s q1 q2 -> sinterval s = (vp (lerp sp ep s0), vp (lerp sp ep s1)) -> q1 = lerp sp ep s0 /\ q2 = lerp sp ep s1.
Proof using. intros [H _] E. rewrite H in E. injection E as E1 E2 E3 E4. split; now apply P2_eq. Qed.

Lemma cover_above : 0 < orient a b r -> (i0 = a \/ forall q, In q L -> orient r i0 q <> 0) -> (i1 = b \/ forall q, In q L -> orient r i1 q <> 0) ->
  cover_step (typed (orient r i0) (orient r i1)).
Proof using HT HDis HZ HS Ht.
  intros HP V0 V1 pre sp ep later ty e E HJ o. destruct (edge_sides a b M HT t0 t1 Ht _ _ _ _ E) as [D1 D2]. fold i0 i1 in D1, D2. destruct (HS _ _ _ _ E) as (S0 & S1 & HD).
  pose proof eps_pos as HE. destruct (in_L_edge _ _ _ _ E) as [Isp Iep].
  assert (HR : 0 < orient i0 i1 r) by (unfold i0, i1; rewrite orient_line; apply Rmult_lt_0_compat; lra).
  assert (KK0 : forall t, 0 <= t <= 1 -> orient r i0 (lerp sp ep t) = 0 -> 0 <= orient r i0 ep -> Forall (fun q => 0 <= orient r i0 q) (ep :: later))
    by (intros t Htt Q1 Q2; exact (K0 a b M HT HDis HZ r t0 t1 Ht HP pre sp ep later E t Htt Q1 Q2)).
  assert (KK1 : forall t, 0 <= t <= 1 -> orient r i1 (lerp sp ep t) = 0 -> 0 <= orient r i1 ep -> Forall (fun q => 0 <= orient r i1 q) (ep :: later))
    by (intros t Htt Q1 Q2; exact (K1 a b M HT HDis HZ r t0 t1 Ht HP pre sp ep later E t Htt Q1 Q2)).
  destruct (cut_edge_typed r i0 i1 e ty sp ep later HR D1 D2 S0 S1 HD KK0 KK1 HJ) as (H1 & H2 & _). fold o in H1, H2. split; [|exact H2]. clear H2.
  destruct (cut_edge_R r i0 i1 e ty sp ep (Rlt_le _ _ HR) D1 D2 S0 S1 HD) as (tt & pr & ty1 & found & Ht0 & HPr & HC). cbv zeta in HC. fold o in HC.
  assert (HI : forall q, orient r i0 q + orient i0 i1 q - orient r i1 q = orient i0 i1 r) by (intro; apply orient_three).
  assert (HF : forall t, 0 <= t <= 1 -> orient i0 i1 (lerp sp ep t) <= 0).
  { intros t Htt. rewrite orient_lerp3. assert (0 <= (1 - t) * (- orient i0 i1 sp) + t * (- orient i0 i1 ep)) by (apply affine_between; lra). lra. }
  assert (HObs : forall s s0 s1, In s (fst o) -> sty s = Obs -> sinterval s = (vp (lerp sp ep s0), vp (lerp sp ep s1)) -> 0 <= s0 < s1 -> s1 <= 1 ->
    forall y', between (lerp sp ep s0) (lerp sp ep s1) y' -> through y').
  { intros s s0 s1 Hs Ety EI H3 H4. destruct (H1 s Hs Ety) as (q1 & q2 & HPt & C1 & C2). destruct (part_unique _ _ _ _ _ _ _ HPt EI) as [-> ->].
    apply (through_cone pre sp ep later); auto. lra. }
  (* the ends of the edge and the type after the right cut *)
  assert (HT1 : (pr <> [] -> ty1 = Obs /\ 0 < tt) /\ (pr = [] -> tt = 0) /\ (ty1 = RightNonObs -> tt = 0 /\ orient r i0 sp <= 0 /\ orient r i0 ep <= 0) /\
                (ty1 = LeftNonObs -> tt = 0 /\ 0 <= orient r i1 sp /\ 0 <= orient r i1 ep)).
  { destruct HPr as [(-> & T0 & P1 & P2' & ->)|(-> & T0 & HPr)]; [repeat split; try discriminate; intros; try discriminate; auto|].
    split; [congruence|]. split; [auto|]. destruct HPr as [(P1 & P2' & ->)|[(P1 & ->)|[(P1 & P2' & ->)|(P1 & P2' & ->)]]].
    - split; intros ->; cbn [typed] in HJ; [repeat split; lra|]. destruct HJ as [HJ1 HJ2]. inversion HJ2; subst. auto.
    - unfold if_right. destruct ty; cbn [ty_is_right]; split; try discriminate. intros _. cbn [typed] in HJ. destruct HJ as [HJ1 HJ2]. inversion HJ2; subst. auto.
    - split; discriminate.
    - split; intros ->; cbn [typed] in HJ; [repeat split; lra|]. destruct HJ as [HJ1 HJ2]. inversion HJ2; subst. auto. }
  destruct HT1 as (TO & TN & TR & TL).
  assert (EqF0 : forall k, orient r i0 (lerp sp ep k) = (1 - k) * orient r i0 sp + k * orient r i0 ep) by (intro; apply orient_lerp3).
  assert (EqF1 : forall k, orient r i1 (lerp sp ep k) = (1 - k) * orient r i1 sp + k * orient r i1 ep) by (intro; apply orient_lerp3).
  assert (Both : forall x y k, 0 <= k <= 1 -> x <= 0 -> y <= 0 -> (1 - k) * x + k * y <= 0).
  { intros x y k Hk Hx Hy. assert (0 <= (1 - k) * - x + k * - y) by (apply affine_between; lra). lra. }
  assert (Strict : forall x y k, 0 <= k <= 1 -> x < 0 -> y < 0 -> (1 - k) * x + k * y < 0) by (intros; nra).
  intros k Hk.
  (* the last piece, if it is typed left *)
  destruct (Rlt_dec k tt) as [Kt|Kt].
  { (* the first piece *)
    destruct HPr as [(EP & T0 & P1 & P2' & _)|(_ & T0 & _)]; [|lra].
    exists (mkSucc (vp sp, vp (lerp sp ep tt)) e ty), 0, tt. rewrite lerp_0. split.
    { destruct HC as [(_ & _ & t & _ & _ & ->)|(_ & _ & ->)]; cbn [fst]; rewrite EP; left; reflexivity. }
    split; [reflexivity|]. split; [lra|]. split; [lra|]. split; [lra|]. cbn [sty].
    assert (ty = RightNonObs) as ->.
    { destruct ty; [|cbn [typed] in HJ; lra|reflexivity]. cbn [typed] in HJ. specialize (HI sp). lra. }
    cbn [fits]. split; [reflexivity|]. split; [exact HP|]. assert (orient r i0 (lerp sp ep k) < 0); [|split; [lra|auto]].
    rewrite EqF0 in *. set (x := orient r i0 sp) in *. set (y := orient r i0 ep) in *.
    assert (tt * ((1 - k) * x + k * y) = (tt - k) * x) by nra. nra. }
  assert (Htk : tt <= k) by lra. clear Kt.
  destruct HC as [(EF & G1 & t & Htt & G2 & EC)|(EF & G1 & EC)]; rewrite EC; cbn [fst].
  - assert (EL : type_after (orient r i1 ep) (orient r i0 ep) found ty1 = LeftNonObs).
    { unfold type_after. rewrite EF. destruct (Rlt_dec _ 0); [lra|]. destruct (Rlt_dec 0 (orient r i1 ep)); [reflexivity|lra]. }
    rewrite EL in *.
    destruct (Rlt_dec t k) as [Kt|Kt].
    { exists (mkSucc (vp (lerp sp ep t), vp ep) e LeftNonObs), t, 1. split; [apply in_or_app; right; right; left; reflexivity|]. rewrite lerp_1.
      split; [reflexivity|]. split; [lra|]. split; [lra|]. split; [lra|]. cbn [fits sty]. split; [reflexivity|]. split; [left; exact HP|].
      assert (0 < orient r i1 (lerp sp ep k)); [|split; [lra|auto]]. rewrite EqF1 in *. set (x := orient r i1 sp) in *. set (y := orient r i1 ep) in *.
      assert ((1 - t) * ((1 - k) * x + k * y) = (k - t) * y) by nra. assert (0 < (k - t) * y) by (apply Rmult_lt_0_compat; lra). nra. }
    destruct (Req_EM_T tt t) as [Ett|Ett].
    { (* a degenerate piece in the middle *)
      assert (K : k = t) by lra. assert (Z : orient r i1 (lerp sp ep k) = 0) by (rewrite K; exact G2).
      exists (mkSucc (vp (lerp sp ep t), vp ep) e LeftNonObs), t, 1. split; [apply in_or_app; right; right; left; reflexivity|]. rewrite lerp_1.
      split; [reflexivity|]. split; [lra|]. split; [lra|]. split; [lra|]. cbn [fits sty]. split; [reflexivity|]. split; [left; exact HP|]. split; [lra|].
      destruct V1 as [V1|V1]; [left; exact V1|exfalso].
      destruct HPr as [(EP & T0 & P1 & P2' & _)|(_ & T0 & _)].
      - specialize (HI (lerp sp ep tt)). specialize (HF tt ltac:(lra)). rewrite Ett in *. lra.
      - apply (V1 sp Isp). rewrite K, <- Ett, T0, lerp_0 in Z. exact Z. }
    exists (mkSucc (vp (lerp sp ep tt), vp (lerp sp ep t)) e ty1), tt, t. 
    assert (Hin : In (mkSucc (vp (lerp sp ep tt), vp (lerp sp ep t)) e ty1) (fst o)) by (rewrite EC; apply in_or_app; right; left; reflexivity).
    split; [apply in_or_app; right; left; reflexivity|].
    split; [reflexivity|]. split; [lra|]. split; [lra|]. split; [lra|]. cbn [sty]. destruct ty1; cbn [fits].
    + exfalso. destruct (TL eq_refl) as (_ & Q1 & Q2). rewrite EqF1 in G2. set (x := orient r i1 sp) in *. set (y := orient r i1 ep) in *. nra.
    + apply (HObs _ tt t Hin); auto; lra.
    + exfalso. destruct (TR eq_refl) as (_ & Q1 & Q2). specialize (HI (lerp sp ep t)). specialize (HF t ltac:(lra)). rewrite EqF0 in HI. pose proof (Both _ _ t ltac:(lra) Q1 Q2). lra.
  - exists (mkSucc (vp (lerp sp ep tt), vp ep) e ty1), tt, 1. rewrite lerp_1.
    assert (Hin : In (mkSucc (vp (lerp sp ep tt), vp ep) e ty1) (fst o)) by (rewrite EC; apply in_or_app; right; left; reflexivity).
    split; [apply in_or_app; right; left; reflexivity|].
    split; [reflexivity|]. split; [lra|]. split; [lra|]. split; [lra|]. cbn [sty]. destruct ty1; cbn [fits].
    + destruct (TL eq_refl) as (_ & Q1 & Q2). split; [reflexivity|]. split; [left; exact HP|]. rewrite EqF1. split; [apply affine_between; auto|]. destruct V1 as [V1|V1]; [left; exact V1|right].
      pose proof (V1 sp Isp). pose proof (V1 ep Iep). pose proof (Strict (- orient r i1 sp) (- orient r i1 ep) k Hk ltac:(lra) ltac:(lra)). lra.
    + intros y' Hy'. apply (HObs _ tt 1 Hin); auto; rewrite ?lerp_1; auto; lra.
    + destruct (TR eq_refl) as (T0 & Q1 & Q2). rewrite T0, lerp_0. split; [reflexivity|]. split; [exact HP|]. rewrite EqF0. split; [now apply Both|]. destruct V0 as [V0|V0]; [left; exact V0|right].
      pose proof (V0 sp Isp). pose proof (V0 ep Iep). apply Strict; lra.
Qed.

Lemma cover_at_a : r = a -> i0 = a -> i1 = b -> cover_step (fun _ _ _ => True).
Proof using HT HDis HZ HS Ht Hr.
  intros Ea E0 E1 pre sp ep later ty e E _ o. split; [|exact I]. destruct (edge_sides a b M HT t0 t1 Ht _ _ _ _ E) as [D1 D2]. fold i0 i1 in D1, D2. destruct (HS _ _ _ _ E) as (S0 & S1 & HD).
  pose proof eps_pos as HE. pose proof (root_side a b r t0 t1 Ht Hr) as RS. fold i0 i1 in RS.
  destruct (cut_edge_R r i0 i1 e ty sp ep RS D1 D2 S0 S1 HD) as (tt & pr & ty1 & found & Ht0 & HPr & HC). cbv zeta in HC. fold o in HC.
  assert (Z : forall q, orient r i0 q = 0) by (intro q; rewrite Ea, E0; apply orient_same).
  destruct HPr as [(_ & _ & Q & _)|(-> & T0 & HPr)]; [rewrite Z in Q; lra|].
  assert (ty1 = Obs) as ->. { destruct HPr as [(Q & _)|[(Q & _)|[(_ & _ & Q)|(_ & Q & _)]]]; [rewrite Z in Q; lra|rewrite Z in Q; lra|exact Q|rewrite Z in Q; lra]. }
  destruct HC as [(_ & Q & _)|(_ & _ & EC)]; [exfalso; rewrite Ea, E1 in Q; rewrite E0, E1 in D2; lra|].
  rewrite EC. cbn [fst app]. intros k Hk. exists (mkSucc (vp (lerp sp ep tt), vp ep) e Obs), 0, 1. rewrite T0, lerp_0, lerp_1.
  split; [left; reflexivity|]. split; [reflexivity|]. split; [lra|]. split; [lra|]. split; [lra|]. cbn [sty fits]. intros y _. apply through_on. exists 0.
  rewrite lerp_0. split; [lra|congruence].
Qed.
Lemma cover_at_b : r = b -> i0 = a -> i1 = b -> cover_step (fun _ _ _ => True).
Proof using HT HDis HZ HS Ht Hr.
  intros Eb E0 E1 pre sp ep later ty e E _ o. split; [|exact I]. destruct (edge_sides a b M HT t0 t1 Ht _ _ _ _ E) as [D1 D2]. fold i0 i1 in D1, D2. destruct (HS _ _ _ _ E) as (S0 & S1 & HD).
  pose proof eps_pos as HE. pose proof (root_side a b r t0 t1 Ht Hr) as RS. fold i0 i1 in RS.
  destruct (cut_edge_R r i0 i1 e ty sp ep RS D1 D2 S0 S1 HD) as (tt & pr & ty1 & found & Ht0 & HPr & HC). cbv zeta in HC. fold o in HC.
  assert (Z : forall q, orient r i1 q = 0) by (intro q; rewrite Eb, E1; apply orient_same).
  assert (F : forall q, orient i0 i1 q <= 0 -> 0 <= orient r i0 q). { intros q Hq. rewrite E0, E1 in Hq. rewrite Eb, E0. rewrite orient_213. lra. }
  pose proof (F sp D1) as Fs. pose proof (F ep D2) as Fe.
  destruct HPr as [(_ & _ & Q & _)|(-> & T0 & HPr)]; [lra|].
  assert (ty1 <> RightNonObs) as HN.
  { destruct HPr as [(Q & _)|[(Q & ->)|[(_ & _ & ->)|(_ & Q & _)]]]; [lra|destruct ty; discriminate|discriminate|lra]. }
  destruct HC as [(_ & Q & _)|(_ & _ & EC)]; [exfalso; rewrite Z in Q; lra|].
  rewrite EC. cbn [fst app]. intros k Hk. exists (mkSucc (vp (lerp sp ep tt), vp ep) e ty1), 0, 1. rewrite T0, lerp_0, lerp_1.
  split; [left; reflexivity|]. split; [reflexivity|]. split; [lra|]. split; [lra|]. split; [lra|]. cbn [sty]. destruct ty1; cbn [fits]; [|intros y _; apply through_on; exists 1; rewrite lerp_1; split; [lra|congruence]|congruence].
  split; [reflexivity|]. rewrite Z. split; [right; congruence|]. split; [lra|auto].
Qed.
End Cover.
