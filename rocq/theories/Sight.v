(** Plane geometry of the expansion of a node in exact arithmetic: how [cut_edge] (instance.rs 398-530) divides the far
    boundary of a convex polygon, and what the pieces typed as observable are. *)
From Coq Require Import List NArith ZArith Bool Reals Lra Psatz Lia.
From Verif Require Import Base Arith U32 Mesh Helpers Locate Search Spec RealArith Geometry Heuristic Properties_geometry Spec_inside.
Import ListNotations.
Open Scope R_scope.

(** ** Affine maps *)
Lemma orient_lerp3 a b p q t : orient a b (lerp p q t) = (1 - t) * orient a b p + t * orient a b q.
Proof. unfold lerp. pts. ring. Qed.
Lemma orient_lerp1 b c p q t : orient (lerp p q t) b c = (1 - t) * orient p b c + t * orient q b c.
Proof. unfold lerp. pts. ring. Qed.
Lemma orient_lerp2 a c p q t : orient a (lerp p q t) c = (1 - t) * orient a p c + t * orient a q c.
Proof. unfold lerp. pts. ring. Qed.
Lemma orient_line a b s t q : orient (lerp a b s) (lerp a b t) q = (t - s) * orient a b q.
Proof. unfold lerp. pts. ring. Qed.
Lemma orient_three r i0 i1 q : orient r i0 q + orient i0 i1 q - orient r i1 q = orient i0 i1 r.
Proof. pts. ring. Qed.
Lemma lerp_lerp a b s t u : lerp (lerp a b s) (lerp a b t) u = lerp a b (s + u * (t - s)).
Proof. unfold lerp. pts. apply P2_eq; cbn [px py]; ring. Qed.
Lemma lerp_same a t : lerp a a t = a.
Proof. unfold lerp. pts. apply P2_eq; cbn [px py]; ring. Qed.
Lemma lerp_swap a b t : lerp a b t = lerp b a (1 - t).
Proof. unfold lerp. pts. apply P2_eq; cbn [px py]; ring. Qed.
Lemma lerp_inj a b s t : a <> b -> lerp a b s = lerp a b t -> s = t.
Proof.
  intros H E. pose proof (pdot_pos a b H) as HP. assert (E2 : s * pdot (psub b a) (psub b a) = t * pdot (psub b a) (psub b a)).
  { replace (s * pdot (psub b a) (psub b a)) with (pdot (psub (lerp a b s) a) (psub b a)) by (unfold lerp; pts; ring).
    rewrite E. unfold lerp. pts. ring. }
  apply Rmult_eq_reg_r in E2; lra.
Qed.
Lemma affine_between x y t : 0 <= t <= 1 -> 0 <= x -> 0 <= y -> 0 <= (1 - t) * x + t * y.
Proof. intros. assert (0 <= (1 - t) * x) by (apply Rmult_le_pos; lra). assert (0 <= t * y) by (apply Rmult_le_pos; lra). lra. Qed.

Lemma inside_lerp qs x y t : inside qs x -> inside qs y -> 0 <= t <= 1 -> inside qs (lerp x y t).
Proof. intros H1 H2 Ht a b Hab. rewrite orient_lerp3. apply affine_between; auto. Qed.

(** ** The parts of cut_edge *)
Lemma gt_false_R x y : fgt (Some x : F RA) (Some y) = false <-> x <= y.
Proof. unfold fgt. cbn. apply rltb_false. Qed.
Lemma gt_true_R x y : fgt (Some x : F RA) (Some y) = true <-> y < x.
Proof. unfold fgt. cbn. apply rltb_true. Qed.
Lemma c1em6_R : @c1em6 RA = Some (1 / 1000000). Proof. reflexivity. Qed.
Lemma c1em10_R : @c1em10 RA = Some (1 / 10000000000). Proof. reflexivity. Qed.
Lemma far_apart x y : 1 / 1000 < dist x y -> fgt (vdist2 (vp x) (vp y)) c1em6 = true.
Proof.
  intro H. rewrite vdist2_vp, c1em6_R. apply gt_true_R. unfold dist in H. rewrite <- plen_sqr.
  set (d := plen (psub x y)) in *. clearbody d. nra.
Qed.
Lemma same_point x : fgt (vdist2 (vp x) (vp x)) c1em6 = false.
Proof. rewrite vdist2_vp, c1em6_R. apply gt_false_R. replace (pdot (psub x x) (psub x x)) with 0 by (pts; ring). lra. Qed.

Lemma clear_cases a b p : clear_of a b p -> orient a b p <= - eps \/ orient a b p = 0 \/ eps <= orient a b p.
Proof. intros [H|H]; [auto|]. unfold Rabs in H. destruct (Rcase_abs _) in H; [left; lra|auto]. Qed.

Definition if_right (ty : SuccType) : SuccType := if ty_is_right ty then Obs else ty.

Lemma cut_right_R r i0 e ty sp ep : sharp r i0 sp ep ->
  let f := orient r i0 in let o := cut_right (vp r) (vp i0) e ty (vp sp) (vp ep) in
  (f sp <= - eps /\ exists t, 0 < t < 1 /\ f (lerp sp ep t) = 0 /\
     o = ([mkSucc (vp sp, vp (lerp sp ep t)) e ty], vp (lerp sp ep t), Obs)) \/
  (f sp <= - eps /\ f ep <= 0 /\ o = ([], vp sp, ty)) \/
  (eps <= f sp /\ o = ([], vp sp, if_right ty)) \/
  (f sp = 0 /\ 0 <= f ep /\ o = ([], vp sp, Obs)) \/
  (f sp = 0 /\ f ep <= - eps /\ o = ([], vp sp, ty)).
Proof.
  intros (C1 & C2 & HS) f o. pose proof eps_pos. unfold o, cut_right.
  destruct (clear_cases r i0 sp C1) as [S|[S|S]]; fold f in S.
  - assert (side (vp sp) (vp r, vp i0) = SRight) as -> by (apply side_right; exact S).
    destruct (line_intersect_segment (vp r, vp i0) (vp sp, vp ep)) as [x|] eqn:EL.
    + apply lis_vp in EL. destruct EL as (E1 & E2 & ->). set (t := itime r i0 sp ep) in *.
      assert (E3 : f (lerp sp ep t) = 0) by (apply itime_on_line; exact E1).
      destruct (HS (fun E => E1 (eq_sym E)) t E2 E3) as [T|[T|(T1 & T2 & T3)]].
      * exfalso. rewrite T, lerp_0 in E3. lra.
      * right. left. rewrite T, lerp_1 in *. split; [exact S|]. split; [lra|]. rewrite same_point. rewrite andb_false_r. reflexivity.
      * left. split; [exact S|]. exists t. split; [exact T1|]. split; [exact E3|].
        rewrite (far_apart _ _ T2), (far_apart _ _ T3). reflexivity.
    + right. left. split; [exact S|]. split; [|reflexivity].
      destruct (Rle_dec (f ep) 0) as [L|L]; [exact L|exfalso].
      destruct (C46_intersection_complete r i0 sp ep) as (t & E & _); [fold f; nra|left; fold f; lra|congruence].
  - assert (side (vp sp) (vp r, vp i0) = SEdge) as -> by (apply side_edge; fold f; lra). right. right. right.
    destruct (clear_cases r i0 ep C2) as [S2|[S2|S2]]; fold f in S2.
    + assert (side (vp ep) (vp r, vp i0) = SRight) as -> by (apply side_right; exact S2). right. auto.
    + assert (side (vp ep) (vp r, vp i0) = SEdge) as -> by (apply side_edge; fold f; lra). left. split; [exact S|]. split; [lra|reflexivity].
    + assert (side (vp ep) (vp r, vp i0) = SLeft) as -> by (apply side_left; exact S2). left. split; [exact S|]. split; [lra|reflexivity].
  - assert (side (vp sp) (vp r, vp i0) = SLeft) as -> by (apply side_left; exact S). right. right. left. split; [exact S|]. reflexivity.
Qed.

Lemma cut_left_R r i1 sp ep t0 : sharp r i1 sp ep -> 1 / 1000 < dist sp ep -> 0 <= t0 < 1 ->
  let f := orient r i1 in
  (forall t, 0 <= t <= 1 -> f (lerp sp ep t) = 0 -> t0 <= t) ->
  let o := cut_left (vp r) (vp i1) (vp (lerp sp ep t0)) (vp ep) in
  (eps <= f ep /\ exists t, t0 <= t < 1 /\ f (lerp sp ep t) = 0 /\ o = (Some (vp (lerp sp ep t)), true)) \/
  (eps <= f ep /\ 0 < f (lerp sp ep t0) /\ o = (None, false)) \/
  (f ep <= 0 /\ o = (None, false)).
Proof.
  intros (C1 & C2 & HS) HD Ht0 f HO o. pose proof eps_pos as HE. unfold o, cut_left.
  destruct (clear_cases r i1 ep C2) as [S|[S|S]]; fold f in S.
  - right. right. split; [lra|]. assert (side (vp ep) (vp r, vp i1) = SRight) as -> by (apply side_right; exact S). reflexivity.
  - right. right. split; [lra|]. assert (side (vp ep) (vp r, vp i1) = SEdge) as -> by (apply side_edge; fold f; lra). reflexivity.
  - assert (side (vp ep) (vp r, vp i1) = SLeft) as -> by (apply side_left; exact S).
    destruct (line_intersect_segment (vp r, vp i1) (vp (lerp sp ep t0), vp ep)) as [x|] eqn:EL.
    + left. split; [exact S|]. apply lis_vp in EL. destruct EL as (E1 & E2 & ->). set (u := itime r i1 (lerp sp ep t0) ep) in *.
      assert (E3 : f (lerp (lerp sp ep t0) ep u) = 0) by (apply itime_on_line; exact E1).
      rewrite lerp_lerp_end in *. set (t := t0 + u * (1 - t0)) in *.
      assert (HN : orient r i1 sp <> orient r i1 ep).
      { intro E. apply E1. rewrite orient_lerp3, E. ring. }
      assert (HT : - eps <= t <= 1 + eps).
      { unfold t. split.
        - assert (- eps * (1 - t0) <= u * (1 - t0)) by (apply Rmult_le_compat_r; lra). nra.
        - assert (u * (1 - t0) <= (1 + eps) * (1 - t0)) by (apply Rmult_le_compat_r; lra). nra. }
      destruct (HS HN t HT E3) as [T|[T|(T1 & T2 & T3)]].
      * exists t. split; [split; [apply HO; [lra|exact E3]|lra]|]. split; [exact E3|].
        rewrite T, lerp_0 in E3. rewrite T, lerp_0.
        rewrite (far_apart _ _ HD). reflexivity.
      * exfalso. rewrite T, lerp_1 in E3. unfold f in *. lra.
      * exists t. split; [split; [apply HO; [lra|exact E3]|lra]|]. split; [exact E3|]. rewrite (far_apart _ _ T3). reflexivity.
    + right. left. split; [exact S|]. split; [|reflexivity].
      destruct (Rlt_dec 0 (f (lerp sp ep t0))) as [L|L]; [exact L|exfalso].
      destruct (C46_intersection_complete r i1 (lerp sp ep t0) ep) as (t & E & _); [fold f; nra|right; fold f; lra|congruence].
Qed.

Definition type_after (f1ep f0ep : R) (found : bool) (ty : SuccType) : SuccType :=
  if Rlt_dec f1ep 0 then ty else if Rlt_dec 0 f1ep then (if found then LeftNonObs else ty)
  else if Rle_dec 0 f0ep then LeftNonObs else ty.
Lemma next_type_R r i0 i1 ep found ty : clear_of r i0 ep -> clear_of r i1 ep ->
  next_type (vp r) (vp i0, vp i1) (vp ep) found ty = type_after (orient r i1 ep) (orient r i0 ep) found ty.
Proof.
  intros C0 C1. pose proof eps_pos. unfold next_type, type_after. cbn [fst snd].
  destruct (clear_cases r i1 ep C1) as [S|[S|S]].
  - assert (side (vp ep) (vp r, vp i1) = SRight) as -> by (apply side_right; exact S). destruct (Rlt_dec _ _); [reflexivity|lra].
  - assert (side (vp ep) (vp r, vp i1) = SEdge) as -> by (apply side_edge; lra).
    destruct (Rlt_dec _ 0); [lra|]. destruct (Rlt_dec 0 (orient r i1 ep)); [lra|].
    destruct (clear_cases r i0 ep C0) as [S2|[S2|S2]].
    + assert (side (vp ep) (vp r, vp i0) = SRight) as -> by (apply side_right; exact S2). destruct (Rle_dec _ _); [lra|reflexivity].
    + assert (side (vp ep) (vp r, vp i0) = SEdge) as -> by (apply side_edge; lra). destruct (Rle_dec _ _); [reflexivity|lra].
    + assert (side (vp ep) (vp r, vp i0) = SLeft) as -> by (apply side_left; exact S2). destruct (Rle_dec _ _); [reflexivity|lra].
  - assert (side (vp ep) (vp r, vp i1) = SLeft) as -> by (apply side_left; exact S).
    destruct (Rlt_dec _ 0); [lra|]. destruct (Rlt_dec 0 (orient r i1 ep)); [reflexivity|lra].
Qed.

(** ** One edge *)
(** The pieces of one edge: the part on the right of the first line (if the edge crosses it), the part up to the second
    line or the end, and the rest. *)
Lemma cut_edge_R r i0 i1 e ty sp ep :
  0 <= orient i0 i1 r -> orient i0 i1 sp <= 0 -> orient i0 i1 ep <= 0 ->
  sharp r i0 sp ep -> sharp r i1 sp ep -> 1 / 1000 < dist sp ep ->
  let f0 := orient r i0 in let f1 := orient r i1 in
  exists t0 pre ty1 found,
    0 <= t0 < 1 /\
    ((pre = [mkSucc (vp sp, vp (lerp sp ep t0)) e ty] /\ 0 < t0 /\ f0 sp <= - eps /\ f0 (lerp sp ep t0) = 0 /\ ty1 = Obs) \/
     (pre = [] /\ t0 = 0 /\
        ((f0 sp <= - eps /\ f0 ep <= 0 /\ ty1 = ty) \/ (eps <= f0 sp /\ ty1 = if_right ty) \/
         (f0 sp = 0 /\ 0 <= f0 ep /\ ty1 = Obs) \/ (f0 sp = 0 /\ f0 ep <= - eps /\ ty1 = ty)))) /\
    let ty2 := type_after (f1 ep) (f0 ep) found ty1 in
    ((found = true /\ eps <= f1 ep /\ exists t, t0 <= t < 1 /\ f1 (lerp sp ep t) = 0 /\
        cut_edge (vp r) (vp i0, vp i1) e ty (vp sp) (vp ep) =
          (pre ++ [mkSucc (vp (lerp sp ep t0), vp (lerp sp ep t)) e ty1; mkSucc (vp (lerp sp ep t), vp ep) e ty2], ty2)) \/
     (found = false /\ (f1 ep <= 0 \/ (eps <= f1 ep /\ 0 < f1 (lerp sp ep t0))) /\
        cut_edge (vp r) (vp i0, vp i1) e ty (vp sp) (vp ep) = (pre ++ [mkSucc (vp (lerp sp ep t0), vp ep) e ty1], ty2))).
Proof.
  intros Hr Hs He S0 S1 HD f0 f1. pose proof eps_pos as HE.
  assert (C0 : clear_of r i0 ep) by apply S0. assert (C1 : clear_of r i1 ep) by apply S1.
  set (o := cut_right (vp r) (vp i0) e ty (vp sp) (vp ep)).
  assert (HR : exists t0 pre ty1, o = (pre, vp (lerp sp ep t0), ty1) /\ 0 <= t0 < 1 /\
    ((pre = [mkSucc (vp sp, vp (lerp sp ep t0)) e ty] /\ 0 < t0 /\ f0 sp <= - eps /\ f0 (lerp sp ep t0) = 0 /\ ty1 = Obs) \/
     (pre = [] /\ t0 = 0 /\
        ((f0 sp <= - eps /\ f0 ep <= 0 /\ ty1 = ty) \/ (eps <= f0 sp /\ ty1 = if_right ty) \/
         (f0 sp = 0 /\ 0 <= f0 ep /\ ty1 = Obs) \/ (f0 sp = 0 /\ f0 ep <= - eps /\ ty1 = ty))))).
  { destruct (cut_right_R r i0 e ty sp ep S0) as [(H1 & t & H2 & H3 & H4)|[(H1 & H2 & H4)|[(H1 & H4)|[(H1 & H2 & H4)|(H1 & H2 & H4)]]]];
      fold o in H4; fold f0 in H1.
    - exists t, [mkSucc (vp sp, vp (lerp sp ep t)) e ty], Obs. split; [exact H4|]. split; [lra|]. left. repeat split; auto; apply H2.
    - exists 0, [], ty. rewrite lerp_0. split; [exact H4|]. split; [lra|]. right. repeat split; auto.
    - exists 0, [], (if_right ty). rewrite lerp_0. split; [exact H4|]. split; [lra|]. right. repeat split; auto.
    - exists 0, [], Obs. rewrite lerp_0. split; [exact H4|]. split; [lra|]. right. repeat split; auto 6.
    - exists 0, [], ty. rewrite lerp_0. split; [exact H4|]. split; [lra|]. right. repeat split; auto 6. }
  destruct HR as (t0 & pre & ty1 & EO & Ht0 & HP).
  assert (HO : forall t, 0 <= t <= 1 -> f1 (lerp sp ep t) = 0 -> t0 <= t).
  { intros t Ht Hf. destruct HP as [(_ & H1 & H2 & H3 & _)|(_ & -> & _)]; [|lra].
    assert (H4 : 0 <= f0 (lerp sp ep t)).
    { pose proof (orient_three r i0 i1 (lerp sp ep t)) as HI. fold f0 f1 in HI. rewrite Hf in HI.
      assert (orient i0 i1 (lerp sp ep t) <= 0); [|lra]. rewrite orient_lerp3. 
      assert (0 <= (1 - t) * (- orient i0 i1 sp) + t * (- orient i0 i1 ep)) by (apply affine_between; lra). lra. }
    unfold f0 in *. rewrite orient_lerp3 in H3, H4. destruct (Rle_dec t0 t) as [L|L]; [exact L|exfalso].
    set (x := orient r i0 sp) in *. set (y := orient r i0 ep) in *.
    assert (t0 * y = (t0 - 1) * x) by lra. assert (0 < y) by nra. 
    assert ((1 - t0) * x + t0 * y - ((1 - t) * x + t * y) = (t0 - t) * (y - x)) by ring.
    assert (0 < (t0 - t) * (y - x)) by (apply Rmult_lt_0_compat; lra). lra. }
  pose proof (cut_left_R r i1 sp ep t0 S1 HD Ht0 HO) as HL. cbv zeta in HL. fold f1 in HL.
  set (c := cut_left (vp r) (vp i1) (vp (lerp sp ep t0)) (vp ep)) in *.
  assert (EC : cut_edge (vp r) (vp i0, vp i1) e ty (vp sp) (vp ep) =
    match fst c with
    | Some x => (pre ++ [mkSucc (vp (lerp sp ep t0), x) e ty1; mkSucc (x, vp ep) e (type_after (f1 ep) (f0 ep) (snd c) ty1)], type_after (f1 ep) (f0 ep) (snd c) ty1)
    | None => (pre ++ [mkSucc (vp (lerp sp ep t0), vp ep) e ty1], type_after (f1 ep) (f0 ep) (snd c) ty1)
    end).
  { unfold cut_edge. cbn [fst snd]. fold o. rewrite EO. cbn [fst snd]. fold c. rewrite next_type_R by assumption. fold f0 f1. reflexivity. }
  exists t0, pre, ty1, (snd c). split; [exact Ht0|]. split; [exact HP|]. cbv zeta. rewrite EC.
  destruct HL as [(G1 & t & G2 & G3 & G4)|[(G1 & G2 & G4)|(G1 & G4)]]; rewrite G4; cbn [fst snd].
  - left. split; [reflexivity|]. split; [exact G1|]. exists t. auto.
  - right. split; [reflexivity|]. split; [right; auto|reflexivity].
  - right. split; [reflexivity|]. split; [left; auto|reflexivity].
Qed.

(** The pieces are parts of the edge, in its direction. *)
Definition part (sp ep : P2) (s : Successor RA) (q1 q2 : P2) : Prop :=
  sinterval s = (vp q1, vp q2) /\ exists s0 s1, 0 <= s0 <= s1 /\ s1 <= 1 /\ q1 = lerp sp ep s0 /\ q2 = lerp sp ep s1.
Lemma cut_edge_parts r i0 i1 e ty sp ep :
  0 <= orient i0 i1 r -> orient i0 i1 sp <= 0 -> orient i0 i1 ep <= 0 ->
  sharp r i0 sp ep -> sharp r i1 sp ep -> 1 / 1000 < dist sp ep ->
  forall s, In s (fst (cut_edge (vp r) (vp i0, vp i1) e ty (vp sp) (vp ep))) -> exists q1 q2, part sp ep s q1 q2.
Proof.
  intros Hr Hs He S0 S1 HD s Hin.
  destruct (cut_edge_R r i0 i1 e ty sp ep Hr Hs He S0 S1 HD) as (t0 & pre & ty1 & found & Ht0 & HP & HC). cbv zeta in HC.
  assert (H0 : forall t, 0 <= t <= 1 -> part sp ep (mkSucc (vp sp, vp (lerp sp ep t)) e ty) sp (lerp sp ep t)).
  { intros t Ht. split; [reflexivity|]. exists 0, t. rewrite lerp_0. repeat split; lra. }
  assert (HPre : forall x, In x pre -> exists q1 q2, part sp ep x q1 q2).
  { intros x Hx. destruct HP as [(-> & _)|(-> & _)]; [|destruct Hx]. destruct Hx as [<-|[]]. do 2 eexists. apply H0. lra. }
  destruct HC as [(_ & _ & t & Ht & _ & EC)|(_ & _ & EC)]; rewrite EC in Hin; cbn [fst] in Hin; apply in_app_or in Hin; destruct Hin as [Hin|Hin]; auto.
  - destruct Hin as [<-|[<-|[]]].
    + do 2 eexists. split; [reflexivity|]. exists t0, t. repeat split; lra.
    + do 2 eexists. split; [reflexivity|]. exists t, 1. rewrite lerp_1. repeat split; lra.
  - destruct Hin as [<-|[]]. do 2 eexists. split; [reflexivity|]. exists t0, 1. rewrite lerp_1. repeat split; lra.
Qed.

(** Where the ends of the pieces come from: a corner, or the line through the root and an end of the interval. *)
Definition cut_at (r i sp ep q : P2) : Prop := q = sp \/ q = ep \/ (orient r i q = 0 /\ (orient r i sp <> 0 \/ orient r i ep <> 0)).
Definition end_ok (r i0 i1 sp ep : P2) (ty : SuccType) (q : P2) : Prop :=
  match ty with
  | RightNonObs => cut_at r i0 sp ep q
  | LeftNonObs => cut_at r i1 sp ep q
  | Obs => cut_at r i0 sp ep q \/ cut_at r i1 sp ep q
  end.
Lemma end_corner r i0 i1 sp ep ty q : q = sp \/ q = ep -> end_ok r i0 i1 sp ep ty q.
Proof. intros [H|H]; destruct ty; cbn [end_ok]; unfold cut_at; auto. Qed.
Lemma cut_edge_ends r i0 i1 e ty sp ep :
  0 <= orient i0 i1 r -> orient i0 i1 sp <= 0 -> orient i0 i1 ep <= 0 ->
  sharp r i0 sp ep -> sharp r i1 sp ep -> 1 / 1000 < dist sp ep ->
  forall s, In s (fst (cut_edge (vp r) (vp i0, vp i1) e ty (vp sp) (vp ep))) -> exists q1 q2, sinterval s = (vp q1, vp q2) /\
    forall q, q = q1 \/ q = q2 -> q = sp \/ q = ep \/ (orient r i0 q = 0 /\ orient r i0 sp <= - eps) \/ (orient r i1 q = 0 /\ eps <= orient r i1 ep).
Proof.
  intros Hr Hs He S0 S1 HD s Hin.
  destruct (cut_edge_R r i0 i1 e ty sp ep Hr Hs He S0 S1 HD) as (t0 & pre & ty1 & found & Ht0 & HP & HC). cbv zeta in HC.
  assert (H0 : lerp sp ep t0 = sp \/ (orient r i0 (lerp sp ep t0) = 0 /\ orient r i0 sp <= - eps)).
  { destruct HP as [(_ & _ & A1 & A2 & _)|(_ & -> & _)]; [right; auto|left; apply lerp_0]. }
  assert (HPre : forall x, In x pre -> sinterval x = (vp sp, vp (lerp sp ep t0))).
  { intros x Hx. destruct HP as [(-> & _)|(-> & _)]; [|destruct Hx]. destruct Hx as [<-|[]]. reflexivity. }
  assert (HPre2 : In s pre -> exists q1 q2, sinterval s = (vp q1, vp q2) /\
    forall q, q = q1 \/ q = q2 -> q = sp \/ q = ep \/ (orient r i0 q = 0 /\ orient r i0 sp <= - eps) \/ (orient r i1 q = 0 /\ eps <= orient r i1 ep)).
  { intro Hx. exists sp, (lerp sp ep t0). split; [now apply HPre|]. intros q [->| ->]; [auto|]. destruct H0; auto. }
  destruct HC as [(_ & G & t & Ht & TF & EC)|(_ & _ & EC)]; rewrite EC in Hin; cbn [fst] in Hin; apply in_app_or in Hin; destruct Hin as [Hin|Hin]; auto.
  - destruct Hin as [<-|[<-|[]]]; do 2 eexists; (split; [reflexivity|]); intros q [->| ->]; auto 6. destruct H0; auto 6.
  - destruct Hin as [<-|[]]. do 2 eexists. split; [reflexivity|]. intros q [->| ->]; auto. destruct H0; auto.
Qed.

(** What the type at the start of an edge says about the start and the later corners. *)
Definition typed (f0 f1 : P2 -> R) (ty : SuccType) (sp : P2) (later : list P2) : Prop :=
  match ty with
  | RightNonObs => f0 sp <= 0
  | Obs => 0 <= f0 sp /\ f1 sp <= 0 /\ Forall (fun q => 0 <= f0 q) later
  | LeftNonObs => 0 <= f1 sp /\ Forall (fun q => 0 <= f1 q) later
  end.
Definition in_cone (f0 f1 : P2 -> R) (q : P2) : Prop := 0 <= f0 q /\ f1 q <= 0.
Lemma cut_edge_typed r i0 i1 e ty sp ep later :
  0 < orient i0 i1 r -> orient i0 i1 sp <= 0 -> orient i0 i1 ep <= 0 ->
  sharp r i0 sp ep -> sharp r i1 sp ep -> 1 / 1000 < dist sp ep ->
  let f0 := orient r i0 in let f1 := orient r i1 in
  (forall t, 0 <= t <= 1 -> f0 (lerp sp ep t) = 0 -> 0 <= f0 ep -> Forall (fun q => 0 <= f0 q) (ep :: later)) ->
  (forall t, 0 <= t <= 1 -> f1 (lerp sp ep t) = 0 -> 0 <= f1 ep -> Forall (fun q => 0 <= f1 q) (ep :: later)) ->
  typed f0 f1 ty sp (ep :: later) ->
  let o := cut_edge (vp r) (vp i0, vp i1) e ty (vp sp) (vp ep) in
  (forall s, In s (fst o) -> sty s = Obs -> exists q1 q2, part sp ep s q1 q2 /\ in_cone f0 f1 q1 /\ in_cone f0 f1 q2) /\
  typed f0 f1 (snd o) ep later /\
  (forall s, In s (fst o) -> sty s <> Obs -> exists q1 q2, sinterval s = (vp q1, vp q2) /\ end_ok r i0 i1 sp ep (sty s) q1 /\ end_ok r i0 i1 sp ep (sty s) q2).
Proof.
  intros Hr Hs He S0 S1 HD f0 f1 K0 K1 HT o. pose proof eps_pos as HE.
  destruct (cut_edge_R r i0 i1 e ty sp ep (Rlt_le _ _ Hr) Hs He S0 S1 HD) as (t0 & pre & ty1 & found & Ht0 & HP & HC). cbv zeta in HC.
  fold f0 f1 in HP, HC. fold o in HC.
  assert (HI : forall q, f0 q + orient i0 i1 q - f1 q = orient i0 i1 r) by (intro; apply orient_three).
  assert (HF : forall t, 0 <= t <= 1 -> orient i0 i1 (lerp sp ep t) <= 0).
  { intros t Ht. rewrite orient_lerp3. assert (0 <= (1 - t) * (- orient i0 i1 sp) + t * (- orient i0 i1 ep)) by (apply affine_between; lra). lra. }
  set (x0 := lerp sp ep t0) in *.
  assert (HFx0 : orient i0 i1 x0 <= 0) by (apply HF; lra).
  (* the type after the right cut, at x0 *)
  assert (H1 : typed f0 f1 ty1 x0 (ep :: later) /\ (ty1 = RightNonObs -> f0 ep <= 0) /\ (forall s, In s pre -> sty s <> Obs) /\
     (forall s, In s pre -> sty s <> Obs -> exists q1 q2, sinterval s = (vp q1, vp q2) /\ end_ok r i0 i1 sp ep (sty s) q1 /\ end_ok r i0 i1 sp ep (sty s) q2) /\
     (ty1 <> Obs -> x0 = sp)).
  { destruct HP as [(-> & T0 & P1 & P2' & ->)|(-> & T0 & HP)].
    - assert (P3 : 0 <= f0 ep).
      { unfold f0, x0 in *. rewrite orient_lerp3 in P2'. destruct (Rle_dec 0 (orient r i0 ep)); [assumption|exfalso]. nra. }
      split; [|split; [discriminate|split]].
      + cbn [typed]. split; [lra|]. split; [specialize (HI x0); lra|]. apply (K0 t0); [lra|assumption|assumption].
      + intros s [<-|[]]. cbn [sty]. destruct ty; [|cbn [typed] in HT; lra|discriminate].
        cbn [typed] in HT. specialize (HI sp). exfalso. lra.
      + split; [|congruence]. intros s [<-|[]] _. cbn [sty]. exists sp, x0. split; [reflexivity|]. split; [apply end_corner; auto|].
        destruct ty; cbn [end_ok typed] in *; [specialize (HI sp); exfalso; lra|exfalso; lra|]. right. right. split; [exact P2'|left]. unfold f0 in *. lra.
    - subst x0. rewrite T0, lerp_0 in *. destruct HP as [(P1 & P2' & ->)|[(P1 & ->)|[(P1 & P2' & ->)|(P1 & P2' & ->)]]].
      + split; [exact HT|]. split; [intros; assumption|split; [intros s []|split; [intros s []|reflexivity]]].
      + unfold if_right. destruct ty; cbn [ty_is_right].
        * split; [exact HT|]. split; [discriminate|split; [intros s []|split; [intros s []|reflexivity]]].
        * split; [exact HT|]. split; [discriminate|split; [intros s []|split; [intros s []|reflexivity]]].
        * cbn [typed] in HT. lra.
      + split; [|split; [discriminate|split; [intros s []|split; [intros s []|reflexivity]]]]. cbn [typed]. split; [lra|]. split; [specialize (HI sp); lra|].
        apply (K0 0); [lra|now rewrite lerp_0|assumption].
      + split; [exact HT|]. split; [intros; lra|split; [intros s []|split; [intros s []|reflexivity]]]. }
  destruct H1 as (H1 & H2 & H3 & H4 & H5).
  destruct HC as [(-> & G1 & t & Ht & G2 & EC)|(-> & G1 & EC)]; rewrite EC; cbn [fst snd].
  - assert (G3 : typed f0 f1 LeftNonObs ep later).
    { cbn [typed]. split; [lra|]. assert (Q : Forall (fun q => 0 <= f1 q) (ep :: later)) by (apply (K1 t); [lra|assumption|lra]). now inversion Q. }
    assert (EL : type_after (f1 ep) (f0 ep) true ty1 = LeftNonObs).
    { unfold type_after. destruct (Rlt_dec _ 0); [lra|]. destruct (Rlt_dec 0 (f1 ep)); [reflexivity|lra]. }
    rewrite EL. split; [|split; [exact G3|]].
    2: { assert (TC : cut_at r i1 sp ep (lerp sp ep t)) by (right; right; split; [exact G2|right; unfold f1 in *; lra]).
      intros s Hin Hty. apply in_app_or in Hin. destruct Hin as [Hin|Hin]; [now apply H4|].
      destruct Hin as [<-|[<-|[]]]; cbn [sty] in Hty |- *; do 2 eexists; (split; [reflexivity|]).
      - split; [apply end_corner; left; now apply H5|]. destruct ty1; cbn [end_ok]; [exact TC|congruence|exfalso].
        assert (Q1 : 0 <= (1 - t) * - f0 sp + t * - f0 ep).
        { apply affine_between; [lra| |specialize (H2 eq_refl); lra]. cbn [typed] in H1. rewrite H5 in H1 by discriminate. lra. }
        specialize (HI (lerp sp ep t)). specialize (HF t). unfold f0 at 1 in HI. rewrite orient_lerp3 in HI. fold f0 in HI. lra.
      - split; [exact TC|apply end_corner; auto]. }
    intros s Hin Hty. apply in_app_or in Hin. destruct Hin as [Hin|Hin]; [now apply H3 in Hin|].
    destruct Hin as [<-|[<-|[]]]; cbn [sty] in Hty; [|discriminate]. subst ty1. cbn [typed] in H1.
    exists x0, (lerp sp ep t). split; [split; [reflexivity|exists t0, t; repeat split; lra]|].
    split; [split; [apply H1|apply H1]|]. split; [|lra]. specialize (HI (lerp sp ep t)). specialize (HF t). lra.
  - assert (Hsub : forall s, In s (pre ++ [mkSucc (vp x0, vp ep) e ty1]) -> sty s = Obs -> ty1 = Obs /\ s = mkSucc (vp x0, vp ep) e ty1).
    { intros s Hin Hty. apply in_app_or in Hin. destruct Hin as [Hin|[<-|[]]]; [now apply H3 in Hin|]. cbn [sty] in Hty. auto. }
    assert (HL : ty1 = LeftNonObs -> typed f0 f1 LeftNonObs ep later).
    { intros ->. cbn [typed] in H1. destruct H1 as [_ H1]. inversion H1; subst. cbn [typed]. auto. }
    assert (HO : ty1 = Obs -> f1 ep <= 0 /\ typed f0 f1 Obs ep later).
    { intros ->. cbn [typed] in H1. destruct H1 as (A1 & A2 & A3). inversion A3; subst. destruct G1 as [G1|[_ G1]]; [|lra]. cbn [typed]. auto. }
    split.
    + intros s Hin Hty. destruct (Hsub s Hin Hty) as [E ->]. destruct (HO E) as [B1 B2]. subst ty1. cbn [typed] in H1, B2.
      exists x0, ep. split; [split; [reflexivity|exists t0, 1; rewrite lerp_1; repeat split; lra]|]. unfold in_cone. tauto.
    + split. 2: { intros s Hin Hty. apply in_app_or in Hin. destruct Hin as [Hin|[<-|[]]]; [now apply H4|]. cbn [sty] in Hty |- *.
        do 2 eexists. split; [reflexivity|]. split; apply end_corner; auto. }
      unfold type_after. destruct (Rlt_dec (f1 ep) 0) as [L|L].
      * destruct ty1; [apply HL; reflexivity|apply HO; reflexivity|cbn [typed]; now apply H2].
      * destruct (Rlt_dec 0 (f1 ep)) as [L2|L2].
        -- destruct ty1; [apply HL; reflexivity|apply HO; reflexivity|cbn [typed]; now apply H2].
        -- assert (E : f1 ep = 0) by lra. assert (Q : 0 <= f0 ep) by (specialize (HI ep); lra).
           destruct (Rle_dec 0 (f0 ep)); [|lra]. cbn [typed]. split; [lra|].
           assert (W : Forall (fun q => 0 <= f1 q) (ep :: later)) by (apply (K1 1); [lra|now rewrite lerp_1|lra]). now inversion W.
Qed.

(** ** The far boundary of a convex polygon *)
(** [L]: the corners from one end [a] of the edge the search came through, all around to the other end [b]. *)
Definition turns_left (L : list P2) : Prop := forall x a y b z c w, L = x ++ a :: y ++ b :: z ++ c :: w -> 0 <= orient a b c.
Definition distinct (L : list P2) : Prop := forall x a y b z, L = x ++ a :: y ++ b :: z -> a <> b.

Lemma split_first {T} (a b u : T) M x y : a :: M ++ [b] = x ++ u :: y -> (x = [] /\ u = a) \/ exists x', x = a :: x'.
Proof. destruct x as [|c x]; intro H; inversion H; subst; [left; auto|right; eauto]. Qed.
Lemma split_last {T} (a b u : T) M x y : a :: M ++ [b] = x ++ u :: y -> (y = [] /\ u = b) \/ exists y', y = y' ++ [b].
Proof.
  intro H. destruct (rev y) as [|c r] eqn:E.
  - apply (f_equal (@rev T)) in E. rewrite rev_involutive in E. cbn in E. subst y. left. split; [reflexivity|].
    change (a :: M ++ [b]) with ((a :: M) ++ [b]) in H. apply app_inj_tail in H. now destruct H.
  - apply (f_equal (@rev T)) in E. rewrite rev_involutive in E. cbn in E. subst y. right. exists (rev r). f_equal. f_equal.
    change (a :: M ++ [b]) with ((a :: M) ++ [b]) in H. change (u :: rev r ++ [c]) with ((u :: rev r) ++ [c]) in H. rewrite app_assoc in H.
    apply app_inj_tail in H. now destruct H.
Qed.

Lemma orient_132 a b c : orient a b c = - orient a c b. Proof. pts. ring. Qed.
Lemma orient_312 a b c : orient a b c = orient c a b. Proof. pts. ring. Qed.
Lemma orient_231 a b c : orient a b c = orient b c a. Proof. pts. ring. Qed.
Lemma orient_213 a b c : orient a b c = - orient b a c. Proof. pts. ring. Qed.
Lemma orient_behind r i k q : orient i (lerp i r (- k)) q = k * orient r i q.
Proof. unfold lerp. pts. ring. Qed.
Lemma pluecker x y u w p : orient p x y * orient p u w = orient p x u * orient p y w - orient p x w * orient p y u.
Proof. pts. ring. Qed.

Section Far.
Context (a b : P2) (M : list P2).
Let L := a :: M ++ [b].
Context (HT : turns_left L) (HDis : distinct L) (HZ : exists z, In z L /\ orient a b z < 0).

Lemma far_first x u y w z : L = x ++ u :: y ++ w :: z -> 0 <= orient a u w.
Proof using HT.
  intro E. destruct (split_first a b u M x _ E) as [[-> ->]|[x' ->]].
  - rewrite orient_cycle, orient_end. lra.
  - apply (HT [] a x' u y w z). exact E.
Qed.
Lemma far_last x u y w z : L = x ++ u :: y ++ w :: z -> 0 <= orient u w b.
Proof using HT.
  intro E. assert (E2 : L = (x ++ u :: y) ++ w :: z) by (rewrite E, <- app_assoc; reflexivity).
  destruct (split_last a b w M _ _ E2) as [[-> ->]|[z' ->]].
  - rewrite orient_end. lra.
  - apply (HT x u y w z' b []). exact E.
Qed.
Lemma far_side q : In q L -> orient a b q <= 0.
Proof using HT.
  intro H. destruct (in_split _ _ H) as (x & y & E). destruct (split_last a b q M _ _ E) as [[-> ->]|[y' ->]]; [rewrite orient_end; lra|].
  pose proof (far_first x q y' b [] E) as G. rewrite orient_132. lra.
Qed.
Lemma far_ends : a <> b.
Proof using HDis. apply (HDis [] a M b []). reflexivity. Qed.

(** the point on the line of the near edge *)
Lemma far_line p : orient a b p = 0 -> exists s, p = lerp a b s.
Proof using HDis. apply on_line. apply far_ends. Qed.

Lemma order_after s t x y z w zz : L = x ++ lerp a b s :: y ++ lerp a b t :: z ++ zz :: w -> orient a b zz < 0 -> t <= s.
Proof using HT.
  intros E H. pose proof (HT x _ y _ z zz w E) as G. rewrite orient_line in G. destruct (Rle_dec t s); [assumption|exfalso]. nra.
Qed.
Lemma order_before s t x y z w zz : L = x ++ zz :: y ++ lerp a b s :: z ++ lerp a b t :: w -> orient a b zz < 0 -> t <= s.
Proof using HT.
  intros E H. pose proof (HT x _ y _ z _ w E) as G. rewrite <- orient_cycle, orient_line in G. destruct (Rle_dec t s); [assumption|exfalso]. nra.
Qed.
(** relative to the ends *)
Lemma after_a s x y z zz : L = x ++ lerp a b s :: y ++ zz :: z -> orient a b zz < 0 -> s <= 0.
Proof using HT.
  intros E H. destruct (split_first a b _ M x _ E) as [[-> Q]|[x' ->]].
  - destruct (Rle_dec s 0); [assumption|exfalso]. pose proof (far_first [] _ y zz z E) as G.
    rewrite <- (lerp_0 a b) in G at 1. rewrite orient_line in G. nra.
  - apply (order_after 0 s [] x' y z zz); [rewrite lerp_0; exact E|exact H].
Qed.
Lemma before_b s x y z zz : L = x ++ zz :: y ++ lerp a b s :: z -> orient a b zz < 0 -> 1 <= s.
Proof using HT.
  intros E H. assert (E2 : L = (x ++ zz :: y) ++ lerp a b s :: z) by (rewrite E, <- app_assoc; reflexivity).
  destruct (split_last a b _ M _ _ E2) as [[-> Q]|[z' ->]].
  - destruct (Rle_dec 1 s); [assumption|exfalso]. pose proof (far_last x zz y _ [] E) as G.
    rewrite <- (lerp_1 a b) in G at 2. rewrite <- orient_cycle, orient_line in G. nra.
  - apply (order_before s 1 x y z' [] zz); [rewrite lerp_1; exact E|exact H].
Qed.

(** where is a corner strictly on the far side, relative to an edge on the line of the near edge *)
Lemma strict_cases x u y : L = x ++ u :: y -> orient a b u = 0 ->
  exists z, orient a b z < 0 /\ ((exists y1 y2, y = y1 ++ z :: y2) \/ (exists x1 x2, x = x1 ++ z :: x2)).
Proof using HZ.
  intros E Hu. destruct HZ as (z & Hz & Hn). exists z. split; [exact Hn|]. rewrite E in Hz. apply in_app_or in Hz.
  destruct Hz as [Hz|[<-|Hz]].
  - right. apply in_split in Hz. destruct Hz as (x1 & x2 & ->). eauto.
  - lra.
  - left. apply in_split in Hz. destruct Hz as (y1 & y2 & ->). eauto.
Qed.

(** The far boundary meets the near edge only at its ends. *)
Lemma far_near pre sp ep later t s : L = pre ++ sp :: ep :: later -> 0 <= t <= 1 -> 0 <= s <= 1 ->
  lerp sp ep t = lerp a b s -> (t = 0 /\ pre = [] /\ s = 0) \/ (t = 1 /\ later = [] /\ s = 1).
Proof using HT HDis HZ.
  intros E Ht Hs Ex.
  assert (Isp : In sp L) by (rewrite E; apply in_or_app; right; left; reflexivity).
  assert (Iep : In ep L) by (rewrite E; apply in_or_app; right; right; left; reflexivity).
  pose proof (far_side sp Isp) as Dsp. pose proof (far_side ep Iep) as Dep.
  assert (E0 : (1 - t) * orient a b sp + t * orient a b ep = 0) by (rewrite <- orient_lerp3, Ex; apply orient_lerp).
  pose proof far_ends as Hab.
  destruct (Req_EM_T t 0) as [T0|T0].
  { (* x = sp *)
    subst t. assert (D0 : orient a b sp = 0) by lra. rewrite lerp_0 in Ex.
    destruct (strict_cases pre sp (ep :: later) E D0) as (z & Hz & [(y1 & y2 & Ey)|(x1 & x2 & Epre)]).
    - rewrite Ey, Ex in E. pose proof (after_a s pre y1 y2 z E Hz). assert (s = 0) by lra. subst s. rewrite lerp_0 in E.
      left. split; [reflexivity|]. split; [|reflexivity].
      destruct (split_first a b _ M _ _ E) as [[-> _]|[x' ->]]; [reflexivity|exfalso].
      apply (HDis [] a x' a (y1 ++ z :: y2) E). reflexivity.
    - rewrite Epre, <- app_assoc in E. cbn [app] in E. rewrite Ex in E. pose proof (before_b s x1 x2 (ep :: later) z E Hz).
      assert (s = 1) by lra. subst s. rewrite lerp_1 in E. exfalso.
      assert (E2 : L = (x1 ++ z :: x2) ++ b :: ep :: later) by (rewrite E, <- app_assoc; reflexivity).
      destruct (split_last a b b M _ _ E2) as [[Q _]|[y' Q]]; [discriminate|]. rewrite Q in E2.
      apply (HDis (x1 ++ z :: x2) b y' b [] E2). reflexivity. }
  destruct (Req_EM_T t 1) as [T1|T1].
  { subst t. assert (D0 : orient a b ep = 0) by lra. rewrite lerp_1 in Ex.
    assert (E2 : L = (pre ++ [sp]) ++ ep :: later) by (rewrite E, <- app_assoc; reflexivity).
    destruct (strict_cases (pre ++ [sp]) ep later E2 D0) as (z & Hz & [(y1 & y2 & Ey)|(x1 & x2 & Epre)]).
    - rewrite Ey, Ex in E2. pose proof (after_a s _ y1 y2 z E2 Hz). assert (s = 0) by lra. subst s. rewrite lerp_0 in E2. exfalso.
      destruct (split_first a b _ M _ _ E2) as [[Q _]|[x' Q]]; [destruct pre; discriminate|]. rewrite Q in E2.
      apply (HDis [] a x' a (y1 ++ z :: y2) E2). reflexivity.
    - rewrite Epre, <- app_assoc in E2. cbn [app] in E2. rewrite Ex in E2. pose proof (before_b s x1 x2 later z E2 Hz).
      assert (s = 1) by lra. subst s. rewrite lerp_1 in E2. right. split; [reflexivity|]. split; [|reflexivity].
      assert (E3 : L = (x1 ++ z :: x2) ++ b :: later) by (rewrite E2, <- app_assoc; reflexivity).
      destruct (split_last a b b M _ _ E3) as [[Q _]|[y' Q]]; [exact Q|exfalso]. rewrite Q in E3.
      apply (HDis (x1 ++ z :: x2) b y' b [] E3). reflexivity. }
  exfalso. assert (D1 : orient a b sp = 0) by nra. assert (D2 : orient a b ep = 0) by nra.
  assert (Hne : sp <> ep) by (apply (HDis pre sp [] ep later); exact E).
  destruct (far_line sp D1) as [s1 ES1]. destruct (far_line ep D2) as [s2 ES2].
  assert (ES : (1 - t) * s1 + t * s2 = s).
  { rewrite ES1, ES2, lerp_lerp in Ex. apply lerp_inj in Ex; [lra|exact Hab]. }
  assert (E2 : L = (pre ++ [sp]) ++ ep :: later) by (rewrite E, <- app_assoc; reflexivity).
  destruct (strict_cases pre sp (ep :: later) E D1) as (z & Hz & [(y1 & y2 & Ey)|(x1 & x2 & Epre)]).
  - assert (s1 <= 0) by (apply (after_a s1 pre y1 y2 z); [rewrite <- ES1, <- Ey; exact E|exact Hz]).
    destruct y1 as [|c y1]; [cbn in Ey; inversion Ey; subst; lra|]. injection Ey as <- Ey.
    assert (s2 <= 0) by (apply (after_a s2 (pre ++ [sp]) y1 y2 z); [rewrite <- ES2, <- Ey; exact E2|exact Hz]).
    assert (s1 = 0) by nra. assert (s2 = 0) by nra. apply Hne. congruence.
  - assert (1 <= s1) by (apply (before_b s1 x1 x2 (ep :: later) z); [rewrite <- ES1; rewrite Epre, <- app_assoc in E; exact E|exact Hz]).
    assert (1 <= s2).
    { apply (before_b s2 x1 (x2 ++ [sp]) later z); [|exact Hz]. rewrite <- ES2. rewrite Epre in E. rewrite E. rewrite <- !app_assoc. reflexivity. }
    assert (s1 = 1) by nra. assert (s2 = 1) by nra. apply Hne. congruence.
Qed.

Context (r : P2) (t0 t1 : R) (Ht : 0 <= t0 < t1 /\ t1 <= 1) (Hr : 0 < orient a b r).
Let i0 := lerp a b t0.
Let i1 := lerp a b t1.

(** a point of the line through the root and a point of the near edge, on the far side, is behind that point *)
Lemma behind u x : orient r (lerp a b u) x = 0 -> orient a b x <= 0 ->
  exists k, 0 <= k /\ x = lerp (lerp a b u) r (- k).
Proof using Hr.
  intros Hx Hd. assert (Hne : lerp a b u <> r).
  { intro E. assert (Q : orient a b (lerp a b u) = 0) by apply orient_lerp. rewrite E in Q. lra. }
  assert (Hx' : orient (lerp a b u) r x = 0) by (rewrite orient_swap; lra).
  destruct (on_line _ _ _ Hne Hx') as [k ->]. exists (- k). split; [|now rewrite Ropp_involutive].
  rewrite orient_lerp3, orient_lerp in Hd. nra.
Qed.
(** later points are on the left of the line from the near edge to a point of the edge *)
Lemma later_left pre sp ep later u t q : L = pre ++ sp :: ep :: later -> 0 <= u <= 1 -> 0 <= t <= 1 -> In q later ->
  0 <= orient (lerp a b u) (lerp sp ep t) q.
Proof using HT.
  intros E Hu Htt Hq. destruct (in_split _ _ Hq) as (l1 & l2 & ->).
  assert (E2 : L = (pre ++ [sp]) ++ ep :: l1 ++ q :: l2) by (rewrite E, <- app_assoc; reflexivity).
  assert (E1 : L = pre ++ sp :: (ep :: l1) ++ q :: l2) by exact E.
  rewrite orient_lerp1. apply affine_between; [exact Hu| |].
  - rewrite orient_lerp2. apply affine_between; [exact Htt|exact (far_first _ _ _ _ _ E1)|exact (far_first _ _ _ _ _ E2)].
  - rewrite orient_lerp2. apply affine_between; [exact Htt| |].
    + rewrite <- orient_cycle. exact (far_last _ _ _ _ _ E1).
    + rewrite <- orient_cycle. exact (far_last _ _ _ _ _ E2).
Qed.
Lemma far_edge_side pre sp ep later t : L = pre ++ sp :: ep :: later -> 0 <= t <= 1 -> orient a b (lerp sp ep t) <= 0.
Proof using HT.
  intros E Htt. assert (orient a b sp <= 0) by (apply far_side; rewrite E; apply in_or_app; right; left; reflexivity).
  assert (orient a b ep <= 0) by (apply far_side; rewrite E; apply in_or_app; right; right; left; reflexivity).
  rewrite orient_lerp3. assert (0 <= (1 - t) * (- orient a b sp) + t * (- orient a b ep)) by (apply affine_between; lra). lra.
Qed.

Lemma K1 pre sp ep later : L = pre ++ sp :: ep :: later ->
  forall t, 0 <= t <= 1 -> orient r i1 (lerp sp ep t) = 0 -> 0 <= orient r i1 ep -> Forall (fun q => 0 <= orient r i1 q) (ep :: later).
Proof using HT HDis HZ Ht Hr.
  intros E t Htt Hx Hep. constructor; [exact Hep|]. apply Forall_forall. intros q Hq.
  pose proof (far_edge_side _ _ _ _ _ E Htt) as Hd.
  destruct (behind t1 _ Hx Hd) as (k & Hk & Ek). fold i1 in Ek.
  pose proof (later_left _ _ _ _ t1 t q E ltac:(lra) Htt Hq) as HL. fold i1 in HL.
  destruct (Req_EM_T k 0) as [K|K].
  - exfalso. subst k. rewrite Ropp_0, lerp_0 in Ek.
    destruct (far_near _ _ _ _ t t1 E Htt ltac:(lra) Ek) as [(_ & _ & ?)|(_ & Q & _)]; [lra|]. rewrite Q in Hq. destruct Hq.
  - rewrite Ek, orient_behind in HL. destruct (Rle_dec 0 (orient r i1 q)); [assumption|exfalso]. nra.
Qed.

Lemma K0 pre sp ep later : L = pre ++ sp :: ep :: later ->
  forall t, 0 <= t <= 1 -> orient r i0 (lerp sp ep t) = 0 -> 0 <= orient r i0 ep -> Forall (fun q => 0 <= orient r i0 q) (ep :: later).
Proof using HT HDis HZ Ht Hr.
  intros E t Htt Hx Hep. constructor; [exact Hep|]. apply Forall_forall. intros q Hq.
  pose proof (far_edge_side _ _ _ _ _ E Htt) as Hd.
  destruct (behind t0 _ Hx Hd) as (k & Hk & Ek). fold i0 in Ek.
  pose proof (later_left _ _ _ _ t0 t q E ltac:(lra) Htt Hq) as HL. fold i0 in HL.
  destruct (Req_EM_T k 0) as [K|K].
  2: { rewrite Ek, orient_behind in HL. destruct (Rle_dec 0 (orient r i0 q)); [assumption|exfalso]. nra. }
  subst k. rewrite Ropp_0, lerp_0 in Ek.
  destruct (far_near _ _ _ _ t t0 E Htt ltac:(lra) Ek) as [(T & -> & T0)|(_ & Q & _)]; [|rewrite Q in Hq; destruct Hq].
  (* the first edge, and the interval begins at a *)
  cbn [app] in E. assert (sp = a) by (destruct (split_first a b sp M [] _ E) as [[_ ->]|[x' Q]]; [reflexivity|discriminate]). subst sp.
  assert (Ei : i0 = a) by (unfold i0; rewrite T0; apply lerp_0). rewrite Ei in *.
  destruct (in_split _ _ Hq) as (l1 & l2 & El).
  assert (Euw : 0 <= orient a ep q) by (apply (far_first [a] ep l1 q l2); rewrite E, El; reflexivity).
  assert (EqB : 0 <= orient a q b).
  { assert (E2 : L = (a :: ep :: l1) ++ q :: l2) by (rewrite E, El; reflexivity).
    destruct (split_last a b q M _ _ E2) as [[_ ->]|[y' Q]]; [rewrite orient_end; lra|]. rewrite Q in E2. exact (far_first _ _ _ _ _ E2). }
  assert (EuB : 0 <= orient a ep b).
  { assert (E2 : L = [a] ++ ep :: later) by (rewrite E; reflexivity).
    destruct (split_last a b ep M _ _ E2) as [[Q ->]|[y' Q]]; [rewrite orient_end; lra|]. rewrite Q in E2. exact (far_first _ _ _ _ _ E2). }
  assert (F1 : orient r a ep = orient a ep r) by apply orient_231. assert (F2 : orient r a q = orient a q r) by apply orient_231.
  rewrite F1 in Hep. rewrite F2.
  pose proof (pluecker ep b q r a) as HP.
  assert (Hbq : orient a b q = - orient a q b) by apply orient_132. rewrite Hbq in HP.
  destruct EuB as [EuB|EuB].
  - destruct (Rle_dec 0 (orient a q r)); [assumption|exfalso].
    assert (0 <= orient a ep q * orient a b r) by (apply Rmult_le_pos; lra).
    assert (0 <= orient a ep r * orient a q b) by (apply Rmult_le_pos; lra). nra.
  - exfalso. assert (D0 : orient a b ep = 0) by (rewrite orient_132; lra).
    destruct (far_line ep D0) as [s Es].
    assert (E2 : L = [a] ++ ep :: later) by (rewrite E; reflexivity).
    destruct (strict_cases [a] ep later E2 D0) as (z & Hz & [(y1 & y2 & Ey)|(x1 & x2 & Epre)]).
    + assert (s <= 0) by (apply (after_a s [a] y1 y2 z); [rewrite <- Es, <- Ey; exact E2|exact Hz]).
      assert (s <> 0) by (intros ->; rewrite lerp_0 in Es; apply (HDis [] a [] ep later E); congruence).
      rewrite Es in Hep. rewrite <- (lerp_0 a b) in Hep at 1. rewrite orient_line in Hep. nra.
    + destruct x1 as [|c x1]; [|destruct x1; discriminate]. injection Epre as <- _. rewrite orient_start in Hz. lra.
Qed.

(** A point in the cone on the far side is seen through the interval. *)
Lemma cone_through q : orient a b q <= 0 -> in_cone (orient r i0) (orient r i1) q ->
  exists t s, 0 <= t <= 1 /\ 0 <= s <= 1 /\ lerp r q t = lerp i0 i1 s /\ (t = 1 -> orient a b q = 0).
Proof using HDis Ht Hr.
  intros Hq [C0 C1]. set (d := orient a b r) in *. set (e := orient a b q) in *.
  assert (HDr : orient i0 i1 r = (t1 - t0) * d) by apply orient_line.
  assert (HDr0 : 0 < orient i0 i1 r) by (rewrite HDr; apply Rmult_lt_0_compat; lra).
  exists (d / (d - e)). set (t := d / (d - e)). assert (Htd : t * (d - e) = d) by (unfold t; field; lra).
  assert (Ht01 : 0 < t <= 1).
  { assert (0 < t) by (unfold t; apply Rdiv_lt_0_compat; lra). split; [assumption|]. destruct (Rle_dec t 1); [assumption|exfalso].
    assert ((t - 1) * (d - e) = e) by lra. assert (0 < (t - 1) * (d - e)) by (apply Rmult_lt_0_compat; lra). lra. }
  assert (H0 : orient i0 i1 (lerp r q t) = 0).
  { rewrite orient_lerp3. unfold i0, i1. rewrite !orient_line. fold d e. replace ((1 - t) * ((t1 - t0) * d) + t * ((t1 - t0) * e)) with ((t1 - t0) * (d - t * (d - e))) by ring.
    rewrite Htd. ring. }
  assert (Hi : i0 <> i1).
  { intro E. apply lerp_inj in E; [lra|apply far_ends]. }
  destruct (on_line _ _ _ Hi H0) as [s Es]. exists s. split; [lra|]. split.
  - split.
    + assert (G : orient r i0 (lerp r q t) = s * orient i0 i1 r).
      { rewrite Es, orient_lerp3. rewrite orient_end. rewrite (orient_231 r i0 i1). ring. }
      rewrite orient_lerp3, orient_start in G. assert (0 <= t * orient r i0 q) by (apply Rmult_le_pos; lra). nra.
    + assert (G : orient r i1 (lerp r q t) = - (1 - s) * orient i0 i1 r).
      { rewrite Es, orient_lerp3. rewrite orient_end. rewrite (orient_231 r i1 i0), (orient_213 i1 i0 r). ring. }
      rewrite orient_lerp3, orient_start in G. assert (0 <= t * - orient r i1 q) by (apply Rmult_le_pos; lra). nra.
  - split; [exact Es|]. intro T. rewrite T in Htd. lra.
Qed.
End Far.

(** ** All the pieces of the far boundary *)
Section Chain.
Context (a b : P2) (M : list P2).
Let L := a :: M ++ [b].
Context (HT : turns_left L) (HDis : distinct L) (HZ : exists z, In z L /\ orient a b z < 0).
Context (r : P2) (t0 t1 : R) (Ht : 0 <= t0 < t1 /\ t1 <= 1).
Let i0 := lerp a b t0.
Let i1 := lerp a b t1.
Context (HS : forall pre sp ep later, L = pre ++ sp :: ep :: later -> sharp r i0 sp ep /\ sharp r i1 sp ep /\ 1 / 1000 < dist sp ep).
Context (Hr : 0 <= orient a b r).

Definition between (x y p : P2) : Prop := exists t, 0 <= t <= 1 /\ p = lerp x y t.

(** What is known of a piece: if it is not a single point and is observable, the root is on the interval or the ends are in
    the cone of sight. *)
Definition good_piece (sp ep : P2) (s : Successor RA) : Prop :=
  exists q1 q2, part sp ep s q1 q2 /\ end_ok r i0 i1 sp ep (sty s) q1 /\ end_ok r i0 i1 sp ep (sty s) q2 /\
    (sty s = Obs -> q1 <> q2 -> between i0 i1 r \/
       (0 < orient a b r /\ in_cone (orient r i0) (orient r i1) q1 /\ in_cone (orient r i0) (orient r i1) q2)).

Definition good_step (J : list P2 -> SuccType -> P2 -> list P2 -> Prop) : Prop :=
  forall pre sp ep later ty e, L = pre ++ sp :: ep :: later -> J pre ty sp (ep :: later) ->
    let o := cut_edge (vp r) (vp i0, vp i1) e ty (vp sp) (vp ep) in
    (forall s, In s (fst o) -> good_piece sp ep s) /\ J (pre ++ [sp]) (snd o) ep later.

Lemma inner_side q : orient a b q <= 0 -> orient i0 i1 q <= 0.
Proof using Ht. intro H. unfold i0, i1. rewrite orient_line. assert (0 <= (t1 - t0) * - orient a b q) by (apply Rmult_le_pos; lra). lra. Qed.
Lemma root_side : 0 <= orient i0 i1 r.
Proof using Ht Hr. unfold i0, i1. rewrite orient_line. apply Rmult_le_pos; lra. Qed.
Lemma edge_sides pre sp ep later : L = pre ++ sp :: ep :: later -> orient i0 i1 sp <= 0 /\ orient i0 i1 ep <= 0.
Proof using HT Ht.
  intro E. split; apply inner_side, (far_side a b M HT); fold L; rewrite E; apply in_or_app; right; [left|right; left]; reflexivity.
Qed.

Lemma obs_ends sp ep s : (exists q1 q2, sinterval s = (vp q1, vp q2) /\
    forall q, q = q1 \/ q = q2 -> q = sp \/ q = ep \/ (orient r i0 q = 0 /\ orient r i0 sp <= - eps) \/ (orient r i1 q = 0 /\ eps <= orient r i1 ep)) ->
  forall q1 q2, sinterval s = (vp q1, vp q2) -> end_ok r i0 i1 sp ep Obs q1 /\ end_ok r i0 i1 sp ep Obs q2.
Proof.
  intros (x1 & x2 & E & H) q1 q2 E2. rewrite E in E2. injection E2 as E3 E4 E5 E6.
  assert (x1 = q1) by now apply P2_eq. assert (x2 = q2) by now apply P2_eq. subst x1 x2. pose proof eps_pos.
  assert (forall q, q = q1 \/ q = q2 -> end_ok r i0 i1 sp ep Obs q) as G; [|split; apply G; auto].
  intros q Hq. cbn [end_ok]. unfold cut_at. destruct (H q Hq) as [Q|[Q|[[Q1 Q2]|[Q1 Q2]]]]; auto.
  - left. right. right. split; [exact Q1|left; lra].
  - right. right. right. split; [exact Q1|right; lra].
Qed.
Lemma same_ends s q1 q2 x1 x2 (s' : Successor RA) : sinterval s = (vp q1, vp q2) -> sinterval s = (vp x1, vp x2) -> q1 = x1 /\ q2 = x2.
Proof. intros E E2. rewrite E in E2. injection E2 as E3 E4 E5 E6. split; now apply P2_eq. Qed.

Lemma good_on : between i0 i1 r -> good_step (fun _ _ _ _ => True).
Proof using HT HS Hr Ht.
  intros HB pre sp ep later ty e E _ o. split; [|exact I]. intros s Hs.
  destruct (edge_sides _ _ _ _ E) as [D1 D2]. destruct (HS _ _ _ _ E) as (S0 & S1 & HD).
  destruct (cut_edge_parts r i0 i1 e ty sp ep root_side D1 D2 S0 S1 HD s Hs) as (q1 & q2 & HP). exists q1, q2. split; [exact HP|].
  destruct (cut_edge_ends r i0 i1 e ty sp ep root_side D1 D2 S0 S1 HD s Hs) as (x1 & x2 & EX & HX).
  destruct (same_ends s q1 q2 x1 x2 s (proj1 HP) EX) as [-> ->]. pose proof eps_pos as HE.
  assert (G : forall q, q = x1 \/ q = x2 -> q = sp \/ q = ep).
  { intros q Hq. destruct HB as (k & Hk & Ek). unfold i0, i1 in Ek. rewrite lerp_lerp in Ek. set (k' := t0 + k * (t1 - t0)) in *.
    assert (t0 <= k' <= t1) by (unfold k'; split; nra).
    assert (F0 : orient r i0 sp = (t0 - k') * orient a b sp) by (unfold i0; rewrite Ek; apply orient_line).
    assert (F1 : orient r i1 ep = (t1 - k') * orient a b ep) by (unfold i1; rewrite Ek; apply orient_line).
    assert (Dsp : orient a b sp <= 0) by (apply (far_side a b M HT); fold L; rewrite E; apply in_or_app; right; left; reflexivity).
    assert (Dep : orient a b ep <= 0) by (apply (far_side a b M HT); fold L; rewrite E; apply in_or_app; right; right; left; reflexivity).
    destruct (HX q Hq) as [Q|[Q|[[_ Q]|[_ Q]]]]; auto; exfalso; nra. }
  split; [apply end_corner, G; auto|]. split; [apply end_corner, G; auto|]. auto.
Qed.

Lemma good_above : 0 < orient a b r -> good_step (fun _ => typed (orient r i0) (orient r i1)).
Proof using HT HDis HZ HS Ht.
  intros HP pre sp ep later ty e E HJ o. destruct (edge_sides _ _ _ _ E) as [D1 D2]. destruct (HS _ _ _ _ E) as (S0 & S1 & HD).
  assert (HR : 0 < orient i0 i1 r) by (unfold i0, i1; rewrite orient_line; apply Rmult_lt_0_compat; lra).
  destruct (cut_edge_typed r i0 i1 e ty sp ep later HR D1 D2 S0 S1 HD) as (H1 & H2 & H3); [| |exact HJ|].
  - intros t Htt Q1 Q2. exact (K0 a b M HT HDis HZ r t0 t1 Ht HP pre sp ep later E t Htt Q1 Q2).
  - intros t Htt Q1 Q2. exact (K1 a b M HT HDis HZ r t0 t1 Ht HP pre sp ep later E t Htt Q1 Q2).
  - split; [|exact H2]. intros s Hs.
    destruct (cut_edge_parts r i0 i1 e ty sp ep (Rlt_le _ _ HR) D1 D2 S0 S1 HD s Hs) as (q1 & q2 & HPt).
    pose proof (cut_edge_ends r i0 i1 e ty sp ep (Rlt_le _ _ HR) D1 D2 S0 S1 HD s Hs) as HEnds.
    specialize (H3 s Hs). specialize (H1 s Hs). destruct (sty s) eqn:Ety.
    + destruct H3 as (x1 & x2 & EX & X1 & X2); [discriminate|]. destruct (same_ends s q1 q2 x1 x2 s (proj1 HPt) EX) as [-> ->].
      exists x1, x2. rewrite Ety. split; [exact HPt|]. split; [exact X1|]. split; [exact X2|]. discriminate.
    + destruct (H1 eq_refl) as (q1' & q2' & HP' & C1 & C2). exists q1', q2'. rewrite Ety. split; [exact HP'|].
      destruct (obs_ends sp ep s HEnds q1' q2' (proj1 HP')) as [X1 X2]. split; [exact X1|]. split; [exact X2|]. intros _ _. right. auto.
    + destruct H3 as (x1 & x2 & EX & X1 & X2); [discriminate|]. destruct (same_ends s q1 q2 x1 x2 s (proj1 HPt) EX) as [-> ->].
      exists x1, x2. rewrite Ety. split; [exact HPt|]. split; [exact X1|]. split; [exact X2|]. discriminate.
Qed.

(** The root on the line of the near edge, but not on the interval; all the other corners are off that line. *)
Context (Hstrict : forall v, In v M -> orient a b v <> 0).
Lemma strict_inner v : In v M -> orient a b v < 0.
Proof using HT Hstrict.
  intro H. pose proof (Hstrict v H). assert (orient a b v <= 0); [|lra]. apply (far_side a b M HT). right. apply in_or_app. now left.
Qed.
Lemma pos_inner pre sp ep later : L = pre ++ sp :: ep :: later ->
  ((pre = [] /\ sp = a) \/ (pre <> [] /\ orient a b sp < 0)) /\ ((later = [] /\ ep = b) \/ (later <> [] /\ orient a b ep < 0)) /\
  (pre = [] -> later = [] -> False).
Proof using HT HZ Hstrict Ht.
  intro E. assert (E2 : L = (pre ++ [sp]) ++ ep :: later) by (rewrite E, <- app_assoc; reflexivity).
  split; [|split].
  - destruct (split_first a b sp M _ _ E) as [[-> Q1]|[x' ->]]; [left; auto|right]. split; [discriminate|].
    destruct (split_last a b sp M _ _ E) as [[Q _]|[y' Q]]; [discriminate|]. apply strict_inner. unfold L in E. rewrite Q in E.
    injection E as E. change (sp :: y' ++ [b]) with ((sp :: y') ++ [b]) in E. rewrite app_assoc in E. apply app_inj_tail in E. destruct E as [E _]. rewrite E.
    apply in_or_app. right. left. reflexivity.
  - destruct (split_last a b ep M _ _ E2) as [[-> Q1]|[y' ->]]; [left; auto|right]. split; [now destruct y'|].
    apply strict_inner. destruct (split_first a b ep M _ _ E2) as [[Q _]|[x' Q]]; [destruct pre; discriminate|]. rewrite Q in E2.
    injection E2 as E2. change (ep :: y' ++ [b]) with ((ep :: y') ++ [b]) in E2. rewrite app_assoc in E2. apply app_inj_tail in E2. destruct E2 as [E2 _]. rewrite E2.
    apply in_or_app. right. left. reflexivity.
  - intros -> ->. destruct HZ as (z & Hz & Hn). fold L in Hz. rewrite E in Hz. unfold L in E.
    assert (EM : M = []).
    { apply length_zero_iff_nil. apply (f_equal (@length P2)) in E. cbn [length app] in E. rewrite app_length in E. cbn [length] in E. lia. }
    rewrite EM in E. injection E as E1 E3. rewrite <- E1, <- E3 in Hz.
    destruct Hz as [Hz|[Hz|[]]]; rewrite <- Hz in Hn; [rewrite orient_start in Hn|rewrite orient_end in Hn]; lra.
Qed.

Lemma good_before k : r = lerp a b k -> k < t0 -> good_step (fun _ ty _ later => later = [] \/ ty = RightNonObs).
Proof using HT HZ HS Hr Ht Hstrict.
  intros Er Hk pre sp ep later ty e E HJ o. destruct HJ as [HJ| ->]; [discriminate|].
  destruct (edge_sides _ _ _ _ E) as [D1 D2]. destruct (HS _ _ _ _ E) as (S0 & S1 & HD).
  destruct (pos_inner _ _ _ _ E) as (P1 & P2' & P3). pose proof eps_pos as HE.
  assert (F0 : forall q, orient r i0 q = (t0 - k) * orient a b q) by (intro; unfold i0; rewrite Er; apply orient_line).
  assert (F1 : forall q, orient r i1 q = (t1 - k) * orient a b q) by (intro; unfold i1; rewrite Er; apply orient_line).
  assert (Gsp : orient a b sp = 0 /\ orient a b ep < 0 \/ orient a b sp < 0).
  { destruct P1 as [[Q ->]|[_ P1]]; [left|now right]. split; [apply orient_start|]. destruct P2' as [[Q2 _]|[_ P2']]; [destruct (P3 Q Q2)|exact P2']. }
  assert (Gep : orient a b ep <= 0) by (destruct P2' as [[_ ->]|[_ P2']]; [rewrite orient_end; lra|lra]).
  destruct (cut_edge_R r i0 i1 e RightNonObs sp ep root_side D1 D2 S0 S1 HD) as (u & pr & ty1 & found & Hu & HP & HC). cbv zeta in HC.
  assert (H1 : pr = [] /\ u = 0 /\ ty1 = RightNonObs).
  { destruct HP as [(_ & U & A1 & A2 & _)|(-> & -> & HP)].
    - exfalso. rewrite F0 in A1, A2. rewrite orient_lerp3 in A2.
      assert (orient a b sp < 0) by (destruct Gsp as [[G _]|G]; [rewrite G in A1; lra|exact G]).
      assert ((1 - u) * orient a b sp + u * orient a b ep < 0) by nra. nra.
    - split; [reflexivity|]. split; [reflexivity|]. rewrite !F0 in HP. destruct HP as [(_ & _ & H)|[(A1 & _)|[(A1 & A2 & _)|(_ & _ & H)]]]; auto; exfalso.
      + destruct Gsp as [[G _]|G]; [rewrite G in A1; lra|]. assert ((t0 - k) * orient a b sp < 0) by nra. lra.
      + destruct Gsp as [[_ G]|G]; nra. }
  destruct H1 as (-> & -> & ->). rewrite !F1 in HC.
  destruct HC as [(_ & G1 & _)|(-> & _ & EC)]; [exfalso; nra|]. fold o in EC. rewrite EC. cbn [fst snd app].
  split.
  - intros s [<-|[]]. exists (lerp sp ep 0), ep. split; [split; [reflexivity|exists 0, 1; rewrite lerp_1; repeat split; lra]|].
    rewrite lerp_0. split; [apply end_corner; auto|]. split; [apply end_corner; auto|]. cbn [sty]. discriminate.
  - destruct P2' as [[Q _]|[_ P2']]; [left; exact Q|right]. unfold type_after. destruct (Rlt_dec _ 0) as [_|N]; [reflexivity|exfalso]. apply N. nra.
Qed.
Lemma good_after k : r = lerp a b k -> t1 < k ->
  good_step (fun pre ty _ later => later = [] \/ (pre = [] /\ ty = RightNonObs) \/ (pre <> [] /\ ty = LeftNonObs)).
Proof using HT HZ HS Hr Ht Hstrict.
  intros Er Hk pre sp ep later ty e E HJ o. destruct HJ as [HJ|HJ]; [discriminate|].
  destruct (edge_sides _ _ _ _ E) as [D1 D2]. destruct (HS _ _ _ _ E) as (S0 & S1 & HD).
  destruct (pos_inner _ _ _ _ E) as (P1 & P2' & P3). pose proof eps_pos as HE.
  assert (F0 : forall q, orient r i0 q = (t0 - k) * orient a b q) by (intro; unfold i0; rewrite Er; apply orient_line).
  assert (F1 : forall q, orient r i1 q = (t1 - k) * orient a b q) by (intro; unfold i1; rewrite Er; apply orient_line).
  destruct (cut_edge_R r i0 i1 e ty sp ep root_side D1 D2 S0 S1 HD) as (u & pr & ty1 & found & Hu & HP & HC). cbv zeta in HC.
  destruct HJ as [[Q ->]|[Q ->]].
  - (* the first edge *)
    destruct P1 as [[_ ->]|[P1 _]]; [|contradiction]. assert (Gep : orient a b ep < 0) by (destruct P2' as [[Q2 _]|[_ P2']]; [destruct (P3 Q Q2)|exact P2']).
    assert (G0 : 0 < orient r i0 ep) by (rewrite F0; nra). assert (G1 : 0 < orient r i1 ep) by (rewrite F1; nra).
    assert (A0 : orient r i0 a = 0) by (rewrite F0, orient_start; ring). assert (A1 : orient r i1 a = 0) by (rewrite F1, orient_start; ring).
    assert (H1 : pr = [] /\ u = 0 /\ ty1 = Obs).
    { destruct HP as [(_ & _ & B1 & _)|(-> & -> & HP)]; [lra|]. split; [reflexivity|]. split; [reflexivity|].
      destruct HP as [(B1 & _)|[(B1 & _)|[(_ & _ & H)|(_ & B1 & _)]]]; auto; lra. }
    destruct H1 as (-> & -> & ->). rewrite lerp_0 in HC.
    destruct HC as [(-> & _ & t & T & TF & EC)|(_ & [B|[_ B]] & _)]; [|lra|lra]. fold o in EC. rewrite EC. cbn [fst snd app].
    assert (t = 0). { rewrite orient_lerp3, A1 in TF. destruct (Req_EM_T t 0); [assumption|exfalso]. assert (0 < t * orient r i1 ep) by (apply Rmult_lt_0_compat; lra). lra. }
    subst t. rewrite lerp_0.
    assert (EL : forall ty, type_after (orient r i1 ep) (orient r i0 ep) true ty = LeftNonObs).
    { intro. unfold type_after. destruct (Rlt_dec _ 0); [lra|]. destruct (Rlt_dec 0 (orient r i1 ep)); [reflexivity|lra]. }
    rewrite EL. split.
    + intros s [<-|[<-|[]]].
      * exists a, a. split; [split; [reflexivity|exists 0, 0; rewrite lerp_0; repeat split; lra]|].
        split; [apply end_corner; auto|]. split; [apply end_corner; auto|]. intros _ N. contradiction.
      * exists a, ep. split; [split; [reflexivity|exists 0, 1; rewrite lerp_0, lerp_1; repeat split; lra]|].
        split; [apply end_corner; auto|]. split; [apply end_corner; auto|]. cbn [sty]. discriminate.
    + right. right. split; [now destruct pre|reflexivity].
  - destruct P1 as [[P1 _]|[_ P1]]; [contradiction|].
    assert (G0 : 0 < orient r i0 sp) by (rewrite F0; nra).
    assert (H1 : pr = [] /\ u = 0 /\ ty1 = LeftNonObs).
    { destruct HP as [(_ & _ & B1 & _)|(-> & -> & HP)]; [lra|]. split; [reflexivity|]. split; [reflexivity|].
      destruct HP as [(B1 & _)|[(_ & ->)|[(B1 & _)|(B1 & _)]]]; try lra. reflexivity. }
    destruct H1 as (-> & -> & ->). rewrite lerp_0 in HC.
    assert (EL : forall fd, type_after (orient r i1 ep) (orient r i0 ep) fd LeftNonObs = LeftNonObs).
    { intro. unfold type_after. destruct (Rlt_dec _ 0); [reflexivity|]. destruct (Rlt_dec 0 (orient r i1 ep)); [now destruct fd|]. destruct (Rle_dec _ _); reflexivity. }
    rewrite EL in HC. split.
    + destruct HC as [(_ & G & t & T & TF & EC)|(_ & _ & EC)]; fold o in EC; rewrite EC; cbn [fst snd app]; intros s Hs.
      * assert (TC : cut_at r i1 sp ep (lerp sp ep t)) by (right; right; split; [exact TF|right; lra]).
        destruct Hs as [<-|[<-|[]]].
        -- exists sp, (lerp sp ep t). split; [split; [reflexivity|]; exists 0, t; rewrite lerp_0; repeat split; lra|].
           split; [apply end_corner; auto|]. split; [exact TC|]. cbn [sty]; discriminate.
        -- exists (lerp sp ep t), ep. split; [split; [reflexivity|]; exists t, 1; rewrite lerp_1; repeat split; lra|].
           split; [exact TC|]. split; [apply end_corner; auto|]. cbn [sty]; discriminate.
      * destruct Hs as [<-|[]]. exists sp, ep. split; [split; [reflexivity|]; exists 0, 1; rewrite lerp_0, lerp_1; repeat split; lra|].
        split; [apply end_corner; auto|]. split; [apply end_corner; auto|]. cbn [sty]; discriminate.
    + right. right. split; [now destruct pre|]. destruct HC as [(_ & _ & t & _ & _ & EC)|(_ & _ & EC)]; fold o in EC; rewrite EC; reflexivity.
Qed.
End Chain.

Lemma good_chain a b M r t0 t1 :
  let L := a :: M ++ [b] in
  turns_left L -> distinct L -> (exists z, In z L /\ orient a b z < 0) -> 0 <= t0 < t1 /\ t1 <= 1 ->
  (forall pre sp ep later, L = pre ++ sp :: ep :: later -> sharp r (lerp a b t0) sp ep /\ sharp r (lerp a b t1) sp ep /\ 1 / 1000 < dist sp ep) ->
  0 <= orient a b r ->
  (orient a b r = 0 -> between (lerp a b t0) (lerp a b t1) r \/ forall v, In v M -> orient a b v <> 0) ->
  exists J, good_step a b M r t0 t1 J /\ J [] RightNonObs a (M ++ [b]).
Proof.
  intros L HT HDis HZ Ht HS Hr Hst. destruct Hr as [Hr|Hr].
  - eexists. split; [now apply good_above|]. cbn [typed]. rewrite orient_231. rewrite <- (lerp_0 a b) at 2. rewrite orient_line.
    assert (0 <= t0 * orient a b r) by (apply Rmult_le_pos; lra). lra.
  - destruct (Hst (eq_sym Hr)) as [HB|Hst']; [eexists; split; [apply good_on; auto; lra|exact I]|].
    assert (Hab : a <> b) by (apply (far_ends a b M HDis)).
    destruct (on_line a b r Hab (eq_sym Hr)) as [k Ek].
    destruct (Rlt_dec k t0) as [L1|L1].
    { eexists. split; [apply (good_before a b M HT HZ r t0 t1 Ht HS (Req_le _ _ Hr) Hst' k Ek L1)|right; reflexivity]. }
    destruct (Rlt_dec t1 k) as [L2|L2].
    { eexists. split; [apply (good_after a b M HT HZ r t0 t1 Ht HS (Req_le _ _ Hr) Hst' k Ek L2)|right; left; auto]. }
    eexists. split; [apply good_on; auto; [lra|]|exact I].
    exists ((k - t0) / (t1 - t0)). rewrite lerp_lerp. split.
    + split; [apply Rmult_le_reg_r with (t1 - t0); [lra|]|apply Rmult_le_reg_r with (t1 - t0); [lra|]];
        replace ((k - t0) / (t1 - t0) * (t1 - t0)) with (k - t0) by (field; lra); lra.
    + rewrite Ek. f_equal. field. lra.
Qed.
