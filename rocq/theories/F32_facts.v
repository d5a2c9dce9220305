(** Laws of the binary32 instance (and of exact reals) used as hypotheses of the theorems "for every arithmetic". *)
From Coq Require Import List NArith ZArith Bool Lia Reals Lra.
From Coq.Floats Require Import SpecFloat.
From Verif Require Import Base Arith F32 RealArith Mesh Helpers Locate Search StdLib Spec Search_facts Search_props Search_cost Search_hist.
Import ListNotations.

Lemma s_add_nan x : s_add x S754_nan = S754_nan.
Proof. now destruct x. Qed.
Lemma s_add_nan_l x : s_add S754_nan x = S754_nan.
Proof. now destruct x. Qed.

Lemma Pcompare_refl m : Pos.compare_cont Eq m m = Eq.
Proof. apply Pos.compare_cont_refl. Qed.

Lemma SFeqb_refl x : SFeqb x x = false -> x = S754_nan.
Proof.
  unfold SFeqb. destruct x as [s|s| |s m e]; simpl; try congruence; destruct s; try congruence;
  rewrite Z.compare_refl, Pcompare_refl; simpl; congruence.
Qed.

(** ** The orders of SpecFloat as a lexicographic order on integer triples *)
Definition lex (a b : Z * Z * Z) : comparison :=
  let '(a1, a2, a3) := a in let '(b1, b2, b3) := b in
  match Z.compare a1 b1 with
  | Eq => match Z.compare a2 b2 with Eq => Z.compare a3 b3 | c => c end
  | c => c
  end.

Lemma lex_refl a : lex a a = Eq.
Proof. destruct a as [[a b] c]. simpl. now rewrite !Z.compare_refl. Qed.
Lemma lex_opp a b : lex a b = CompOpp (lex b a).
Proof.
  destruct a as [[a1 a2] a3], b as [[b1 b2] b3]. simpl.
  rewrite (Z.compare_antisym b1 a1), (Z.compare_antisym b2 a2), (Z.compare_antisym b3 a3).
  destruct (b1 ?= a1)%Z; simpl; auto. destruct (b2 ?= a2)%Z; simpl; auto.
Qed.
Lemma lex_trans a b c : lex a b <> Gt -> lex b c <> Gt -> lex a c <> Gt.
Proof.
  destruct a as [[a1 a2] a3], b as [[b1 b2] b3], c as [[c1 c2] c3]. simpl.
  destruct (Z.compare_spec a1 b1), (Z.compare_spec b1 c1), (Z.compare_spec a1 c1); try congruence; try lia;
  destruct (Z.compare_spec a2 b2), (Z.compare_spec b2 c2), (Z.compare_spec a2 c2); try congruence; try lia;
  destruct (Z.compare_spec a3 b3), (Z.compare_spec b3 c3), (Z.compare_spec a3 c3); try congruence; try lia.
Qed.

(** signed zeros identified *)
Definition key (x : spec_float) : Z * Z * Z :=
  match x with
  | S754_infinity true => (-2, 0, 0)%Z
  | S754_finite true m e => (-1, - e, Z.neg m)%Z
  | S754_zero _ => (0, 0, 0)%Z
  | S754_finite false m e => (1, e, Z.pos m)%Z
  | S754_infinity false => (2, 0, 0)%Z
  | S754_nan => (4, 0, 0)%Z
  end.
(** signed zeros distinguished *)
Definition tkey (x : spec_float) : Z * Z * Z :=
  match x with
  | S754_infinity true => (-3, 0, 0)%Z
  | S754_finite true m e => (-2, - e, Z.neg m)%Z
  | S754_zero true => (-1, 0, 0)%Z
  | S754_zero false => (0, 0, 0)%Z
  | S754_finite false m e => (1, e, Z.pos m)%Z
  | S754_infinity false => (2, 0, 0)%Z
  | S754_nan => (4, 0, 0)%Z
  end.

Lemma SFcompare_key x y : s_isnan x = false -> s_isnan y = false -> SFcompare x y = Some (lex (key x) (key y)).
Proof.
  destruct x as [[]|[]| |[] m e], y as [[]|[]| |[] m' e']; intros Hx Hy; try discriminate; try reflexivity; simpl.
  rewrite Z.compare_opp. rewrite (Z.compare_antisym e e').
  destruct (e ?= e')%Z; simpl; reflexivity.
Qed.
Lemma s_total_key x y : s_total x y = lex (tkey x) (tkey y).
Proof.
  destruct x as [[]|[]| |[] m e], y as [[]|[]| |[] m' e']; try reflexivity; unfold s_total.
  simpl. rewrite Z.compare_opp. rewrite (Z.compare_antisym e e').
  destruct (e ?= e')%Z; simpl; reflexivity.
Qed.
Lemma SFltb_key x y : s_isnan x = false -> s_isnan y = false ->
  (SFltb x y = false <-> lex (key y) (key x) <> Gt).
Proof.
  intros Hx Hy. unfold SFltb. rewrite SFcompare_key by assumption. rewrite (lex_opp (key y)).
  destruct (lex (key x) (key y)); simpl; split; congruence.
Qed.

Lemma s_isnan_true x : s_isnan x = true -> x = S754_nan.
Proof. destruct x; simpl; congruence. Qed.

Section With.
Variables sin cos acos : spec_float -> spec_float.
Let A := F32with sin cos acos.

Lemma F32_nan_sane : nan_sane A.
Proof.
  intros g v H. unfold veq in H. simpl in H.
  assert (vdist v v = S754_nan) as ->.
  { apply andb_false_iff in H. destruct v as [x y]. unfold vdist, vlen, vdot, vsub.
    change (s_sqrt (s_add (s_mul (s_sub x x) (s_sub x x)) (s_mul (s_sub y y) (s_sub y y))) = S754_nan).
    destruct H as [H|H]; apply SFeqb_refl in H; cbn [vx vy] in H; rewrite H.
    - change (s_mul (s_sub S754_nan S754_nan) (s_sub S754_nan S754_nan)) with S754_nan.
      rewrite s_add_nan_l. reflexivity.
    - change (s_mul (s_sub S754_nan S754_nan) (s_sub S754_nan S754_nan)) with S754_nan.
      rewrite s_add_nan. reflexivity. }
  change (s_isnan (s_add g S754_nan) = true). now rewrite s_add_nan.
Qed.

(** floats that compare equal are the same or zeros of any signs *)
Lemma SFeqb_true x y : SFeqb x y = true -> x = y \/ exists a b, x = S754_zero a /\ y = S754_zero b.
Proof.
  unfold SFeqb. destruct x as [s|s| |s m e], y as [s'|s'| |s' m' e']; simpl;
    try (intro; discriminate); try (destruct s; intro; discriminate); try (destruct s'; intro; discriminate).
  - intros _. right. eauto.
  - destruct s, s'; intro; try discriminate; auto.
  - destruct s, s'; try (intro; discriminate).
    + destruct (Z.compare_spec e e'); try (simpl; intro; discriminate). subst.
      destruct (Pos.compare_cont Eq m m') eqn:E; simpl; try (intro; discriminate).
      apply Pos.compare_eq in E. subst. auto.
    + destruct (Z.compare_spec e e'); try (simpl; intro; discriminate). subst.
      destruct (Pos.compare_cont Eq m m') eqn:E; simpl; try (intro; discriminate).
      apply Pos.compare_eq in E. subst. auto.
Qed.

Lemma sub_square x y z : SFeqb x y = true ->
  s_mul (s_sub x z) (s_sub x z) = s_mul (s_sub y z) (s_sub y z).
Proof.
  intro H. apply SFeqb_true in H. destruct H as [->|(a & b & -> & ->)]; [reflexivity|].
  destruct z as [s|s| |s m e]; try reflexivity.
  destruct a, b, s; reflexivity.
Qed.

Lemma F32_veq_ok : veq_ok A.
Proof.
  intros [ax ay] [bx by'] [px py] H. unfold veq in H. apply andb_prop in H. destruct H as [H1 H2].
  cbn [vx vy] in H1, H2. unfold vdist, vlen, vdot, vsub. cbn [vx vy].
  change (s_sqrt (s_add (s_mul (s_sub ax px) (s_sub ax px)) (s_mul (s_sub ay py) (s_sub ay py))) =
          s_sqrt (s_add (s_mul (s_sub bx px) (s_sub bx px)) (s_mul (s_sub by' py) (s_sub by' py)))).
  rewrite (sub_square ax bx px H1), (sub_square ay by' py H2). reflexivity.
Qed.

Lemma SFeqb_sym x y : SFeqb x y = true -> SFeqb y x = true.
Proof.
  intro H. destruct (SFeqb_true x y H) as [->|(a & b & -> & ->)]; [assumption|reflexivity].
Qed.
Lemma SFeqb_trans x y z : SFeqb x y = true -> SFeqb y z = true -> SFeqb x z = true.
Proof.
  intros H1 H2. destruct (SFeqb_true x y H1) as [->|(a & b & -> & ->)]; [assumption|].
  destruct (SFeqb_true _ _ H2) as [<-|(a' & b' & _ & ->)]; reflexivity.
Qed.

Lemma s_sub_nan x : s_sub x S754_nan = S754_nan.
Proof. now destruct x. Qed.
Lemma s_mul_nan : s_mul S754_nan S754_nan = S754_nan.
Proof. reflexivity. Qed.

Lemma F32_order_laws : order_laws A.
Proof.
  constructor.
  - intros [ax ay] [bx by'] H. unfold veq in *. apply andb_prop in H. destruct H as [H1 H2].
    apply andb_true_intro. split; apply SFeqb_sym; assumption.
  - intros [ax ay] [bx by'] [cx cy] H G. unfold veq in *. apply andb_prop in H. apply andb_prop in G.
    destruct H as [H1 H2], G as [G1 G2].
    apply andb_true_intro. split; [exact (SFeqb_trans _ _ _ H1 G1)|exact (SFeqb_trans _ _ _ H2 G2)].
  - intros x y z Hx Hy Hz H1 H2.
    change (s_isnan x = false) in Hx. change (s_isnan y = false) in Hy. change (s_isnan z = false) in Hz.
    change (SFltb x y = false) in H1. change (SFltb y z = false) in H2. change (SFltb x z = false).
    rewrite SFltb_key in * by assumption. eapply lex_trans; eauto.
  - intro x. change (SFltb x x = false). destruct (s_isnan x) eqn:E.
    + apply s_isnan_true in E. subst. reflexivity.
    + rewrite SFltb_key by assumption. rewrite lex_refl. discriminate.
  - intros g [ax ay] [bx by'] H. unfold veq. cbn [vx vy].
    unfold vdist, vlen, vdot, vsub in H. cbn [vx vy] in H.
    change (s_isnan (s_add g (s_sqrt (s_add (s_mul (s_sub ax bx) (s_sub ax bx)) (s_mul (s_sub ay by') (s_sub ay by'))))) = false) in H.
    change (SFeqb bx bx && SFeqb by' by' = true).
    destruct (SFeqb bx bx) eqn:E1.
    + destruct (SFeqb by' by') eqn:E2; [reflexivity|]. exfalso. apply SFeqb_refl in E2. subst.
      rewrite s_sub_nan, s_mul_nan, s_add_nan in H. change (s_sqrt S754_nan) with S754_nan in H.
      rewrite s_add_nan in H. discriminate.
    + exfalso. apply SFeqb_refl in E1. subst.
      rewrite s_sub_nan, s_mul_nan, s_add_nan_l in H. change (s_sqrt S754_nan) with S754_nan in H.
      rewrite s_add_nan in H. discriminate.
  - reflexivity.
Qed.

Lemma F32_total_ok : total_ok A.
Proof.
  split; [|split].
  - intro x. change (s_total x x = Eq). rewrite s_total_key. apply lex_refl.
  - intros x y. change (s_total x y = CompOpp (s_total y x)). rewrite !s_total_key. apply lex_opp.
  - intros x y z. change (s_total x y <> Gt -> s_total y z <> Gt -> s_total x z <> Gt).
    rewrite !s_total_key. apply lex_trans.
Qed.

End With.

(** Exact arithmetic *)
Lemma RA_nan_sane : nan_sane RA.
Proof.
  intros g v H. unfold veq in H. simpl in H. unfold vdist, vlen, vdot, vsub. simpl.
  destruct v as [[x|] [y|]]; simpl in *; try (destruct g; reflexivity).
  exfalso. apply andb_false_iff in H. rewrite !reqb_false in H. tauto.
Qed.

Lemma RA_veq_ok : veq_ok RA.
Proof.
  intros [[ax|] [ay|]] [[bx|] [by'|]] p H; unfold veq in H; simpl in H; try discriminate;
    try (apply andb_prop in H; destruct H; discriminate).
  apply andb_prop in H. destruct H as [H1 H2]. apply reqb_true in H1. apply reqb_true in H2. subst. reflexivity.
Qed.

Lemma RA_order_laws : order_laws RA.
Proof.
  constructor.
  - intros [[ax|] [ay|]] [[bx|] [by'|]] H; unfold veq in *; simpl in *; try discriminate;
      try (apply andb_prop in H; destruct H; discriminate).
    apply andb_prop in H. destruct H as [H1 H2]. apply reqb_true in H1. apply reqb_true in H2. subst.
    apply andb_true_intro. split; now apply reqb_true.
  - intros [[ax|] [ay|]] [[bx|] [by'|]] c H G; unfold veq in *; simpl in *; try discriminate;
      try (apply andb_prop in H; destruct H; discriminate).
    apply andb_prop in H. destruct H as [H1 H2]. apply reqb_true in H1. apply reqb_true in H2. subst. assumption.
  - intros [x|] [y|] [z|] Hx Hy Hz; simpl in *; try discriminate. rewrite !rltb_false. lra.
  - intros [x|]; simpl; [|reflexivity]. apply rltb_false. lra.
  - intros g [ax ay] [[bx|] [by'|]] H; unfold veq; simpl.
    + apply andb_true_intro. split; now apply reqb_true.
    + exfalso. unfold vdist, vlen, vdot, vsub in H. simpl in H. destruct ay, ax, g; simpl in H; discriminate.
    + exfalso. unfold vdist, vlen, vdot, vsub in H. simpl in H. destruct ax, g; simpl in H; discriminate.
    + exfalso. unfold vdist, vlen, vdot, vsub in H. simpl in H. destruct ax, g; simpl in H; discriminate.
  - reflexivity.
Qed.

Lemma RA_total_ok : total_ok RA.
Proof.
  split; [|split].
  - intros [x|]; simpl; [|reflexivity]. destruct (Rlt_dec x x); [lra|reflexivity].
  - intros [x|] [y|]; simpl; try reflexivity.
    destruct (Rlt_dec x y), (Rlt_dec y x); try reflexivity; lra.
  - intros [x|] [y|] [z|]; simpl; try congruence.
    destruct (Rlt_dec x y), (Rlt_dec y x), (Rlt_dec y z), (Rlt_dec z y), (Rlt_dec x z), (Rlt_dec z x);
      try congruence; lra.
Qed.
