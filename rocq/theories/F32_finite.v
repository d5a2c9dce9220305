(** Facts about NaN in binary32: operations on finite numbers. *)
From Coq Require Import List NArith ZArith Bool Lia.
From Coq.Floats Require Import SpecFloat.
From Verif Require Import Base Arith F32 Mesh Helpers Spec F32_facts Search_safe.
Import ListNotations.
Open Scope Z_scope.

Lemma shr_1_nonneg r : 0 <= shr_m r -> 0 <= shr_m (shr_1 r).
Proof. destruct r as [m r s]. simpl. destruct m as [|[p|p|]|[p|p|]]; simpl; lia. Qed.
Lemma iter_nonneg (f : shr_record -> shr_record) (p : positive) :
  (forall r, 0 <= shr_m r -> 0 <= shr_m (f r)) -> forall r, 0 <= shr_m r -> 0 <= shr_m (iter_pos f p r).
Proof. intros Hf. induction p; simpl; intros r H; auto. Qed.
Lemma shr_nonneg r e n : 0 <= shr_m r -> 0 <= shr_m (fst (shr r e n)).
Proof. intro H. unfold shr. destruct n; simpl; auto. apply iter_nonneg; [apply shr_1_nonneg|assumption]. Qed.
Lemma shr_fexp_nonneg m e l : 0 <= m -> 0 <= shr_m (fst (shr_fexp prec32 emax32 m e l)).
Proof.
  intro H. unfold shr_fexp. apply shr_nonneg. unfold shr_record_of_loc. destruct l as [|[]]; simpl; assumption.
Qed.
Lemma rne_nonneg m l : 0 <= m -> 0 <= round_nearest_even m l.
Proof. intro H. unfold round_nearest_even. destruct l as [|[]]; try lia. destruct (Z.even m); lia. Qed.

(** the sign of a result; NaN has none *)
Definition signed (s : bool) (x : spec_float) : Prop :=
  match x with
  | S754_zero t | S754_infinity t | S754_finite t _ _ => t = s
  | S754_nan => False
  end.
Lemma round_aux_signed s m e l : 0 <= m -> signed s (binary_round_aux prec32 emax32 s m e l).
Proof.
  intro H. unfold binary_round_aux.
  pose proof (shr_fexp_nonneg m e l H) as H1. destruct (shr_fexp prec32 emax32 m e l) as [r1 e1]. cbn [fst] in H1.
  pose proof (shr_fexp_nonneg (round_nearest_even (shr_m r1) (loc_of_shr_record r1)) e1 loc_Exact (rne_nonneg _ _ H1)) as H2.
  destruct (shr_fexp prec32 emax32 (round_nearest_even _ _) e1 loc_Exact) as [r2 e2]. cbn [fst] in H2.
  destruct (shr_m r2); simpl; try lia; auto. destruct (e2 <=? _); simpl; reflexivity.
Qed.
Lemma round_signed s m e : signed s (binary_round prec32 emax32 s m e).
Proof.
  unfold binary_round. destruct (shl_align m e _) as [mz ez]. apply round_aux_signed. lia.
Qed.
Lemma signed_nonan s x : signed s x -> s_isnan x = false.
Proof. now destruct x. Qed.
Lemma normalize_nonan m e s : s_isnan (binary_normalize prec32 emax32 m e s) = false.
Proof. unfold binary_normalize. destruct m; [reflexivity| |]; eapply signed_nonan, round_signed. Qed.

(** a finite number *)
Definition finite (x : spec_float) : Prop := match x with S754_zero _ | S754_finite _ _ _ => True | _ => False end.
Lemma s_sub_finite x y : finite x -> finite y -> s_isnan (s_sub x y) = false.
Proof.
  destruct x, y; simpl; intros Hx Hy; try contradiction; try reflexivity.
  - destruct (Bool.eqb _ _); reflexivity.
  - apply normalize_nonan.
Qed.
Lemma s_mul_square x : s_isnan x = false -> signed false (s_mul x x).
Proof.
  destruct x; unfold s_mul; simpl; intro H; try discriminate; try (apply xorb_nilpotent).
  rewrite xorb_nilpotent. apply round_aux_signed. lia.
Qed.
Lemma s_add_signed x y : signed false x -> signed false y -> signed false (s_add x y).
Proof.
  destruct x, y; unfold s_add; simpl; intros Hx Hy; try contradiction; subst; simpl; auto.
  unfold binary_normalize. apply round_signed.
Qed.

Section Any.
Context (sin cos acos : spec_float -> spec_float).
Let A := F32with sin cos acos.

Definition vfinite (p : vec2 A) : Prop := finite (vx p) /\ finite (vy p).
Lemma vdist2_nonan (p q : vec2 A) : vfinite p -> vfinite q -> fnan (vdist2 p q) = false.
Proof.
  intros [P1 P2] [Q1 Q2]. eapply (signed_nonan false). apply s_add_signed; apply s_mul_square; now apply s_sub_finite.
Qed.

(** every vertex is at finite world coordinates *)
Definition finite_mesh (m : Mesh A) : Prop :=
  forall l v, In l (layers m) -> In v (vertices l) -> vfinite (world l v).
Lemma finite_dists_ok (m : Mesh A) : finite_mesh m -> dists_ok m.
Proof. intros H l v l' v' H1 H2 H3 H4. apply vdist2_nonan; now apply H. Qed.
End Any.

(** deciding it *)
Definition finiteb (x : spec_float) : bool := match x with S754_zero _ | S754_finite _ _ _ => true | _ => false end.
Lemma finiteb_ok x : finiteb x = true -> finite x.
Proof. now destruct x. Qed.
Definition finite_meshb (m : Mesh F32) : bool :=
  forallb (fun l => forallb (fun v => finiteb (vx (world (A:=F32) l v)) && finiteb (vy (world (A:=F32) l v))) (vertices l)) (layers m).
Lemma finite_meshb_ok m : finite_meshb m = true -> finite_mesh t_sin t_cos t_acos m.
Proof.
  unfold finite_meshb. rewrite forallb_forall. intros H l v Hl Hv. specialize (H l Hl). rewrite forallb_forall in H.
  specialize (H v Hv). apply andb_true_iff in H. destruct H as [H1 H2].
  split; now apply finiteb_ok.
Qed.
