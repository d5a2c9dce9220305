(** The operations of binary32 on real numbers: each is the exact one, rounded (from Flocq). *)
From Coq Require Import List NArith ZArith Bool Lia Reals Lra Psatz.
From Coq.Floats Require Import SpecFloat.
From Flocq Require Import Core BinarySingleNaN Relative Plus_error.
From Verif Require Import Base Arith F32 Spec_f32 Spec_file Decimal32 Decimal32_real.
Import ListNotations.
Open Scope R_scope.
#[local] Existing Instance Hprec.
#[local] Existing Instance Hmax.
#[local] Existing Instance valid_exp32.

Lemma num_B x r : num x r -> exists b : binary_float prec32 emax32, x = B2SF b /\ is_finite b = true /\ B2R b = r.
Proof.
  intros (V & Fx & E). exists (SF2B x V). split; [symmetry; apply B2SF_SF2B|]. split; [now rewrite is_finite_SF2B|]. now rewrite B2R_SF2B.
Qed.
Lemma B_num (b : binary_float prec32 emax32) r : is_finite b = true -> B2R b = r -> num (B2SF b) r.
Proof.
  intros H E. split; [apply valid_binary_B2SF|]. split; [now rewrite is_finite_SF_B2SF|]. rewrite <- E. destruct b; reflexivity.
Qed.

Lemma num_fun x r r' : num x r -> num x r' -> r = r'.
Proof. intros (_ & _ & <-) (_ & _ & <-). reflexivity. Qed.
Lemma num_format x r : num x r -> generic_format radix2 fexp32 r.
Proof. intro H. destruct (num_B x r H) as (b & -> & Fb & <-). apply generic_format_B2R. Qed.
Lemma num_zero s : num (S754_zero s) 0.
Proof. repeat split. Qed.

Lemma rnd_bound z k : (-149 <= k)%Z -> Rabs z <= bpow radix2 k -> Rabs (rnd z) <= bpow radix2 k.
Proof.
  intros Hk H. apply abs_round_le_generic; [typeclasses eauto..| |exact H].
  apply generic_format_bpow. rewrite fexp32_eq. lia.
Qed.
Lemma rnd_no_overflow z : Rabs z <= bpow radix2 127 -> Rabs (rnd z) < bpow radix2 emax32.
Proof.
  intro H. apply Rle_lt_trans with (bpow radix2 127); [apply rnd_bound; [lia|exact H]|]. apply bpow_lt. reflexivity.
Qed.
Lemma rnd_abs_no_overflow z : Rabs z <= bpow radix2 127 -> Rlt_bool (Rabs (rnd z)) (bpow radix2 emax32) = true.
Proof. intro H. apply Rlt_bool_true. now apply rnd_no_overflow. Qed.

(** SpecFloat's operations are Flocq's *)
Lemma binary_round_NE s m e : SpecFloat.binary_round prec32 emax32 s m e = BinarySingleNaN.binary_round prec32 emax32 mode_NE s m e.
Proof.
  unfold SpecFloat.binary_round, BinarySingleNaN.binary_round, shl_align_fexp.
  set (mez := shl_align _ _ _); case mez as [mz ez]. apply binary_round_aux_NE.
Qed.
Lemma binary_normalize_NE m e z : SpecFloat.binary_normalize prec32 emax32 m e z = B2SF (BinarySingleNaN.binary_normalize prec32 emax32 Hprec Hmax mode_NE m e z).
Proof.
  case m as [|p|p]; [now simpl| |]; simpl; rewrite B2SF_SF2B; apply binary_round_NE.
Qed.
Lemma s_add_B x y : s_add (B2SF x) (B2SF y) = B2SF (Bplus mode_NE x y).
Proof.
  unfold s_add. case x as [sx|sx| |sx mx ex Bx]; case y as [sy|sy| |sy my ey By]; [now (trivial || simpl; case Bool.eqb)..|].
  apply binary_normalize_NE.
Qed.
Lemma s_sub_B x y : s_sub (B2SF x) (B2SF y) = B2SF (Bminus mode_NE x y).
Proof.
  unfold s_sub. case x as [sx|sx| |sx mx ex Bx]; case y as [sy|sy| |sy my ey By]; [now (trivial || simpl; case Bool.eqb)..|].
  simpl. unfold Zminus. rewrite <- cond_Zopp_negb. apply binary_normalize_NE.
Qed.
Lemma s_mul_B x y : s_mul (B2SF x) (B2SF y) = B2SF (Bmult mode_NE x y).
Proof.
  unfold s_mul. case x as [sx|sx| |sx mx ex Bx]; case y as [sy|sy| |sy my ey By]; [now trivial..|].
  simpl. rewrite B2SF_SF2B. apply binary_round_aux_NE.
Qed.
Lemma s_div_B x y : s_div (B2SF x) (B2SF y) = B2SF (Bdiv mode_NE x y).
Proof.
  unfold s_div. case x as [sx|sx| |sx mx ex Bx]; case y as [sy|sy| |sy my ey By]; [now (trivial || simpl; case Bool.eqb)..|].
  simpl. rewrite B2SF_SF2B. set (melz := SFdiv_core_binary _ _ _ _ _ _). case melz as [[mz ez] lz]. apply binary_round_aux_NE.
Qed.
Lemma s_sqrt_B x : s_sqrt (B2SF x) = B2SF (Bsqrt mode_NE x).
Proof.
  unfold s_sqrt. case x as [sx|sx| |sx mx ex Bx]; [now (trivial || case sx)..|]. case sx; [reflexivity|].
  simpl. rewrite B2SF_SF2B. set (melz := SFsqrt_core_binary _ _ _ _). case melz as [[mz ez] lz]. apply binary_round_aux_NE.
Qed.

(** rounded results *)
Lemma num_add_rnd x y a b : num x a -> num y b -> Rabs (a + b) <= bpow radix2 127 -> num (s_add x y) (rnd (a + b)).
Proof.
  intros Hx Hy Ho. destruct (num_B x a Hx) as (bx & -> & Fx & Ex). destruct (num_B y b Hy) as (by_ & -> & Fy & Ey). rewrite s_add_B.
  pose proof (Bplus_correct prec32 emax32 Hprec Hmax mode_NE bx by_ Fx Fy) as C. rewrite Ex, Ey in C. change (round_mode mode_NE) with ZnearestE in C.
  rewrite rnd_abs_no_overflow in C by exact Ho. destruct C as (C1 & C2 & _). now apply B_num.
Qed.
Lemma num_sub_rnd x y a b : num x a -> num y b -> Rabs (a - b) <= bpow radix2 127 -> num (s_sub x y) (rnd (a - b)).
Proof.
  intros Hx Hy Ho. destruct (num_B x a Hx) as (bx & -> & Fx & Ex). destruct (num_B y b Hy) as (by_ & -> & Fy & Ey). rewrite s_sub_B.
  pose proof (Bminus_correct prec32 emax32 Hprec Hmax mode_NE bx by_ Fx Fy) as C. rewrite Ex, Ey in C. change (round_mode mode_NE) with ZnearestE in C.
  rewrite rnd_abs_no_overflow in C by exact Ho. destruct C as (C1 & C2 & _). now apply B_num.
Qed.
Lemma num_mul_rnd x y a b : num x a -> num y b -> Rabs (a * b) <= bpow radix2 127 -> num (s_mul x y) (rnd (a * b)).
Proof.
  intros Hx Hy Ho. destruct (num_B x a Hx) as (bx & -> & Fx & Ex). destruct (num_B y b Hy) as (by_ & -> & Fy & Ey). rewrite s_mul_B.
  pose proof (Bmult_correct prec32 emax32 Hprec Hmax mode_NE bx by_) as C. rewrite Ex, Ey in C. change (round_mode mode_NE) with ZnearestE in C.
  rewrite rnd_abs_no_overflow in C by exact Ho. destruct C as (C1 & C2 & _). rewrite Fx, Fy in C2. now apply B_num.
Qed.
Lemma num_div_rnd x y a b : num x a -> num y b -> b <> 0 -> Rabs (a / b) <= bpow radix2 127 -> num (s_div x y) (rnd (a / b)).
Proof.
  intros Hx Hy Hb Ho. destruct (num_B x a Hx) as (bx & -> & Fx & Ex). destruct (num_B y b Hy) as (by_ & -> & Fy & Ey). rewrite s_div_B.
  rewrite <- Ey in Hb.
  pose proof (Bdiv_correct prec32 emax32 Hprec Hmax mode_NE bx by_ Hb) as C. rewrite Ex, Ey in C. change (round_mode mode_NE) with ZnearestE in C.
  rewrite rnd_abs_no_overflow in C by exact Ho. destruct C as (C1 & C2 & _). rewrite Fx in C2. now apply B_num.
Qed.
Lemma num_sqrt_rnd x a : num x a -> 0 <= a -> num (s_sqrt x) (rnd (sqrt a)).
Proof.
  intros Hx H0. destruct (num_B x a Hx) as (bx & -> & Fx & Ex). rewrite s_sqrt_B.
  pose proof (Bsqrt_correct prec32 emax32 Hprec Hmax mode_NE bx) as C. rewrite Ex in C. change (round_mode mode_NE) with ZnearestE in C.
  destruct C as (C1 & C2 & _). apply B_num; [|exact C1]. rewrite C2. destruct bx as [s|s| |s m e Hb]; try reflexivity; try discriminate Fx.
  destruct s; [|reflexivity]. exfalso. cbn [B2R] in Ex. rewrite F2R_sign in Ex. cbn [sgn] in Ex.
  assert (0 < IZR (Z.pos m) * bpow radix2 e) by (apply Rmult_lt_0_compat; [now apply IZR_lt|apply bpow_gt_0]). lra.
Qed.

(** comparisons are exact *)
Lemma num_compare x y a b : num x a -> num y b -> SFcompare x y = Some (Rcompare a b).
Proof.
  intros Hx Hy. destruct (num_B x a Hx) as (bx & -> & Fx & Ex). destruct (num_B y b Hy) as (by_ & -> & Fy & Ey).
  rewrite <- Ex, <- Ey. exact (Bcompare_correct prec32 emax32 bx by_ Fx Fy).
Qed.
Lemma num_lt x y a b : num x a -> num y b -> (SFltb x y = true <-> a < b).
Proof.
  intros Hx Hy. unfold SFltb. rewrite (num_compare x y a b Hx Hy). destruct (Rcompare_spec a b); split; intro; try discriminate; try reflexivity; lra.
Qed.
Lemma num_le x y a b : num x a -> num y b -> (SFleb x y = true <-> a <= b).
Proof.
  intros Hx Hy. unfold SFleb. rewrite (num_compare x y a b Hx Hy). destruct (Rcompare_spec a b); split; intro; try discriminate; try reflexivity; lra.
Qed.
Lemma num_eq x y a b : num x a -> num y b -> (SFeqb x y = true <-> a = b).
Proof.
  intros Hx Hy. unfold SFeqb. rewrite (num_compare x y a b Hx Hy). destruct (Rcompare_spec a b); split; intro; try discriminate; try reflexivity; lra.
Qed.
Lemma num_opp x a : num x a -> num (SFopp x) (- a).
Proof.
  intros (V & Fx & E). destruct x as [s|s| |s m e]; try discriminate Fx.
  - split; [exact V|]. split; [reflexivity|]. cbn in *. lra.
  - split; [exact V|]. split; [reflexivity|]. cbn [SF2R SFopp] in *. rewrite F2R_sign in *. destruct s; cbn [negb sgn] in *; lra.
Qed.
Lemma num_abs x a : num x a -> num (SFabs x) (Rabs a).
Proof.
  intros (V & Fx & E). destruct x as [s|s| |s m e]; try discriminate Fx.
  - split; [exact V|]. split; [reflexivity|]. cbn in *. rewrite <- E. now rewrite Rabs_R0.
  - split; [exact V|]. split; [reflexivity|]. cbn [SF2R SFabs] in *. rewrite <- E, !F2R_sign. cbn [sgn].
    assert (0 < IZR (Z.pos m) * bpow radix2 e) by (apply Rmult_lt_0_compat; [now apply IZR_lt|apply bpow_gt_0]).
    destruct s; cbn [sgn]; [rewrite Rabs_Ropp|]; rewrite Rabs_pos_eq; lra.
Qed.
Lemma num_not_nan x a : num x a -> s_isnan x = false.
Proof. intros (_ & Fx & _). destruct x; try reflexivity. discriminate Fx. Qed.

(** ** errors *)
Definition u32 : R := bpow radix2 (-24).
Definition tiny : R := bpow radix2 (-150).
Lemma u32_eq : u32 = / 16777216. Proof. reflexivity. Qed.
Lemma u32_pos : 0 < u32. Proof. apply bpow_gt_0. Qed.
Lemma tiny_pos : 0 < tiny. Proof. apply bpow_gt_0. Qed.
Lemma bpow_half k : / 2 * bpow radix2 (1 + k) = bpow radix2 k.
Proof. rewrite bpow_plus. change (bpow radix2 1) with 2. field. Qed.
Lemma u32_half : / 2 * bpow radix2 (-24 + 1) = u32.
Proof. exact (bpow_half (-24)). Qed.
Lemma tiny_half : / 2 * bpow radix2 (-149) = tiny.
Proof. exact (bpow_half (-150)). Qed.
Lemma fexp32_FLT : fexp32 = FLT_exp (-149) 24.
Proof. reflexivity. Qed.

Lemma rnd_error z : exists d e, Rabs d <= u32 /\ Rabs e <= tiny /\ rnd z = z * (1 + d) + e.
Proof.
  destruct (error_N_FLT radix2 (-149) 24 eq_refl (fun x => negb (Z.even x)) z) as (d & e & H1 & H2 & _ & H3).
  exists d, e. split; [|split; [|exact H3]].
  - eapply Rle_trans; [exact H1|]. apply Req_le, u32_half.
  - eapply Rle_trans; [exact H2|]. apply Req_le, tiny_half.
Qed.
(** no underflow in sums *)
Lemma rnd_sum_error a b : generic_format radix2 fexp32 a -> generic_format radix2 fexp32 b -> exists d, Rabs d <= u32 /\ rnd (a + b) = (a + b) * (1 + d).
Proof.
  intros Ha Hb. destruct (Rle_or_lt (Rabs (a + b)) (bpow radix2 (24 + -149))) as [H|H].
  - exists 0. split; [rewrite Rabs_R0; apply Rlt_le, u32_pos|]. rewrite Rplus_0_r, Rmult_1_r. apply round_generic; [typeclasses eauto|].
    rewrite fexp32_FLT in *. apply FLT_format_plus_small; auto. reflexivity.
  - destruct (relative_error_N_FLT_ex radix2 (-149) 24 eq_refl (fun x => negb (Z.even x)) (a + b)) as (d & H1 & H2).
    + apply Rlt_le. eapply Rle_lt_trans; [|exact H]. apply bpow_le. lia.
    + exists d. split; [|exact H2]. eapply Rle_trans; [exact H1|]. apply Req_le, u32_half.
Qed.
Lemma rnd_sqrt_error a : generic_format radix2 fexp32 a -> 0 <= a -> exists d, Rabs d <= u32 /\ rnd (sqrt a) = sqrt a * (1 + d).
Proof.
  intros Fa H0. destruct (Rle_lt_or_eq_dec 0 a H0) as [H|<-].
  2: { exists 0. split; [rewrite Rabs_R0; apply Rlt_le, u32_pos|]. rewrite sqrt_0, Rmult_0_l. apply round_0. typeclasses eauto. }
  destruct (relative_error_N_FLT_ex radix2 (-149) 24 eq_refl (fun x => negb (Z.even x)) (sqrt a)) as (d & H1 & H2).
  - assert (H3 : bpow radix2 (-149) <= a). { rewrite fexp32_FLT in Fa. apply FLT_format_generic in Fa; [|reflexivity].
      destruct Fa as [[m e] E Hm He]. cbn in *. rewrite E in *. unfold F2R in *. cbn in *. 
      assert (0 < m)%Z. { apply lt_IZR. apply Rmult_lt_reg_r with (bpow radix2 e); [apply bpow_gt_0|]. lra. }
      apply Rle_trans with (1 * bpow radix2 e); [rewrite Rmult_1_l; exact (bpow_le radix2 (-149) e He)|]. apply Rmult_le_compat_r; [apply bpow_ge_0|]. apply IZR_le. lia. }
    rewrite Rabs_pos_eq by apply sqrt_pos. apply Rsqr_incr_0_var; [|apply sqrt_pos]. unfold Rsqr. rewrite sqrt_sqrt by lra.
    rewrite <- bpow_plus. eapply Rle_trans; [|exact H3]. apply bpow_le. lia.
  - exists d. split; [|exact H2]. eapply Rle_trans; [exact H1|]. apply Req_le, u32_half.
Qed.

Lemma num_add x y a b : num x a -> num y b -> Rabs (a + b) <= bpow radix2 127 -> exists d, Rabs d <= u32 /\ num (s_add x y) ((a + b) * (1 + d)).
Proof.
  intros Hx Hy Ho. destruct (rnd_sum_error a b (num_format x a Hx) (num_format y b Hy)) as (d & H1 & H2).
  exists d. split; [exact H1|]. rewrite <- H2. now apply num_add_rnd.
Qed.
Lemma num_sub x y a b : num x a -> num y b -> Rabs (a - b) <= bpow radix2 127 -> exists d, Rabs d <= u32 /\ num (s_sub x y) ((a - b) * (1 + d)).
Proof.
  intros Hx Hy Ho. destruct (rnd_sum_error a (- b) (num_format x a Hx) (generic_format_opp _ _ _ (num_format y b Hy))) as (d & H1 & H2).
  exists d. split; [exact H1|]. unfold Rminus. rewrite <- H2. now apply num_sub_rnd.
Qed.
Lemma num_mul x y a b : num x a -> num y b -> Rabs (a * b) <= bpow radix2 127 -> exists d e, Rabs d <= u32 /\ Rabs e <= tiny /\ num (s_mul x y) (a * b * (1 + d) + e).
Proof.
  intros Hx Hy Ho. destruct (rnd_error (a * b)) as (d & e & H1 & H2 & H3).
  exists d, e. split; [exact H1|]. split; [exact H2|]. rewrite <- H3. now apply num_mul_rnd.
Qed.
Lemma num_div x y a b : num x a -> num y b -> b <> 0 -> Rabs (a / b) <= bpow radix2 127 -> exists d e, Rabs d <= u32 /\ Rabs e <= tiny /\ num (s_div x y) (a / b * (1 + d) + e).
Proof.
  intros Hx Hy Hb Ho. destruct (rnd_error (a / b)) as (d & e & H1 & H2 & H3).
  exists d, e. split; [exact H1|]. split; [exact H2|]. rewrite <- H3. now apply num_div_rnd.
Qed.
Lemma num_sqrt x a : num x a -> 0 <= a -> exists d, Rabs d <= u32 /\ num (s_sqrt x) (sqrt a * (1 + d)).
Proof.
  intros Hx H0. destruct (rnd_sqrt_error a (num_format x a Hx) H0) as (d & H1 & H2).
  exists d. split; [exact H1|]. rewrite <- H2. now apply num_sqrt_rnd.
Qed.

(** ** integers times a power of two *)
Definition dy (n e : Z) : R := IZR n * bpow radix2 e.
Lemma dy_bound n e : (Z.abs n <= 2 ^ 24)%Z -> Rabs (dy n e) <= bpow radix2 (24 + e).
Proof.
  intro H. unfold dy. rewrite Rabs_mult, (Rabs_pos_eq (bpow radix2 e)) by apply bpow_ge_0. rewrite bpow_plus.
  apply Rmult_le_compat_r; [apply bpow_ge_0|]. rewrite <- abs_IZR. change (bpow radix2 24) with (IZR (2 ^ 24)). now apply IZR_le.
Qed.
Lemma rnd_dy n e : (Z.abs n <= 2 ^ 24)%Z -> (-149 <= e)%Z -> rnd (dy n e) = dy n e.
Proof.
  intros H He. apply round_generic; [typeclasses eauto|]. destruct (Z.eq_dec n 0) as [->|Hn]; [unfold dy; rewrite Rmult_0_l; apply generic_format_0|].
  rewrite fexp32_FLT. destruct (Z.eq_dec (Z.abs n) (2 ^ 24)) as [E|E].
  - assert (generic_format radix2 (FLT_exp (-149) 24) (bpow radix2 (24 + e))) as G by (apply generic_format_bpow; unfold FLT_exp; lia).
    rewrite bpow_plus in G. change (bpow radix2 24) with (IZR (2 ^ 24)) in G. unfold dy. destruct (Z.abs_eq_or_opp n) as [E'|E']; rewrite E' in E.
    + now rewrite E.
    + replace n with (- 2 ^ 24)%Z by lia. rewrite opp_IZR, Ropp_mult_distr_l_reverse. now apply generic_format_opp.
  - apply generic_format_FLT. exists (Float radix2 n e); [reflexivity|cbn [Fnum]; change (radix2 ^ 24)%Z with (2 ^ 24)%Z; lia|exact He].
Qed.
Lemma dy_no_overflow n e : (Z.abs n <= 2 ^ 24)%Z -> (e <= 100)%Z -> Rabs (dy n e) <= bpow radix2 127.
Proof. intros H He. eapply Rle_trans; [now apply dy_bound|]. apply bpow_le. lia. Qed.
Lemma num_add_dy x y a b e : num x (dy a e) -> num y (dy b e) -> (Z.abs (a + b) <= 2 ^ 24)%Z -> (-149 <= e <= 100)%Z -> num (s_add x y) (dy (a + b) e).
Proof.
  intros Hx Hy H He. rewrite <- (rnd_dy (a + b) e) by lia. assert (E : dy (a + b) e = dy a e + dy b e) by (unfold dy; rewrite plus_IZR; ring).
  rewrite E. apply num_add_rnd; [assumption..|]. rewrite <- E. apply dy_no_overflow; lia.
Qed.
Lemma num_sub_dy x y a b e : num x (dy a e) -> num y (dy b e) -> (Z.abs (a - b) <= 2 ^ 24)%Z -> (-149 <= e <= 100)%Z -> num (s_sub x y) (dy (a - b) e).
Proof.
  intros Hx Hy H He. rewrite <- (rnd_dy (a - b) e) by lia. assert (E : dy (a - b) e = dy a e - dy b e) by (unfold dy; rewrite minus_IZR; ring).
  rewrite E. apply num_sub_rnd; [assumption..|]. rewrite <- E. apply dy_no_overflow; lia.
Qed.
Lemma num_mul_dy x y a b e f : num x (dy a e) -> num y (dy b f) -> (Z.abs (a * b) <= 2 ^ 24)%Z -> (-149 <= e + f <= 100)%Z -> num (s_mul x y) (dy (a * b) (e + f)).
Proof.
  intros Hx Hy H He. rewrite <- (rnd_dy (a * b) (e + f)) by lia. assert (E : dy (a * b) (e + f) = dy a e * dy b f) by (unfold dy; rewrite mult_IZR, bpow_plus; ring).
  rewrite E. apply num_mul_rnd; [assumption..|]. rewrite <- E. apply dy_no_overflow; lia.
Qed.
Lemma dy_div n k : (0 <= k)%Z -> IZR n / IZR (2 ^ k) = dy n (- k).
Proof. intro H. unfold dy, Rdiv. rewrite bpow_opp. f_equal. f_equal. exact (IZR_Zpower radix2 k H). Qed.
