(** The accuracy of coordinates written with six digits and read back. *)
From Coq Require Import List NArith ZArith Bool Ascii Lia Reals Lra.
From Coq.Floats Require Import SpecFloat.
From Flocq Require Import Core BinarySingleNaN.
From Verif Require Import Base Arith F32 PolyFile Spec_file File_facts Decimal32 Decimal32_facts.
Import ListNotations.
Open Scope R_scope.

(** SpecFloat's rounding is Flocq's, to nearest even. *)
Lemma round_nearest_even_equiv s m l : round_nearest_even m l = choice_mode mode_NE s m l.
Proof. case l; [reflexivity|intro c]. case c; [|reflexivity..]. now simpl; unfold Round.cond_incr; case Z.even. Qed.
Lemma binary_round_aux_NE sx mx ex lx :
  SpecFloat.binary_round_aux prec32 emax32 sx mx ex lx = BinarySingleNaN.binary_round_aux prec32 emax32 mode_NE sx mx ex lx.
Proof.
  unfold SpecFloat.binary_round_aux, BinarySingleNaN.binary_round_aux. 
  set (mrse' := shr_fexp _ _ _ _ _). case mrse'; intros mrs' e'; simpl. now rewrite (round_nearest_even_equiv sx).
Qed.

Lemma Hprec : Prec_gt_0 prec32. Proof. reflexivity. Qed.
Lemma Hmax : Prec_lt_emax prec32 emax32. Proof. reflexivity. Qed.
#[local] Existing Instance Hprec.
#[local] Existing Instance Hmax.
Notation fexp32 := (SpecFloat.fexp prec32 emax32).
Notation rnd x := (round radix2 fexp32 ZnearestE x).

Definition sgn (s : bool) (x : R) : R := if s then - x else x.
Lemma F2R_sign s m e : F2R (Float radix2 (cond_Zopp s (Zpos m)) e) = sgn s (IZR (Zpos m) * bpow radix2 e).
Proof. unfold F2R. cbn [Fnum Fexp]. destruct s; cbn [cond_Zopp sgn]; [rewrite opp_IZR; ring|reflexivity]. Qed.

Lemma rnd_sgn s x : rnd (sgn s x) = sgn s (rnd x).
Proof. destruct s; cbn [sgn]; [apply round_NE_opp|reflexivity]. Qed.
Lemma Rabs_sgn s x : Rabs (sgn s x) = Rabs x.
Proof. destruct s; cbn [sgn]; [apply Rabs_Ropp|reflexivity]. Qed.

Lemma round_ratio_correct s p q : Rabs (rnd (IZR (Zpos p) / IZR (Zpos q))) < bpow radix2 emax32 ->
  valid_binary prec32 emax32 (round_ratio s p q) = true /\ SF2R radix2 (round_ratio s p q) = sgn s (rnd (IZR (Zpos p) / IZR (Zpos q))) /\
  is_finite_SF (round_ratio s p q) = true /\ sign_SF (round_ratio s p q) = s.
Proof.
  intro H. pose proof (Bdiv_correct_aux prec32 emax32 Hprec Hmax mode_NE s p 0 false q 0) as C. cbv zeta in C. unfold round_ratio.
  destruct (SFdiv_core_binary prec32 emax32 (Zpos p) 0 (Zpos q) 0) as [[mz ez] lz]. rewrite binary_round_aux_NE.
  destruct C as [C1 C2]. rewrite xorb_false_r in C1, C2. split; [exact C1|]. 
  change (round_mode mode_NE) with ZnearestE in C2.
  assert (E : F2R (Float radix2 (cond_Zopp s (Zpos p)) 0) / F2R (Float radix2 (cond_Zopp false (Zpos q)) 0) = sgn s (IZR (Zpos p) / IZR (Zpos q))).
  { rewrite !F2R_sign. cbn [bpow sgn]. rewrite !Rmult_1_r. destruct s; cbn [sgn]; [unfold Rdiv; ring|reflexivity]. }
  rewrite E, rnd_sgn, Rabs_sgn, Rlt_bool_true in C2 by assumption. exact C2.
Qed.

(** a valid finite number *)
Lemma valid_format s m e : valid_binary prec32 emax32 (S754_finite s m e) = true ->
  generic_format radix2 fexp32 (IZR (Zpos m) * bpow radix2 e) /\ IZR (Zpos m) * bpow radix2 e < bpow radix2 emax32.
Proof.
  intro H. pose proof (generic_format_B2R prec32 emax32 (B754_finite false m e H)) as G. pose proof (abs_B2R_lt_emax prec32 emax32 (B754_finite false m e H)) as L.
  cbn [B2R cond_Zopp] in *. unfold F2R in *. cbn [Fnum Fexp] in *. split; [exact G|]. rewrite Rabs_pos_eq in L; [exact L|].
  apply Rmult_le_pos; [now apply IZR_le|apply bpow_ge_0].
Qed.
Lemma valid_eq x y : valid_binary prec32 emax32 x = true -> valid_binary prec32 emax32 y = true -> is_finite_SF x = true -> is_finite_SF y = true ->
  SF2R radix2 x = SF2R radix2 y -> sign_SF x = sign_SF y -> x = y.
Proof.
  intros Vx Vy Fx Fy E S. rewrite <- (B2SF_SF2B prec32 emax32 x Vx), <- (B2SF_SF2B prec32 emax32 y Vy). f_equal.
  apply B2R_Bsign_inj; [now rewrite is_finite_SF2B|now rewrite is_finite_SF2B|now rewrite !B2R_SF2B|now rewrite !Bsign_SF2B].
Qed.

(** rounding to an integer *)
Open Scope N_scope.
Lemma div_even_bounds a b : 0 < b -> 2 * div_even a b * b <= 2 * a + b /\ 2 * a <= 2 * div_even a b * b + b.
Proof.
  intro H. pose proof (N.div_mod a b ltac:(lia)) as E. pose proof (N.mod_lt a b ltac:(lia)) as L. unfold div_even.
  set (k := a / b) in *. set (r := a mod b) in *. rewrite E.
  destruct (N.compare_spec (2 * r) b) as [C|C|C]; [destruct (N.even k)| |]; nia.
Qed.
Lemma div_even_unique a b k : 0 < b -> 2 * k * b < 2 * a + b -> 2 * a < 2 * k * b + b -> div_even a b = k.
Proof.
  intros H H1 H2. destruct (div_even_bounds a b H) as [B1 B2]. set (n := div_even a b) in *.
  destruct (N.lt_trichotomy n k) as [L|[L|L]]; [|assumption|]; exfalso; nia.
Qed.
Open Scope R_scope.
Definition Nr (n : N) : R := IZR (Z.of_N n).
Lemma Nr_add a b : Nr (a + b) = Nr a + Nr b. Proof. unfold Nr. now rewrite N2Z.inj_add, plus_IZR. Qed.
Lemma Nr_mul a b : Nr (a * b) = Nr a * Nr b. Proof. unfold Nr. now rewrite N2Z.inj_mul, mult_IZR. Qed.
Lemma Nr_le a b : (a <= b)%N <-> Nr a <= Nr b.
Proof. unfold Nr. split; intro H; [apply IZR_le; lia|apply le_IZR in H; lia]. Qed.
Lemma Nr_lt a b : (a < b)%N <-> Nr a < Nr b.
Proof. unfold Nr. split; intro H; [apply IZR_lt; lia|apply lt_IZR in H; lia]. Qed.
Lemma Nr_pow2 k : (0 <= k)%Z -> Nr (2 ^ Z.to_N k) = bpow radix2 k.
Proof. intro H. unfold Nr. rewrite N2Z.inj_pow, Z2N.id by assumption. apply (IZR_Zpower radix2). assumption. Qed.
Lemma div_even_near a b : (0 < b)%N -> Rabs (Nr (div_even a b) - Nr a / Nr b) <= / 2.
Proof.
  intro H. destruct (div_even_bounds a b H) as [B1 B2]. apply Nr_le in B1, B2. rewrite ?Nr_add, ?Nr_mul in B1, B2. change (Nr 2) with 2 in *.
  apply Nr_lt in H. change (Nr 0) with 0 in H. assert (E : Nr a = Nr a / Nr b * Nr b) by (field; lra). set (x := Nr a / Nr b) in *. set (n := Nr (div_even a b)) in *.
  rewrite E in *. apply Rabs_le. split; apply (Rmult_le_reg_r (Nr b)); try assumption; lra.
Qed.
Lemma div_even_is a b k : (0 < b)%N -> Rabs (Nr k - Nr a / Nr b) < / 2 -> div_even a b = k.
Proof.
  intros H C. pose proof H as H'. apply Nr_lt in H'. change (Nr 0) with 0 in H'.
  assert (E : Nr a = Nr a / Nr b * Nr b) by (field; lra). set (x := Nr a / Nr b) in *. apply Rabs_def2 in C. destruct C as [C1 C2].
  apply div_even_unique; [assumption| |]; apply Nr_lt; rewrite ?Nr_add, ?Nr_mul; change (Nr 2) with 2; rewrite E; nra.
Qed.

Definition mag_value (m : positive) (e : Z) : R := IZR (Zpos m) * bpow radix2 e.
Definition six (n : N) : R := Nr n / 1000000.
Lemma millionths_neg m e : (e < 0)%Z -> millionths m e = div_even (Npos m * 1000000) (2 ^ Z.to_N (- e)) /\
  (0 < 2 ^ Z.to_N (- e))%N /\ Nr (Npos m * 1000000) / Nr (2 ^ Z.to_N (- e)) = mag_value m e * 1000000.
Proof.
  intro H. unfold millionths. assert ((0 <=? e)%Z = false) as -> by (apply Z.leb_gt; lia). split; [reflexivity|]. split; [apply N.neq_0_lt_0, N.pow_nonzero; lia|].
  rewrite Nr_pow2 by lia. rewrite bpow_opp. rewrite Nr_mul. unfold mag_value. change (Nr (Npos m)) with (IZR (Zpos m)). change (Nr 1000000) with 1000000.
  pose proof (bpow_gt_0 radix2 e). field. lra.
Qed.
Lemma millionths_pos m e : (0 <= e)%Z -> Nr (millionths m e) = mag_value m e * 1000000.
Proof.
  intro H. unfold millionths. assert ((0 <=? e)%Z = true) as -> by (apply Z.leb_le; lia). rewrite !Nr_mul, Nr_pow2 by assumption. reflexivity.
Qed.
Lemma millionths_near m e : Rabs (six (millionths m e) - mag_value m e) <= / 2 / 1000000.
Proof.
  unfold six. destruct (Z.le_gt_cases 0 e) as [H|H].
  - rewrite millionths_pos by assumption. replace (mag_value m e * 1000000 / 1000000 - mag_value m e) with 0 by field. rewrite Rabs_R0. lra.
  - destruct (millionths_neg m e H) as (E & P & V). pose proof (div_even_near (Npos m * 1000000) (2 ^ Z.to_N (- e)) P) as B. rewrite <- E, V in B.
    set (n := Nr (millionths m e)) in *. replace (n / 1000000 - mag_value m e) with ((n - mag_value m e * 1000000) / 1000000) by field.
    unfold Rdiv at 1. rewrite Rabs_mult. rewrite (Rabs_pos_eq (/ 1000000)) by lra. lra.
Qed.
Lemma millionths_is m e k : Rabs (six k - mag_value m e) < / 2 / 1000000 -> millionths m e = k.
Proof.
  unfold six. intro C. apply Rabs_def2 in C. destruct C as [C1 C2]. destruct (Z.le_gt_cases 0 e) as [H|H].
  - pose proof (millionths_pos m e H) as E. assert (A : Rabs (Nr (millionths m e) - Nr k) < 1) by (apply Rabs_def1; lra).
    unfold Nr in A. rewrite <- minus_IZR in A. apply Rabs_def2 in A. destruct A as [A1 A2]. apply lt_IZR in A1. apply (lt_IZR (-1)) in A2. lia.
  - destruct (millionths_neg m e H) as (E & P & V). rewrite E. apply div_even_is; [assumption|]. rewrite V. apply Rabs_def1; lra.
Qed.

Lemma fexp32_eq k : fexp32 k = Z.max (k - 24) (-149). Proof. reflexivity. Qed.
Lemma valid_exp32 : Valid_exp fexp32. Proof. apply (fexp_correct prec32 emax32 Hprec). Qed.
#[local] Existing Instance valid_exp32.
Lemma format_multiple x : generic_format radix2 fexp32 x -> 16 <= x -> exists k : Z, x = IZR k * bpow radix2 (-19).
Proof.
  intros G H. assert (5 <= mag radix2 x)%Z as Hm. { apply mag_ge_bpow. rewrite Rabs_pos_eq by lra. change (bpow radix2 (5 - 1)) with 16. assumption. }
  rewrite G. unfold F2R. cbn [Fnum Fexp]. unfold cexp. rewrite fexp32_eq. set (M := Ztrunc _). set (E := Z.max _ _). assert (-19 <= E)%Z by (unfold E; lia).
  exists (M * 2 ^ (E + 19))%Z. rewrite mult_IZR, (IZR_Zpower radix2) by lia. rewrite Rmult_assoc, <- bpow_plus. f_equal. f_equal. lia.
Qed.
Lemma format_16 : generic_format radix2 fexp32 16.
Proof. change 16 with (bpow radix2 4). apply generic_format_bpow. cbn. lia. Qed.
Lemma rnd_exact X Q : generic_format radix2 fexp32 X -> 16 <= X -> 16 <= Q -> Rabs (Q - X) <= / 2 / 1000000 -> rnd Q = X.
Proof.
  intros G HX HQ HD. destruct (round_N_pt radix2 fexp32 (fun x => negb (Z.even x)) Q) as [G' N]. specialize (N X G).
  change (Znearest (fun x => negb (Z.even x))) with ZnearestE in *. set (Y := rnd Q) in *.
  assert (16 <= Y). { unfold Y. rewrite <- (round_generic radix2 fexp32 ZnearestE 16 format_16). apply round_le; [apply valid_exp32|apply valid_rnd_N|assumption]. }
  destruct (format_multiple X G HX) as [a Ha]. destruct (format_multiple Y G' H) as [b Hb].
  assert (Hab : Rabs (Y - X) <= / 1000000).
  { replace (Y - X) with ((Y - Q) + (Q - X)) by ring. eapply Rle_trans; [apply Rabs_triang|]. rewrite (Rabs_minus_sym X Q) in N. lra. }
  rewrite Ha, Hb in *. replace (IZR b * bpow radix2 (-19) - IZR a * bpow radix2 (-19)) with (IZR (b - a) * bpow radix2 (-19)) in Hab by (rewrite minus_IZR; ring).
  assert (bpow radix2 (-19) = / 524288) as E19 by reflexivity. rewrite E19 in *. rewrite Rabs_mult, (Rabs_pos_eq (/ 524288)) in Hab by lra.
  assert (Rabs (IZR (b - a)) < 1) as L by lra. apply Rabs_def2 in L. destruct L as [L1 L2]. apply lt_IZR in L1. apply (lt_IZR (-1)) in L2.
  assert (b = a) by lia. now subst.
Qed.
Lemma rnd_small Q : 0 <= Q <= 16 -> Rabs (rnd Q - Q) <= bpow radix2 (-21).
Proof.
  intros [H1 H2]. pose proof (bpow_gt_0 radix2 (-21)) as P. destruct (Req_dec Q 0) as [->|Hz]; [rewrite round_0 by apply valid_rnd_N; rewrite Rminus_0_r, Rabs_R0; lra|].
  destruct (Req_dec Q 16) as [->|Hs]; [rewrite round_generic by (try apply valid_rnd_N; apply format_16); unfold Rminus; rewrite Rplus_opp_r, Rabs_R0; lra|].
  pose proof (error_le_half_ulp radix2 fexp32 (fun x => negb (Z.even x)) Q) as B. change (Znearest (fun x => negb (Z.even x))) with ZnearestE in B.
  eapply Rle_trans; [exact B|]. rewrite ulp_neq_0 by assumption. unfold cexp. rewrite fexp32_eq.
  assert (mag radix2 Q <= 4)%Z as Hm. { apply mag_le_bpow; [assumption|]. rewrite Rabs_pos_eq by assumption. change (bpow radix2 4) with 16. lra. }
  assert (bpow radix2 (Z.max (mag radix2 Q - 24) (-149)) <= bpow radix2 (-20)) by (apply bpow_le; lia).
  change (bpow radix2 (-21)) with (/ 2097152). change (bpow radix2 (-20)) with (/ 1048576) in *. lra.
Qed.
(** integers are not crossed *)
Lemma six_bounds m e : (mag_value m e <= 16 -> six (millionths m e) <= 16) /\ (16 <= mag_value m e -> 16 <= six (millionths m e)).
Proof.
  pose proof (millionths_near m e) as B. apply Rabs_le_inv in B. destruct B as [B1 B2]. unfold six in *. set (n := millionths m e) in *. split; intro H.
  - assert (Nr n < 16000001) as L by lra. change 16000001 with (Nr 16000001) in L. apply Nr_lt in L. assert (n <= 16000000)%N as L' by lia. apply Nr_le in L'.
    change (Nr 16000000) with 16000000 in L'. lra.
  - assert (15999999 < Nr n) as L by lra. change 15999999 with (Nr 15999999) in L. apply Nr_lt in L. assert (16000000 <= n)%N as L' by lia. apply Nr_le in L'.
    change (Nr 16000000) with 16000000 in L'. lra.
Qed.
Lemma mag_value_pos m e : 0 < mag_value m e.
Proof. apply Rmult_lt_0_compat; [now apply IZR_lt|apply bpow_gt_0]. Qed.
Lemma six_nonneg n : 0 <= six n.
Proof. unfold six. assert (Nr 0 <= Nr n) as H by (apply Nr_le; lia). change (Nr 0) with 0 in H. lra. Qed.

(** Reading back: the value is the printed decimal rounded; nothing overflows. *)
Lemma round6_value s m e : valid_binary prec32 emax32 (S754_finite s m e) = true ->
  let y := round6 (S754_finite s m e) in
  valid_binary prec32 emax32 y = true /\ is_finite_SF y = true /\ sign_SF y = s /\ SF2R radix2 y = sgn s (rnd (six (millionths m e))).
Proof.
  intros V y. destruct (valid_format s m e V) as [G L]. fold (mag_value m e) in G, L. unfold y. cbn [round6]. 
  destruct (millionths m e) as [|p] eqn:E.
  - cbn [of_ratio]. repeat split. cbn [SF2R]. unfold six. change (Nr 0) with 0. replace (0 / 1000000) with 0 by field. rewrite round_0 by apply valid_rnd_N.
    destruct s; cbn [sgn]; ring.
  - rewrite <- E. change (of_ratio s (millionths m e) 1000000) with (of_ratio s (millionths m e) 1000000). rewrite E. cbn [of_ratio].
    assert (Eq : six (Npos p) = IZR (Zpos p) / IZR (Zpos 1000000)) by reflexivity. rewrite Eq.
    destruct (round_ratio_correct s p 1000000) as (C1 & C2 & C3 & C4); [|auto].
    rewrite <- Eq, <- E. destruct (Rle_or_lt 16 (mag_value m e)) as [H|H].
    + rewrite (rnd_exact (mag_value m e)); try assumption; [|now apply six_bounds|apply millionths_near]. rewrite Rabs_pos_eq by (apply Rlt_le, mag_value_pos). exact L.
    + assert (six (millionths m e) <= 16) by (apply six_bounds; lra). pose proof (rnd_small (six (millionths m e)) (conj (six_nonneg _) H0)) as B.
      apply Rabs_le_inv in B. pose proof (six_nonneg (millionths m e)). change (bpow radix2 (-21)) with (/ 2097152) in B.
      apply (Rlt_trans _ 17); [apply Rabs_def1; lra|]. change 17 with (IZR 17). apply Rlt_le_trans with (bpow radix2 5); [change (bpow radix2 5) with 32; lra|apply bpow_le; unfold emax32; lia].
Qed.

(** The value of a number *)
Notation val := (SF2R radix2).
Lemma val_finite s m e : val (S754_finite s m e) = sgn s (mag_value m e).
Proof. apply F2R_sign. Qed.
Lemma sgn_minus s a b : Rabs (sgn s a - sgn s b) = Rabs (a - b).
Proof. destruct s; cbn [sgn]; [|reflexivity]. rewrite <- Rabs_Ropp. f_equal. ring. Qed.

Definition valid32 (x : spec_float) : Prop := valid_binary prec32 emax32 x = true.
Lemma round6_valid x : valid32 x -> valid32 (round6 x).
Proof. destruct x as [s|s| |s m e]; intro V; try assumption. apply (round6_value s m e V). Qed.

(** Coordinates of 16 and more come back unchanged. *)
Theorem round6_large x : valid32 x -> 16 <= Rabs (val x) -> round6 x = x.
Proof.
  intros V H. destruct x as [s|s| |s m e]; try reflexivity. rewrite val_finite, Rabs_sgn, Rabs_pos_eq in H by (apply Rlt_le, mag_value_pos).
  destruct (round6_value s m e V) as (V' & F & S & E). destruct (valid_format s m e V) as [G L].
  apply valid_eq; try assumption; try reflexivity. rewrite E, val_finite. f_equal. apply rnd_exact; try assumption; [now apply six_bounds|apply millionths_near].
Qed.
(** So do the multiples of a millionth, as halves, quarters, .. up to 1/64 are. *)
Theorem round6_decimal x : valid32 x -> (exists k : Z, val x = IZR k / 1000000) -> round6 x = x.
Proof.
  intros V (k & Hk). destruct x as [s|s| |s m e]; try reflexivity. rewrite val_finite in Hk.
  destruct (round6_value s m e V) as (V' & F & S & E). destruct (valid_format s m e V) as [G L]. pose proof (mag_value_pos m e) as P.
  apply valid_eq; try assumption; try reflexivity. rewrite E, val_finite. f_equal.
  assert (Em : six (millionths m e) = mag_value m e).
  { assert (A : mag_value m e = six (Z.abs_N k)).
    { unfold six, Nr. rewrite N2Z.inj_abs_N, abs_IZR. rewrite <- (Rabs_pos_eq (mag_value m e)) by lra. rewrite <- (Rabs_sgn s), Hk. unfold Rdiv. rewrite Rabs_mult.
      rewrite (Rabs_pos_eq (/ 1000000)) by lra. reflexivity. }
    rewrite (millionths_is m e (Z.abs_N k)); [now rewrite <- A|]. rewrite A. unfold Rminus. rewrite Rplus_opp_r, Rabs_R0. lra. }
  rewrite Em. apply round_generic; [apply valid_rnd_N|assumption].
Qed.
(** Every coordinate comes back within a millionth. *)
Theorem round6_close x : valid32 x -> Rabs (val (round6 x) - val x) <= 1 / 1000000.
Proof.
  intro V. destruct (Rle_or_lt 16 (Rabs (val x))) as [H|H].
  { rewrite round6_large by assumption. unfold Rminus. rewrite Rplus_opp_r, Rabs_R0. lra. }
  destruct x as [s|s| |s m e]; try (cbn [round6]; unfold Rminus; rewrite Rplus_opp_r, Rabs_R0; lra).
  destruct (round6_value s m e V) as (_ & _ & _ & E). rewrite E, val_finite, sgn_minus. rewrite val_finite, Rabs_sgn, Rabs_pos_eq in H by (apply Rlt_le, mag_value_pos).
  pose proof (millionths_near m e) as B. pose proof (rnd_small (six (millionths m e)) (conj (six_nonneg _) (proj1 (six_bounds m e) (Rlt_le _ _ H)))) as B2.
  change (bpow radix2 (-21)) with (/ 2097152) in B2. apply Rabs_le_inv in B, B2. apply Rabs_le. lra.
Qed.
(** What was read is printed the same. *)
Theorem round6_stable x : valid32 x -> print_f32 (round6 x) = print_f32 x /\ round6 (round6 x) = round6 x.
Proof.
  intro V. enough (H : print_f32 (round6 x) = print_f32 x).
  { split; [exact H|]. pose proof (print_parse (round6 x)) as P. rewrite H, print_parse in P. congruence. }
  destruct (Rle_or_lt 16 (Rabs (val x))) as [H|H]; [now rewrite round6_large|].
  destruct x as [s|s| |s m e]; try reflexivity. destruct (round6_value s m e V) as (V' & F & S & E).
  rewrite val_finite, Rabs_sgn, Rabs_pos_eq in H by (apply Rlt_le, mag_value_pos).
  pose proof (rnd_small (six (millionths m e)) (conj (six_nonneg _) (proj1 (six_bounds m e) (Rlt_le _ _ H)))) as B2.
  set (y := round6 (S754_finite s m e)) in *. set (n := millionths m e) in *. cbn [print_f32].
  destruct y as [s'|s'| |s' m' e'] eqn:Ey; try discriminate F; cbn [sign_SF] in S; subst s'; cbn [print_f32]; f_equal; f_equal.
  - cbn [SF2R] in E. assert (rnd (six n) = 0) as R0 by (destruct s; cbn [sgn] in E; lra). rewrite R0 in B2. rewrite Rminus_0_l, Rabs_Ropp, Rabs_pos_eq in B2 by apply six_nonneg.
    change (bpow radix2 (-21)) with (/ 2097152) in B2. fold n. unfold six in B2. assert (Nr n < 1) as L by lra. change 1 with (Nr 1) in L. apply Nr_lt in L. lia.
  - fold n. apply millionths_is. rewrite val_finite in E. assert (mag_value m' e' = rnd (six n)) as -> by (destruct s; cbn [sgn] in E; lra).
    rewrite Rabs_minus_sym. change (bpow radix2 (-21)) with (/ 2097152) in B2. lra.
Qed.
