(** C83: coordinates of mesh files are written rounded to the nearest millionth and read rounded to the nearest binary32. *)
From Coq Require Import List NArith ZArith Bool Ascii Lia Reals Lra.
From Coq.Floats Require Import SpecFloat.
From Flocq Require Import Core BinarySingleNaN.
From Verif Require Import Base Arith F32 PolyFile Spec_file File_facts Decimal32 Decimal32_facts Decimal32_real Spec_decimal.
Import ListNotations.
Open Scope R_scope.
#[local] Existing Instance Hprec.
#[local] Existing Instance Hmax.
#[local] Existing Instance valid_exp32.
Notation val := (SF2R radix2).

(** ** Writing *)
Lemma div_even_tie a b : (0 < b)%N -> (2 * a = 2 * div_even a b * b + b \/ 2 * div_even a b * b = 2 * a + b)%N -> N.even (div_even a b) = true.
Proof.
  intros H. pose proof (N.div_mod a b ltac:(lia)) as E. pose proof (N.mod_lt a b ltac:(lia)) as L. unfold div_even.
  set (k := (a / b)%N) in *. set (r := (a mod b)%N) in *. rewrite E. intro HT.
  destruct (N.compare_spec (2 * r) b) as [C|C|C].
  - destruct (N.even k) eqn:Ek; [exact Ek|]. rewrite N.add_1_r, N.even_succ, <- N.negb_even, Ek. reflexivity.
  - exfalso. nia.
  - exfalso. nia.
Qed.
Lemma millionths_tie m e : Rabs (Nr (millionths m e) - mag_value m e * 1000000) = 1 / 2 -> N.even (millionths m e) = true.
Proof.
  intro H. destruct (Z.le_gt_cases 0 e) as [He|He].
  - rewrite millionths_pos in H by assumption. replace (mag_value m e * 1000000 - mag_value m e * 1000000) with 0 in H by ring. rewrite Rabs_R0 in H. lra.
  - destruct (millionths_neg m e He) as (E & P & V). rewrite E in *. rewrite <- V in H. apply div_even_tie; [exact P|].
    set (a := (N.pos m * 1000000)%N) in *. set (b := (2 ^ Z.to_N (- e))%N) in *. set (d := div_even a b) in *.
    pose proof P as P'. apply Nr_lt in P'. change (Nr 0) with 0 in P'. assert (EA : Nr a = Nr a / Nr b * Nr b) by (field; lra).
    assert (HR : Nr d - Nr a / Nr b = 1 / 2 \/ Nr d - Nr a / Nr b = - (1 / 2)) by (unfold Rabs in H; destruct (Rcase_abs _); lra).
    assert (HI : forall x y, Nr x = Nr y -> x = y) by (intros x y HH; unfold Nr in HH; apply eq_IZR in HH; lia).
    destruct HR as [HR|HR]; [right|left]; apply HI; rewrite !Nr_add, !Nr_mul; change (Nr 2) with 2; set (qq := Nr a / Nr b) in *; rewrite EA; nra.
Qed.
(** no leading zero, but for a single one *)
Lemma print_digits_head k : forall n, (n < 2 ^ N.of_nat k)%N -> (0 < k)%nat -> n = 0%N \/ exists c r, print_digits k n = c :: r /\ c <> "0"%char.
Proof.
  induction k as [|k IH]; intros n Hn Hk; [lia|]. cbn [print_digits]. destruct (N.ltb_spec n 10) as [H|H].
  - destruct (N.eq_dec n 0) as [->|Hz]; [now left|right]. exists (digit_char n), []. split; [reflexivity|]. unfold digit_char. intro E.
    apply (f_equal N_of_ascii) in E. rewrite N_ascii_embedding in E by lia. change (N_of_ascii "0") with 48%N in E. lia.
  - right. assert (Hk' : (0 < k)%nat). { destruct k; [|lia]. cbn in Hn. lia. }
    assert (Hd : (n / 10 < 2 ^ N.of_nat k)%N).
    { rewrite Nnat.Nat2N.inj_succ, N.pow_succ_r' in Hn. apply N.div_lt_upper_bound; lia. }
    destruct (IH (n / 10)%N Hd Hk') as [E|(c & r & -> & Hc)].
    + exfalso. pose proof (N.div_mod n 10 ltac:(lia)). pose proof (N.mod_lt n 10 ltac:(lia)). lia.
    + exists c. eexists. split; [reflexivity|exact Hc].
Qed.
Lemma print_N_head n : print_N n = ["0"]%char \/ exists c r, print_N n = c :: r /\ c <> "0"%char.
Proof.
  unfold print_N. destruct (N.eq_dec n 0) as [->|Hz]; [now left|].
  destruct (print_digits_head (S (N.to_nat (N.log2 n))) n) as [E|H]; [|lia|lia|auto].
  rewrite Nnat.Nat2N.inj_succ, N2Nat.id. apply N.log2_spec. lia.
Qed.
(** C83: a finite number is written with six digits behind the point, as the nearest millionth, the even one of two. *)
Theorem C83_written (x : spec_float) : is_finite_SF x = true ->
  exists whole six n, print_f32 x = (if sign_SF x then ["-"]%char else []) ++ whole ++ ["."]%char ++ six /\
    length six = 6%nat /\ numeral (whole ++ six) n /\ (whole = ["0"]%char \/ exists c r, whole = c :: r /\ c <> "0"%char) /\
    Rabs (IZR (Z.of_N n) - Rabs (val x) * 1000000) <= 1 / 2 /\
    (Rabs (IZR (Z.of_N n) - Rabs (val x) * 1000000) = 1 / 2 -> N.even n = true).
Proof.
  intro H.
  assert (G : forall n, exists whole six, fixed6 n = whole ++ ["."]%char ++ six /\ length six = 6%nat /\ numeral (whole ++ six) n /\ (whole = ["0"]%char \/ exists c r, whole = c :: r /\ c <> "0"%char)).
  { intro n. exists (print_N (n / 1000000)), (last_digits 6 n). split; [reflexivity|]. split; [apply last_digits_length|]. split; [apply fixed6_numeral|apply print_N_head]. }
  destruct x as [s|s| |s m e]; try discriminate H; clear H; cbn [print_f32 sign_SF].
  - destruct (G 0%N) as (w & f & -> & L & Hn & Hh). exists w, f, 0%N. split; [reflexivity|]. split; [exact L|]. split; [exact Hn|]. split; [exact Hh|].
    cbn [SF2R Z.of_N]. rewrite Rabs_R0. replace (0 - 0 * 1000000) with 0 by ring. rewrite Rabs_R0. split; [lra|reflexivity].
  - destruct (G (millionths m e)) as (w & f & -> & L & Hn & Hh). exists w, f, (millionths m e). split; [reflexivity|]. split; [exact L|]. split; [exact Hn|]. split; [exact Hh|].
    rewrite val_finite, Rabs_sgn, (Rabs_pos_eq (mag_value m e)) by (apply Rlt_le, mag_value_pos). fold (Nr (millionths m e)). split; [|apply millionths_tie].
    pose proof (millionths_near m e) as B. unfold six in B. replace (Nr (millionths m e) / 1000000 - mag_value m e) with ((Nr (millionths m e) - mag_value m e * 1000000) / 1000000) in B by field.
    unfold Rdiv in B. rewrite Rabs_mult, (Rabs_pos_eq (/ 1000000)) in B by lra. lra.
Qed.
(** the other ones *)
Theorem C83_written_special : print_f32 S754_nan = ["N"; "a"; "N"]%char /\ print_f32 (S754_infinity false) = inf_word /\ print_f32 (S754_infinity true) = "-"%char :: inf_word.
Proof. split; [reflexivity|]. split; reflexivity. Qed.

(** ** Reading *)
Lemma round_ratio_overflow s p q : bpow radix2 emax32 <= Rabs (rnd (IZR (Zpos p) / IZR (Zpos q))) -> round_ratio s p q = S754_infinity s.
Proof.
  intro H. pose proof (Bdiv_correct_aux prec32 emax32 Hprec Hmax mode_NE s p 0 false q 0) as C. cbv zeta in C. unfold round_ratio.
  destruct (SFdiv_core_binary prec32 emax32 (Zpos p) 0 (Zpos q) 0) as [[mz ez] lz]. rewrite binary_round_aux_NE.
  destruct C as [C1 C2]. rewrite xorb_false_r in C1, C2.
  change (round_mode mode_NE) with ZnearestE in C2.
  assert (E : F2R (Float radix2 (cond_Zopp s (Zpos p)) 0) / F2R (Float radix2 (cond_Zopp false (Zpos q)) 0) = sgn s (IZR (Zpos p) / IZR (Zpos q))).
  { rewrite !F2R_sign. cbn [bpow sgn]. rewrite !Rmult_1_r. destruct s; cbn [sgn]; [unfold Rdiv; ring|reflexivity]. }
  rewrite E, rnd_sgn, Rabs_sgn, Rlt_bool_false in C2 by assumption. exact C2.
Qed.
Lemma pow10 a : Nr (10 ^ a) = powerRZ 10 (Z.of_N a).
Proof.
  unfold Nr. rewrite N2Z.inj_pow. rewrite <- (N_nat_Z a), <- (pow_IZR 10), pow_powerRZ. reflexivity.
Qed.
Lemma of_decimal_ratio n k x : Nr (n * 10 ^ Z.to_N x) / IZR (Zpos (N.succ_pos (10 ^ (k + Z.to_N (- x)) - 1))) = Nr n * powerRZ 10 (x - Z.of_N k).
Proof.
  assert (P : (10 ^ (k + Z.to_N (- x)) <> 0)%N) by (apply N.pow_nonzero; lia).
  assert (E : Z.pos (N.succ_pos (10 ^ (k + Z.to_N (- x)) - 1)) = Z.of_N (10 ^ (k + Z.to_N (- x)))).
  { change (Z.pos (N.succ_pos (10 ^ (k + Z.to_N (- x)) - 1))) with (Z.of_N (N.pos (N.succ_pos (10 ^ (k + Z.to_N (- x)) - 1)))). rewrite N.succ_pos_spec. f_equal. lia. }
  rewrite E. fold (Nr (10 ^ (k + Z.to_N (- x)))). rewrite Nr_mul, !pow10. unfold Rdiv. rewrite Rmult_assoc. f_equal.
  rewrite <- powerRZ_neg', <- powerRZ_add by lra. f_equal. lia.
Qed.
Lemma nearest32_rnd x : nearest32 x = rnd x.
Proof. reflexivity. Qed.
Definition read_as (y : spec_float) (s : bool) (v : R) : Prop :=
  (nearest32 v < bpow radix2 128 -> valid_binary 24 128 y = true /\ is_finite_SF y = true /\ sign_SF y = s /\ val y = (if s then - nearest32 v else nearest32 v)) /\
  (bpow radix2 128 <= nearest32 v -> y = S754_infinity s).
Lemma rnd_nonneg v : 0 <= v -> 0 <= rnd v.
Proof. intro H. apply round_ge_generic; [apply valid_exp32|apply valid_rnd_N|apply generic_format_0|exact H]. Qed.
Lemma of_decimal_read s n k x : read_as (of_decimal s n k x) s (Nr n * powerRZ 10 (x - Z.of_N k)).
Proof.
  unfold read_as. rewrite <- of_decimal_ratio. rewrite nearest32_rnd. unfold of_decimal. set (p := (n * 10 ^ Z.to_N x)%N). set (q := N.succ_pos _).
  destruct p as [|p]; cbn [of_ratio].
  - replace (Nr 0 / IZR (Z.pos q)) with 0 by (unfold Nr; cbn [Z.of_N]; unfold Rdiv; ring). rewrite round_0 by apply valid_rnd_N. split.
    + intros _. repeat split. cbn [SF2R]. destruct s; ring.
    + intro HH. exfalso. pose proof (bpow_gt_0 radix2 128). lra.
  - change (Nr (N.pos p)) with (IZR (Zpos p)). assert (H0 : 0 <= rnd (IZR (Z.pos p) / IZR (Z.pos q))).
    { apply rnd_nonneg. apply Rmult_le_pos; [now apply IZR_le|]. apply Rlt_le, Rinv_0_lt_compat. now apply IZR_lt. }
    split; intro HB.
    + destruct (round_ratio_correct s p q) as (C1 & C2 & C3 & C4); [now rewrite Rabs_pos_eq|]. split; [exact C1|]. split; [exact C3|]. split; [exact C4|exact C2].
    + apply round_ratio_overflow. now rewrite Rabs_pos_eq.
Qed.

(** *** The grammar *)
Lemma digits_from_numeral t n : t <> [] -> digits_from 0 t = Some n -> numeral t n.
Proof.
  revert n. induction t as [|c t IH] using rev_ind; intros n Hne H; [congruence|]. rewrite digits_from_app in H.
  destruct (digits_from 0 t) as [m|] eqn:Et; [|discriminate]. cbn [digits_from] in H. destruct (digit_of c) as [d|] eqn:Ed; [|discriminate]. injection H as <-.
  unfold digit_of in Ed. destruct ((48 <=? N_of_ascii c)%N && (N_of_ascii c <=? 57)%N) eqn:Eb; [|discriminate]. injection Ed as <-. apply andb_true_iff in Eb. rewrite !N.leb_le in Eb.
  assert (Ec : c = ascii_of_N (48 + (N_of_ascii c - 48))) by (replace (48 + (N_of_ascii c - 48))%N with (N_of_ascii c) by lia; now rewrite ascii_N_embedding).
  set (d := (N_of_ascii c - 48)%N) in *. rewrite Ec. assert (Hd : (d < 10)%N) by lia. destruct t as [|c' t].
  - cbn in Et. injection Et as <-. cbn [app]. rewrite N.mul_0_l. now apply num_digit.
  - replace (m * 10 + d)%N with (10 * m + d)%N by lia. apply num_more; [|exact Hd]. apply IH; [discriminate|reflexivity].
Qed.
Lemma split_once_parts c t : match split_once c t with Some (a, b) => t = a ++ [c] ++ b /\ ~ In c a | None => ~ In c t end.
Proof.
  induction t as [|x t IH]; cbn [split_once]; [intros []|]. destruct (Ascii.eqb_spec x c) as [->|Hx]; [split; [reflexivity|intros []]|].
  destruct (split_once c t) as [[a b]|]; cbn [option_map fst snd].
  - destruct IH as [-> IH]. split; [reflexivity|]. intros [E|E]; auto.
  - intros [E|E]; auto.
Qed.
Lemma mantissa_iff t n k : mantissa t = Some (n, k) <-> mantissa_of t n k.
Proof.
  unfold mantissa, mantissa_of. split.
  - pose proof (split_once_parts "." t) as HS. destruct (split_once "." t) as [[a b]|].
    + destruct HS as [-> HS]. intro H. right. exists a, b. split; [reflexivity|]. assert (E : a ++ b <> [] -> option_map (fun n => (n, lengthN b)) (digits_from 0 (a ++ b)) = Some (n, k)) by (destruct (a ++ b); [congruence|auto]).
      assert (Hne : a ++ b <> []) by (intro E0; rewrite E0 in H; discriminate). specialize (E Hne). destruct (digits_from 0 (a ++ b)) as [m|] eqn:Ed; [|discriminate]. injection E as <- <-.
      split; [now apply digits_from_numeral|reflexivity].
    + intro H. left. destruct t as [|c t]; [discriminate|]. unfold digits in H. destruct (digits_from 0 (c :: t)) as [m|] eqn:Ed; [|discriminate]. injection H as <- <-.
      split; [now apply digits_from_numeral|reflexivity].
  - intros [[H ->]|(a & b & -> & H & ->)].
    + pose proof (split_once_parts "." t) as HS. destruct (split_once "." t) as [[a b]|]; [|now rewrite (numeral_digits _ _ H)].
      exfalso. destruct HS as [E _]. apply (not_digit "."%char 46) with (t := t) (m := n); [reflexivity|lia|exact H|]. rewrite E. apply in_or_app. right. now left.
    + cbn [app]. rewrite split_once_app.
      2:{ intro Hin. apply (not_digit "."%char 46) with (t := a ++ b) (m := n); [reflexivity|lia|exact H|]. apply in_or_app. now left. }
      pose proof (numeral_chars _ _ H) as [Hne _]. apply numeral_from in H. unfold text in *. destruct (a ++ b) as [|c r]; [congruence|]. rewrite H. reflexivity.
Qed.
Lemma lower_e c : lower c = "e"%char <-> c = "e"%char \/ c = "E"%char.
Proof.
  split; [|intros [-> | ->]; reflexivity]. unfold lower. destruct ((65 <=? N_of_ascii c)%N && (N_of_ascii c <=? 90)%N) eqn:Eb; [|auto].
  intro H. right. apply andb_true_iff in Eb. rewrite !N.leb_le in Eb. apply (f_equal N_of_ascii) in H. rewrite N_ascii_embedding in H by lia. change (N_of_ascii "e") with 101%N in H.
  rewrite <- (ascii_N_embedding c). replace (N_of_ascii c) with 69%N by lia. reflexivity.
Qed.
Lemma cut_exponent_parts t : let '(m, w) := cut_exponent t in
  Forall (fun c => lower c <> "e"%char) m /\ match w with Some w => exists c, t = m ++ c :: w /\ lower c = "e"%char | None => t = m end.
Proof.
  induction t as [|c t IH]; cbn [cut_exponent]; [auto|]. destruct (Ascii.eqb_spec (lower c) "e") as [E|E].
  - split; [constructor|]. exists c. auto.
  - destruct (cut_exponent t) as [m w]. cbn [fst snd]. destruct IH as [I1 I2]. split; [now constructor|]. destruct w as [w|]; [|now subst].
    destruct I2 as (d & -> & Hd). exists d. auto.
Qed.
Lemma cut_exponent_some m c w : Forall (fun c => lower c <> "e"%char) m -> lower c = "e"%char -> cut_exponent (m ++ c :: w) = (m, Some w).
Proof.
  intros H Hc. induction H as [|d m Hd Hm IH]; cbn [app cut_exponent].
  - destruct (Ascii.eqb_spec (lower c) "e"); [reflexivity|contradiction].
  - destruct (Ascii.eqb_spec (lower d) "e"); [contradiction|]. rewrite IH. reflexivity.
Qed.
(** the exponent: below 65536 it is read as it is *)
Lemma exponent_from_app t : forall acc u, exponent_from acc (t ++ u) = match exponent_from acc t with Some n => exponent_from n u | None => None end.
Proof. induction t as [|c t IH]; intros acc u; cbn [app exponent_from]; [reflexivity|]. destruct (digit_of c); [apply IH|reflexivity]. Qed.
Lemma exponent_from_numeral d j : numeral d j -> exists i, exponent_from 0 d = Some i /\ ((j < 65536)%N -> i = j).
Proof.
  induction 1 as [d Hd|t n d Ht (i & IH1 & IH2) Hd].
  - cbn [exponent_from]. rewrite digit_of_char by assumption. change (0 <? 65536)%N with true. cbv iota. eexists. split; [reflexivity|lia].
  - rewrite exponent_from_app, IH1. cbn [exponent_from]. rewrite digit_of_char by assumption. eexists. split; [reflexivity|]. intro Hj.
    rewrite IH2 by lia. assert ((n <? 65536)%N = true) as -> by (apply N.ltb_lt; lia). reflexivity.
Qed.
Lemma exponent_digits_shape d i : exponent_digits d = Some i -> exists j, numeral d j.
Proof.
  assert (G : forall t acc i a, exponent_from acc t = Some i -> exists j, digits_from a t = Some j).
  { induction t as [|c t IH]; intros acc i' a H; cbn [exponent_from digits_from] in *; [eauto|]. destruct (digit_of c); [eauto|discriminate]. }
  unfold exponent_digits. destruct d as [|c d]; [discriminate|]. intro H. destruct (G _ _ _ 0%N H) as [j Hj]. exists j. apply digits_from_numeral; [discriminate|exact Hj].
Qed.
Lemma exponent_digits_numeral d j : numeral d j -> exists i, exponent_digits d = Some i /\ ((j < 65536)%N -> i = j).
Proof. intro H. destruct (exponent_from_numeral d j H) as (i & E & Hi). exists i. split; [|exact Hi]. unfold exponent_digits. destruct d; [now apply numeral_chars in H|exact E]. Qed.
Lemma numeral_head d j c r : numeral d j -> d = c :: r -> c <> "-"%char /\ c <> "+"%char.
Proof.
  intros H ->. split; intros ->; [apply (not_digit "-"%char 45) with (t := "-"%char :: r) (m := j)|apply (not_digit "+"%char 43) with (t := "+"%char :: r) (m := j)]; try reflexivity; try lia; try assumption; now left.
Qed.
Lemma exponent_some sg e d j : sign_of sg e -> numeral d j -> exists x, exponent (sg ++ d) = Some x /\ ((j < 65536)%N -> x = if e then (- Z.of_N j)%Z else Z.of_N j).
Proof.
  intros HS H. destruct (exponent_digits_numeral d j H) as (i & E & Hi). destruct HS as [[-> ->]|[[-> ->]|[-> ->]]]; cbn [app].
  - destruct d as [|c r] eqn:Ed; [now apply numeral_chars in H|]. destruct (numeral_head _ _ c r H eq_refl) as [N1 N2]. cbn [exponent].
    destruct (Ascii.eqb_spec c "-"); [contradiction|]. destruct (Ascii.eqb_spec c "+"); [contradiction|]. rewrite E. eexists. split; [reflexivity|]. intro Hj. now rewrite Hi.
  - cbn [exponent]. change (Ascii.eqb "+" "-") with false. change (Ascii.eqb "+" "+") with true. cbv iota. rewrite E. eexists. split; [reflexivity|]. intro Hj. now rewrite Hi.
  - cbn [exponent]. change (Ascii.eqb "-" "-") with true. cbv iota. rewrite E. eexists. split; [reflexivity|]. intro Hj. now rewrite Hi.
Qed.
Lemma exponent_shape w x : exponent w = Some x -> exists sg e d j, w = sg ++ d /\ sign_of sg e /\ numeral d j.
Proof.
  destruct w as [|c r]; [discriminate|]. cbn [exponent].
  assert (G : forall (f : N -> Z) d, option_map f (exponent_digits d) = Some x -> exists j, numeral d j).
  { intros f d H. destruct (exponent_digits d) as [i|] eqn:E; [|discriminate]. exact (exponent_digits_shape d i E). }
  destruct (Ascii.eqb_spec c "-") as [->|_]; [|destruct (Ascii.eqb_spec c "+") as [->|_]]; intro H; destruct (G _ _ H) as [j Hj].
  - exists ["-"]%char, true, r, j. split; [reflexivity|]. split; [right; now right|exact Hj].
  - exists ["+"]%char, false, r, j. split; [reflexivity|]. split; [right; now left|exact Hj].
  - exists [], false, (c :: r), j. split; [reflexivity|]. split; [now left|exact Hj].
Qed.
Lemma mantissa_no_e m n k : mantissa_of m n k -> Forall (fun c => lower c <> "e"%char) m.
Proof.
  intros [[H _]|(a & b & -> & H & _)]; [exact (numeral_no_e _ _ H)|]. apply numeral_no_e in H. apply Forall_app in H. destruct H as [H1 H2].
  apply Forall_app. split; [exact H1|]. cbn [app]. constructor; [discriminate|exact H2].
Qed.
(** an unsigned number *)
Lemma unsigned_some s m w n k e j : mantissa_of m n k -> exponent_of w e j -> exists x, parse_unsigned_f32 s (m ++ w) = Some (of_decimal s n k x) /\
  ((j < 65536)%N -> x = if e then (- Z.of_N j)%Z else Z.of_N j).
Proof.
  intros HM HW. pose proof (mantissa_no_e _ _ _ HM) as HN. apply mantissa_iff in HM. unfold parse_unsigned_f32. destruct HW as [(-> & -> & ->)|(c & sg & d & -> & Hc & HS & Hd)].
  - rewrite app_nil_r, (cut_exponent_none _ HN), HM. exists 0%Z. auto.
  - apply lower_e in Hc. rewrite (cut_exponent_some m c _ HN Hc), HM. destruct (exponent_some sg e d j HS Hd) as (x & -> & Hx). exists x. auto.
Qed.
Lemma unsigned_shape s t y : parse_unsigned_f32 s t = Some y -> exists m w n k e j, t = m ++ w /\ mantissa_of m n k /\ exponent_of w e j.
Proof.
  unfold parse_unsigned_f32. pose proof (cut_exponent_parts t) as HC. destruct (cut_exponent t) as [m w]. destruct HC as [_ HC].
  destruct (mantissa m) as [[n k]|] eqn:HM; [|discriminate]. apply mantissa_iff in HM. destruct w as [w|].
  - destruct HC as (c & -> & Hc). apply lower_e in Hc. destruct (exponent w) as [x|] eqn:EX; [|discriminate]. intros _. destruct (exponent_shape w x EX) as (sg & e & d & j & -> & HS & Hd).
    exists m, (c :: sg ++ d), n, k, e, j. split; [reflexivity|]. split; [exact HM|]. right. exists c, sg, d. auto.
  - intros _. subst m. exists t, [], n, k, false, 0%N. split; [now rewrite app_nil_r|]. split; [exact HM|]. left. auto.
Qed.
(** words *)
Lemma same_letter_lower c d : (97 <= N_of_ascii d <= 122)%N -> (same_letter c d <-> lower c = d).
Proof.
  intro Hd. unfold same_letter, lower. destruct ((65 <=? N_of_ascii c)%N && (N_of_ascii c <=? 90)%N) eqn:Eb.
  - apply andb_true_iff in Eb. rewrite !N.leb_le in Eb. split.
    + intros [-> |[_ E]]; [lia|]. rewrite E. apply ascii_N_embedding.
    + intros <-. right. rewrite N_ascii_embedding by lia. lia.
  - split; [|auto]. intros [-> |[_ E]]; [reflexivity|]. exfalso. apply andb_false_iff in Eb. rewrite !N.leb_gt in Eb. lia.
Qed.
Lemma word_lower w : Forall (fun d => (97 <= N_of_ascii d <= 122)%N) w -> forall t, word_of t w <-> map lower t = w.
Proof.
  induction 1 as [|d w Hd Hw IH]; intro t.
  - split; [intro H; now inversion H|]. destruct t; [constructor|discriminate].
  - destruct t as [|c t]; cbn [map]; [split; [intro H; inversion H|discriminate]|]. split.
    + intro H. inversion H as [|? ? ? ? H1 H2]; subst. apply (same_letter_lower c d Hd) in H1. apply IH in H2. unfold text in *. congruence.
    + intro H. injection H as H1 H2. constructor; [now apply same_letter_lower|now apply IH].
Qed.
Lemma letters : Forall (fun d => (97 <= N_of_ascii d <= 122)%N) inf_word /\ Forall (fun d => (97 <= N_of_ascii d <= 122)%N) infinity_word /\ Forall (fun d => (97 <= N_of_ascii d <= 122)%N) nan_word.
Proof.
  assert (G : forall w, forallb (fun d => (97 <=? N_of_ascii d)%N && (N_of_ascii d <=? 122)%N) w = true -> Forall (fun d => (97 <= N_of_ascii d <= 122)%N) w).
  { intros w H. apply Forall_forall. intros d Hd. rewrite forallb_forall in H. specialize (H d Hd). apply andb_true_iff in H. rewrite !N.leb_le in H. exact H. }
  split; [|split]; apply G; reflexivity.
Qed.
Lemma text_eqb_spec (a b : text) : text_eqb a b = true <-> a = b.
Proof. unfold text_eqb. destruct (list_eq_dec ascii_dec a b); [tauto|]. split; [discriminate|contradiction]. Qed.
Lemma word_read s t : (word_of t inf_word \/ word_of t infinity_word -> parse_word_f32 s t = Some (S754_infinity s)) /\
  (word_of t nan_word -> parse_word_f32 s t = Some S754_nan) /\
  (~ (word_of t inf_word \/ word_of t infinity_word \/ word_of t nan_word) -> parse_word_f32 s t = parse_unsigned_f32 s t).
Proof.
  destruct letters as (L1 & L2 & L3). unfold parse_word_f32. rewrite (word_lower _ L1 t), (word_lower _ L2 t), (word_lower _ L3 t).
  change ["i"; "n"; "f"; "i"; "n"; "i"; "t"; "y"]%char with infinity_word. change inf_text with inf_word. change ["n"; "a"; "n"]%char with nan_word. set (u := map lower t).
  destruct (text_eqb u inf_word) eqn:E1; [apply text_eqb_spec in E1; rewrite E1|].
  { cbn [orb]. split; [auto|]. split; [discriminate|]. intro H. exfalso. apply H. auto. }
  destruct (text_eqb u infinity_word) eqn:E2; [apply text_eqb_spec in E2; rewrite E2|].
  { cbn [orb]. split; [auto|]. split; [discriminate|]. intro H. exfalso. apply H. auto. }
  destruct (text_eqb u nan_word) eqn:E3; [apply text_eqb_spec in E3; rewrite E3|]; cbn [orb].
  { split; [intros [H|H]; discriminate|]. split; [auto|]. intro H. exfalso. apply H. auto. }
  assert (N : forall w, text_eqb u w = false -> u <> w) by (intros w H E; apply text_eqb_spec in E; congruence).
  split; [intros [H|H]; exfalso; [exact (N _ E1 H)|exact (N _ E2 H)]|]. split; [intro H; exfalso; exact (N _ E3 H)|]. reflexivity.
Qed.
Lemma mantissa_head m n k : mantissa_of m n k -> exists c r, m = c :: r /\ (N_of_ascii c <= 57)%N /\ c <> "-"%char /\ c <> "+"%char.
Proof.
  assert (G : forall d j c r, numeral d j -> d = c :: r -> (N_of_ascii c <= 57)%N).
  { intros d j c r H ->. apply numeral_chars in H. destruct H as [_ H]. apply Forall_inv in H. lia. }
  intros [[H _]|(a & b & -> & H & _)].
  - destruct m as [|c r] eqn:Em; [now apply numeral_chars in H|]. exists c, r. destruct (numeral_head _ _ c r H eq_refl). split; [reflexivity|]. split; [now apply (G _ _ c r H)|auto].
  - destruct a as [|c r]; cbn [app] in *.
    + exists "."%char, b. split; [reflexivity|]. split; [vm_compute; discriminate|]. split; discriminate.
    + exists c, (r ++ "."%char :: b). destruct (numeral_head _ _ c (r ++ b) H eq_refl). split; [reflexivity|]. split; [now apply (G _ _ c (r ++ b) H)|auto].
Qed.
Lemma not_a_word c r w : (N_of_ascii c <= 57)%N -> (exists d w', w = d :: w' /\ (97 <= N_of_ascii d)%N) -> ~ word_of (c :: r) w.
Proof.
  intros Hc (d & w' & -> & Hd) H. inversion H as [|? ? ? ? H1 H2]; subst. destruct H1 as [-> |[_ E]]; lia.
Qed.
Lemma parse_f32_signed sg s u : sign_of sg s -> (exists c r, u = c :: r /\ c <> "-"%char /\ c <> "+"%char) -> parse_f32 (sg ++ u) = parse_word_f32 s u.
Proof.
  intros HS (c & r & -> & N1 & N2). destruct HS as [[-> ->]|[[-> ->]|[-> ->]]]; cbn [app parse_f32].
  - destruct (Ascii.eqb_spec c "-"); [contradiction|]. destruct (Ascii.eqb_spec c "+"); [contradiction|reflexivity].
  - reflexivity.
  - reflexivity.
Qed.

(** C83: a decimal is read as the nearest binary32 number, or as an infinity when that is too large. *)
Theorem C83_read t s n k e j : decimal t s n k e j -> (j < 65536)%N ->
  exists y, parse_f32 t = Some y /\ read_as y s (decimal_value n k e j).
Proof.
  intros (sg & m & w & -> & HS & HM & HW) Hj. destruct (mantissa_head m n k HM) as (c & r & Em & Hc & N1 & N2).
  rewrite (parse_f32_signed sg s (m ++ w) HS). 2:{ exists c, (r ++ w). rewrite Em. auto. }
  rewrite (proj2 (proj2 (word_read s (m ++ w)))).
  2:{ rewrite Em. cbn [app]. intros [H|[H|H]]; revert H; apply not_a_word; try exact Hc; eexists; eexists; (split; [reflexivity|]); vm_compute; discriminate. }
  destruct (unsigned_some s m w n k e j HM HW) as (x & E & Hx). exists (of_decimal s n k x). split; [exact E|]. unfold decimal_value. rewrite <- (Hx Hj). apply of_decimal_read.
Qed.
(** C83: infinities and nan are read in any case. *)
Theorem C83_read_words sg s u : sign_of sg s ->
  (word_of u inf_word \/ word_of u infinity_word -> parse_f32 (sg ++ u) = Some (S754_infinity s)) /\ (word_of u nan_word -> parse_f32 (sg ++ u) = Some S754_nan).
Proof.
  intro HS. assert (G : forall d w', word_of u (d :: w') -> (97 <= N_of_ascii d)%N -> exists c r, u = c :: r /\ c <> "-"%char /\ c <> "+"%char).
  { intros d w' H Hd. inversion H as [|c ? r ? H1 H2]; subst. exists c, r. split; [reflexivity|].
    assert (K : (N_of_ascii c + 32 < 97)%N -> False) by (intro Hc; destruct H1 as [-> |[_ E]]; lia).
    split; intros ->; apply K; vm_compute; reflexivity. }
  split.
  - intro H. rewrite (parse_f32_signed sg s u HS); [now apply word_read|]. destruct H as [H|H]; (eapply G; [exact H|vm_compute; discriminate]).
  - intro H. rewrite (parse_f32_signed sg s u HS); [now apply word_read|]. eapply G; [exact H|vm_compute; discriminate].
Qed.
(** C83: nothing else is read as a number. *)
Theorem C83_accepted t : parse_f32 t <> None <->
  (exists s n k e j, decimal t s n k e j) \/
  (exists sg s u, t = sg ++ u /\ sign_of sg s /\ (word_of u inf_word \/ word_of u infinity_word \/ word_of u nan_word)).
Proof.
  split.
  - intro H. assert (G : forall sg s u, sign_of sg s -> t = sg ++ u -> parse_word_f32 s u <> None ->
      (exists s n k e j, decimal t s n k e j) \/ (exists sg s u, t = sg ++ u /\ sign_of sg s /\ (word_of u inf_word \/ word_of u infinity_word \/ word_of u nan_word))).
    { intros sg s u HS Et Hp. destruct letters as (L1 & L2 & L3).
      assert (D : forall w, Forall (fun d => (97 <= N_of_ascii d <= 122)%N) w -> word_of u w \/ ~ word_of u w).
      { intros w Lw. rewrite (word_lower w Lw u). destruct (list_eq_dec ascii_dec (map lower u) w); auto. }
      destruct (D _ L1) as [W1|W1]; [right; exists sg, s, u; auto|]. destruct (D _ L2) as [W2|W2]; [right; exists sg, s, u; auto|]. destruct (D _ L3) as [W3|W3]; [right; exists sg, s, u; auto 6|].
      rewrite (proj2 (proj2 (word_read s u))) in Hp by tauto. destruct (parse_unsigned_f32 s u) as [y|] eqn:E; [|congruence].
      destruct (unsigned_shape s u y E) as (m & w & n & k & e & j & -> & HM & HW). left. exists s, n, k, e, j, sg, m, w. auto. }
    destruct t as [|c r]; [now contradiction H|]. cbn [parse_f32] in H.
    destruct (Ascii.eqb_spec c "-") as [->|_]; [apply (G ["-"]%char true r); [right; now right|reflexivity|exact H]|].
    destruct (Ascii.eqb_spec c "+") as [->|_]; [apply (G ["+"]%char false r); [right; now left|reflexivity|exact H]|].
    apply (G [] false (c :: r)); [now left|reflexivity|exact H].
  - intros [(s & n & k & e & j & sg & m & w & -> & HS & HM & HW)|(sg & s & u & -> & HS & HW)].
    + destruct (mantissa_head m n k HM) as (c & r & Em & Hc & N1 & N2).
      rewrite (parse_f32_signed sg s (m ++ w) HS). 2:{ exists c, (r ++ w). rewrite Em. auto. }
      rewrite (proj2 (proj2 (word_read s (m ++ w)))).
      2:{ rewrite Em. cbn [app]. intros [H|[H|H]]; revert H; apply not_a_word; try exact Hc; eexists; eexists; (split; [reflexivity|]); vm_compute; discriminate. }
      destruct (unsigned_some s m w n k e j HM HW) as (x & E & _). rewrite E. discriminate.
    + destruct (C83_read_words sg s u HS) as [R1 R2]. destruct HW as [HW|[HW|HW]]; [rewrite R1 by auto|rewrite R1 by auto|rewrite R2 by auto]; discriminate.
Qed.
(** C83: so what is written is read back as the nearest number to the six digits. *)
Theorem C83_written_is_decimal (x : spec_float) : is_finite_SF x = true ->
  exists n, decimal (print_f32 x) (sign_SF x) n 6 false 0 /\ Rabs (decimal_value n 6 false 0 - Rabs (val x)) <= 1 / 2000000.
Proof.
  intro H. destruct (C83_written x H) as (w & f & n & E & L & Hn & _ & B & _). exists n. split.
  - exists (if sign_SF x then ["-"]%char else []), (w ++ ["."]%char ++ f), []. split; [now rewrite app_nil_r|]. split; [destruct (sign_SF x); [right; now right|now left]|].
    split; [right; exists w, f; rewrite L; auto|left; auto].
  - unfold decimal_value. change (Z.of_N 0 - Z.of_N 6)%Z with (-6)%Z. assert (E6 : powerRZ 10 (-6) = / 1000000).
    { change (powerRZ 10 (-6)) with (/ (10 ^ Pos.to_nat 6)). change (Pos.to_nat 6) with 6%nat. f_equal. unfold pow. lra. }
    rewrite E6. set (a := IZR (Z.of_N n)) in *.
    replace (a * / 1000000 - Rabs (val x)) with ((a - Rabs (val x) * 1000000) * / 1000000) by field. rewrite Rabs_mult, (Rabs_pos_eq (/ 1000000)) by lra. lra.
Qed.

(** ** Integers *)
Lemma digits_iff t n : digits t = Some n <-> numeral t n.
Proof. split; [|apply numeral_digits]. unfold digits. destruct t as [|c t]; [discriminate|]. apply digits_from_numeral. discriminate. Qed.
Lemma at_most_iff max o n : at_most max o = Some n <-> o = Some n /\ (n <= max)%N.
Proof.
  unfold at_most. destruct o as [m|]; [|split; [discriminate|intros [H _]; discriminate]]. destruct (N.leb_spec m max) as [L|L].
  - split; [intro H; injection H as <-; auto|intros [H _]; exact H].
  - split; [discriminate|]. intros [H H2]. injection H as ->. lia.
Qed.
(** C83: an unsigned integer is read from a numeral in its range, with or without a plus sign, and from nothing else. *)
Theorem C83_unsigned max t n : parse_unsigned max t = Some n <-> exists sg d, t = sg ++ d /\ sign_of sg false /\ numeral d n /\ (n <= max)%N.
Proof.
  split.
  - destruct t as [|c r]; [discriminate|]. cbn [parse_unsigned]. destruct (Ascii.eqb_spec c "+") as [->|_]; intro H; apply at_most_iff in H; rewrite digits_iff in H; destruct H as [H1 H2].
    + exists ["+"]%char, r. split; [reflexivity|]. split; [right; now left|auto].
    + exists [], (c :: r). split; [reflexivity|]. split; [now left|auto].
  - intros (sg & d & -> & HS & Hd & Hn). assert (E : at_most max (digits d) = Some n) by (apply at_most_iff; rewrite digits_iff; auto).
    destruct HS as [[-> _]|[[-> _]|[_ H]]]; [|exact E|discriminate]. destruct d as [|c r] eqn:Ed; [now apply numeral_chars in Hd|]. destruct (numeral_head _ _ c r Hd eq_refl) as [_ N2].
    cbn [app parse_unsigned]. destruct (Ascii.eqb_spec c "+"); [contradiction|exact E].
Qed.
(** C83: so is a signed integer, down to one less than minus the greatest one. *)
Theorem C83_signed max t z : parse_signed max t = Some z <->
  exists sg s d n, t = sg ++ d /\ sign_of sg s /\ numeral d n /\ z = (if s then (- Z.of_N n)%Z else Z.of_N n) /\ (- Z.of_N max - 1 <= z <= Z.of_N max)%Z.
Proof.
  split.
  - destruct t as [|c r]; [discriminate|]. cbn [parse_signed]. destruct (Ascii.eqb_spec c "-") as [->|_]; intro H.
    + destruct (at_most (max + 1) (digits r)) as [n|] eqn:E; [|discriminate]. injection H as <-. apply at_most_iff in E. rewrite digits_iff in E. destruct E as [E1 E2].
      exists ["-"]%char, true, r, n. split; [reflexivity|]. split; [right; now right|]. split; [exact E1|]. split; [reflexivity|lia].
    + destruct (parse_unsigned max (c :: r)) as [n|] eqn:E; [|discriminate]. injection H as <-. apply C83_unsigned in E. destruct E as (sg & d & -> & HS & Hd & Hn).
      exists sg, false, d, n. split; [reflexivity|]. split; [exact HS|]. split; [exact Hd|]. split; [reflexivity|lia].
  - intros (sg & s & d & n & -> & HS & Hd & -> & Hz). destruct s.
    + destruct HS as [[_ H]|[[_ H]|[-> _]]]; try discriminate. cbn [app parse_signed]. change (Ascii.eqb "-" "-") with true. cbv iota.
      assert (E : at_most (max + 1) (digits d) = Some n) by (apply at_most_iff; rewrite digits_iff; split; [exact Hd|lia]). now rewrite E.
    + assert (E : parse_unsigned max (sg ++ d) = Some n) by (apply C83_unsigned; exists sg, d; split; [reflexivity|]; split; [exact HS|]; split; [exact Hd|lia]).
      destruct (sg ++ d) as [|c r] eqn:Et; [discriminate E|]. unfold parse_signed. destruct (Ascii.eqb_spec c "-") as [->|_]; [|now rewrite E].
      exfalso. destruct HS as [[-> _]|[[-> _]|[_ H]]]; [|discriminate Et|discriminate H]. cbn [app] in Et. destruct (numeral_head _ _ _ _ Hd Et) as [N1 _]. now apply N1.
Qed.

(** Non-vacuity: texts, and a number half way between two millionths. *)
Example ex_C83_decimal : decimal ["-"; "1"; "2"; "."; "5"; "e"; "+"; "3"]%char true 125 1 false 3 /\ decimal ["."; "5"; "E"; "-"; "1"; "0"]%char false 5 1 true 10 /\
  decimal_value 125 1 false 3 = 12500.
Proof.
  assert (N1 : numeral ["1"; "2"; "5"]%char 125) by exact (num_more ["1"; "2"]%char 12 5 (num_more ["1"]%char 1 2 (num_digit 1 eq_refl) eq_refl) eq_refl).
  split; [|split].
  - exists ["-"]%char, ["1"; "2"; "."; "5"]%char, ["e"; "+"; "3"]%char. split; [reflexivity|]. split; [right; now right|]. split.
    + right. exists ["1"; "2"]%char, ["5"]%char. split; [reflexivity|]. split; [exact N1|reflexivity].
    + right. exists "e"%char, ["+"]%char, ["3"]%char. split; [reflexivity|]. split; [now left|]. split; [right; now left|]. exact (num_digit 3 eq_refl).
  - exists [], ["."; "5"]%char, ["E"; "-"; "1"; "0"]%char. split; [reflexivity|]. split; [now left|]. split.
    + right. exists [], ["5"]%char. split; [reflexivity|]. split; [exact (num_digit 5 eq_refl)|reflexivity].
    + right. exists "E"%char, ["-"]%char, ["1"; "0"]%char. split; [reflexivity|]. split; [now right|]. split; [right; now right|]. exact (num_more ["1"]%char 1 0 (num_digit 1 eq_refl) eq_refl).
  - unfold decimal_value. change (Z.of_N 3 - Z.of_N 1)%Z with 2%Z. change (powerRZ 10 2) with (10 ^ Pos.to_nat 2). change (Pos.to_nat 2) with 2%nat. unfold pow. change (Z.of_N 125) with 125%Z. lra.
Qed.
(** 1/128 = 0.0078125: between 0.007812 and 0.007813, of which the first is even *)
Example ex_C83_tie : val (S754_finite false 8388608 (-30)) = / 128 /\ print_f32 (S754_finite false 8388608 (-30)) = ["0"; "."; "0"; "0"; "7"; "8"; "1"; "2"]%char /\
  Rabs (7812 - Rabs (/ 128) * 1000000) = 1 / 2.
Proof.
  split; [|split].
  - cbn. unfold F2R. cbn. lra.
  - vm_compute. reflexivity.
  - rewrite (Rabs_pos_eq (/ 128)) by lra. rewrite Rabs_left; lra.
Qed.
