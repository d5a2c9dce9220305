(** Printing a number and reading it back. *)
From Coq Require Import List NArith ZArith Bool Ascii Lia.
From Coq.Floats Require Import SpecFloat.
From Verif Require Import Base Arith F32 PolyFile Spec_file File_facts Decimal32.
Import ListNotations.
Open Scope N_scope.

(** The number the printed text stands for, rounded to binary32. *)
Definition round6 (x : spec_float) : spec_float :=
  match x with
  | S754_finite s m e => of_ratio s (millionths m e) 1000000
  | _ => x
  end.

Lemma last_digits_numeral k : forall t n, numeral t (n / 10 ^ N.of_nat k) -> numeral (t ++ last_digits k n) n.
Proof.
  induction k as [|k IH]; intros t n H.
  - simpl in *. rewrite N.div_1_r in H. now rewrite app_nil_r.
  - rewrite Nnat.Nat2N.inj_succ, N.pow_succ_r', <- N.div_div in H by (try apply N.pow_nonzero; lia).
    cbn [last_digits]. rewrite app_assoc. rewrite (N.div_mod n 10) at 3 by lia. apply num_more; [now apply IH|apply N.mod_lt; lia].
Qed.
Lemma fixed6_numeral n : numeral (print_N (n / 1000000) ++ last_digits 6 n) n.
Proof. apply last_digits_numeral. apply print_N_numeral. Qed.
Lemma last_digits_length k : forall n, length (last_digits k n) = k.
Proof. induction k as [|k IH]; intro n; [reflexivity|]. cbn [last_digits]. rewrite app_length, IH. simpl. lia. Qed.
Lemma lower_digit c : 48 <= N_of_ascii c <= 57 -> lower c = c.
Proof. intro H. unfold lower. assert (65 <=? N_of_ascii c = false) as -> by (apply N.leb_gt; lia). reflexivity. Qed.
Lemma cut_exponent_none t : Forall (fun c => lower c <> "e"%char) t -> cut_exponent t = (t, None).
Proof.
  induction 1 as [|c r Hc Hr IH]; [reflexivity|]. cbn [cut_exponent]. destruct (Ascii.eqb_spec (lower c) "e"); [contradiction|]. now rewrite IH.
Qed.
Lemma numeral_no_e t n : numeral t n -> Forall (fun c => lower c <> "e"%char) t.
Proof.
  intro H. apply numeral_chars in H. destruct H as [_ H]. revert H. apply Forall_impl. intros c Hc. rewrite lower_digit by assumption. intros ->. compute in Hc. destruct Hc as [_ Hc]. now apply Hc.
Qed.
Lemma fixed6_parse s n : parse_unsigned_f32 s (fixed6 n) = Some (of_ratio s n 1000000).
Proof.
  unfold parse_unsigned_f32. pose proof (fixed6_numeral n) as H. pose proof (numeral_no_e _ _ H) as HE. apply Forall_app in HE. destruct HE as [E1 E2].
  rewrite cut_exponent_none. 2:{ unfold fixed6. apply Forall_app. split; [exact E1|]. constructor; [discriminate|exact E2]. }
  unfold mantissa, fixed6. rewrite split_once_app.
  2:{ apply (not_digit _ 46) with (m := n / 1000000); [reflexivity|lia|apply print_N_numeral]. }
  pose proof (numeral_chars _ _ H) as [Hne _]. apply numeral_from in H. unfold text in *.
  destruct (print_N (n / 1000000) ++ last_digits 6 n) as [|c r]; [congruence|]. rewrite H. unfold lengthN. rewrite last_digits_length. unfold of_decimal. cbn [option_map]. now rewrite N.mul_1_r.
Qed.
Lemma text_eqb_head c r d u : c <> d -> text_eqb (c :: r) (d :: u) = false.
Proof. intro H. unfold text_eqb. destruct (list_eq_dec ascii_dec _ _) as [E|]; [|reflexivity]. now injection E. Qed.
Lemma fixed6_head n : exists c r, fixed6 n = c :: r /\ 48 <= N_of_ascii c <= 57.
Proof.
  unfold fixed6. pose proof (numeral_chars _ _ (print_N_numeral (n / 1000000))) as [Hne H]. destruct (print_N (n / 1000000)) as [|c r]; [congruence|].
  exists c. eexists. split; [reflexivity|]. now inversion H.
Qed.
Lemma fixed6_word s n : parse_word_f32 s (fixed6 n) = Some (of_ratio s n 1000000).
Proof.
  rewrite <- fixed6_parse. unfold parse_word_f32. destruct (fixed6_head n) as (c & r & -> & Hc). cbn [map]. rewrite lower_digit by assumption.
  unfold inf_text. rewrite !text_eqb_head; [reflexivity| | |]; intros ->; compute in Hc; destruct Hc as [_ Hc]; now apply Hc.
Qed.
Lemma fixed6_parse_f32 s n : parse_f32 (sign_text s ++ fixed6 n) = Some (of_ratio s n 1000000).
Proof.
  unfold parse_f32. destruct s; cbn [sign_text app]; [change (Ascii.eqb "-" "-") with true; cbv iota; apply fixed6_word|].
  pose proof (fixed6_word false n) as H. destruct (fixed6_head n) as (c & r & E & Hc). rewrite E in *.
  destruct (Ascii.eqb_spec c "-"%char) as [->|_]; [compute in Hc; destruct Hc as [Hc _]; exfalso; now apply Hc|].
  destruct (Ascii.eqb_spec c "+"%char) as [->|_]; [compute in Hc; destruct Hc as [Hc _]; exfalso; now apply Hc|]. exact H.
Qed.
Theorem print_parse x : parse_f32 (print_f32 x) = Some (round6 x).
Proof.
  destruct x as [s|s| |s m e]; cbn [print_f32 round6].
  - rewrite fixed6_parse_f32. reflexivity.
  - now destruct s.
  - reflexivity.
  - apply fixed6_parse_f32.
Qed.
Lemma word_by_code (t : text) : Forall (fun c => N_of_ascii c <> 32 /\ N_of_ascii c <> 10 /\ N_of_ascii c <> 13) t -> one_word t.
Proof.
  rewrite Forall_forall. intro H. unfold one_word. repeat split; intro Hi; destruct (H _ Hi) as (H1 & H2 & H3); [apply H1|apply H2|apply H3]; reflexivity.
Qed.
Theorem print_word x : one_word (print_f32 x).
Proof.
  assert (Hsign : forall s, Forall (fun c => N_of_ascii c <> 32 /\ N_of_ascii c <> 10 /\ N_of_ascii c <> 13) (sign_text s)).
  { intros [|]; repeat constructor; discriminate. }
  assert (Hnum : forall t n, numeral t n -> Forall (fun c => N_of_ascii c <> 32 /\ N_of_ascii c <> 10 /\ N_of_ascii c <> 13) t).
  { intros t n H. apply numeral_chars in H. destruct H as [_ H]. revert H. apply Forall_impl. intros c Hc. lia. }
  assert (Hfix : forall s n, one_word (sign_text s ++ fixed6 n)).
  { intros s n. apply word_by_code. apply Forall_app. split; [apply Hsign|]. unfold fixed6. apply Forall_app. 
    pose proof (Hnum _ _ (fixed6_numeral n)) as H. apply Forall_app in H. split; [apply H|]. constructor; [repeat split; discriminate|apply H]. }
  destruct x as [s|s| |s m e]; cbn [print_f32]; try apply Hfix; apply word_by_code.
  - apply Forall_app. split; [apply Hsign|]. repeat constructor; discriminate.
  - repeat constructor; discriminate.
Qed.
