(** Packing of (layer, polygon) in a u32: src/instance.rs 94-117 (trait U32Layer). *)
From Coq Require Import NArith Lia.
From Verif Require Import Base.
Open Scope N_scope.

(** instance.rs 104-106: [( *self >> 24) as u8]; the argument is a u32, so the result fits in a u8
    (the [mod 256] is the [as u8] cast). *)
Definition id_layer (i : N) : N := (N.shiftr i 24) mod 256.

(** instance.rs 109-111: [self & 0x00ff_ffff] *)
Definition id_polygon (i : N) : N := N.land i 16777215.

(** instance.rs 114-116: [((layer as u32) << 24) | polygon].
    The shift of a u8 by 24 cannot lose bits. *)
Definition id_make (layer polygon : N) : N := N.lor (N.shiftl layer 24) polygon.

Lemma id_make_eq l p : p < 2^24 -> id_make l p = l * 2^24 + p.
Proof.
  intro Hp. unfold id_make.
  rewrite N.shiftl_mul_pow2.
  rewrite <- N.lxor_lor.
  2:{ apply N.bits_inj. intro n. rewrite N.land_spec, N.bits_0.
      destruct (N.lt_ge_cases n 24) as [H|H].
      - rewrite N.mul_pow2_bits_low by assumption. reflexivity.
      - replace (N.testbit p n) with false; [apply Bool.andb_false_r|].
        symmetry. destruct (N.eq_dec p 0) as [->|Hp0]; [apply N.bits_0|].
        apply N.bits_above_log2. apply N.lt_le_trans with 24; [|assumption].
        apply N.log2_lt_pow2; lia. }
  rewrite N.add_nocarry_lxor; [reflexivity|].
  apply N.bits_inj. intro n. rewrite N.land_spec, N.bits_0.
  destruct (N.lt_ge_cases n 24) as [H|H].
  - rewrite N.mul_pow2_bits_low by assumption. reflexivity.
  - replace (N.testbit p n) with false; [apply Bool.andb_false_r|].
    symmetry. destruct (N.eq_dec p 0) as [->|Hp0]; [apply N.bits_0|].
    apply N.bits_above_log2. apply N.lt_le_trans with 24; [|assumption].
    apply N.log2_lt_pow2; lia.
Qed.

Lemma id_layer_eq i : id_layer i = (i / 2^24) mod 256.
Proof. unfold id_layer. rewrite N.shiftr_div_pow2. reflexivity. Qed.

Lemma id_polygon_eq i : id_polygon i = i mod 2^24.
Proof. unfold id_polygon. change 16777215 with (N.ones 24). apply N.land_ones. Qed.

Lemma id_layer_make l p : l < 256 -> p < 2^24 -> id_layer (id_make l p) = l.
Proof.
  intros Hl Hp. rewrite id_layer_eq, id_make_eq by assumption.
  rewrite N.div_add_l by discriminate. rewrite (N.div_small p) by assumption.
  rewrite N.add_0_r. apply N.mod_small. assumption.
Qed.

Lemma id_polygon_make l p : p < 2^24 -> id_polygon (id_make l p) = p.
Proof.
  intros Hp. rewrite id_polygon_eq, id_make_eq by assumption.
  rewrite N.add_comm, N.mod_add by discriminate. apply N.mod_small. assumption.
Qed.

Lemma id_make_lt l p : l < 256 -> p < 2^24 -> id_make l p < 2^32.
Proof. intros. rewrite id_make_eq by assumption. lia. Qed.

Lemma id_make_not_MAX l p : l < 256 -> p < 2^24 - 1 -> id_make l p <> MAX.
Proof.
  intros Hl Hp. rewrite id_make_eq by lia. unfold MAX. lia.
Qed.

Lemma id_make_layer_polygon i : i < 2^32 -> id_make (id_layer i) (id_polygon i) = i.
Proof.
  intro H. rewrite id_polygon_eq, id_layer_eq.
  rewrite id_make_eq by (apply N.mod_lt; discriminate).
  rewrite (N.mod_small (i / 2^24)).
  - rewrite N.mul_comm. symmetry. apply N.div_mod. discriminate.
  - apply N.div_lt_upper_bound; lia.
Qed.

Lemma id_make_zero p : id_make 0 p = p.
Proof. unfold id_make. reflexivity. Qed.
