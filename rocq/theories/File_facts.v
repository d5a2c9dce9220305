(** Facts about the text functions and the reader of PolyFile.v. *)
From Coq Require Import List NArith ZArith Bool Ascii Lia.
From Verif Require Import Base Arith U32 Mesh Helpers Bake PolyFile Spec_file.
Import ListNotations.
Open Scope N_scope.

(** numerals *)
Lemma digit_of_char d : d < 10 -> digit_of (ascii_of_N (48 + d)) = Some d.
Proof.
  intro H. unfold digit_of. rewrite N_ascii_embedding by lia.
  assert ((48 <=? 48 + d) && (48 + d <=? 57) = true) as -> by (rewrite andb_true_iff, !N.leb_le; lia). f_equal. lia.
Qed.
Lemma digits_from_app t : forall acc u, digits_from acc (t ++ u) = match digits_from acc t with Some n => digits_from n u | None => None end.
Proof. induction t as [|c t IH]; intros acc u; cbn [app digits_from]; [reflexivity|]. destruct (digit_of c); [apply IH|reflexivity]. Qed.
Lemma numeral_from t n : numeral t n -> digits_from 0 t = Some n.
Proof.
  induction 1 as [d Hd|t n d Ht IH Hd].
  - cbn [digits_from]. now rewrite digit_of_char.
  - rewrite digits_from_app, IH. cbn [digits_from]. rewrite digit_of_char by assumption. f_equal. lia.
Qed.
Lemma numeral_chars t n : numeral t n -> t <> [] /\ Forall (fun c => 48 <= N_of_ascii c <= 57) t.
Proof.
  assert (G : forall d, d < 10 -> 48 <= N_of_ascii (ascii_of_N (48 + d)) <= 57) by (intros d H; rewrite N_ascii_embedding; lia).
  induction 1 as [d Hd|t n d Ht [IH1 IH2] Hd]; (split; [|]).
  - discriminate.
  - constructor; [now apply G|constructor].
  - intro E. apply app_eq_nil in E. now destruct E.
  - apply Forall_app. split; [assumption|]. constructor; [now apply G|constructor].
Qed.
Lemma numeral_digits t n : numeral t n -> digits t = Some n.
Proof. intro H. pose proof (numeral_chars t n H) as [E _]. apply numeral_from in H. unfold digits. now destruct t. Qed.
Lemma not_digit c n : N_of_ascii c = n -> n < 48 \/ 57 < n -> forall t m, numeral t m -> ~ In c t.
Proof.
  intros E Hn t m H Hin. apply numeral_chars in H. destruct H as [_ H]. rewrite Forall_forall in H. specialize (H c Hin). lia.
Qed.
Lemma numeral_word t n : numeral t n -> one_word t.
Proof.
  intro H. unfold one_word, sp, lf, cr. split; [|split].
  - apply (not_digit _ 32) with (m := n); [reflexivity|lia|assumption].
  - apply (not_digit _ 10) with (m := n); [reflexivity|lia|assumption].
  - apply (not_digit _ 13) with (m := n); [reflexivity|lia|assumption].
Qed.
Lemma reference_word t o : reference t o -> one_word t /\ t <> [].
Proof.
  intros [t' n H|]; [split; [now apply (numeral_word _ n)|now apply (numeral_chars _ n)]|].
  split; [|discriminate]. unfold one_word, sp, lf, cr. repeat split; intros [E|[E|[]]]; apply (f_equal N_of_ascii) in E; discriminate E.
Qed.

Lemma parse_unsigned_numeral max t n : numeral t n -> n <= max -> parse_unsigned max t = Some n.
Proof.
  intros H Hm. pose proof (numeral_digits t n H) as Hd. destruct t as [|c r]; [now apply numeral_chars in H|]. cbn [parse_unsigned].
  destruct (Ascii.eqb_spec c "+"%char) as [E|E].
  - exfalso. apply (not_digit c 43) with (t := c :: r) (m := n); [now subst|lia|assumption|now left].
  - rewrite Hd. cbn [at_most]. apply N.leb_le in Hm. now rewrite Hm.
Qed.
Lemma parse_signed_numeral max t n : numeral t n -> n <= max -> parse_signed max t = Some (Z.of_N n).
Proof.
  intros H Hm. pose proof (parse_unsigned_numeral max t n H Hm) as Hd. destruct t as [|c r]; [now apply numeral_chars in H|]. cbn [parse_signed].
  destruct (Ascii.eqb_spec c "-"%char) as [E|E].
  - exfalso. apply (not_digit c 45) with (t := c :: r) (m := n); [now subst|lia|assumption|now left].
  - now rewrite Hd.
Qed.

Lemma print_digits_numeral k : forall n, n < 2 ^ N.of_nat k -> (0 < k)%nat -> numeral (print_digits k n) n.
Proof.
  induction k as [|k IH]; intros n Hn Hk; [lia|]. cbn [print_digits]. destruct (N.ltb_spec n 10) as [H|H]; [now apply num_digit|].
  assert (Hk' : (0 < k)%nat). { destruct k; [|lia]. simpl in Hn. lia. }
  rewrite (N.div_mod n 10) at 3 by lia. apply num_more; [|apply N.mod_lt; lia]. apply IH; [|assumption].
  rewrite Nnat.Nat2N.inj_succ, N.pow_succ_r' in Hn. apply N.div_lt_upper_bound; [lia|]. lia.
Qed.
Lemma print_N_numeral n : numeral (print_N n) n.
Proof.
  unfold print_N. apply print_digits_numeral; [|lia]. rewrite Nnat.Nat2N.inj_succ, Nnat.N2Nat.id.
  destruct (N.eq_dec n 0) as [->|H]; [now compute|]. apply N.log2_spec. lia.
Qed.
Lemma print_last_numeral k : forall t n, numeral t (n / 10 ^ N.of_nat k) ->
  exists u, numeral (t ++ u) n /\ length u = k.
Proof.
  induction k as [|k IH]; intros t n H.
  - exists []. rewrite app_nil_r. simpl in H. rewrite N.div_1_r in H. auto.
  - rewrite Nnat.Nat2N.inj_succ, N.pow_succ_r', <- N.div_div in H by (try apply N.pow_nonzero; lia).
    destruct (IH t (n / 10) H) as (u & Hu & Hl). exists (u ++ [ascii_of_N (48 + n mod 10)]). split; [|rewrite app_length; simpl; lia].
    rewrite app_assoc. rewrite (N.div_mod n 10) at 2 by lia. apply num_more; [assumption|apply N.mod_lt; lia].
Qed.

(** splitting *)
Lemma split_on_nil c t : split_on c t <> [].
Proof. destruct t as [|x t]; cbn [split_on]; [discriminate|]. destruct (Ascii.eqb x c); [discriminate|]. destruct (split_on c t); discriminate. Qed.
Lemma split_on_word c t : ~ In c t -> split_on c t = [t].
Proof.
  induction t as [|x t IH]; intro H; cbn [split_on]; [reflexivity|]. destruct (Ascii.eqb_spec x c) as [->|_]; [exfalso; apply H; now left|].
  rewrite IH by (intro; apply H; now right). reflexivity.
Qed.
Lemma split_on_app c t u : ~ In c t -> split_on c (t ++ c :: u) = t :: split_on c u.
Proof.
  induction t as [|x t IH]; intro H; cbn [app split_on]; [now rewrite Ascii.eqb_refl|].
  destruct (Ascii.eqb_spec x c) as [->|_]; [exfalso; apply H; now left|]. rewrite IH by (intro; apply H; now right). reflexivity.
Qed.
Lemma split_join c ts : ts <> [] -> Forall (fun t => ~ In c t) ts -> split_on c (join c ts) = ts.
Proof.
  intros Hne H. induction H as [|t ts Ht Hts IH]; [congruence|]. destruct ts as [|u ts].
  - cbn [join]. now apply split_on_word.
  - change (join c (t :: u :: ts)) with (t ++ c :: join c (u :: ts)). rewrite split_on_app by assumption. f_equal. apply IH. discriminate.
Qed.
Lemma split_once_app c t u : ~ In c t -> split_once c (t ++ c :: u) = Some (t, u).
Proof.
  induction t as [|x t IH]; intro H; cbn [app split_once]; [now rewrite Ascii.eqb_refl|].
  destruct (Ascii.eqb_spec x c) as [->|_]; [exfalso; apply H; now left|]. now rewrite IH by (intro; apply H; now right).
Qed.
Lemma In_join c d ts : In d (join c ts) -> d = c \/ exists t, In t ts /\ In d t.
Proof.
  induction ts as [|t ts IH]; [intros []|]. destruct ts as [|u ts]; [intro H; right; exists t; split; [now left|exact H]|].
  change (join c (t :: u :: ts)) with (t ++ c :: join c (u :: ts)). rewrite in_app_iff. intros [H|[H|H]].
  - right. exists t. split; [now left|assumption].
  - now left.
  - destruct (IH H) as [->|(w & Hw & Hd)]; [now left|]. right. exists w. split; [now right|assumption].
Qed.

(** lines *)
Lemma chomp_same t : ~ In cr t -> chomp t = t.
Proof.
  intro H. unfold chomp. destruct (rev t) as [|c r] eqn:E; [reflexivity|]. destruct (Ascii.eqb_spec c cr) as [->|_]; [|reflexivity].
  exfalso. apply H. apply in_rev. rewrite E. now left.
Qed.
Lemma lines_text ls : Forall (fun t => ~ In lf t /\ ~ In cr t) ls -> lines (text_of_lines ls) = ls.
Proof.
  unfold lines. induction 1 as [|t ls [Hl Hc] H IH]; [reflexivity|]. unfold text_of_lines in *. cbn [map concat].
  rewrite <- app_assoc. cbn [app]. rewrite split_on_app by assumption. 
  destruct (split_on lf (concat (map (fun t => t ++ [lf]) ls))) as [|p ps] eqn:E; [now apply split_on_nil in E|].
  cbn [finish_lines]. rewrite chomp_same by assumption. f_equal. exact IH.
Qed.

Section Reader.
Context {A : Arith}.
Variable parse_f : text -> option (F A).
Implicit Types (vs : list (vec2 A * list (option N))) (ps : list (list N * list (option N))).

Lemma Forall2_In_l {S T} (R : S -> T -> Prop) xs ys x : Forall2 R xs ys -> In x xs -> exists y, In y ys /\ R x y.
Proof. induction 1 as [|a b xs ys H1 H2 IH]; intros Hin; [destruct Hin|]. destruct Hin as [<-|Hin]; [exists b; split; [now left|assumption]|].
  destruct (IH Hin) as (y & Hy & HR). exists y. split; [now right|assumption]. Qed.

Lemma words_join ts : Forall one_word ts -> ts <> [] -> split_on sp (join sp ts) = ts /\ ~ In lf (join sp ts) /\ ~ In cr (join sp ts).
Proof.
  intros H Hne. rewrite Forall_forall in H. split; [|split].
  - apply split_join; [assumption|]. apply Forall_forall. intros t Ht. apply (H t Ht).
  - intro Hi. apply In_join in Hi. destruct Hi as [E|(t & Ht & Hd)]; [apply (f_equal N_of_ascii) in E; discriminate|]. exact (proj1 (proj2 (H t Ht)) Hd).
  - intro Hi. apply In_join in Hi. destruct Hi as [E|(t & Ht & Hd)]; [apply (f_equal N_of_ascii) in E; discriminate|]. exact (proj2 (proj2 (H t Ht)) Hd).
Qed.

Lemma reference_id t o : reference t o -> (forall n, o = Some n -> n < 2^32) ->
  match parse_unsigned u32_max t with Some n => n | None => MAX end = id_of o.
Proof.
  intros [t' n H|] Hb; [|reflexivity]. rewrite (parse_unsigned_numeral _ _ n H); [reflexivity|]. specialize (Hb n eq_refl). unfold u32_max. lia.
Qed.
Lemma reference_signed t o : reference t o -> (forall n, o = Some n -> n < 2^63) ->
  parse_signed isize_max t = Some (match o with Some n => Z.of_N n | None => (-1)%Z end).
Proof.
  intros [t' n H|] Hb; [|reflexivity]. apply parse_signed_numeral; [assumption|]. specialize (Hb n eq_refl). unfold isize_max. lia.
Qed.

Lemma read_vertex_line t v : vertex_line parse_f t v -> Forall (fun o => forall n, o = Some n -> n < 2^32) (snd v) ->
  read_vertex parse_f t = Ok (vertex_new (fst v) (map id_of (snd v))) /\ ~ In lf t /\ ~ In cr t.
Proof.
  intros (tx & ty & tn & tids & -> & Wx & Wy & Ex & Ey & Hn & Hids) Hb.
  assert (W : Forall one_word (tx :: ty :: tn :: tids)).
  { constructor; [assumption|]. constructor; [assumption|]. constructor; [now apply (numeral_word _ _ Hn)|].
    apply Forall_forall. intros t Ht. destruct (Forall2_In_l _ _ _ _ Hids Ht) as (o & _ & Ho). now apply (reference_word _ o). }
  destruct (words_join _ W) as (E & Hl & Hc); [discriminate|]. split; [|auto].
  unfold read_vertex. rewrite E, Ex. cbn [unwrap bind tl]. rewrite Ey. cbn [unwrap bind]. 
  assert (map (fun t => match parse_unsigned u32_max t with Some n => n | None => MAX end) tids = map id_of (snd v)) as ->.
  { clear -Hids Hb. induction Hids as [|t o tids os H Hids IH]; [reflexivity|]. cbn [map]. rewrite (reference_id t o H) by (now inversion Hb). 
    f_equal. apply IH. now inversion Hb. }
  now destruct v as [[x y] ids].
Qed.

Lemma mapM_map {S T} (f : S -> res T) (xs : list S) (ys : list T) : Forall2 (fun x y => f x = Ok y) xs ys -> mapM f xs = Ok ys.
Proof. induction 1 as [|x y xs ys H HF IH]; [reflexivity|]. cbn [mapM]. rewrite H. cbn [bind]. rewrite IH. reflexivity. Qed.
Lemma Forall2_app_inv_lr {S T} (R : S -> T -> Prop) a b c d : Forall2 R a c -> Forall2 R b d -> Forall2 R (a ++ b) (c ++ d).
Proof. intros; now apply Forall2_app. Qed.

Definition one_way_of (ns : list (option N)) : bool := match ns with [] => false | _ => Nat.leb (existing ns) 1 end.
Definition zref (o : option N) : Z := match o with Some n => Z.of_N n | None => (-1)%Z end.
Lemma using_loop_spec ns : forall f w, using_loop f w (map zref ns) = (if (if f then 1 <=? existing ns else 2 <=? existing ns)%nat then false else w).
Proof.
  induction ns as [|[n|] ns IH]; intros f w; cbn [map using_loop existing zref].
  - now destruct f.
  - assert (Z.eqb (Z.of_N n) (-1) = false) as -> by (apply Z.eqb_neq; lia). cbn [negb]. destruct f; [reflexivity|]. now rewrite IH.
  - rewrite Z.eqb_refl. cbn [negb]. apply IH.
Qed.
Lemma one_way_of_spec ns : one_way_of ns = true <-> ns <> [] /\ (existing ns <= 1)%nat.
Proof. unfold one_way_of. destruct ns; [split; [discriminate|intros []; congruence]|]. rewrite Nat.leb_le. split; [intro; split; [discriminate|assumption]|tauto]. Qed.
Lemma isize_small n : n < 2^32 -> isize_as_u32 (Z.of_N n) = n.
Proof. intro H. unfold isize_as_u32. rewrite Z.mod_small by lia. lia. Qed.

Lemma read_polygon_line t p : polygon_line t p ->
  lengthN (fst p) < 2^64 /\ Forall (fun n => n < 2^32) (fst p) /\ Forall (fun o => forall n, o = Some n -> n < 2^63) (snd p) ->
  read_polygon t = Ok (mkPolygon (fst p) (one_way_of (snd p))) /\ ~ In lf t /\ ~ In cr t.
Proof.
  intros (tn & tvs & tps & -> & Hn & Hv & Hp) (Bn & Bv & Bp). destruct p as [vs0 ns]. cbn [fst snd] in *.
  assert (W : Forall one_word (tn :: tvs ++ tps)).
  { constructor; [now apply (numeral_word _ _ Hn)|]. apply Forall_app. split; apply Forall_forall; intros t Ht.
    - destruct (Forall2_In_l _ _ _ _ Hv Ht) as (n & _ & Ho). now apply (numeral_word _ n).
    - destruct (Forall2_In_l _ _ _ _ Hp Ht) as (o & _ & Ho). now apply (reference_word _ o). }
  destruct (words_join _ W) as (E & Hl & Hc); [discriminate|]. split; [|auto].
  unfold read_polygon. rewrite E, (parse_unsigned_numeral _ _ _ Hn) by (unfold usize_max; lia). cbn [unwrap bind].
  rewrite (mapM_map _ (tvs ++ tps) (map Z.of_N vs0 ++ map zref ns)).
  2:{ apply Forall2_app.
      - clear -Hv Bv. induction Hv as [|t n tvs vs H Hv IH]; [constructor|]. inversion Bv; subst. constructor; [|now apply IH].
        rewrite (parse_signed_numeral _ _ n H); [reflexivity|]. unfold isize_max. lia.
      - clear -Hp Bp. induction Hp as [|t o tps ns H Hp IH]; [constructor|]. inversion Bp; subst. constructor; [|now apply IH].
        rewrite (reference_signed t o H) by assumption. reflexivity. }
  cbn [bind]. unfold polygon_using.
  assert (lengthN vs0 = N.of_nat (length (map Z.of_N vs0))) as El by (now rewrite map_length).
  assert (lengthN vs0 <=? lengthN (map Z.of_N vs0 ++ map zref ns) = true) as ->.
  { apply N.leb_le. unfold lengthN. rewrite app_length, !map_length. lia. }
  rewrite El, Nnat.Nat2N.id, firstn_app, firstn_all, Nat.sub_diag, skipn_app, skipn_all, Nat.sub_diag. cbn [firstn skipn app]. rewrite app_nil_r.
  rewrite map_map. rewrite using_loop_spec. f_equal. f_equal.
  - rewrite <- (map_id vs0) at 2. apply map_ext_in. intros n Hin. rewrite Forall_forall in Bv. now apply isize_small, Bv.
  - unfold one_way_of. destruct ns as [|o ns]; [reflexivity|]. cbn [map]. remember (o :: ns) as l. clear.
    destruct (Nat.leb_spec (existing l) 1), (Nat.leb_spec 2 (existing l)); try reflexivity; lia.
Qed.

(** the loop *)
Definition reads_v (t : text) (r : Vertex A) : Prop := read_vertex parse_f t = Ok r /\ ~ In lf t /\ ~ In cr t.
Definition reads_p (t : text) (r : Polygon) : Prop := read_polygon t = Ok r /\ ~ In lf t /\ ~ In cr t.
Lemma read_vertices tvs rs nv np f : Forall2 reads_v tvs rs -> (Z.of_nat (length rs) <= nv)%Z ->
  foldM (read_line parse_f) (mkRead 1 nv np f) tvs =
  Ok (mkRead 1 (nv - Z.of_nat (length rs)) np (mkFile (file_vertices f ++ rs) (file_polygons f))).
Proof.
  intro H. revert nv f. induction H as [|t r tvs rs H1 H2 IH]; intros nv f Hn; cbn [foldM length].
  - rewrite Z.sub_0_r, app_nil_r. now destruct f.
  - destruct H1 as [E _].
    assert (read_line parse_f (mkRead 1 nv np f) t = Ok (mkRead 1 (nv - 1) np (mkFile (file_vertices f ++ [r]) (file_polygons f)))) as ->.
    { unfold read_line. cbn [phase nb_vertices nb_polygons read_so_far]. change (1 =? 0) with false. change (1 =? 1) with true. cbv iota.
      assert ((0 <? nv)%Z = true) as -> by (apply Z.ltb_lt; simpl length in Hn; lia). rewrite E. reflexivity. }
    cbn [bind]. rewrite IH by (simpl length in Hn; lia). cbn [file_vertices file_polygons]. rewrite <- app_assoc. cbn [app].
    f_equal. f_equal. lia.
Qed.
Lemma read_line_polygon ph np f t : ph = 1 \/ ph = 2 ->
  read_line parse_f (mkRead ph 0 np f) t = read_line2 (mkRead ph 0 np f) t.
Proof. intros [-> | ->]; reflexivity. Qed.
Lemma read_polygons tps rs ph np f : Forall2 reads_p tps rs -> ph = 1 \/ ph = 2 -> (Z.of_nat (length rs) <= np)%Z ->
  exists ph', (ph' = 1 \/ ph' = 2) /\ foldM (read_line parse_f) (mkRead ph 0 np f) tps =
    Ok (mkRead ph' 0 (np - Z.of_nat (length rs)) (mkFile (file_vertices f) (file_polygons f ++ rs))).
Proof.
  intro H. revert ph np f. induction H as [|t r tps rs H1 H2 IH]; intros ph np f Hph Hn; cbn [foldM length].
  - exists ph. split; [assumption|]. rewrite app_nil_r, Z.sub_0_r. now destruct f.
  - destruct H1 as [E _]. rewrite read_line_polygon by assumption. unfold read_line2. cbn [phase nb_vertices nb_polygons read_so_far].
    assert ((0 <? np)%Z = true) as -> by (apply Z.ltb_lt; simpl length in Hn; lia). rewrite E. cbn [bind].
    destruct (IH 2 (np - 1)%Z (mkFile (file_vertices f) (file_polygons f ++ [r]))) as (ph' & Hph' & Er); auto; [simpl length in Hn; lia|].
    exists ph'. split; [assumption|]. rewrite Er. cbn [file_vertices file_polygons]. rewrite <- app_assoc. cbn [app].
    f_equal. f_equal. lia.
Qed.

Lemma read_counts_ok t nv np : counts_line t nv np -> nv < 2^31 -> np < 2^31 ->
  read_counts t = Ok (Z.of_N nv, Z.of_N np) /\ text_eqb t mesh_word || text_eqb t two_word = false /\ ~ In lf t /\ ~ In cr t.
Proof.
  intros (tv & tp & -> & Hv & Hp) B1 B2. pose proof (numeral_word _ _ Hv) as (W1 & W2 & W3). pose proof (numeral_word _ _ Hp) as (V1 & V2 & V3).
  split; [|split; [|split]].
  - unfold read_counts. cbn [app]. rewrite split_once_app by assumption. rewrite (parse_signed_numeral _ _ _ Hv) by (unfold i32_max; lia). cbn [unwrap bind].
    rewrite (parse_signed_numeral _ _ _ Hp) by (unfold i32_max; lia). reflexivity.
  - assert (G : forall w, ~ In sp w -> text_eqb (tv ++ [sp] ++ tp) w = false).
    { intros w Hw. unfold text_eqb. destruct (list_eq_dec ascii_dec _ _) as [E|]; [|reflexivity]. exfalso. apply Hw. rewrite <- E. apply in_app_iff. right. now left. }
    rewrite !G; [reflexivity| |]; unfold mesh_word, two_word, sp; simpl; intuition discriminate.
  - rewrite !in_app_iff. intros [H|[H|H]]; [tauto| |tauto]. destruct H as [E|[]]. apply (f_equal N_of_ascii) in E. discriminate.
  - rewrite !in_app_iff. intros [H|[H|H]]; [tauto| |tauto]. destruct H as [E|[]]. apply (f_equal N_of_ascii) in E. discriminate.
Qed.

Lemma foldM_lines_app (s : read_state A) a b :
  foldM (read_line parse_f) s (a ++ b) = bind (foldM (read_line parse_f) s a) (fun s' => foldM (read_line parse_f) s' b).
Proof. revert s. induction a as [|x a IH]; intro s; [reflexivity|]. cbn [app foldM]. destruct (read_line parse_f s x); [apply IH|reflexivity..]. Qed.
Lemma no_lf_header : Forall (fun t => ~ In lf t /\ ~ In cr t) [mesh_word; two_word].
Proof. repeat constructor; simpl; intuition discriminate. Qed.

(** After the header, the counts and the vertices. *)
Lemma from_bytes_head tc nv np tvs rvs tps : counts_line tc nv np -> nv < 2^31 -> np < 2^31 -> Forall2 reads_v tvs rvs -> lengthN rvs <= nv ->
  Forall (fun t => ~ In lf t /\ ~ In cr t) tps ->
  from_bytes parse_f (text_of_lines (mesh_word :: two_word :: tc :: tvs ++ tps)) =
  bind (foldM (read_line parse_f) (mkRead 1 (Z.of_N nv - Z.of_nat (length rvs)) (Z.of_N np) (mkFile rvs [])) tps) (fun s => Ok (read_so_far s)).
Proof.
  intros Hc B1 B2 Hv L1 Hp. destruct (read_counts_ok tc nv np Hc B1 B2) as (Ec & Em & Hc1 & Hc2).
  unfold from_bytes. rewrite lines_text.
  2:{ change (mesh_word :: two_word :: tc :: tvs ++ tps) with ([mesh_word; two_word] ++ tc :: tvs ++ tps). apply Forall_app. split; [apply no_lf_header|].
      constructor; [auto|]. apply Forall_app. split; [|assumption]. apply Forall_forall. intros t Ht.
      destruct (Forall2_In_l _ _ _ _ Hv Ht) as (v & _ & Hl). apply Hl. }
  change (mesh_word :: two_word :: tc :: tvs ++ tps) with ([mesh_word; two_word; tc] ++ (tvs ++ tps)).
  rewrite foldM_lines_app. 
  assert (foldM (read_line parse_f) (mkRead 0 0 0 (mkFile [] [])) [mesh_word; two_word; tc] = Ok (mkRead 1 (Z.of_N nv) (Z.of_N np) (mkFile [] []))) as ->.
  { cbn [foldM]. change (read_line parse_f (mkRead 0 0 0 (mkFile [] [])) mesh_word) with (Ok (mkRead 0 0 0 (@mkFile A [] []))). cbn [bind].
    change (read_line parse_f (mkRead 0 0 0 (mkFile [] [])) two_word) with (Ok (mkRead 0 0 0 (@mkFile A [] []))). cbn [bind].
    unfold read_line. cbn [phase]. change (0 =? 0) with true. cbv iota. rewrite Em, Ec. reflexivity. }
  cbn [bind]. rewrite foldM_lines_app. rewrite (read_vertices tvs rvs _ _ _ Hv) by (unfold lengthN in L1; lia). reflexivity.
Qed.
Lemma reads_p_lines tps rps : Forall2 reads_p tps rps -> Forall (fun t => ~ In lf t /\ ~ In cr t) tps.
Proof. intro H. apply Forall_forall. intros t Ht. destruct (Forall2_In_l _ _ _ _ H Ht) as (v & _ & Hl). apply Hl. Qed.
Lemma from_bytes_gen tc nv np tvs rvs tps rps : counts_line tc nv np -> nv < 2^31 -> np < 2^31 -> Forall2 reads_v tvs rvs -> Forall2 reads_p tps rps ->
  lengthN rvs <= nv -> lengthN rps <= np -> (rps <> [] -> lengthN rvs = nv) ->
  from_bytes parse_f (text_of_lines (mesh_word :: two_word :: tc :: tvs ++ tps)) = Ok (mkFile rvs rps).
Proof.
  intros Hc B1 B2 Hv Hp L1 L2 L3. rewrite (from_bytes_head tc nv np tvs rvs tps) by (try assumption; now apply (reads_p_lines _ rps)).
  destruct rps as [|p0 ps0].
  - inversion Hp; subst. reflexivity.
  - specialize (L3 ltac:(discriminate)). assert (Z.of_N nv - Z.of_nat (length rvs) = 0)%Z as -> by (unfold lengthN in L3; lia).
    destruct (read_polygons tps (p0 :: ps0) 1 (Z.of_N np) (mkFile rvs []) Hp) as (ph' & _ & ->); auto. unfold lengthN in L2. lia.
Qed.

Lemma reads_v_lines tvs vs : Forall2 (vertex_line parse_f) tvs vs -> Forall (fun v => Forall (fun o => forall n, o = Some n -> n < 2^32) (snd v)) vs ->
  Forall2 reads_v tvs (map (fun v => vertex_new (fst v) (map id_of (snd v))) vs).
Proof. induction 1 as [|t v tvs vs H1 H2 IH]; intro B; [constructor|]. inversion B; subst. constructor; [now apply read_vertex_line|now apply IH]. Qed.
Lemma reads_p_of_lines tps ps : Forall2 polygon_line tps ps ->
  Forall (fun p => lengthN (fst p) < 2^64 /\ Forall (fun n => n < 2^32) (fst p) /\ Forall (fun o => forall n, o = Some n -> n < 2^63) (snd p)) ps ->
  Forall2 reads_p tps (map (fun p => mkPolygon (fst p) (one_way_of (snd p))) ps).
Proof. induction 1 as [|t v tvs vs H1 H2 IH]; intro B; [constructor|]. inversion B; subst. constructor; [now apply read_polygon_line|now apply IH]. Qed.

(** Lines of the format, with counts that may announce more than there is. *)
Lemma from_bytes_lines nv np ls vs ps : mesh2_lines parse_f nv np ls vs ps -> fits nv np vs ps ->
  lengthN vs <= nv -> lengthN ps <= np -> (ps <> [] -> lengthN vs = nv) ->
  from_bytes parse_f (text_of_lines ls) = Ok (mkFile (map (fun v => vertex_new (fst v) (map id_of (snd v))) vs) (map (fun p => mkPolygon (fst p) (one_way_of (snd p))) ps)).
Proof.
  intros (tc & tvs & tps & -> & Hc & Hv & Hp) (B1 & B2 & B3 & B4) L1 L2 L3.
  apply (from_bytes_gen tc nv np); try assumption; [now apply reads_v_lines|now apply reads_p_of_lines| | |]; unfold lengthN in *; rewrite !map_length; try assumption.
  intro Hne. apply L3. intro E. apply Hne. now rewrite E.
Qed.
(** A line too many. *)
Lemma from_bytes_extra nv np ls vs ps t more : mesh2_lines parse_f nv np ls vs ps -> fits nv np vs ps ->
  lengthN vs = nv -> lengthN ps = np -> Forall (fun t => ~ In lf t /\ ~ In cr t) (t :: more) ->
  from_bytes parse_f (text_of_lines (ls ++ t :: more)) = Panic.
Proof.
  intros (tc & tvs & tps & -> & Hc & Hv & Hp) (B1 & B2 & B3 & B4) L1 L2 Hm. cbn [app]. rewrite <- app_assoc.
  pose proof (reads_v_lines tvs vs Hv B3) as Rv. pose proof (reads_p_of_lines tps ps Hp B4) as Rp.
  change (["m"; "e"; "s"; "h"]%char :: ["2"%char] :: tc :: tvs ++ tps ++ t :: more) with (mesh_word :: two_word :: tc :: tvs ++ (tps ++ t :: more)).
  rewrite (from_bytes_head tc nv np tvs _ _ Hc B1 B2 Rv); [|unfold lengthN in *; rewrite map_length; lia|apply Forall_app; split; [now apply (reads_p_lines _ _ Rp)|assumption]].
  rewrite foldM_lines_app, map_length. assert (Z.of_N nv - Z.of_nat (length vs) = 0)%Z as -> by (unfold lengthN in L1; lia).
  destruct (read_polygons tps _ 1 (Z.of_N np) (mkFile (map (fun v => vertex_new (fst v) (map id_of (snd v))) vs) []) Rp) as (ph' & Hph & ->); auto.
  { rewrite map_length. unfold lengthN in L2. lia. }
  cbn [bind foldM]. rewrite read_line_polygon by assumption. unfold read_line2. cbn [nb_polygons]. rewrite map_length.
  assert ((0 <? Z.of_N np - Z.of_nat (length ps))%Z = false) as -> by (apply Z.ltb_ge; unfold lengthN in L2; lia). reflexivity.
Qed.

(** What to_bytes writes *)
Variable print_f : F A -> text.
Variable round_f : F A -> F A.
Hypothesis Hprint : forall x, one_word (print_f x) /\ parse_f (print_f x) = Some (round_f x).

Definition read_back (v : Vertex A) : Vertex A :=
  vertex_new (V (round_f (vx (coords v))) (round_f (vy (coords v)))) (match vpolys v with [] => [MAX] | ids => ids end).

Lemma join_nil_r a b c : join sp [a; b; c; []] = a ++ [sp] ++ b ++ [sp] ++ c ++ [sp].
Proof. reflexivity. Qed.
Lemma print_refs ns : Forall2 reference (map print_N ns) (map Some ns).
Proof. induction ns; constructor; [constructor; apply print_N_numeral|assumption]. Qed.
Lemma print_nums ns : Forall2 numeral (map print_N ns) ns.
Proof. induction ns; constructor; [apply print_N_numeral|assumption]. Qed.
Lemma write_vertex_reads v : Forall (fun n => n < 2^32) (vpolys v) -> exists t, write_vertex print_f v = t ++ [lf] /\ reads_v t (read_back v).
Proof.
  intro B. destruct (Hprint (vx (coords v))) as [Wx Ex]. destruct (Hprint (vy (coords v))) as [Wy Ey].
  exists (print_f (vx (coords v)) ++ [sp] ++ print_f (vy (coords v)) ++ [sp] ++ print_N (lengthN (vpolys v)) ++ [sp] ++ join sp (map print_N (vpolys v))).
  split; [unfold write_vertex; now rewrite <- !app_assoc|]. unfold read_back, reads_v. destruct (vpolys v) as [|i ids] eqn:Ei.
  - change (lengthN (@nil N)) with 0. cbn [map join].
    change (print_N 0 ++ [sp] ++ []) with (print_N 0 ++ [sp]). rewrite <- (join_nil_r (print_f (vx (coords v))) (print_f (vy (coords v))) (print_N 0)).
    assert (W : Forall one_word [print_f (vx (coords v)); print_f (vy (coords v)); print_N 0; []]).
    { repeat constructor; try apply Wx; try apply Wy; try apply (numeral_word _ _ (print_N_numeral 0)); intros []. }
    destruct (words_join _ W) as (E & Hl & Hc); [discriminate|]. split; [|auto].
    unfold read_vertex. unfold text in *. rewrite E, Ex. cbn [unwrap bind]. rewrite Ey. reflexivity.
  - rewrite <- Ei in *. 
    assert (EJ : forall (a b c : text) ts, ts <> [] -> a ++ [sp] ++ b ++ [sp] ++ c ++ [sp] ++ join sp ts = join sp (a :: b :: c :: ts)).
    { intros a b c ts H. destruct ts; [congruence|reflexivity]. }
    rewrite EJ by (rewrite Ei; discriminate).
    destruct (read_vertex_line (join sp (print_f (vx (coords v)) :: print_f (vy (coords v)) :: print_N (lengthN (vpolys v)) :: map print_N (vpolys v)))
                (V (round_f (vx (coords v))) (round_f (vy (coords v))), map Some (vpolys v))) as [E H].
    + do 4 eexists. split; [reflexivity|]. cbn [fst snd vx vy]. repeat (split; [assumption|]). split; [|apply print_refs].
      unfold lengthN. rewrite map_length. apply print_N_numeral.
    + cbn [snd]. apply Forall_map. revert B. apply Forall_impl. intros n Hn m [= <-]. assumption.
    + split; [|exact H]. rewrite E. cbn [fst snd]. rewrite map_map. cbn [id_of]. rewrite map_id, Ei. reflexivity.
Qed.
Lemma write_polygon_reads p : pverts p <> [] -> Forall (fun n => n < 2^32) (pverts p) -> lengthN (pverts p) < 2^64 ->
  exists t, write_polygon p = t ++ [lf] /\ reads_p t (mkPolygon (pverts p) false).
Proof.
  intros Hne B Bl. exists (print_N (lengthN (pverts p)) ++ [sp] ++ join sp (map print_N (pverts p))). split; [unfold write_polygon; now rewrite <- !app_assoc|].
  assert (EJ : forall (a : text) ts, ts <> [] -> a ++ [sp] ++ join sp ts = join sp (a :: ts)) by (intros a ts H; destruct ts; [congruence|reflexivity]).
  rewrite EJ by (intro E; apply map_eq_nil in E; contradiction).
  apply (read_polygon_line _ (pverts p, [])); cbn [fst snd]; [|auto].
  exists (print_N (lengthN (pverts p))), (map print_N (pverts p)), []. split; [now rewrite app_nil_r|]. split; [apply print_N_numeral|]. split; [apply print_nums|constructor].
Qed.
Lemma write_polygon_empty p : pverts p = [] -> exists t, write_polygon p = t ++ [lf] /\ read_polygon t = Panic /\ ~ In lf t /\ ~ In cr t.
Proof.
  intro E. exists (print_N 0 ++ [sp]). unfold write_polygon. rewrite E. split; [reflexivity|]. split; [reflexivity|]. split; simpl; intuition discriminate.
Qed.
Lemma concat_lines {T} (w : T -> text) (xs : list T) (ts : list text) : Forall2 (fun x t => w x = t ++ [lf]) xs ts -> concat (map w xs) = text_of_lines ts.
Proof. unfold text_of_lines. induction 1 as [|x t xs ts H HF IH]; [reflexivity|]. cbn [map concat]. now rewrite H, IH. Qed.
Lemma Forall_exists2 {S T U} (P : S -> Prop) (R : S -> T -> Prop) (Q : T -> U -> Prop) (g : S -> U) xs :
  (forall x, P x -> exists t, R x t /\ Q t (g x)) -> Forall P xs -> exists ts, Forall2 R xs ts /\ Forall2 Q ts (map g xs).
Proof.
  intros H. induction 1 as [|x xs Hx Hxs (ts & I1 & I2)]; [exists []; split; constructor|]. destruct (H x Hx) as (t & E1 & E2).
  exists (t :: ts). split; constructor; assumption.
Qed.
Lemma text_of_lines_app a b : text_of_lines (a ++ b) = text_of_lines a ++ text_of_lines b.
Proof. unfold text_of_lines. now rewrite map_app, concat_app. Qed.
Lemma to_bytes_lines (f : PolyFile A) tvs tps :
  Forall2 (fun v t => write_vertex print_f v = t ++ [lf]) (file_vertices f) tvs ->
  Forall2 (fun p t => write_polygon p = t ++ [lf]) (file_polygons f) tps ->
  to_bytes print_f f = text_of_lines (mesh_word :: two_word :: (print_N (lengthN (file_vertices f)) ++ [sp] ++ print_N (lengthN (file_polygons f))) :: tvs ++ tps).
Proof.
  intros Hv Hp. unfold to_bytes. rewrite (concat_lines _ _ _ Hv), (concat_lines _ _ _ Hp).
  change (mesh_word :: two_word :: ?c :: tvs ++ tps) with ([mesh_word; two_word; c] ++ (tvs ++ tps)). rewrite !text_of_lines_app.
  unfold text_of_lines at 3. cbn [map concat]. rewrite <- !app_assoc. cbn [app]. reflexivity.
Qed.
Lemma counts_written nv np : counts_line (print_N nv ++ [sp] ++ print_N np) nv np.
Proof. do 2 eexists. split; [reflexivity|]. split; apply print_N_numeral. Qed.

Definition u32_file (f : PolyFile A) : Prop :=
  lengthN (file_vertices f) < 2^31 /\ lengthN (file_polygons f) < 2^31 /\
  Forall (fun v => Forall (fun n => n < 2^32) (vpolys v)) (file_vertices f) /\
  Forall (fun p => lengthN (pverts p) < 2^64 /\ Forall (fun n => n < 2^32) (pverts p)) (file_polygons f).
Lemma round_trip f : u32_file f -> (forall p, In p (file_polygons f) -> pverts p <> []) ->
  from_bytes parse_f (to_bytes print_f f) = Ok (mkFile (map read_back (file_vertices f)) (map (fun p => mkPolygon (pverts p) false) (file_polygons f))).
Proof.
  intros (B1 & B2 & B3 & B4) Hne.
  destruct (Forall_exists2 _ (fun v t => write_vertex print_f v = t ++ [lf]) reads_v read_back _ write_vertex_reads B3) as (tvs & V1 & V2).
  destruct (Forall_exists2 (fun p => pverts p <> [] /\ lengthN (pverts p) < 2^64 /\ Forall (fun n => n < 2^32) (pverts p))
     (fun p t => write_polygon p = t ++ [lf]) reads_p (fun p => mkPolygon (pverts p) false) (file_polygons f)) as (tps & P1 & P2).
  { intros p (H1 & H2 & H3). now apply write_polygon_reads. }
  { rewrite Forall_forall in *. intros p Hp. split; [now apply Hne|now apply B4]. }
  rewrite (to_bytes_lines f tvs tps V1 P1).
  apply (from_bytes_gen _ (lengthN (file_vertices f)) (lengthN (file_polygons f))); try assumption; try apply counts_written; unfold lengthN; rewrite !map_length; lia.
Qed.
Lemma round_trip_empty f : u32_file f -> (exists p, In p (file_polygons f) /\ pverts p = []) ->
  from_bytes parse_f (to_bytes print_f f) = Panic.
Proof.
  intros (B1 & B2 & B3 & B4) (p0 & Hin & Ep).
  destruct (Forall_exists2 _ (fun v t => write_vertex print_f v = t ++ [lf]) reads_v read_back _ write_vertex_reads B3) as (tvs & V1 & V2).
  assert (Hfirst : exists a p b, file_polygons f = a ++ p :: b /\ pverts p = [] /\ Forall (fun p => pverts p <> []) a).
  { clear -Hin Ep. induction (file_polygons f) as [|x l IH]; [destruct Hin|]. destruct (pverts x) eqn:Ex.
    - exists [], x, l. repeat split; auto.
    - destruct Hin as [->|Hin]; [congruence|]. destruct (IH Hin) as (a & p & b & -> & H1 & H2). exists (x :: a), p, b.
      repeat split; auto. constructor; [congruence|assumption]. }
  destruct Hfirst as (a & p & b & Ef & Epp & Ha). rewrite Ef in B4. apply Forall_app in B4. destruct B4 as [Ba Bb]. inversion Bb as [|? ? _ Bb']; subst.
  destruct (Forall_exists2 (fun p => pverts p <> [] /\ lengthN (pverts p) < 2^64 /\ Forall (fun n => n < 2^32) (pverts p))
     (fun p t => write_polygon p = t ++ [lf]) reads_p (fun p => mkPolygon (pverts p) false) a) as (ta & P1 & P2).
  { intros x (H1 & H2 & H3). now apply write_polygon_reads. }
  { rewrite Forall_forall in *. intros x Hx. split; [now apply Ha|now apply Ba]. }
  destruct (write_polygon_empty p Epp) as (tp & Ew & Er & Hl & Hc).
  destruct (Forall_exists2 (fun p => lengthN (pverts p) < 2^64 /\ Forall (fun n => n < 2^32) (pverts p))
     (fun p t => write_polygon p = t ++ [lf]) (fun t (_ : unit) => ~ In lf t /\ ~ In cr t) (fun _ => tt) b) as (tb & Q1 & Q2).
  { intros x (H1 & H2). destruct (pverts x) eqn:Ex; [destruct (write_polygon_empty x Ex) as (t & E1 & _ & E2); eauto|].
    destruct (write_polygon_reads x) as (t & E1 & _ & E2); rewrite ?Ex; auto; [discriminate|eauto]. }
  { exact Bb'. }
  rewrite (to_bytes_lines f tvs (ta ++ tp :: tb) V1) by (rewrite Ef; apply Forall2_app; [assumption|constructor; assumption]).
  assert (Htb : Forall (fun t => ~ In lf t /\ ~ In cr t) tb).
  { apply Forall_forall. intros t Ht. destruct (Forall2_In_l _ _ _ _ Q2 Ht) as (u & _ & Hu). exact Hu. }
  rewrite (from_bytes_head _ (lengthN (file_vertices f)) (lengthN (file_polygons f)) tvs (map read_back (file_vertices f))); try assumption;
    [|apply counts_written|unfold lengthN; rewrite map_length; lia|apply Forall_app; split; [now apply (reads_p_lines _ _ P2)|constructor; auto]].
  rewrite foldM_lines_app, map_length. assert (Z.of_N (lengthN (file_vertices f)) - Z.of_nat (length (file_vertices f)) = 0)%Z as -> by (unfold lengthN; lia).
  destruct (read_polygons ta _ 1 (Z.of_N (lengthN (file_polygons f))) (mkFile (map read_back (file_vertices f)) []) P2) as (ph' & Hph & ->); auto.
  { rewrite map_length, Ef. unfold lengthN. rewrite app_length. lia. }
  cbn [bind foldM]. rewrite read_line_polygon by assumption. unfold read_line2. cbn [nb_polygons]. destruct (0 <? _)%Z; [|reflexivity].
  rewrite Er. reflexivity.
Qed.
End Reader.
