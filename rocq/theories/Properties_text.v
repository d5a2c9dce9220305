(** C79: the reader of mesh files does not depend on how lines end, nor on explicit plus signs. *)
From Coq Require Import List NArith ZArith Bool Ascii String Lia.
From Verif Require Import Base Arith U32 Mesh Helpers Bake PolyFile Spec_file File_facts F32 Decimal32 Tests Tests_file.
Import ListNotations List.
Open Scope N_scope.

(** lines that end with a carriage return and a line feed *)
Definition windows_lines (ls : list text) : text := concat (map (fun t => t ++ [cr; lf]) ls).

Lemma chomp_cr t : chomp (t ++ [cr]) = t.
Proof. unfold chomp. rewrite rev_app_distr. cbn [rev app]. rewrite Ascii.eqb_refl. apply rev_involutive. Qed.
Lemma finish_cons p ps : ps <> [] -> finish_lines (p :: ps) = chomp p :: finish_lines ps.
Proof. destruct ps; [congruence|reflexivity]. Qed.
Lemma windows_lines_read ls : Forall (fun t => ~ In lf t) ls -> lines (windows_lines ls) = ls.
Proof.
  unfold lines, windows_lines. induction 1 as [|t ls Ht _ IH]; [reflexivity|]. cbn [map concat].
  assert (E : (t ++ [cr; lf]) ++ concat (map (fun t => t ++ [cr; lf]) ls) = (t ++ [cr]) ++ lf :: concat (map (fun t => t ++ [cr; lf]) ls)) by (rewrite <- !app_assoc; reflexivity).
  refine (eq_trans (f_equal (fun z => finish_lines (split_on lf z)) E) _).
  rewrite split_on_app; [|intro H; apply in_app_or in H; destruct H as [H|[H|[]]]; [contradiction|discriminate]].
  rewrite finish_cons by apply split_on_nil. rewrite chomp_cr. f_equal. exact IH.
Qed.
Lemma unfinished_read ls t : Forall (fun t => ~ In lf t /\ ~ In cr t) ls -> t <> [] -> ~ In lf t -> lines (text_of_lines ls ++ t) = ls ++ [t].
Proof.
  intros H Ht Hl. unfold lines. induction H as [|u ls [Hu Hc] _ IH].
  - cbn. rewrite split_on_word by exact Hl. destruct t; [congruence|reflexivity].
  - assert (E : text_of_lines (u :: ls) ++ t = u ++ lf :: (text_of_lines ls ++ t)) by (unfold text_of_lines; cbn [map concat]; rewrite <- !app_assoc; reflexivity).
    refine (eq_trans (f_equal (fun z => finish_lines (split_on lf z)) E) _).
    rewrite split_on_app by exact Hu. rewrite finish_cons by apply split_on_nil. rewrite chomp_same by exact Hc. cbn [app]. f_equal. exact IH.
Qed.

Section File.
Context {A : Arith} (parse_f : text -> option (F A)).

(** Lines may end with CR LF instead of LF, and the end of the last one may be missing. *)
Theorem C79_line_ends (ls : list text) : Forall (fun t => ~ In lf t /\ ~ In cr t) ls ->
  from_bytes parse_f (windows_lines ls) = from_bytes parse_f (text_of_lines ls) /\
  (forall t, t <> [] -> ~ In lf t -> ~ In cr t -> from_bytes parse_f (text_of_lines ls ++ t) = from_bytes parse_f (text_of_lines (ls ++ [t]))).
Proof.
  intro H. unfold from_bytes. split.
  - rewrite windows_lines_read by (revert H; apply Forall_impl; intros t [H1 _]; exact H1). rewrite (lines_text ls H). reflexivity.
  - intros t Ht H1 H2. rewrite (unfinished_read ls t H Ht H1). rewrite (lines_text (ls ++ [t])); [reflexivity|]. apply Forall_app. split; [exact H|]. repeat constructor; assumption.
Qed.

(** ** Plus signs *)
(** [t'] is the word [t], or the word [t], which starts with a digit, after a plus sign. *)
Definition maybe_plus (t t' : text) : Prop := t' = t \/ (t' = "+"%char :: t /\ exists d r, t = d :: r /\ digit_of d <> None).

Lemma digit_not c n : N_of_ascii c = n -> n < 48 -> digit_of c = None.
Proof. intros E H. unfold digit_of. rewrite E. destruct (N.leb_spec 48 n); [lia|reflexivity]. Qed.
Lemma plus_unsigned max t t' : maybe_plus t t' -> parse_unsigned max t' = parse_unsigned max t.
Proof.
  intros [-> |(-> & d & r & -> & Hd)]; [reflexivity|]. cbn [parse_unsigned]. change (Ascii.eqb "+" "+") with true. cbv iota.
  destruct (Ascii.eqb_spec d "+") as [->|_]; [exfalso; apply Hd; reflexivity|reflexivity].
Qed.
Lemma plus_signed max t t' : maybe_plus t t' -> parse_signed max t' = parse_signed max t.
Proof.
  intros H. pose proof (plus_unsigned max t t' H) as HU. destruct H as [-> |(-> & d & r & -> & Hd)]; [reflexivity|]. unfold parse_signed. change (Ascii.eqb "+" "-") with false. cbv iota.
  destruct (Ascii.eqb_spec d "-") as [->|_]; [exfalso; apply Hd; reflexivity|]. now rewrite HU.
Qed.

Lemma plus_word t t' c : maybe_plus t t' -> ~ In c t -> c <> "+"%char -> ~ In c t'.
Proof. intros [-> |(-> & _)] H Hc; [exact H|]. intros [E|E]; [now apply Hc|contradiction]. Qed.
Lemma plus_words ts ts' : Forall2 maybe_plus ts ts' -> Forall (fun t => ~ In sp t) ts -> Forall (fun t => ~ In sp t) ts'.
Proof. induction 1 as [|t t' ts ts' H HF IH]; intro HW; [constructor|]. inversion_clear HW as [|? ? H1 H2]. constructor; [|now apply IH]. apply (plus_word t t' sp H H1). discriminate. Qed.
Lemma digits_from_space a b : forall acc, digits_from acc (a ++ sp :: b) = None.
Proof. induction a as [|c a IH]; intro acc; [reflexivity|]. cbn [app digits_from]. destruct (digit_of c); [apply IH|reflexivity]. Qed.
Lemma digits_space a b : digits (a ++ sp :: b) = None.
Proof. destruct a as [|c a]; [reflexivity|]. exact (digits_from_space (c :: a) b 0). Qed.
Lemma unsigned_space max a b : parse_unsigned max (a ++ sp :: b) = None.
Proof.
  destruct a as [|c a]; [reflexivity|]. cbn [app parse_unsigned]. rewrite (digits_space a b). change (c :: a ++ sp :: b) with ((c :: a) ++ sp :: b). rewrite (digits_space (c :: a) b). now destruct (Ascii.eqb c "+").
Qed.
Lemma signed_space max a b : parse_signed max (a ++ sp :: b) = None.
Proof.
  destruct a as [|c a]; [reflexivity|]. cbn [app parse_signed]. rewrite (digits_space a b). change (c :: a ++ sp :: b) with ((c :: a) ++ sp :: b). rewrite (unsigned_space max (c :: a) b). now destruct (Ascii.eqb c "-").
Qed.

(** The law the reader of numbers with a decimal point must have: a plus sign before a digit changes nothing. *)
Hypothesis parse_plus : forall t t', maybe_plus t t' -> parse_f t' = parse_f t.

(** two lines: the same, or the same words, two at least, up to plus signs *)
Definition same_but_plus (l l' : text) : Prop := l' = l \/
  exists ts ts', l = join sp ts /\ l' = join sp ts' /\ (2 <= length ts)%nat /\ Forall (fun t => ~ In sp t) ts /\ Forall2 maybe_plus ts ts'.

Lemma plus_polygon ts ts' : ts <> [] -> Forall (fun t => ~ In sp t) ts -> Forall2 maybe_plus ts ts' -> read_polygon (join sp ts') = read_polygon (join sp ts).
Proof using.
  intros H0 HW HF. unfold read_polygon. rewrite (split_join sp ts H0 HW). rewrite (split_join sp ts'); [|destruct HF; congruence|exact (plus_words ts ts' HF HW)].
  destruct HF as [|t t' ts ts' H HF]; [congruence|]. rewrite (plus_unsigned _ _ _ H). f_equal.
  assert (E : mapM (fun t => unwrap (parse_signed isize_max t)) ts' = mapM (fun t => unwrap (parse_signed isize_max t)) ts); [|now rewrite E].
  clear - HF. induction HF as [|t t' ts ts' H HF IH]; [reflexivity|]. cbn [mapM]. rewrite (plus_signed _ _ _ H), IH. reflexivity.
Qed.
Lemma plus_vertex ts ts' : ts <> [] -> Forall (fun t => ~ In sp t) ts -> Forall2 maybe_plus ts ts' -> read_vertex parse_f (join sp ts') = read_vertex parse_f (join sp ts).
Proof using parse_plus.
  intros H0 HW HF. unfold read_vertex. rewrite (split_join sp ts H0 HW). rewrite (split_join sp ts'); [|destruct HF; congruence|exact (plus_words ts ts' HF HW)].
  destruct HF as [|t t' ts ts' H HF]; [congruence|]. rewrite (parse_plus _ _ H). destruct HF as [|u u' us us' Hu HF]; [reflexivity|]. rewrite (parse_plus _ _ Hu).
  assert (E : map (fun t => match parse_unsigned u32_max t with Some n => n | None => MAX end) (tl us') = map (fun t => match parse_unsigned u32_max t with Some n => n | None => MAX end) (tl us)); [|now rewrite E].
  assert (HF' : Forall2 maybe_plus (tl us) (tl us')) by (destruct HF; [constructor|assumption]). clear - HF'.
  induction HF' as [|t t' ts ts' H HF IH]; [reflexivity|]. cbn [map]. rewrite (plus_unsigned _ _ _ H), IH. reflexivity.
Qed.
Lemma plus_counts ts ts' : (2 <= length ts)%nat -> Forall (fun t => ~ In sp t) ts -> Forall2 maybe_plus ts ts' -> read_counts (join sp ts') = read_counts (join sp ts).
Proof using.
  intros H0 HW HF. pose proof (plus_words ts ts' HF HW) as HW'. unfold read_counts.
  destruct HF as [|t t' ts ts' H HF]; [cbn in H0; lia|]. destruct HF as [|u u' us us' Hu HF]; [cbn in H0; lia|].
  change (join sp (t :: u :: us)) with (t ++ sp :: join sp (u :: us)). change (join sp (t' :: u' :: us')) with (t' ++ sp :: join sp (u' :: us')).
  rewrite !split_once_app; [|exact (Forall_inv HW)|exact (Forall_inv HW')]. rewrite (plus_signed _ _ _ H). f_equal.
  destruct HF as [|w w' ws ws' Hw HF]; [cbn [join]; now rewrite (plus_signed _ _ _ Hu)|].
  change (join sp (u :: w :: ws)) with (u ++ sp :: join sp (w :: ws)). change (join sp (u' :: w' :: ws')) with (u' ++ sp :: join sp (w' :: ws')).
  now rewrite !signed_space.
Qed.
Lemma not_a_word ts (w : text) : (2 <= length ts)%nat -> ~ In sp w -> text_eqb (join sp ts) w = false.
Proof.
  intros H Hw. unfold text_eqb. destruct (list_eq_dec ascii_dec (join sp ts) w) as [E|_]; [|reflexivity]. exfalso. apply Hw. rewrite <- E.
  destruct ts as [|t [|u us]]; [cbn in H; lia..|]. change (In sp (t ++ sp :: join sp (u :: us))). apply in_or_app. right. now left.
Qed.
Lemma plus_line s l l' : same_but_plus l l' -> read_line parse_f s l' = read_line parse_f s l.
Proof using parse_plus.
  intros [-> |(ts & ts' & -> & -> & H2 & HW & HF)]; [reflexivity|].
  assert (H0 : ts <> []) by (destruct ts; [cbn in H2; lia|discriminate]). assert (H2' : (2 <= length ts')%nat) by (assert (E : length ts = length ts') by (clear - HF; induction HF as [|x y a b _ _ IH]; [reflexivity|cbn; now rewrite IH]); rewrite <- E; exact H2).
  unfold read_line, read_line2. rewrite (plus_polygon ts ts' H0 HW HF), (plus_vertex ts ts' H0 HW HF), (plus_counts ts ts' H2 HW HF).
  rewrite !not_a_word; [reflexivity|assumption| |assumption| |assumption| |assumption|]; cbn; intuition discriminate.
Qed.

(** Numbers may have a plus sign: the same file is read. *)
Theorem C79_plus_signs (ls ls' : list text) :
  Forall (fun t => ~ In lf t /\ ~ In cr t) ls -> Forall2 same_but_plus ls ls' ->
  Forall (fun t => ~ In lf t /\ ~ In cr t) ls' ->
  from_bytes parse_f (text_of_lines ls') = from_bytes parse_f (text_of_lines ls).
Proof using parse_plus.
  intros H HF H'. unfold from_bytes. rewrite (lines_text ls H), (lines_text ls' H').
  assert (E : forall s, foldM (read_line parse_f) s ls' = foldM (read_line parse_f) s ls); [|now rewrite E].
  clear H H'. induction HF as [|l l' ls ls' Hl HF IH]; intro s; [reflexivity|]. cbn [foldM]. rewrite (plus_line s l l' Hl). destruct (read_line parse_f s l); [apply IH|reflexivity..].
Qed.
End File.

(** The reader of binary32 numbers has that law. *)
Lemma parse_f32_plus t t' : maybe_plus t t' -> parse_f32 t' = parse_f32 t.
Proof.
  intros [-> |(-> & d & r & -> & Hd)]; [reflexivity|]. unfold parse_f32. change (Ascii.eqb "+" "-") with false. change (Ascii.eqb "+" "+") with true. cbv iota.
  destruct (Ascii.eqb_spec d "-") as [->|_]; [exfalso; apply Hd; reflexivity|]. destruct (Ascii.eqb_spec d "+") as [->|_]; [exfalso; apply Hd; reflexivity|]. reflexivity.
Qed.
Corollary C79_plus_signs_in_binary32 (ls ls' : list text) :
  Forall (fun t => ~ In lf t /\ ~ In cr t) ls -> Forall2 same_but_plus ls ls' ->
  Forall (fun t => ~ In lf t /\ ~ In cr t) ls' ->
  from_bytes (A := F32) parse_f32 (text_of_lines ls') = from_bytes (A := F32) parse_f32 (text_of_lines ls).
Proof. exact (C79_plus_signs (A := F32) parse_f32 parse_f32_plus ls ls'). Qed.

(** The example of the format's description, with some plus signs and the line ends of Windows. *)
Definition format_rows : list text := map str ["mesh"; "2"; "4 2"; "0.0 0.0 2 0 -1"; "1.5 0.0 3 0 1 -1"; "1.5 1.5 2 1 -1"; "0.0 1.5 3 -1 1 0"; "3 0 1 3 -1 -1 1"; "3 1 2 3 0 -1 -1"]%string.
Definition format_rows' : list text := map str ["mesh"; "2"; "+4 2"; "+0.0 0.0 2 +0 -1"; "1.5 0.0 3 0 1 -1"; "1.5 +1.5 +2 1 -1"; "0.0 1.5 3 -1 1 0"; "+3 +0 1 3 -1 -1 1"; "3 1 2 3 0 -1 -1"]%string.
Definition plusb (t t' : text) : bool := text_eqb t' t || (text_eqb t' ("+"%char :: t) && match t with d :: _ => match digit_of d with Some _ => true | None => false end | [] => false end).
Lemma text_eqb_ok a b : text_eqb a b = true -> a = b.
Proof. unfold text_eqb. now destruct (list_eq_dec ascii_dec a b). Qed.
Lemma plusb_ok t t' : plusb t t' = true -> maybe_plus t t'.
Proof.
  unfold plusb. intro H. apply orb_prop in H. destruct H as [H|H]; [left; now apply text_eqb_ok|]. apply andb_prop in H. destruct H as [H1 H2]. right. split; [now apply text_eqb_ok|].
  destruct t as [|d r]; [discriminate|]. exists d, r. split; [reflexivity|]. destruct (digit_of d); [discriminate|discriminate].
Qed.
Fixpoint all2 {T} (f : T -> T -> bool) (a b : list T) : bool := match a, b with [], [] => true | x :: a, y :: b => f x y && all2 f a b | _, _ => false end.
Lemma all2_ok {T} (f : T -> T -> bool) (R : T -> T -> Prop) : (forall x y, f x y = true -> R x y) -> forall a b, all2 f a b = true -> Forall2 R a b.
Proof. intros H a. induction a as [|x a IH]; intros [|y b] E; try discriminate; [constructor|]. cbn in E. apply andb_prop in E. constructor; [now apply H|now apply IH]. Qed.
Definition row_plusb (l l' : text) : bool := let ts := split_on sp l in let ts' := split_on sp l' in
  text_eqb l' l || (text_eqb l (join sp ts) && text_eqb l' (join sp ts') && (2 <=? length ts)%nat && forallb (fun t => negb (existsb (Ascii.eqb sp) t)) ts && all2 plusb ts ts').
Lemma row_plusb_ok l l' : row_plusb l l' = true -> same_but_plus l l'.
Proof.
  unfold row_plusb. intro H. apply orb_prop in H. destruct H as [H|H]; [left; now apply text_eqb_ok|]. apply andb_prop in H. destruct H as [H H5]. apply andb_prop in H. destruct H as [H H4].
  apply andb_prop in H. destruct H as [H H3]. apply andb_prop in H. destruct H as [H1 H2]. right. exists (split_on sp l), (split_on sp l').
  split; [now apply text_eqb_ok|]. split; [now apply text_eqb_ok|]. split; [now apply Nat.leb_le|]. split; [|exact (all2_ok plusb maybe_plus plusb_ok _ _ H5)].
  apply Forall_forall. intros t Ht Hs. rewrite forallb_forall in H4. specialize (H4 t Ht). apply negb_true_iff in H4. assert (existsb (Ascii.eqb sp) t = true); [|congruence].
  apply existsb_exists. exists sp. split; [exact Hs|apply Ascii.eqb_refl].
Qed.
Definition plainb' (l : text) : bool := negb (existsb (Ascii.eqb lf) l) && negb (existsb (Ascii.eqb cr) l).
Lemma plainb'_ok ls : forallb plainb' ls = true -> Forall (fun t => ~ In lf t /\ ~ In cr t) ls.
Proof.
  intro H. apply Forall_forall. intros t Ht. rewrite forallb_forall in H. specialize (H t Ht). apply andb_prop in H. destruct H as [H1 H2]. apply negb_true_iff in H1, H2.
  split; intro Hi; [assert (E : existsb (Ascii.eqb lf) t = true)|assert (E : existsb (Ascii.eqb cr) t = true)]; try congruence; apply existsb_exists; eexists; (split; [exact Hi|apply Ascii.eqb_refl]).
Qed.
Example ex_C79 : exists f, from_bytes (A := F32) parse_f32 (text_of_lines format_rows) = Ok f /\ length (file_vertices f) = 4%nat /\ length (file_polygons f) = 2%nat /\
  from_bytes (A := F32) parse_f32 (text_of_lines format_rows') = Ok f /\ from_bytes (A := F32) parse_f32 (windows_lines format_rows') = Ok f.
Proof.
  assert (P : Forall (fun t => ~ In lf t /\ ~ In cr t) format_rows) by (apply plainb'_ok; vm_compute; reflexivity).
  assert (P' : Forall (fun t => ~ In lf t /\ ~ In cr t) format_rows') by (apply plainb'_ok; vm_compute; reflexivity).
  assert (F : Forall2 same_but_plus format_rows format_rows') by (apply (all2_ok row_plusb _ row_plusb_ok); vm_compute; reflexivity).
  assert (R : from_bytes (A := F32) parse_f32 (text_of_lines format_rows) = read32 format_example) by (unfold read32; apply f_equal; vm_compute; reflexivity).
  rewrite t_read in R. eexists. split; [exact R|]. split; [reflexivity|]. split; [reflexivity|].
  pose proof (C79_plus_signs_in_binary32 _ _ P F P') as E. split; [exact (eq_trans E R)|]. exact (eq_trans (proj1 (C79_line_ends (A := F32) parse_f32 _ P')) (eq_trans E R)).
Qed.
