(** Gluing two rings along a common edge. *)
From Coq Require Import List NArith ZArith Bool Permutation Lia.
From Verif Require Import Base Arith U32 Mesh Helpers Spec Merger Spec_merge Locate_facts Merger_facts.
Import ListNotations.
Open Scope N_scope.

(** [y] follows [x] around the ring until [y]: the meaning of [arc] *)
Lemma skip_until_app x l1 l2 : ~ In x l1 -> skip_until x (l1 ++ x :: l2) = x :: l2.
Proof.
  induction l1 as [|y l1 IH]; intro H; simpl; [now rewrite N.eqb_refl|]. destruct (N.eqb_spec y x) as [->|]; [exfalso; apply H; now left|].
  apply IH. intro G. apply H. now right.
Qed.
Lemma take_until_app y l1 l2 : ~ In y l1 -> take_until y (l1 ++ y :: l2) = l1.
Proof.
  induction l1 as [|x l1 IH]; intro H; simpl; [now rewrite N.eqb_refl|]. destruct (N.eqb_spec x y) as [->|]; [exfalso; apply H; now left|].
  f_equal. apply IH. intro G. apply H. now right.
Qed.
(** the arc as a relation *)
Lemma arc_eq r x y pre w post : r ++ r = pre ++ (x :: w) ++ y :: post -> ~ In x pre -> ~ In y (x :: w) -> arc r x y = x :: w.
Proof. intros E H1 H2. unfold arc. rewrite E, <- app_comm_cons, skip_until_app by assumption. rewrite app_comm_cons. now apply take_until_app. Qed.
Lemma first_In (x : N) l : In x l -> exists pre post, l = pre ++ x :: post /\ ~ In x pre.
Proof.
  induction l as [|y l IH]; [easy|]. intro H. destruct (N.eq_dec y x) as [->|Hne]; [exists [], l; auto|].
  destruct H as [H|H]; [contradiction|]. destruct (IH H) as (pre & post & -> & G). exists (y :: pre), post. split; [reflexivity|]. intros [E|E]; contradiction.
Qed.
Lemma arc_spec r x y : In x r -> In y r -> x <> y ->
  exists pre w post, r ++ r = pre ++ (x :: w) ++ y :: post /\ ~ In x pre /\ ~ In y (x :: w) /\ arc r x y = x :: w.
Proof.
  intros Hx Hy Hne. destruct (first_In x r Hx) as (pre & post & E & Hp).
  assert (Hy2 : In y (post ++ r)) by (apply in_app_iff; now right).
  destruct (first_In y _ Hy2) as (w & post' & E' & Hw). exists pre, w, post'. 
  assert (Hyw : ~ In y (x :: w)) by (intros [G|G]; congruence).
  assert (Er : r ++ r = pre ++ (x :: w) ++ y :: post').
  { rewrite E at 1. rewrite <- app_assoc. f_equal. cbn [app]. f_equal. exact E'. }
  split; [exact Er|]. split; [assumption|]. split; [assumption|]. now apply (arc_eq r x y pre w post').
Qed.

Lemma last_cons (r : list N) : forall y x, last (y :: r) x = last r y.
Proof. induction r as [|n r IH]; intros y x; [reflexivity|]. change (last (y :: n :: r) x) with (last (n :: r) x). now rewrite !IH. Qed.
(** edges of a ring *)
Lemma edge_list_windows x r : edge_list (x :: r) = windows2 ((x :: r) ++ [x]).
Proof.
  unfold edge_list. cbn [tl firstn]. rewrite <- windows2_combine.
  assert (G : forall (r : list N) x a, windows2 ((x :: r) ++ [a]) = windows2 (x :: r) ++ [(last r x, a)]).
  { clear. induction r as [|y r IH]; intros x a; [reflexivity|]. cbn [app]. change (windows2 (x :: y :: r ++ [a])) with ((x, y) :: windows2 ((y :: r) ++ [a])).
    rewrite IH. change (windows2 (x :: y :: r)) with ((x, y) :: windows2 (y :: r)). cbn [app]. now rewrite last_cons. }
  now rewrite G.
Qed.
Lemma windows2_app l1 x l2 : windows2 (l1 ++ x :: l2) = windows2 (l1 ++ [x]) ++ windows2 (x :: l2).
Proof.
  induction l1 as [|y l1 IH]; [reflexivity|]. destruct l1 as [|z l1]; [reflexivity|].
  change ((y :: z :: l1) ++ x :: l2) with (y :: z :: (l1 ++ x :: l2)). change ((y :: z :: l1) ++ [x]) with (y :: z :: (l1 ++ [x])).
  change (windows2 (y :: z :: (l1 ++ x :: l2))) with ((y, z) :: windows2 ((z :: l1) ++ x :: l2)).
  change (windows2 (y :: z :: (l1 ++ [x]))) with ((y, z) :: windows2 ((z :: l1) ++ [x])). rewrite IH. reflexivity.
Qed.
Lemma edge_list_rotate x y : Permutation (edge_list (x ++ y)) (edge_list (y ++ x)).
Proof.
  destruct x as [|c x]; [rewrite app_nil_r; reflexivity|]. destruct y as [|d y]; [rewrite app_nil_r; reflexivity|].
  cbn [app]. rewrite !edge_list_windows. cbn [app]. rewrite <- !app_assoc. cbn [app].
  change (c :: x ++ d :: y ++ [c]) with ((c :: x) ++ d :: (y ++ [c])). change (d :: y ++ c :: x ++ [d]) with ((d :: y) ++ c :: (x ++ [d])).
  rewrite (windows2_app (c :: x) d), (windows2_app (d :: y) c). cbn [app]. apply Permutation_app_comm.
Qed.

(** A simple ring seen from one of its edges *)
Lemma edge_split r a b : NoDup r -> a <> b -> In (a, b) (edge_list r) ->
  exists x y w, r = x ++ y /\ y ++ x = b :: w ++ [a] /\ arc r b a = b :: w.
Proof.
  intros ND Hne He. destruct r as [|f r]; [destruct He|]. rewrite edge_list_windows in He.
  assert (G : forall l, In (a, b) (windows2 l) -> exists p q, l = p ++ a :: b :: q).
  { clear. induction l as [|x l IH]; [easy|]. destruct l as [|y l]; [easy|]. change (windows2 (x :: y :: l)) with ((x, y) :: windows2 (y :: l)).
    intros [[= -> ->]|H]; [exists [], l; reflexivity|]. destruct (IH H) as (p & q & ->). now exists (x :: p), q. }
  destruct (G _ He) as (p & q & E). clear G He. destruct q as [|z q] using rev_ind.
  - (* the closing edge *)
    change ([a; b]) with ([a] ++ [b]) in E. rewrite app_assoc in E. apply app_inj_tail in E. destruct E as [E ->]. 
    destruct p as [|c p]; cbn [app] in E; [injection E as -> ->; congruence|]. injection E as -> ->.
    exists [], (c :: p ++ [a]), p. split; [reflexivity|]. split; [now rewrite app_nil_r|].
    apply (arc_eq _ c a [] p (c :: p ++ [a])); [cbn [app]; now rewrite <- app_assoc|easy|].
    intro H. inversion ND; subst. destruct H as [H|H]; [congruence|]. apply NoDup_remove_2 in H3. apply H3. now rewrite app_nil_r.
  - clear IHq. assert (E' : (f :: r) ++ [f] = (p ++ a :: b :: q) ++ [z]) by (rewrite E, <- app_assoc; reflexivity).
    apply app_inj_tail in E'. destruct E' as [E' _]. rewrite E' in *. clear E E'.
    exists (p ++ [a]), (b :: q), (q ++ p). split; [now rewrite <- app_assoc|]. split; [cbn [app]; now rewrite <- app_assoc|].
    assert (N1 : ~ In b (p ++ [a])).
    { intro H. change (a :: b :: q) with ([a] ++ b :: q) in ND. rewrite app_assoc in ND. apply NoDup_remove_2 in ND. apply ND. apply in_app_iff. now left. }
    assert (N2 : ~ In a (b :: q ++ p)).
    { apply NoDup_remove_2 in ND. intro H. apply ND. apply in_app_iff. destruct H as [H|H]; [right; now left|]. apply in_app_iff in H. destruct H; [right; now right|now left]. }
    apply (arc_eq _ b a (p ++ [a]) (q ++ p) (b :: q)); [|assumption|assumption].
    rewrite <- !app_assoc. cbn [app]. f_equal. f_equal. f_equal. rewrite <- app_assoc. reflexivity.
Qed.

(** The edges of the glued ring are those of the two rings without the common edge. *)
Theorem glue_edges r1 r2 a b : NoDup r1 -> NoDup r2 -> a <> b -> In (a, b) (edge_list r1) -> In (b, a) (edge_list r2) ->
  Permutation ((a, b) :: (b, a) :: edge_list (arc r1 b a ++ arc r2 a b)) (edge_list r1 ++ edge_list r2).
Proof.
  intros N1 N2 Hne H1 H2. destruct (edge_split r1 a b N1 Hne H1) as (x1 & y1 & w1 & -> & E1 & ->).
  destruct (edge_split r2 b a N2 (not_eq_sym Hne) H2) as (x2 & y2 & w2 & -> & E2 & ->).
  rewrite (edge_list_rotate x1 y1), (edge_list_rotate x2 y2), E1, E2.
  rewrite edge_list_windows, (edge_list_windows a), <- app_comm_cons, (edge_list_windows b). cbn [app]. rewrite <- !app_assoc. cbn [app].
  assert (W : forall u w v, windows2 (u :: w ++ [v; u]) = windows2 (u :: w ++ [v]) ++ [(v, u)]).
  { intros u w v. change (u :: w ++ [v; u]) with ((u :: w) ++ v :: [u]). rewrite windows2_app. reflexivity. }
  rewrite !W. change (b :: w1 ++ a :: w2 ++ [b]) with ((b :: w1) ++ a :: (w2 ++ [b])). rewrite windows2_app. cbn [app].
  generalize (windows2 (b :: w1 ++ [a])) as X, (windows2 (a :: w2 ++ [b])) as Y. intros X Y.
  rewrite <- app_assoc. cbn [app]. apply Permutation_cons_app. apply perm_trans with ((X ++ Y) ++ [(b, a)]); [apply Permutation_cons_append|].
  rewrite <- app_assoc. reflexivity.
Qed.
