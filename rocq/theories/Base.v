(** Result monad and list helpers shared by the whole model.
    Nothing here models code of /repo directly: [res] is the model's notion of
    "what a Rust call may do", the list functions are std slice/Vec operations. *)
From Coq Require Import List NArith ZArith Lia Bool Permutation.
Import ListNotations.

(** Outcome of a modelled call.
    - [Ok a]    : the call returns [a];
    - [Panic]   : the Rust code panics (index out of range, unwrap of None, assert!, debug overflow);
    - [Oob]     : [get_unchecked] with an out-of-range index, i.e. undefined behaviour;
    - [NoFuel]  : the fuel of the model ran out (only for code with unbounded loops). *)
Inductive res (A : Type) : Type :=
| Ok (a : A)
| Panic
| Oob
| NoFuel.
Arguments Ok {A} a.
Arguments Panic {A}.
Arguments Oob {A}.
Arguments NoFuel {A}.

Definition bind {A B} (r : res A) (k : A -> res B) : res B :=
  match r with
  | Ok a => k a
  | Panic => Panic
  | Oob => Oob
  | NoFuel => NoFuel
  end.

Notation "'let*' x := r 'in' k" := (bind r (fun x => k))
  (at level 200, x pattern, r at level 100, k at level 200, right associativity).

(** [Option::unwrap] *)
Definition unwrap {A} (o : option A) : res A :=
  match o with Some a => Ok a | None => Panic end.

(** [u32::MAX]: the marker "outside of the mesh". *)
Definition MAX : N := 4294967295%N.

Definition lengthN {A} (l : list A) : N := N.of_nat (length l).

(** [slice::get] with a [u32 as usize] / [usize] index. *)
Fixpoint nthN {A} (l : list A) (i : N) : option A :=
  match l with
  | [] => None
  | x :: r => if N.eqb i 0 then Some x else nthN r (N.pred i)
  end.

(** [slice\[i\]]: panics when out of range. *)
Definition index {A} (l : list A) (i : N) : res A := unwrap (nthN l i).

(** [slice.get_unchecked(i)]: undefined behaviour when out of range. *)
Definition get_unchecked {A} (l : list A) (i : N) : res A :=
  match nthN l i with Some a => Ok a | None => Oob end.

(** [l\[i\] = f(l\[i\])]; no effect out of range (callers check the range first). *)
Fixpoint updN {A} (l : list A) (i : N) (f : A -> A) : list A :=
  match l with
  | [] => []
  | x :: r => if N.eqb i 0 then f x :: r else x :: updN r (N.pred i) f
  end.

(** [iter().enumerate()] *)
Fixpoint enum_from {A} (i : N) (l : list A) : list (N * A) :=
  match l with
  | [] => []
  | x :: r => (i, x) :: enum_from (N.succ i) r
  end.
Definition enumerate {A} (l : list A) : list (N * A) := enum_from 0 l.

(** [vec.contains(&x)] on u32 *)
Definition memN (x : N) (l : list N) : bool := existsb (N.eqb x) l.

(** monadic map, evaluated left to right *)
Fixpoint mapM {A B} (f : A -> res B) (l : list A) : res (list B) :=
  match l with
  | [] => Ok []
  | x :: r => let* y := f x in let* ys := mapM f r in Ok (y :: ys)
  end.

(** monadic left fold *)
Fixpoint foldM {A S} (f : S -> A -> res S) (s : S) (l : list A) : res S :=
  match l with
  | [] => Ok s
  | x :: r => let* s' := f s x in foldM f s' r
  end.

(** [iter.find(p)] where the predicate may fail. *)
Fixpoint findM {A} (p : A -> res bool) (l : list A) : res (option A) :=
  match l with
  | [] => Ok None
  | x :: r => let* b := p x in if b then Ok (Some x) else findM p r
  end.

(** ** Facts *)

Lemma bind_Ok {A B} (r : res A) (k : A -> res B) b :
  bind r k = Ok b -> exists a, r = Ok a /\ k a = Ok b.
Proof. destruct r; simpl; try discriminate. eauto. Qed.

Lemma unwrap_Ok {A} (o : option A) a : unwrap o = Ok a <-> o = Some a.
Proof. destruct o; simpl; split; intro H; try discriminate; congruence. Qed.

Ltac inv_bind H :=
  let a := fresh "a" in let H1 := fresh "E" in
  apply bind_Ok in H; destruct H as (a & H1 & H).

Lemma nthN_nth_error {A} (l : list A) : forall i, nthN l i = nth_error l (N.to_nat i).
Proof.
  induction l as [|x r IH]; intros i; simpl.
  - destruct (N.to_nat i); reflexivity.
  - destruct (N.eqb_spec i 0) as [->|H]; [reflexivity|].
    rewrite IH. replace (N.to_nat i) with (S (N.to_nat (N.pred i))) by lia. reflexivity.
Qed.

Lemma nthN_of_nat {A} (l : list A) i : nthN l (N.of_nat i) = nth_error l i.
Proof. rewrite nthN_nth_error, Nnat.Nat2N.id. reflexivity. Qed.

Lemma nthN_Some_lt {A} (l : list A) i x : nthN l i = Some x -> (i < lengthN l)%N.
Proof.
  rewrite nthN_nth_error. intro H.
  assert (N.to_nat i < length l) by (apply nth_error_Some; congruence).
  unfold lengthN. lia.
Qed.

Lemma nthN_lt_Some {A} (l : list A) i : (i < lengthN l)%N -> exists x, nthN l i = Some x.
Proof.
  rewrite nthN_nth_error. unfold lengthN. intro H.
  destruct (nth_error l (N.to_nat i)) eqn:E; eauto.
  apply nth_error_None in E. lia.
Qed.

Lemma nthN_None {A} (l : list A) i : nthN l i = None <-> (lengthN l <= i)%N.
Proof.
  rewrite nthN_nth_error, nth_error_None. unfold lengthN. lia.
Qed.

Lemma nthN_In {A} (l : list A) i x : nthN l i = Some x -> In x l.
Proof. rewrite nthN_nth_error. apply nth_error_In. Qed.

Lemma In_nthN {A} (l : list A) x : In x l -> exists i, nthN l i = Some x.
Proof.
  intro H. apply In_nth_error in H. destruct H as [n H].
  exists (N.of_nat n). rewrite nthN_of_nat. exact H.
Qed.

Lemma index_Ok {A} (l : list A) i x : index l i = Ok x <-> nthN l i = Some x.
Proof. apply unwrap_Ok. Qed.

Lemma get_unchecked_Ok {A} (l : list A) i x : get_unchecked l i = Ok x <-> nthN l i = Some x.
Proof. unfold get_unchecked. destruct (nthN l i); split; intro H; try discriminate; congruence. Qed.

Lemma updN_length {A} (f : A -> A) l : forall i, length (updN l i f) = length l.
Proof.
  induction l as [|x r IH]; intros i; simpl; [reflexivity|].
  destruct (N.eqb i 0); simpl; [reflexivity|]. now rewrite IH.
Qed.

Lemma nthN_updN {A} (f : A -> A) l : forall i j,
  nthN (updN l i f) j = if N.eqb i j then option_map f (nthN l j) else nthN l j.
Proof.
  induction l as [|x r IH]; intros i j; simpl.
  - destruct (N.eqb i j); reflexivity.
  - destruct (N.eqb_spec i 0) as [->|Hi]; simpl.
    + destruct (N.eqb_spec j 0) as [->|Hj]; simpl; [reflexivity|].
      destruct j; [lia|reflexivity].
    + destruct (N.eqb_spec j 0) as [->|Hj]; simpl.
      * destruct (N.eqb_spec i 0); [lia|reflexivity].
      * rewrite IH. destruct (N.eqb_spec (N.pred i) (N.pred j)), (N.eqb_spec i j); try reflexivity; lia.
Qed.

Lemma enum_from_spec {A} (l : list A) : forall k i x,
  In (i, x) (enum_from k l) <-> (k <= i)%N /\ nthN l (i - k) = Some x.
Proof.
  induction l as [|y r IH]; intros k i x; simpl.
  - split; [tauto|]. intros [_ H]; discriminate.
  - rewrite IH. split.
    + intros [H|[H1 H2]].
      * inversion H; subst. rewrite N.sub_diag. split; [lia|reflexivity].
      * split; [lia|]. destruct (N.eqb_spec (i - k) 0); [lia|].
        replace (N.pred (i - k)) with (i - N.succ k)%N by lia. exact H2.
    + intros [H1 H2]. destruct (N.eqb_spec (i - k) 0).
      * left. inversion H2; subst. f_equal. lia.
      * right. split; [lia|]. replace (i - N.succ k)%N with (N.pred (i - k)) by lia. exact H2.
Qed.

Lemma enumerate_spec {A} (l : list A) i x : In (i, x) (enumerate l) <-> nthN l i = Some x.
Proof.
  unfold enumerate. rewrite enum_from_spec, N.sub_0_r.
  split; [intros [_ H]; exact H|intro H; split; [lia|exact H]].
Qed.

Lemma enum_from_map_snd {A} (l : list A) : forall k, map snd (enum_from k l) = l.
Proof. induction l; intros; simpl; [reflexivity|]. now rewrite IHl. Qed.

Lemma enum_from_length {A} (l : list A) : forall k, length (enum_from k l) = length l.
Proof. induction l; intros; simpl; [reflexivity|]. now rewrite IHl. Qed.

Lemma memN_In x l : memN x l = true <-> In x l.
Proof.
  unfold memN. rewrite existsb_exists. split.
  - intros (y & H & E). apply N.eqb_eq in E. now subst.
  - intro H. exists x. split; [exact H|]. apply N.eqb_refl.
Qed.

Lemma memN_false x l : memN x l = false <-> ~ In x l.
Proof. rewrite <- memN_In. destruct (memN x l); split; intro H; try congruence; exfalso; auto. Qed.

Lemma mapM_Ok {A B} (f : A -> res B) l : forall ys,
  mapM f l = Ok ys <-> Forall2 (fun x y => f x = Ok y) l ys.
Proof.
  induction l as [|x r IH]; intros ys; simpl.
  - split; [intro H; inversion H; constructor|intro H; inversion H; reflexivity].
  - split.
    + intro H. inv_bind H. inv_bind H. inversion H; subst. constructor; [assumption|].
      now apply IH.
    + intro H. inversion H; subst. rewrite H2. simpl. apply IH in H4. rewrite H4. reflexivity.
Qed.

Lemma mapM_length {A B} (f : A -> res B) l ys : mapM f l = Ok ys -> length ys = length l.
Proof. rewrite mapM_Ok. intro H. induction H; simpl; congruence. Qed.

Lemma findM_Some {A} (p : A -> res bool) l x :
  findM p l = Ok (Some x) ->
  exists l1 l2, l = l1 ++ x :: l2 /\ p x = Ok true /\ (forall y, In y l1 -> p y = Ok false).
Proof.
  induction l as [|y r IH]; simpl; intro H; [discriminate|].
  inv_bind H. destruct a.
  - inversion H; subst. exists [], r. repeat split; auto. intros ? [].
  - destruct (IH H) as (l1 & l2 & -> & Hx & Hl). exists (y :: l1), l2. repeat split; auto.
    intros z [<-|Hz]; auto.
Qed.

Lemma findM_None {A} (p : A -> res bool) l :
  findM p l = Ok None <-> (forall y, In y l -> p y = Ok false).
Proof.
  induction l as [|y r IH]; simpl; split; intro H.
  - intros ? [].
  - reflexivity.
  - inv_bind H. destruct a; [discriminate|]. intros z [<-|Hz]; [assumption|].
    now apply IH.
  - rewrite (H y (or_introl eq_refl)). simpl. apply IH. intros; apply H; now right.
Qed.

Lemma findM_total {A} (p : A -> res bool) l :
  (forall y, In y l -> exists b, p y = Ok b) -> exists o, findM p l = Ok o.
Proof.
  induction l as [|y r IH]; simpl; intro H; [eauto|].
  destruct (H y (or_introl eq_refl)) as [b ->]. simpl. destruct b; eauto.
Qed.

Lemma mapM_total {A B} (f : A -> res B) l :
  (forall y, In y l -> exists b, f y = Ok b) -> exists ys, mapM f l = Ok ys.
Proof.
  induction l as [|y r IH]; simpl; intro H; [eauto|].
  destruct (H y (or_introl eq_refl)) as [b ->]. simpl.
  destruct IH as [ys ->]; [auto|]. simpl. eauto.
Qed.

(** Invariant rule for [foldM]. *)
Lemma foldM_inv {A S} (f : S -> A -> res S) (P : S -> Prop) l : forall s s',
  (forall s x s', In x l -> P s -> f s x = Ok s' -> P s') ->
  P s -> foldM f s l = Ok s' -> P s'.
Proof.
  induction l as [|x r IH]; simpl; intros s s' Hf Hs H.
  - inversion H; subst; assumption.
  - inv_bind H. eapply IH; [| |exact H]; eauto.
Qed.

(** Closed computations: compare both sides with the VM without normalising the type. *)
Ltac vmc := match goal with |- @eq ?T _ ?b => vm_cast_no_check (@eq_refl T b) end.
