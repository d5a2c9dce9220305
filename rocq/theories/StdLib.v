(** A concrete instance of the library oracles, used in examples, tests and refutations, and the
    specifications that theorems assume about the oracles. *)
From Coq Require Import List NArith ZArith Bool Permutation Lia.
From Verif Require Import Base Arith U32 Mesh Helpers Locate Search.
Import ListNotations.
Open Scope N_scope.

Section StdLib.
Context {A : Arith}.

(** bvh2d's AABB::contains: inclusive on both sides *)
Definition box_contains (b : vec2 A * vec2 A) (p : vec2 A) : bool :=
  fle (vx (fst b)) (vx p) && fle (vx p) (vx (snd b))
  && fle (vy (fst b)) (vy p) && fle (vy p) (vy (snd b)).

(** What the polygon finder must do: return every box containing the point, and only existing indices. *)
Definition bvh_ok (bvh : list (vec2 A * vec2 A) -> vec2 A -> list N) : Prop :=
  forall boxes p,
    (forall i b, nthN boxes i = Some b -> box_contains b p = true -> In i (bvh boxes p)) /\
    (forall i, In i (bvh boxes p) -> i < lengthN boxes).

(** What BinaryHeap::pop must do: take out some greatest element. *)
Definition pop_ok (pop : list (Node A) -> option (Node A * list (Node A))) : Prop :=
  forall q,
    match pop q with
    | None => q = []
    | Some (n, q') => Permutation q (n :: q') /\ forall m, In m q' -> node_cmp n m <> Lt
    end.

(** The part of it that holds of any container, ordered or not *)
Definition pop_perm (pop : list (Node A) -> option (Node A * list (Node A))) : Prop :=
  forall q,
    match pop q with
    | None => q = []
    | Some (n, q') => Permutation q (n :: q')
    end.

Lemma pop_ok_perm pop : pop_ok pop -> pop_perm pop.
Proof. intros H q. specialize (H q). destruct (pop q) as [[n q']|]; tauto. Qed.

(** exact query, by a linear scan *)
Definition std_bvh (boxes : list (vec2 A * vec2 A)) (p : vec2 A) : list N :=
  map fst (filter (fun ib => box_contains (snd ib) p) (enumerate boxes)).

(** pop the first greatest element *)
Fixpoint std_pop (q : list (Node A)) : option (Node A * list (Node A)) :=
  match q with
  | [] => None
  | n :: r =>
      match std_pop r with
      | None => Some (n, r)
      | Some (m, r') =>
          match node_cmp n m with
          | Lt => Some (m, n :: r')
          | _ => Some (n, r)
          end
      end
  end.

Definition std_lib : Lib A := mkLib std_bvh std_pop.

Lemma std_bvh_ok : bvh_ok std_bvh.
Proof.
  intros boxes p. split.
  - intros i b H1 H2. unfold std_bvh. apply in_map_iff. exists (i, b). split; [reflexivity|].
    apply filter_In. split; [|exact H2]. now apply enumerate_spec.
  - intros i H. unfold std_bvh in H. apply in_map_iff in H. destruct H as [[j b] [<- H]].
    apply filter_In in H. destruct H as [H _]. apply enumerate_spec in H. simpl.
    eapply nthN_Some_lt; eauto.
Qed.

Lemma std_pop_perm : pop_perm std_pop.
Proof.
  intro q. induction q as [|n r IH]; simpl; [reflexivity|].
  destruct (std_pop r) as [[m r']|].
  - destruct (node_cmp n m); try apply Permutation_refl.
    rewrite IH. apply perm_swap.
  - subst. apply Permutation_refl.
Qed.

(** the order of f32::total_cmp *)
Definition total_ok : Prop :=
  (forall x : F A, ftotal x x = Eq) /\
  (forall x y : F A, ftotal x y = CompOpp (ftotal y x)) /\
  (forall x y z : F A, ftotal x y <> Gt -> ftotal y z <> Gt -> ftotal x z <> Gt).

End StdLib.
Arguments total_ok A : clear implicits.
