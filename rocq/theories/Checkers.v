(** Boolean checkers for the well-formedness predicates of Spec.v, used to show that the hypotheses of the
    theorems are met by concrete meshes. *)
From Coq Require Import List NArith ZArith Bool Lia.
From Verif Require Import Base Arith U32 Mesh Helpers Spec Locate_facts StdLib Search Search_cost.
Import ListNotations.
Open Scope N_scope.

Section Check.
Context {A : Arith}.

Definition mesh_smallb (m : Mesh A) : bool :=
  (lengthN (layers m) <=? 256) && forallb (fun l => lengthN (polygons l) <=? 16777215) (layers m).
Lemma mesh_smallb_ok m : mesh_smallb m = true -> mesh_small m.
Proof.
  unfold mesh_smallb, mesh_small. intro H. apply andb_prop in H. destruct H as [H1 H2].
  apply N.leb_le in H1. split; [assumption|]. intros l Hl. rewrite forallb_forall in H2.
  apply N.leb_le. apply H2. assumption.
Qed.

Definition layer_wfb (l : Layer A) : bool :=
  forallb (fun p => negb (match pverts p with [] => true | _ => false end)
                    && forallb (fun v => v <? lengthN (vertices l)) (pverts p)) (polygons l).
Definition id_wfb (m : Mesh A) (id : N) : bool :=
  match nthN (layers m) (id_layer id) with
  | Some l => match nthN (polygons l) (id_polygon id) with Some _ => true | None => false end
  | None => false
  end.
Definition mesh_wfb (m : Mesh A) : bool :=
  forallb layer_wfb (layers m)
  && forallb (fun l => forallb (fun v => forallb (fun id => N.eqb id MAX || id_wfb m id) (vpolys v)) (vertices l)) (layers m).
Lemma mesh_wfb_ok m : mesh_wfb m = true -> mesh_wf m.
Proof.
  unfold mesh_wfb. intro H. apply andb_prop in H. destruct H as [H1 H2]. split.
  - intros l Hl p Hp. rewrite forallb_forall in H1. specialize (H1 l Hl). unfold layer_wfb in H1.
    rewrite forallb_forall in H1. specialize (H1 p Hp). apply andb_prop in H1. destruct H1 as [H3 H4]. split.
    + destruct (pverts p); [discriminate|discriminate].
    + intros v Hv. rewrite forallb_forall in H4. apply N.ltb_lt. now apply H4.
  - intros l v id Hl Hv Hid Hne. rewrite forallb_forall in H2. specialize (H2 l Hl).
    rewrite forallb_forall in H2. specialize (H2 v Hv). rewrite forallb_forall in H2. specialize (H2 id Hid).
    apply orb_prop in H2. destruct H2 as [H2|H2]; [apply N.eqb_eq in H2; contradiction|].
    unfold id_wfb in H2. destruct (nthN (layers m) (id_layer id)) as [l'|] eqn:E; [|discriminate].
    destruct (nthN (polygons l') (id_polygon id)) as [p|] eqn:E2; [|discriminate]. exists l', p. split; assumption.
Qed.

Definition unbakedb (m : Mesh A) : bool :=
  forallb (fun l => match baked l with None => true | Some _ => false end) (layers m).
Lemma unbakedb_ok m : unbakedb m = true -> unbaked m.
Proof.
  unfold unbakedb, unbaked. rewrite forallb_forall. intros H l Hl. specialize (H l Hl).
  destruct (baked l); [discriminate|reflexivity].
Qed.

Definition no_emptyb (m : Mesh A) : bool :=
  forallb (fun l => forallb (fun p => match pverts p with [] => false | _ => true end) (polygons l)) (layers m).
Lemma no_emptyb_ok m : no_emptyb m = true -> no_empty m.
Proof.
  unfold no_emptyb, no_empty. rewrite forallb_forall. intros H l p Hl Hp. specialize (H l Hl).
  rewrite forallb_forall in H. specialize (H p Hp). destruct (pverts p); [discriminate|congruence].
Qed.

(** the value of a successful computation *)
Definition is_Ok {T} (r : res T) : bool := match r with Ok _ => true | _ => false end.
Lemma is_Ok_ex {T} (r : res T) : is_Ok r = true -> exists t, r = Ok t.
Proof. destruct r; try discriminate. eauto. Qed.
Definition is_Ok_Some {T} (f : T -> bool) (r : res (option T)) : bool :=
  match r with Ok (Some t) => f t | _ => false end.
Lemma is_Ok_Some_ex {T} (f : T -> bool) (r : res (option T)) : is_Ok_Some f r = true ->
  exists t, r = Ok (Some t) /\ f t = true.
Proof. destruct r as [[t|]| | |]; try discriminate. eauto. Qed.

Lemma std_pop_ok : total_ok A -> pop_ok (std_pop (A:=A)).
Proof.
  intros Ht q.
  assert (HO : forall a b : Node A, node_cmp a b = CompOpp (node_cmp b a)).
  { intros a b. destruct Ht as (_ & Ho & _). unfold node_cmp. rewrite (Ho (node_f a)).
    destruct (ftotal (node_f b) (node_f a)); simpl; auto. }
  assert (Htr : forall a b c : Node A, node_cmp a b <> Lt -> node_cmp b c <> Lt -> node_cmp a c <> Lt).
  { intros a b c H1 H2 H3.
    assert (node_cmp c b <> Gt) as G1 by (rewrite HO; destruct (node_cmp b c); simpl; congruence).
    assert (node_cmp b a <> Gt) as G2 by (rewrite HO; destruct (node_cmp a b); simpl; congruence).
    assert (node_cmp c a <> Gt) as G3.
    { eapply node_cmp_trans; eauto. }
    rewrite HO in G3. rewrite H3 in G3. simpl in G3. congruence. }
  pose proof (std_pop_perm (A:=A) q) as HP.
  induction q as [|n r IH]; simpl; [reflexivity|]. simpl in HP.
  pose proof (std_pop_perm (A:=A) r) as HPr. specialize (IH HPr).
  destruct (std_pop r) as [[m r']|] eqn:E.
  - destruct IH as [IH1 IH2]. destruct (node_cmp n m) eqn:EC.
    + split; [reflexivity|]. intros x Hx.
      assert (In x (m :: r')) as [<-|Hx'] by (eapply Permutation.Permutation_in; eauto); [congruence|].
      apply Htr with m; [congruence|now apply IH2].
    + split; [exact HP|]. intros x [<-|Hx]; [|now apply IH2]. rewrite HO, EC. simpl. congruence.
    + split; [reflexivity|]. intros x Hx.
      assert (In x (m :: r')) as [<-|Hx'] by (eapply Permutation.Permutation_in; eauto); [congruence|].
      apply Htr with m; [congruence|now apply IH2].
  - subst r. split; [reflexivity|]. intros x [].
Qed.
End Check.
