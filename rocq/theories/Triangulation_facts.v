(** Facts about the model of Triangulation.v. *)
From Coq Require Import List NArith ZArith Bool Lia.
From Verif Require Import Base Arith U32 Mesh Helpers Locate Cleanup Cleanup_facts Stitch_facts Merger_facts Islands_facts Triangulation.
Import ListNotations.
Open Scope N_scope.

Lemma nthN_updN_same {T} (l : list T) i f x : nthN l i = Some x -> nthN (updN l i f) i = Some (f x).
Proof.
  revert i. induction l as [|y r IH]; intros i H; [discriminate|]. simpl in *.
  destruct (N.eqb_spec i 0) as [E|E].
  - subst i. simpl. congruence.
  - simpl. destruct (N.eqb_spec i 0); [lia|]. now apply IH.
Qed.
Lemma nthN_updN_other {T} (l : list T) i j f : i <> j -> nthN (updN l i f) j = nthN l j.
Proof.
  revert i j. induction l as [|y r IH]; intros i j H; [reflexivity|]. simpl.
  destruct (N.eqb_spec i 0) as [E|E].
  - simpl. destruct (N.eqb_spec j 0); [lia|reflexivity].
  - simpl. destruct (N.eqb_spec j 0); [reflexivity|]. apply IH. lia.
Qed.
Lemma updN_len {T} (l : list T) i f : length (updN l i f) = length l.
Proof.
  revert i. induction l as [|y r IH]; intro i; [reflexivity|]. simpl.
  destruct (N.eqb i 0); simpl; [reflexivity|]. now rewrite IH.
Qed.

Section Facts.
Context {A : Arith}.
Implicit Types (f : Face A).

Definition keep (ok : vec2 A -> bool) (f : Face A) : bool := ok (fcenter f).
Definition face_polygon (f : Face A) : Polygon := mkPolygon (fverts f) false.

(** What the loop over the faces computes, from any point of it. *)
Lemma list_faces_spec (accept : vec2 A -> res bool) (ok : vec2 A -> bool) fs : forall j table ps,
  (forall f, In f fs -> accept (fcenter f) = Ok (ok (fcenter f))) ->
  (forall k f, nthN fs k = Some f -> findex f = j + k + 1) ->
  j + lengthN fs + 1 = lengthN table ->
  lengthN ps + lengthN fs < 2^32 - 1 ->
  exists table',
    foldM (list_face accept) (table, ps) fs = Ok (table', ps ++ map face_polygon (filter (keep ok) fs)) /\
    length table' = length table /\
    (forall k, k <= j -> nthN table' k = nthN table k) /\
    (forall k f, nthN fs k = Some f ->
       nthN table' (j + k + 1) = if keep ok f then Some (lengthN ps + lengthN (filter (keep ok) (firstn (N.to_nat k) fs)))
                                 else nthN table (j + k + 1)).
Proof.
  induction fs as [|f r IH]; intros j table ps HA HI HL HS.
  - exists table. cbn. rewrite app_nil_r. split; [reflexivity|]. split; [reflexivity|]. split; [reflexivity|].
    intros k f H. discriminate H.
  - assert (accept (fcenter f) = Ok (ok (fcenter f))) as EA by (apply HA; now left).
    assert (findex f = j + 1) as EI by (rewrite (HI 0 f eq_refl); lia).
    assert (lengthN (f :: r) = lengthN r + 1) as EL by (unfold lengthN; simpl length; lia).
    set (P := mkPolygon (fverts f) false).
    assert (exists x, nthN table (findex f) = Some x) as [x Hx] by (apply nthN_lt_Some; rewrite EI; lia).
    remember (if ok (fcenter f) then updN table (findex f) (fun _ => lengthN ps) else table) as table1 eqn:E1.
    remember (if ok (fcenter f) then ps ++ [P] else ps) as ps1 eqn:E2.
    assert (list_face accept (table, ps) f = Ok (table1, ps1)) as ES.
    { subst table1 ps1. unfold list_face. rewrite EA. cbn [bind]. destruct (ok (fcenter f)); [|reflexivity].
      rewrite (proj2 (index_Ok table (findex f) x) Hx). cbn [bind].
      destruct (N.leb_spec (2^32 - 1) (lengthN ps)); [lia|reflexivity]. }
    cbn [foldM]. rewrite ES. cbn [bind].
    assert (lengthN table1 = lengthN table) as EL1.
    { subst table1. destruct (ok (fcenter f)); [|reflexivity]. unfold lengthN. now rewrite updN_len. }
    assert (lengthN ps1 <= lengthN ps + 1) as EL2.
    { subst ps1. destruct (ok (fcenter f)); [|lia]. unfold lengthN. rewrite app_length. simpl length. lia. }
    destruct (IH (j + 1) table1 ps1) as (t' & F1 & F2 & F3 & F4).
    + intros g Hg. apply HA. now right.
    + intros k g Hg. rewrite (HI (k + 1) g); [lia|]. simpl.
      destruct (N.eqb_spec (k + 1) 0); [lia|]. now replace (N.pred (k + 1)) with k by lia.
    + rewrite EL1. lia.
    + lia.
    + exists t'. split.
      { rewrite F1. f_equal. f_equal. subst ps1. cbn [filter]. unfold keep at 2. fold P.
        destruct (ok (fcenter f)); [|reflexivity]. cbn [map]. now rewrite <- app_assoc. }
      split; [rewrite F2; unfold lengthN in EL1; lia|]. split.
      { intros k Hk. rewrite F3 by lia. subst table1. destruct (ok (fcenter f)); [|reflexivity].
        apply nthN_updN_other. lia. }
      intros k g Hg. simpl in Hg. destruct (N.eqb_spec k 0) as [Ek|Ek].
      * inversion Hg; subst g k. replace (j + 0 + 1) with (j + 1) by lia.
        rewrite F3 by lia. subst table1. unfold keep at 1. destruct (ok (fcenter f)).
        -- rewrite EI in *. rewrite (nthN_updN_same _ _ _ _ Hx). cbn. f_equal. unfold lengthN. simpl length. lia.
        -- reflexivity.
      * specialize (F4 _ _ Hg). replace (j + 1 + N.pred k + 1) with (j + k + 1) in F4 by lia.
        rewrite F4. destruct (keep ok g).
        -- f_equal. replace (N.to_nat k) with (S (N.to_nat (N.pred k))) by lia. cbn [firstn filter].
           change (keep ok f) with (ok (fcenter f)). subst ps1. destruct (ok (fcenter f)).
           ++ unfold lengthN. rewrite app_length. simpl length. lia.
           ++ reflexivity.
        -- subst table1. destruct (ok (fcenter f)); [|reflexivity]. apply nthN_updN_other. lia.
Qed.

(** The rotation brings the first polygon to the front. *)
Lemma rotate_front_spec l : forall n, (length l <= n)%nat -> (exists x, In x l /\ x <> MAX) ->
  exists a b, l = a ++ b /\ rotate_front n l = Ok (b ++ a) /\ Forall (eq MAX) a /\ hd MAX b <> MAX.
Proof.
  cut (forall a b n, (length b <= n)%nat -> Forall (eq MAX) a -> (exists x, In x b /\ x <> MAX) ->
        exists a' b', b = a' ++ b' /\ rotate_front n (b ++ a) = Ok (b' ++ a ++ a') /\ Forall (eq MAX) a' /\ hd MAX b' <> MAX).
  { intros H n Hn Hx. destruct (H [] l n Hn (Forall_nil _) Hx) as (a & b & E1 & E2 & E3 & E4).
    rewrite app_nil_r in E2. exists a, b. cbn in E2. auto. }
  intros a b. revert a. induction b as [|x r IH]; intros a n Hn Ha (y & Hy & Hm); [destruct Hy|].
  destruct n as [|n]; [simpl in Hn; lia|]. cbn [app rotate_front].
  destruct (N.eqb_spec x MAX) as [E|E].
  - rewrite <- app_assoc. destruct (IH (a ++ [x]) n) as (a' & b' & E1 & E2 & E3 & E4).
    + simpl in Hn. lia.
    + apply Forall_app. split; [exact Ha|]. constructor; [congruence|constructor].
    + exists y. destruct Hy as [->|Hy]; [congruence|auto].
    + exists (x :: a'), b'. split; [now rewrite E1|]. split; [|split; [constructor; congruence|exact E4]].
      rewrite E2. now rewrite <- !app_assoc.
  - exists [], (x :: r). split; [reflexivity|]. split; [|split; [constructor|exact E]]. now rewrite app_nil_r.
Qed.

Lemma site_polygons_spec table around ids :
  mapM (index table) around = Ok ids ->
  (Forall (eq MAX) ids /\ site_polygons table around = Ok [MAX]) \/
  (exists a b, ids = a ++ b /\ site_polygons table around = Ok (dedup (b ++ a)) /\ (exists x, In x ids /\ x <> MAX) /\ hd MAX b <> MAX).
Proof.
  intro E. unfold site_polygons. rewrite E. cbn [bind].
  destruct (forallb (N.eqb MAX) ids) eqn:EF.
  - left. split; [|reflexivity]. apply Forall_forall. intros x Hx. rewrite forallb_forall in EF. now apply N.eqb_eq, EF.
  - right. assert (exists x, In x ids /\ x <> MAX) as Hx.
    { clear E. induction ids as [|x r IH]; [discriminate|]. cbn [forallb] in EF. destruct (N.eqb_spec MAX x) as [E|E].
      - cbn [andb] in EF. destruct (IH EF) as (y & Hy & Hm). exists y. split; [now right|exact Hm].
      - exists x. split; [now left|congruence]. }
    destruct (rotate_front_spec ids (length ids) (le_n _) Hx) as (a & b & E1 & E2 & E3 & E4).
    exists a, b. rewrite E2. cbn [bind]. auto.
Qed.

End Facts.
