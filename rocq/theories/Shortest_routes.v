(** C63: routes (crossings with the points where they are crossed), and the existence of a best one. *)
From Coq Require Import List NArith ZArith Bool Reals Lra Psatz Lia Classical.
From Verif Require Import Base Arith U32 Mesh Helpers Search Spec RealArith Geometry Spec_inside Sight Sight_search Sight_static
  Spec_shortest Shortest_exists.
Import ListNotations.
Open Scope R_scope.

Definition stop : Type := (Crossing * P2)%type.

Fixpoint len (p : P2) (A : list stop) (g : P2) : R :=
  match A with
  | [] => dist p g
  | x :: A => dist p (snd x) + len (snd x) A g
  end.
(** the last point before [g] *)
Fixpoint endp (p : P2) (A : list stop) : P2 := match A with [] => p | x :: A => endp (snd x) A end.

Lemma len_nonneg A : forall p g, 0 <= len p A g.
Proof. induction A as [|x A IH]; intros p g; cbn [len]; [apply dist_nonneg|]. pose proof (dist_nonneg p (snd x)). pose proof (IH (snd x) g). lra. Qed.
Lemma len_ge A : forall p g, dist p g <= len p A g.
Proof. induction A as [|x A IH]; intros p g; cbn [len]; [lra|]. pose proof (dist_triangle p (snd x) g). pose proof (IH (snd x) g). lra. Qed.
Lemma len_left A p q g : len p A g <= dist p q + len q A g.
Proof. destruct A as [|x A]; cbn [len]; [apply dist_triangle|]. pose proof (dist_triangle p q (snd x)). lra. Qed.
Lemma len_right A : forall p g h, len p A h <= len p A g + dist g h.
Proof. induction A as [|x A IH]; intros p g h; cbn [len]; [apply dist_triangle|]. specialize (IH (snd x) g h). lra. Qed.
Lemma len_app A : forall p x B g, len p (A ++ x :: B) g = len p A (snd x) + len (snd x) B g.
Proof. induction A as [|y A IH]; intros p x B g; cbn [len app]; [reflexivity|]. rewrite IH. ring. Qed.
Lemma len_endp A : forall p g, len p A g = len p A (endp p A) + dist (endp p A) g.
Proof. induction A as [|y A IH]; intros p g; cbn [len endp]; [rewrite dist_refl; ring|]. rewrite (IH (snd y) g). ring. Qed.
Lemma len_app2 A : forall p B g, len p (A ++ B) g = len p A (endp p A) + len (endp p A) B g.
Proof. induction A as [|y A IH]; intros p B g; cbn [len endp app]; [rewrite dist_refl; ring|]. rewrite (IH (snd y)). ring. Qed.
Lemma endp_app A : forall p B, endp p (A ++ B) = endp (endp p A) B.
Proof. induction A as [|y A IH]; intros p B; cbn [endp app]; auto. Qed.
Lemma endp_snoc A p x : endp p (A ++ [x]) = snd x.
Proof. rewrite endp_app. reflexivity. Qed.
(** a detour *)
Lemma len_cut A B C p g : len p (A ++ C) g <= len p (A ++ B ++ C) g.
Proof.
  rewrite !len_app2. set (q := endp p A). pose proof (len_left C q (endp q B) g). pose proof (len_ge B q (endp q B)). lra.
Qed.

Lemma ends_fun (m : Mesh RA) x a b a' b' : ends m x a b -> ends m x a' b' -> a = a' /\ b = b'.
Proof.
  intros (l & p & HP & Ha & Hb) (l' & p' & HP' & Ha' & Hb'). assert (l' = l) by (destruct HP, HP'; congruence). subst l'.
  split; eapply at_world_fun; eauto.
Qed.

Section Routes.
Context (m : Mesh RA) (blocked : list N).

Inductive links : N -> list stop -> N -> Prop :=
| links_nil P : links P [] P
| links_cons c y A Q : open_crossing m blocked c -> on_edge m c y -> links (cr_to c) A Q -> links (cr_from c) ((c, y) :: A) Q.

Lemma links_nil_inv P Q : links P [] Q -> P = Q.
Proof using. intro H. inversion H; auto. Qed.
Lemma links_cons_inv P c y A Q : links P ((c, y) :: A) Q -> P = cr_from c /\ open_crossing m blocked c /\ on_edge m c y /\ links (cr_to c) A Q.
Proof using. intro H. inversion H; subst. auto. Qed.
Lemma links_app P A Q B S : links P A Q -> links Q B S -> links P (A ++ B) S.
Proof using. induction 1; intro HB; cbn [app]; [exact HB|]. constructor; auto. Qed.
Lemma links_split A : forall P B S, links P (A ++ B) S -> exists Q, links P A Q /\ links Q B S.
Proof using.
  induction A as [|[c y] A IH]; intros P B S H; cbn [app] in H.
  - exists P. split; [constructor|exact H].
  - inversion H; subst. destruct (IH _ _ _ H7) as (Q & H1 & H2). exists Q. split; [now constructor|exact H2].
Qed.
Lemma links_fun P A Q Q' : links P A Q -> links P A Q' -> Q = Q'.
Proof using. intro H. revert Q'. induction H; intros Q' H'; inversion H'; subst; auto. Qed.
Lemma links_snoc P A c y : links P A (cr_from c) -> open_crossing m blocked c -> on_edge m c y -> links P (A ++ [(c, y)]) (cr_to c).
Proof using. intros H H1 H2. eapply links_app; [exact H|]. constructor; auto. constructor. Qed.
Lemma links_snoc_inv P A x Q : links P (A ++ [x]) Q -> links P A (cr_from (fst x)) /\ open_crossing m blocked (fst x) /\ on_edge m (fst x) (snd x) /\ cr_to (fst x) = Q.
Proof using.
  intro H. destruct (links_split _ _ _ _ H) as (S & H1 & H2). inversion H2; subst. match goal with H : links (cr_to _) [] _ |- _ => inversion H; subst end. auto.
Qed.
(** the polygons of a route *)
Definition polys (P : N) (A : list stop) : list N := P :: map (fun x => cr_to (fst x)) A.
Lemma polys_app P A B Q : links P A Q -> polys P (A ++ B) = polys P A ++ map (fun x => cr_to (fst x)) B.
Proof using. intros _. unfold polys. rewrite map_app. reflexivity. Qed.
Lemma links_last P A Q : links P A Q -> In Q (polys P A).
Proof using. induction 1; [now left|]. cbn. destruct IHlinks as [<-|H2]; [right; now left|right; right; exact H2]. Qed.
Lemma links_in P A Q S : links P A Q -> In S (polys P A) -> exists B C, A = B ++ C /\ links P B S /\ links S C Q.
Proof using.
  induction 1 as [P|c y A Q H1 H2 H IH]; intros HS.
  - destruct HS as [<-|[]]. exists [], []. split; [reflexivity|split; constructor].
  - destruct HS as [<-|HS].
    + exists [], ((c, y) :: A). split; [reflexivity|]. split; [constructor|now constructor].
    + destruct (IH HS) as (B & C & -> & HB & HC). exists ((c, y) :: B), C. split; [reflexivity|]. split; [now constructor|exact HC].
Qed.
(** A route that meets a polygon twice has a shorter one. *)
Lemma links_shortcut P A Q : links P A Q -> ~ NoDup (polys P A) ->
  exists B, links P B Q /\ (length B < length A)%nat /\ forall p g, len p B g <= len p A g.
Proof using.
  induction 1 as [P|c y A Q H1 H2 H IH]; intro HN.
  - exfalso. apply HN. repeat constructor. intros [].
  - destruct (classic (In (cr_from c) (polys (cr_to c) A))) as [Hin|Hin].
    + destruct (links_in _ _ _ _ H Hin) as (B & C & EA & HB & HC). subst A. exists C. split; [exact HC|].
      split; [cbn; rewrite app_length; lia|]. intros p g. exact (len_cut [] ((c, y) :: B) C p g).
    + destruct IH as (B & HB & HL & HB2).
      * intro HN2. apply HN. constructor; assumption.
      * exists ((c, y) :: B). split; [now constructor|]. split; [cbn; lia|]. intros p g. cbn [len snd]. pose proof (HB2 y g). lra.
Qed.
Lemma links_simple n : forall P A Q, (length A <= n)%nat -> links P A Q -> exists B, links P B Q /\ NoDup (polys P B) /\ (forall p g, len p B g <= len p A g).
Proof using.
  induction n as [|n IH]; intros P A Q Hn H.
  - destruct A; [|cbn in Hn; lia]. exists []. split; [exact H|]. split; [repeat constructor; intros []|intros; lra].
  - destruct (classic (NoDup (polys P A))) as [HD|HD]; [exists A; split; [exact H|]; split; [exact HD|intros; lra]|].
    destruct (links_shortcut _ _ _ H HD) as (B & HB & HL & HB2). destruct (IH P B Q ltac:(lia) HB) as (C & HC & HC1 & HC2).
    exists C. split; [exact HC|]. split; [exact HC1|]. intros p g. eapply Rle_trans; eauto.
Qed.

(** ** Ways are routes *)
Lemma way_links P x Q y L : way m blocked P x Q y L -> exists A, links P A Q /\ len x A y <= L.
Proof using.
  induction 1 as [P qs x Hc Hi|P x Q y L qs z HW (A & HA & HL) Hc Hi|P x c y L HW (A & HA & HL) Ho He].
  - exists []. split; [constructor|]. cbn [len]. rewrite dist_refl. lra.
  - exists A. split; [exact HA|]. pose proof (len_right A x y z). lra.
  - exists (A ++ [(c, y)]). split; [now apply links_snoc|]. rewrite len_app. cbn [snd len]. rewrite dist_refl. lra.
Qed.

(** ** Finitely many chains of polygons *)
Definition bounded (B : N) (x : Crossing) : Prop := (cr_from x < B /\ cr_to x < B /\ cr_a x < B /\ cr_b x < B)%N.
Lemma below_list B : exists X : list N, forall k, (k < B)%N -> In k X.
Proof using.
  exists (map N.of_nat (seq 0 (N.to_nat B))). intros k Hk. apply in_map_iff. exists (N.to_nat k). split; [lia|]. apply in_seq. lia.
Qed.
Lemma crossings_list B : exists X : list Crossing, forall x, bounded B x -> In x X.
Proof using.
  destruct (below_list B) as [L HL].
  exists (flat_map (fun f => flat_map (fun a => flat_map (fun b => map (fun t => mkCross f a b t) L) L) L) L).
  intros [f a b t] (H1 & H2 & H3 & H4). cbn [cr_from cr_to cr_a cr_b] in *.
  apply in_flat_map. exists f. split; [auto|]. apply in_flat_map. exists a. split; [auto|]. apply in_flat_map. exists b. split; [auto|].
  apply in_map. auto.
Qed.
Lemma lists_list {T} (X : list T) n : exists Y : list (list T), forall l, (length l <= n)%nat -> (forall x, In x l -> In x X) -> In l Y.
Proof using.
  induction n as [|n [Y HY]].
  - exists [[]]. intros [|x l] H _; [now left|cbn in H; lia].
  - exists ([] :: flat_map (fun x => map (cons x) Y) X). intros [|x l] H HX; [now left|]. right. apply in_flat_map. exists x.
    split; [apply HX; now left|]. apply in_map. apply HY; [cbn in H; lia|]. intros y Hy. apply HX. now right.
Qed.
Lemma crossing_bounded : u32_ids m -> exists B, (2 ^ 32 <= B)%N /\ forall x, u32_crossing m x -> bounded B x.
Proof using.
  intro HU. exists (2 ^ 32 + fold_right (fun l k => lengthN (vertices l) + k) 0 (layers m))%N. split; [lia|].
  intros x ((l & p & va & vb & HP & HB & Ha & Hb & Ta & Tb & _) & Hf).
  assert (Hl : In l (layers m)) by (destruct HP as [HP _]; eapply nthN_In; eauto).
  assert (Hlen : (lengthN (vertices l) <= fold_right (fun l k => lengthN (vertices l) + k) 0 (layers m))%N).
  { clear - Hl. induction (layers m) as [|l' ls IH]; [destruct Hl|]. cbn [fold_right]. destruct Hl as [->|Hl]; [lia|]. specialize (IH Hl). lia. }
  pose proof (nthN_Some_lt _ _ _ Ha). pose proof (nthN_Some_lt _ _ _ Hb).
  assert (cr_to x < 2 ^ 32)%N by (apply (HU l va); [exact Hl|eapply nthN_In; eauto|exact Ta]).
  unfold bounded. lia.
Qed.
Lemma links_bounded P A Q : links P A Q -> Forall (fun x => u32_crossing m (fst x)) A.
Proof using. induction 1; constructor; auto. apply H. Qed.

(** ** The best points for a chain *)
Lemma on_edge_params (cs : list Crossing) : (forall c, In c cs -> exists y, on_edge m c y) ->
  exists es, length es = length cs /\
    (forall A, map fst A = cs -> Forall (fun x => on_edge m (fst x) (snd x)) A ->
       exists ts, params es ts /\ forall p g, len p A g = plen_through p es ts g) /\
    (forall ts, params es ts -> exists A, map fst A = cs /\ Forall (fun x => on_edge m (fst x) (snd x)) A /\ forall p g, len p A g = plen_through p es ts g).
Proof using.
  induction cs as [|c cs IH]; intro H.
  - exists []. split; [reflexivity|]. split.
    + intros A E _. destruct A; [|discriminate]. exists []. split; [split; [reflexivity|constructor]|reflexivity].
    + intros ts [E _]. exists []. destruct ts; [|discriminate]. split; [reflexivity|]. split; [constructor|reflexivity].
  - destruct IH as (es & E1 & E2 & E3); [intros; apply H; now right|].
    destruct (H c (or_introl eq_refl)) as (y0 & a & b & t0 & HP & Ht & Ey).
    exists ((a, b) :: es). split; [cbn; now rewrite E1|]. split.
    + intros A EA HF. destruct A as [|[c' y] A]; [discriminate|]. injection EA as -> EA. inversion HF; subst. cbn [fst snd] in *.
      destruct H2 as (a' & b' & t & HP' & Ht' & ->). destruct (ends_fun _ _ _ _ _ _ HP HP') as [<- <-].
      destruct (E2 A eq_refl H3) as (ts & (T1 & T2) & T3). exists (t :: ts). split; [split; [cbn; now rewrite T1|now constructor]|].
      intros q g. cbn [len plen_through snd]. now rewrite T3.
    + intros ts [T1 T2]. destruct ts as [|t ts]; [discriminate|]. inversion T2; subst.
      destruct (E3 ts) as (A & A1 & A2 & A3); [split; [now injection T1|assumption]|].
      exists ((c, lerp a b t) :: A). split; [cbn; now rewrite A1|]. split.
      * constructor; [|assumption]. cbn [fst snd]. exists a, b, t. auto 10.
      * intros q g. cbn [len plen_through snd]. now rewrite A3.
Qed.
Lemma links_points P A Q : links P A Q -> Forall (fun x => on_edge m (fst x) (snd x)) A.
Proof using. induction 1; constructor; auto. Qed.
Lemma links_move P A Q : links P A Q -> forall B, map fst B = map fst A -> Forall (fun x => on_edge m (fst x) (snd x)) B -> links P B Q.
Proof using.
  induction 1 as [P|c y A Q H1 H2 H IH]; intros B EB HF.
  - destruct B; [constructor|discriminate].
  - destruct B as [|[c' y'] B]; [discriminate|]. injection EB as -> EB. inversion HF; subst. constructor; auto.
Qed.
Lemma best_points P A Q p g : links P A Q -> exists B, map fst B = map fst A /\ links P B Q /\
  forall C, map fst C = map fst A -> links P C Q -> len p B g <= len p C g.
Proof using.
  intro H. destruct (on_edge_params (map fst A)) as (es & E1 & E2 & E3).
  { intros c Hc. apply in_map_iff in Hc. destruct Hc as ([c' y] & <- & Hc). pose proof (links_points _ _ _ H) as HF. rewrite Forall_forall in HF.
    exists y. exact (HF _ Hc). }
  destruct (shortest_exists p g es) as (ts & T1 & T2). destruct (E3 ts T1) as (B & B1 & B2 & B3). exists B. split; [exact B1|].
  split; [eapply links_move; eauto|]. intros C HC1 HC2. destruct (E2 C HC1 (links_points _ _ _ HC2)) as (ts' & T3 & T4). rewrite B3, T4. now apply T2.
Qed.

(** ** The best route: a shortest one, with as few crossings as possible *)
Definition shortest (ps pe : N) (start goal : P2) (A : list stop) : Prop :=
  links ps A pe /\ forall B, links ps B pe -> len start A goal <= len start B goal.
Definition best (ps pe : N) (start goal : P2) (A : list stop) : Prop :=
  shortest ps pe start goal A /\ forall B, shortest ps pe start goal B -> (length A <= length B)%nat.

Lemma best_in_list ps pe start goal (Y : list (list Crossing)) :
  (exists A, links ps A pe /\ In (map fst A) Y) ->
  exists A, links ps A pe /\ In (map fst A) Y /\ forall B, links ps B pe -> In (map fst B) Y -> len start A goal <= len start B goal.
Proof using.
  induction Y as [|cs Y IH]; intros (A & HA & HY); [destruct HY|].
  assert (Here : (exists A, links ps A pe /\ map fst A = cs) -> exists A, links ps A pe /\ map fst A = cs /\ forall B, links ps B pe -> map fst B = cs -> len start A goal <= len start B goal).
  { intros (A' & HA' & E). destruct (best_points _ _ _ start goal HA') as (B & B1 & B2 & B3). exists B. split; [exact B2|]. split; [congruence|].
    intros C HC EC. apply B3; [congruence|exact HC]. }
  destruct (classic (exists A, links ps A pe /\ map fst A = cs)) as [E1|E1]; destruct (classic (exists A, links ps A pe /\ In (map fst A) Y)) as [E2|E2].
  - destruct (Here E1) as (B & B1 & B2 & B3). destruct (IH E2) as (C & C1 & C2 & C3).
    destruct (Rle_dec (len start B goal) (len start C goal)) as [L|L].
    + exists B. split; [exact B1|]. split; [now left|]. intros D HD [ED|ED]; [now apply B3|]. specialize (C3 D HD ED). lra.
    + exists C. split; [exact C1|]. split; [now right|]. intros D HD [ED|ED]; [specialize (B3 D HD (eq_sym ED)); lra|now apply C3].
  - destruct (Here E1) as (B & B1 & B2 & B3). exists B. split; [exact B1|]. split; [now left|]. intros D HD [ED|ED]; [now apply B3|].
    exfalso. eauto.
  - destruct (IH E2) as (C & C1 & C2 & C3). exists C. split; [exact C1|]. split; [now right|]. intros D HD [ED|ED]; [exfalso; eauto|now apply C3].
  - exfalso. destruct HY as [HY|HY]; eauto.
Qed.
Lemma shortest_route ps pe start goal : u32_ids m -> (ps < 2 ^ 32)%N -> (exists A, links ps A pe) -> exists A, shortest ps pe start goal A.
Proof using.
  intros HU HP (A0 & HA0). destruct (crossing_bounded HU) as (K & HK & HB). destruct (crossings_list K) as [X HX].
  destruct (lists_list X (N.to_nat K)) as [Y HY].
  assert (Short : forall A, links ps A pe -> exists B, links ps B pe /\ In (map fst B) Y /\ len start B goal <= len start A goal).
  { intros A HA. destruct (links_simple (length A) ps A pe (le_n _) HA) as (B & B1 & B2 & B3). exists B. split; [exact B1|]. split; [|apply B3].
    assert (HF : forall x, In x (map fst B) -> bounded K x).
    { intros x Hx. apply in_map_iff in Hx. destruct Hx as (s & <- & Hs). apply HB. pose proof (links_bounded _ _ _ B1) as F. rewrite Forall_forall in F. now apply F. }
    apply HY; [|intros x Hx; apply HX; auto]. rewrite map_length.
    destruct (below_list K) as [Z HZ]. assert (length (polys ps B) <= length (map N.of_nat (seq 0 (N.to_nat K))))%nat as Q.
    { apply NoDup_incl_length; [exact B2|]. intros k Hk. apply in_map_iff. exists (N.to_nat k).
      assert (k < K)%N; [|split; [lia|apply in_seq; lia]]. destruct Hk as [<-|Hk]; [lia|]. apply in_map_iff in Hk. destruct Hk as (s & <- & Hs).
      apply HF. apply in_map_iff. eauto. }
    rewrite map_length, seq_length in Q. unfold polys in Q. cbn [length] in Q. rewrite map_length in Q. lia. }
  destruct (best_in_list ps pe start goal Y) as (A & A1 & A2 & A3).
  { destruct (Short A0 HA0) as (B & B1 & B2 & _). eauto. }
  exists A. split; [exact A1|]. intros B HB2. destruct (Short B HB2) as (C & C1 & C2 & C3). specialize (A3 C C1 C2). lra.
Qed.
Lemma least_length (Pr : list stop -> Prop) n : forall A, Pr A -> (length A <= n)%nat -> exists B, Pr B /\ forall C, Pr C -> (length B <= length C)%nat.
Proof using.
  induction n as [|n IH]; intros A HA Hn.
  - exists A. split; [exact HA|]. intros C _. lia.
  - destruct (classic (exists C, Pr C /\ (length C < length A)%nat)) as [(C & HC & HL)|HN]; [apply (IH C HC); lia|].
    exists A. split; [exact HA|]. intros C HC. destruct (le_lt_dec (length A) (length C)); [assumption|exfalso; eauto].
Qed.
Lemma best_exists ps pe start goal : u32_ids m -> (ps < 2 ^ 32)%N -> (exists A, links ps A pe) -> exists A, best ps pe start goal A.
Proof using.
  intros HU HP HE. destruct (shortest_route ps pe start goal HU HP HE) as (A & HA).
  destruct (least_length (shortest ps pe start goal) (length A) A HA (le_n _)) as (B & B1 & B2). exists B. split; assumption.
Qed.
Lemma best_simple ps pe start goal A : best ps pe start goal A -> NoDup (polys ps A).
Proof using.
  intros [[H1 H2] H3]. destruct (classic (NoDup (polys ps A))) as [H|H]; [exact H|exfalso].
  destruct (links_shortcut _ _ _ H1 H) as (B & B1 & B2 & B3). assert (shortest ps pe start goal B) as HS.
  { split; [exact B1|]. intros C HC. specialize (H2 C HC). specialize (B3 start goal). lra. }
  specialize (H3 B HS). lia.
Qed.
(** another best one *)
Lemma best_other ps pe start goal A B : best ps pe start goal A -> links ps B pe -> len start B goal <= len start A goal -> (length B <= length A)%nat ->
  best ps pe start goal B /\ len start B goal = len start A goal.
Proof using.
  intros [[H1 H2] H3] HB HL Hn. pose proof (H2 B HB). split; [|lra]. split.
  - split; [exact HB|]. intros C HC. specialize (H2 C HC). lra.
  - intros C HC. specialize (H3 C HC). lia.
Qed.
End Routes.
