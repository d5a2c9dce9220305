(** C93: the answers of the searches of the feature detailed-layers do not depend on the numbers of the vertices; with all scales one
    they do not depend on where the mesh is. *)
From Coq Require Import List NArith ZArith Bool Lia Reals Lra.
From Verif Require Import Base Arith Bake_facts U32 Mesh Helpers Locate Search AsyncPath Cleanup StdLib RealArith Detailed Spec Spec_alike Search_facts Detailed_sim Cleanup_facts Alike Alike_locate Tests_detailed Properties_cleanup Properties_merge Properties_alike Detailed_alike Properties_detailed.
Import ListNotations.
Open Scope N_scope.

Lemma std_dpop_blind {A} : dpop_blind (@std_dpop A).
Proof.
  intros R HR q q' H. induction H as [|n n' q q' Hn H IH]; cbn [std_dpop]; [exact I|].
  destruct (std_dpop q) as [[a r]|], (std_dpop q') as [[a' r']|]; try contradiction.
  - destruct IH as [Ha Hr]. assert (E : node_cmp (dnode n') (dnode a') = node_cmp (dnode n) (dnode a)).
    { destruct (HR _ _ Hn) as [E1 E2], (HR _ _ Ha) as [E3 E4]. unfold node_cmp, node_f. now rewrite E1, E2, E3, E4. }
    rewrite E. destruct (node_cmp (dnode n) (dnode a)); split; auto; now constructor.
  - auto.
Qed.

Section Any.
Context {A : Arith}.
Implicit Types (m : Mesh A).

(** Every detailed search, blocking or polled, gives the same on the two meshes: path, length, and list of points with their layers. *)
Record same_detailed_answers (lib : DLib A) (m m' : Mesh A) : Prop := {
  sd_path : forall scales from to blocked, dpath_on_layers lib m' scales from to blocked = dpath_on_layers lib m scales from to blocked;
  sd_future : forall k scales from to, dget_path k lib m' scales from to = dget_path k lib m scales from to
}.

Lemma id_dpath (p : DPath A) : dpath_moved (fun x => x) p = p.
Proof. destruct p as [n p l]. unfold dpath_moved. cbn [dlength dpath dlayers]. rewrite map_id. f_equal. induction l as [|[a b] r IH]; [reflexivity|]. cbn [map label_moved fst snd]. now rewrite IH. Qed.
Lemma id_dmotion scales : dmotion (fun x : vec2 A => x) scales. Proof. constructor; intros; reflexivity. Qed.
Lemma same_detailed_alike lib m m' : mesh_alike (fun x => x) m m' -> Forall2 (layer_queries (dlib_lib lib) (fun x => x)) (layers m) (layers m') ->
  search_delta m' = search_delta m -> search_steps m' = search_steps m -> verts_small m -> verts_small m' -> dpop_blind (dpop lib) -> same_detailed_answers lib m m'.
Proof.
  intros HM HQ HD HT HV HV' HP. constructor.
  - intros scales from to blocked. rewrite <- (id_coords from) at 1. rewrite <- (id_coords to) at 1.
    rewrite (dpath_alike lib _ m m' scales id_motion (id_dmotion scales) HM HV HV' HP HQ HD HT from to blocked). apply bind_id. intro. apply id_option. apply id_dpath.
  - intros k scales from to. pose proof (dget_alike lib _ m m' scales id_motion (id_dmotion scales) HM HV HV' HP HQ HD HT k from to) as E. cbv beta in E. rewrite E.
    apply bind_id. intro. apply id_option. intro. apply id_option. apply id_dpath.
Qed.
Lemma vertices_left (l l' : Layer A) b : lengthN (vertices l) < 2^32 -> consistent l -> layer_remove_useless l = Ok (l', b) -> lengthN (vertices l') <= lengthN (vertices l).
Proof. intros H1 H2 E. destruct (C33_remove_useless l H1 H2) as (l1 & b1 & E1 & Ev & _). assert (l1 = l') by congruence. subst l1. rewrite Ev. unfold lengthN. pose proof (Bake_facts.filter_len (fun v => negb (useless v)) (vertices l)). lia. Qed.


Lemma removed_alike lib m m' b : (forall l, In l (layers m) -> lengthN (vertices l) <= 2^24 /\ consistent l) -> mesh_remove_useless m = Ok (m', b) ->
  Forall2 (fun l l' => (layer_alike (fun x => x) l l' /\ layer_queries (dlib_lib lib) (fun x => x) l l') /\ lengthN (vertices l') <= 2^24) (layers m) (layers m') /\
  search_delta m' = search_delta m /\ search_steps m' = search_steps m.
Proof.
  intros HL H. unfold mesh_remove_useless in H. inv_bind H. destruct a as [ls' b']. cbn [fst snd] in H. inversion H; subst m' b'. clear H. cbn [layers search_delta search_steps]. split; [|split; reflexivity].
  revert ls' b E. induction (layers m) as [|l r IH]; intros ls' b E; cbn [until_true] in E; [injection E as <- <-; constructor|].
  inv_bind E. destruct a as [l1 b1]. cbn [fst snd] in E. destruct (HL l (or_introl eq_refl)) as [H0 H2].
  assert (H1 : lengthN (vertices l) < 2^32) by (change (2^24) with 16777216 in H0; change (2^32) with 4294967296; lia).
  pose proof (vertices_left l l1 b1 H1 H2 E0) as Hle. destruct b1.
  - injection E as <- <-. constructor; [split; [exact (remove_alike (dlib_lib lib) l l1 true H1 H2 E0)|exact (N.le_trans _ _ _ Hle H0)]|].
    assert (HR : forall q, In q r -> lengthN (vertices q) <= 2^24 /\ consistent q) by (intros q Hq; apply (HL q); now right).
    clear -HR. induction r as [|q r IH]; constructor; [|apply IH; intros x Hx; apply HR; now right]. split; [|exact (proj1 (HR q (or_introl eq_refl)))].
    apply self_alike. intros p Hp i Hi. destruct (proj2 (HR q (or_introl eq_refl)) p i Hp Hi) as (v & V & _). exact (nthN_Some_lt _ _ _ V).
  - inv_bind E. destruct a as [r' b2]. injection E as <- <-. constructor; [split; [exact (remove_alike (dlib_lib lib) l l1 false H1 H2 E0)|exact (N.le_trans _ _ _ Hle H0)]|].
    apply (IH ltac:(intros; apply HL; now right) _ _ E1).
Qed.
Lemma removed_small m m' b : (forall l, In l (layers m) -> lengthN (vertices l) <= 2^24 /\ consistent l) -> mesh_remove_useless m = Ok (m', b) ->
  forall l, In l (layers m') -> lengthN (vertices l) <= 2^24 /\ consistent l.
Proof.
  intros HL H l Hl. pose proof (removed_alike (mkDLib (fun _ _ => []) (fun _ => None)) m m' b HL H) as (G & _). destruct (In_nthN _ _ Hl) as [k Hk]; destruct (Forall2_nthN_r _ _ _ G _ _ Hk) as (l0 & _ & _ & H2). split; [exact H2|].
  assert (HL' : forall l, In l (layers m) -> lengthN (vertices l) < 2^32 /\ consistent l).
  { intros q Hq. destruct (HL q Hq) as [H3 H4]. split; [change (2^24) with 16777216 in H3; change (2^32) with 4294967296; lia|exact H4]. }
  destruct (until_true_ok (layers m) HL') as (ls' & b1 & E & I1 & _). unfold mesh_remove_useless in H. rewrite E in H. cbn [bind fst snd] in H. inversion H; subst m'. exact (proj2 (I1 l Hl)).
Qed.

(** Removing the unused vertices changes no answer of the detailed search. *)
Theorem C93_remove_useless_same_detailed_answers lib m m' b : dpop_blind (dpop lib) ->
  (forall l, In l (layers m) -> lengthN (vertices l) <= 2^24 /\ consistent l) ->
  mesh_remove_useless m = Ok (m', b) -> same_detailed_answers lib m m'.
Proof.
  intros HP HL H. destruct (removed_alike lib m m' b HL H) as (G & E1 & E2). apply same_detailed_alike; auto.
  - eapply Forall2_weaken; [|exact G]. intros l l' [[H1 _] _]. exact H1.
  - eapply Forall2_weaken; [|exact G]. intros l l' [[_ H2] _]. exact H2.
  - intros l Hl. exact (proj1 (HL l Hl)).
  - intros l Hl. exact (proj1 (removed_small m m' b HL H l Hl)).
Qed.
Lemma same_detailed_trans lib m1 m2 m3 : same_detailed_answers lib m1 m2 -> same_detailed_answers lib m2 m3 -> same_detailed_answers lib m1 m3.
Proof. intros [A1 A2] [B1 B2]. constructor; intros; [now rewrite B1|now rewrite B2]. Qed.
(** Neither does repeating it until nothing is left to remove. *)
Theorem C93_repeated_same_detailed_answers lib m m' : dpop_blind (dpop lib) ->
  (forall l, In l (layers m) -> lengthN (vertices l) <= 2^24 /\ consistent l) ->
  repeated m m' -> same_detailed_answers lib m m'.
Proof.
  intros HP HL H. induction H as [m m' H|m m1 m' H _ IH]; [exact (C93_remove_useless_same_detailed_answers lib m m' false HP HL H)|].
  apply (same_detailed_trans lib m m1 m'); [exact (C93_remove_useless_same_detailed_answers lib m m1 true HP HL H)|]. apply IH. exact (removed_small m m1 true HL H).
Qed.
End Any.

(** ** Moving the mesh *)
(** the list of points with their layers, moved *)
Definition dpath_shift {A : Arith} (t : vec2 A) (p : DPath A) : DPath A :=
  mkDPath (dlength p) (map (fun x => vadd x t) (dpath p)) (map (fun x => (vadd (fst x) t, snd x)) (dlayers p)).
Definition one_scale : vec2 RA := vp (P 1 1).

Lemma scale_one (a : vec2 RA) : vmulv a one_scale = a.
Proof. destruct a as [x y]. unfold vmulv, one_scale, vp, pt. cbn [vx vy px py]. rewrite <- (fz_R 1). f_equal; [exact (RA_one_law x)|exact (RA_one_law y)]. Qed.
Lemma by_dmotion t scales : Forall (fun s => s = one_scale) scales -> dmotion (by_t t) scales.
Proof.
  intro H. assert (E : forall s, In s scales -> s = one_scale) by (apply Forall_forall; exact H). clear H.
  constructor.
  - intros a b sc Hs. rewrite (E _ Hs), !scale_one. apply (mo_dist _ (by_motion t)).
  - intros a b sc Hs. rewrite (E _ Hs), !scale_one. apply (mo_dist _ (by_motion t)).
  - intros r g a b sa sb Ha Hb. rewrite (E _ Ha), (E _ Hb), !scale_one. apply (mo_heuristic _ (by_motion t)).
Qed.
(** Exact arithmetic, all scales one: the answers of the detailed search move with the mesh, and its lengths stay. *)
Theorem C93_detailed_paths_move lib (m : Mesh RA) (t : P2) scales : dpop_blind (dpop lib) -> verts_small m -> (forall l, In l (layers m) -> layer_wf l) ->
  Forall (fun s => s = one_scale) scales ->
  (forall from to blocked, dpath_on_layers lib (mesh_shift (vp t) m) scales (coords_shift (vp t) from) (coords_shift (vp t) to) blocked =
    let* o := dpath_on_layers lib m scales from to blocked in Ok (option_map (dpath_shift (vp t)) o)) /\
  (forall k from to, dget_path k lib (mesh_shift (vp t) m) scales (vadd from (vp t)) (vadd to (vp t)) =
    let* o := dget_path k lib m scales from to in Ok (option_map (option_map (dpath_shift (vp t))) o)).
Proof.
  intros HP HV HW Hone. pose proof (shift_layers_queries t m (dlib_lib lib)) as HQ. pose proof (shift_mesh_alike t m HW) as HM.
  assert (HV' : verts_small (mesh_shift (vp t) m)). { intros l Hl. cbn [mesh_shift layers] in Hl. apply in_map_iff in Hl. destruct Hl as (l0 & <- & Hl). exact (HV l0 Hl). }
  split.
  - intros from to blocked. exact (dpath_alike lib (by_t t) m _ scales (by_motion t) (by_dmotion t scales Hone) HM HV HV' HP HQ eq_refl eq_refl from to blocked).
  - intros k from to. exact (dget_alike lib (by_t t) m _ scales (by_motion t) (by_dmotion t scales Hone) HM HV HV' HP HQ eq_refl eq_refl k from to).
Qed.
