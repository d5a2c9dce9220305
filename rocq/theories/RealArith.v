(** Exact arithmetic as an [Arith]: real numbers and one not-a-number (None), which a division by zero and a square
    root of a negative number produce; comparisons with it are false, as in IEEE. *)
From Coq Require Import List NArith ZArith Bool Reals Lra.
From Verif Require Import Base Arith Helpers.
Import ListNotations.
Open Scope R_scope.

Definition lift1 (f : R -> R) (x : option R) : option R := option_map f x.
Definition lift2 (f : R -> R -> R) (x y : option R) : option R :=
  match x, y with Some a, Some b => Some (f a b) | _, _ => None end.
Definition rdiv (x y : option R) : option R :=
  match x, y with
  | Some a, Some b => if Req_EM_T b 0 then None else Some (a / b)
  | _, _ => None
  end.
Definition rsqrt (x : option R) : option R :=
  match x with
  | Some a => if Rlt_dec a 0 then None else Some (sqrt a)
  | None => None
  end.
Definition rcmp (f : R -> R -> bool) (x y : option R) : bool :=
  match x, y with Some a, Some b => f a b | _, _ => false end.
Definition rltb (a b : R) : bool := if Rlt_dec a b then true else false.
Definition rleb (a b : R) : bool := if Rle_dec a b then true else false.
Definition reqb (a b : R) : bool := if Req_EM_T a b then true else false.
Definition rtotal (x y : option R) : comparison :=
  match x, y with
  | None, None => Eq
  | None, Some _ => Gt
  | Some _, None => Lt
  | Some a, Some b => if Rlt_dec a b then Lt else if Rlt_dec b a then Gt else Eq
  end.
(** truncation towards zero, saturating *)
Definition ri32 (x : option R) : Z :=
  match x with
  | None => 0%Z
  | Some a => let t := (if Rlt_dec a 0 then - Int_part (- a) else Int_part a)%Z in
              Z.max (-2147483648) (Z.min 2147483647 t)
  end.

Definition RA : Arith :=
  mkArith (option R) (lift2 Rplus) (lift2 Rminus) (lift2 Rmult) rdiv (lift1 Ropp) (lift1 Rabs) rsqrt
          (rcmp rltb) (rcmp rleb) (rcmp reqb) (fun x => match x with None => true | Some _ => false end)
          rtotal (fun n d => Some (IZR n / IZR (Zpos d))) ri32
          (lift1 sin) (lift1 cos) (lift1 acos)
          (Some (IZR 340282346638528859811704183484516925440)) (Some (2 * PI)).

(** a real number and a real point of the plane *)
Definition rr (x : R) : F RA := Some x.
Definition pt (x y : R) : vec2 RA := @V RA (Some x) (Some y).
Record P2 := P { px : R; py : R }.
Definition vp (p : P2) : vec2 RA := pt (px p) (py p).

Lemma P_eta p : P (px p) (py p) = p. Proof. now destruct p. Qed.

(** ** Plain real geometry, as in a textbook *)
Definition psub (a b : P2) : P2 := P (px a - px b) (py a - py b).
Definition padd (a b : P2) : P2 := P (px a + px b) (py a + py b).
Definition pscale (k : R) (a : P2) : P2 := P (k * px a) (k * py a).
Definition pdot (a b : P2) : R := px a * px b + py a * py b.
Definition cross (a b : P2) : R := px a * py b - py a * px b.
Definition plen (a : P2) : R := sqrt (pdot a a).
Definition dist (a b : P2) : R := plen (psub a b).
(** twice the signed area of the triangle a b p: positive iff p is left of the line from a to b *)
Definition orient (a b p : P2) : R := cross (psub b a) (psub p a).

(** ** The operations of the model on real points *)
Lemma rltb_true a b : rltb a b = true <-> a < b.
Proof. unfold rltb. destruct (Rlt_dec a b); split; intro; try congruence; try lra; contradiction. Qed.
Lemma rltb_false a b : rltb a b = false <-> b <= a.
Proof. unfold rltb. destruct (Rlt_dec a b); split; intro; try congruence; lra. Qed.
Lemma rleb_true a b : rleb a b = true <-> a <= b.
Proof. unfold rleb. destruct (Rle_dec a b); split; intro; try congruence; try lra; contradiction. Qed.
Lemma rleb_false a b : rleb a b = false <-> b < a.
Proof. unfold rleb. destruct (Rle_dec a b); split; intro; try congruence; lra. Qed.
Lemma reqb_true a b : reqb a b = true <-> a = b.
Proof. unfold reqb. destruct (Req_EM_T a b); split; intro; congruence. Qed.
Lemma reqb_false a b : reqb a b = false <-> a <> b.
Proof. unfold reqb. destruct (Req_EM_T a b); split; intro; congruence. Qed.

Lemma fz_R n : @fz RA n = Some (IZR n).
Proof. unfold fz. simpl. f_equal. field. Qed.
Lemma flit_R n d : @flit RA n d = Some (IZR n / IZR (Zpos d)).
Proof. reflexivity. Qed.

Lemma vp_inj a b : vp a = vp b -> a = b.
Proof. destruct a, b. unfold vp, pt. simpl. intro H. injection H as -> ->. reflexivity. Qed.

Lemma vadd_vp a b : vadd (vp a) (vp b) = vp (padd a b). Proof. reflexivity. Qed.
Lemma vsub_vp a b : vsub (vp a) (vp b) = vp (psub a b). Proof. reflexivity. Qed.
Lemma perp_dot_vp a b : perp_dot (vp a) (vp b) = Some (cross a b). Proof. reflexivity. Qed.
Lemma vdot_vp a b : vdot (vp a) (vp b) = Some (pdot a b). Proof. reflexivity. Qed.
Lemma veq_vp a b : veq (vp a) (vp b) = true <-> a = b.
Proof.
  unfold veq. simpl. rewrite andb_true_iff, !reqb_true. destruct a, b; simpl.
  split; [intros [-> ->]; reflexivity|intro H; injection H; auto].
Qed.
Lemma veq_vp_false a b : veq (vp a) (vp b) = false <-> a <> b.
Proof. rewrite <- veq_vp. destruct (veq _ _); split; congruence. Qed.

Lemma pdot_nonneg a : 0 <= pdot a a.
Proof. unfold pdot. nra. Qed.
Lemma vdist_vp a b : vdist (vp a) (vp b) = Some (dist a b).
Proof.
  unfold vdist, vlen. rewrite vsub_vp, vdot_vp. simpl.
  destruct (Rlt_dec _ 0) as [H|H]; [|reflexivity].
  pose proof (pdot_nonneg (psub a b)). lra.
Qed.
Lemma vdist2_vp a b : vdist2 (vp a) (vp b) = Some (pdot (psub a b) (psub a b)).
Proof. reflexivity. Qed.

(** [side] on real points: the sign of twice the area, with the tolerance 1/10000 *)
Definition eps : R := 1 / 10000.
Lemma eps_pos : 0 < eps. Proof. unfold eps. lra. Qed.
Lemma EPS_R : @EPS RA = Some eps. Proof. reflexivity. Qed.

Lemma side_vp p a b :
  side (vp p) (vp a, vp b) =
  if Rlt_dec (Rabs (orient a b p)) eps then SEdge
  else if Rlt_dec 0 (orient a b p) then SLeft else SRight.
Proof.
  unfold side. simpl fst. simpl snd. rewrite !vsub_vp, perp_dot_vp.
  unfold fgt. rewrite EPS_R, fz_R. simpl. unfold rltb, orient.
  destruct (Rlt_dec _ eps); [reflexivity|]. destruct (Rlt_dec 0 _); reflexivity.
Qed.

Lemma side_left p a b : side (vp p) (vp a, vp b) = SLeft <-> eps <= orient a b p.
Proof.
  rewrite side_vp. pose proof eps_pos.
  destruct (Rlt_dec (Rabs (orient a b p)) eps) as [H1|H1].
  - split; [discriminate|]. intro. apply Rabs_def2 in H1. lra.
  - destruct (Rlt_dec 0 (orient a b p)) as [H2|H2].
    + split; [|reflexivity]. intros _. rewrite Rabs_right in H1 by lra. lra.
    + split; [discriminate|lra].
Qed.
Lemma side_right p a b : side (vp p) (vp a, vp b) = SRight <-> orient a b p <= - eps.
Proof.
  rewrite side_vp. pose proof eps_pos.
  destruct (Rlt_dec (Rabs (orient a b p)) eps) as [H1|H1].
  - split; [discriminate|]. intro. apply Rabs_def2 in H1. lra.
  - destruct (Rlt_dec 0 (orient a b p)) as [H2|H2].
    + split; [discriminate|lra].
    + split; [|reflexivity]. intros _. rewrite Rabs_left1 in H1 by lra. lra.
Qed.
Lemma side_edge p a b : side (vp p) (vp a, vp b) = SEdge <-> - eps < orient a b p < eps.
Proof.
  rewrite side_vp. pose proof eps_pos.
  destruct (Rlt_dec (Rabs (orient a b p)) eps) as [H1|H1].
  - split; [|reflexivity]. intros _. apply Rabs_def2 in H1. lra.
  - split.
    + destruct (Rlt_dec 0 (orient a b p)); discriminate.
    + intros H2. exfalso. apply H1. apply Rabs_def1; lra.
Qed.
