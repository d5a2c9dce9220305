(** C49 (the settings of a new mesh), and an example for C92. *)
From Coq Require Import List NArith ZArith Bool Lia.
From Coq.Floats Require Import SpecFloat.
From Verif Require Import Base Arith F32 U32 Mesh Helpers Locate Bake Search AsyncPath Detailed StdLib Trimesh PolyFile Cleanup Triangulation Checkers Tests Properties_steps.
Import ListNotations.
Open Scope N_scope.

Section Any.
Context {A : Arith}.

(** ** a mesh that was just made has one layer and searches 2 steps of 0.1, whichever way it was made *)
Definition new_settings (m : Mesh A) := (exists l, layers m = [l]) /\ search_delta m = flit 1 10 /\ search_steps m = 2.
Theorem C49_settings_of_a_new_mesh (m : Mesh A) :
  (forall vs ps, mesh_new vs ps = Ok (Done m) -> new_settings m) /\
  (forall sort ts, mesh_of_trimesh sort ts = Ok (Done m) -> new_settings m) /\
  (forall f, mesh_of_file f = Ok (Done m) -> new_settings m) /\
  (forall lib t, as_navmesh lib t = Ok m -> new_settings m).
Proof.
  assert (H : forall vs ps, mesh_new vs ps = Ok (Done m) -> new_settings m).
  { intros vs ps G. unfold mesh_new in G. inv_bind G. destruct a as [l|e]; [|discriminate G]. inversion G. repeat split. eexists. reflexivity. }
  split; [exact H|]. split; [|split].
  - intros sort ts G. unfold mesh_of_trimesh in G. inv_bind G. destruct a as [vs|]; [|discriminate G]. exact (H _ _ G).
  - intros f G. exact (H _ _ G).
  - intros lib t G. unfold as_navmesh in G. inv_bind G. inversion G. repeat split. eexists. reflexivity.
Qed.
End Any.

(** ** example: in the mesh of the paper, from a point 0.25 below the bottom left room, which two steps do not find but four do *)
Definition paper n := match set_search_steps mesh_from_paper n with Ok m => m | _ => mesh_from_paper end.
Definition outside25 : Coords F32 := at_ (pt100 300 75).
Definition outside05 : Coords F32 := at_ (pt100 300 95).
Definition inside_paper : Coords F32 := at_ (pt 12 1).
Definition is_none {T} (r : res (option T)) := match r with Ok None => true | _ => false end.
Definition bends {T} (f : T -> list (vec2 F32)) (r : res (option T)) := match r with Ok (Some p) => lengthN (f p) | _ => 0 end.

Lemma ex_C92_nearby :
  set_search_steps mesh_from_paper 4 = Ok (paper 4) /\ search_steps mesh_from_paper <= 4 /\
  is_none (get_closest_point std_bvh mesh_from_paper outside25) = true /\
  is_none (get_closest_point std_bvh (paper 4) outside25) = false /\
  (exists p, get_closest_point std_bvh mesh_from_paper outside05 = Ok (Some p) /\ get_closest_point std_bvh (paper 4) outside05 = Ok (Some p)) /\
  (exists p, path_on_layers lib32 mesh_from_paper outside05 inside_paper [] = Ok (Some p) /\
     path_on_layers lib32 (paper 4) outside05 inside_paper [] = Ok (Some p) /\ 3 <= lengthN (ppath p)) /\
  is_none (path_on_layers lib32 mesh_from_paper outside25 inside_paper []) = true /\
  is_none (path_on_layers lib32 (paper 4) outside25 inside_paper []) = false.
Proof.
  assert (E : set_search_steps mesh_from_paper 4 = Ok (paper 4)) by reflexivity.
  assert (H : search_steps mesh_from_paper <= 4) by (cbv; discriminate).
  split; [exact E|]. split; [exact H|]. split; [vmc|]. split; [vmc|]. split.
  { destruct (is_Ok_Some_ex (fun _ => true) (get_closest_point std_bvh mesh_from_paper outside05) ltac:(vmc)) as (p & G & _).
    exists p. split; [exact G|]. exact (C92_closest_point_kept _ _ _ _ _ _ E H G). }
  split.
  { destruct (is_Ok_Some_ex (fun p => 3 <=? lengthN (ppath p)) (path_on_layers lib32 mesh_from_paper outside05 inside_paper []) ltac:(vmc)) as (p & G & L).
    exists p. split; [exact G|]. split; [exact (proj1 (C92_path_kept _ _ _ _ _ _ _ E H) _ G)|]. apply N.leb_le. exact L. }
  split; vmc.
Qed.
Example ex_C92_ends : end_found (lbvh lib32) mesh_from_paper outside05 /\ end_found (lbvh lib32) mesh_from_paper inside_paper.
Proof.
  split; right.
  - destruct (is_Ok_Some_ex (fun _ => true) (get_closest_point std_bvh mesh_from_paper outside05) ltac:(vmc)) as (p & G & _). exists p. exact G.
  - destruct (is_Ok_Some_ex (fun _ => true) (get_closest_point std_bvh mesh_from_paper inside_paper) ltac:(vmc)) as (p & G & _). exists p. exact G.
Qed.

Print Assumptions C49_settings_of_a_new_mesh.
Print Assumptions C92_closest_point_kept.
Print Assumptions C92_path_kept.
Print Assumptions ex_C92_nearby.
