(** The vocabulary of the statements about triangulations. *)
From Coq Require Import List NArith ZArith Bool.
From Verif Require Import Base Arith U32 Mesh Helpers Triangulation.
Import ListNotations.
Open Scope N_scope.

(** [d] is [l] where equal consecutive elements are only kept once. *)
Inductive runs : list N -> list N -> Prop :=
| runs_nil : runs [] []
| runs_new x l d : hd_error l <> Some x -> runs l d -> runs (x :: l) (x :: d)
| runs_same x l d : runs (x :: l) d -> runs (x :: x :: l) d.

Section SpecTriangulation.
Context {A : Arith}.

(** What is expected of the triangulator: the inner faces have the indices 1, 2, ..., their vertices exist, the faces around
    a vertex exist (0 is the outer face), and an inner face is around a vertex iff the vertex is one of its vertices. *)
Definition subdivision_ok (s : Subdivision A) : Prop :=
  (forall k f, nthN (inner_faces s) k = Some f -> findex f = k + 1) /\
  (forall f v, In f (inner_faces s) -> In v (fverts f) -> v < lengthN (sites s)) /\
  (forall site k, In site (sites s) -> In k (snd site) -> k <= lengthN (inner_faces s)) /\
  (forall i site f, nthN (sites s) i = Some site -> In f (inner_faces s) -> (In (findex f) (snd site) <-> In i (fverts f))) /\
  (forall f, In f (inner_faces s) -> fverts f <> []).

(** The polygon a face becomes. *)
Definition polygon_of_face (f : Face A) : Polygon := mkPolygon (fverts f) false.

(** Face number [k] becomes polygon [id]: [id] kept faces come before it, or [id] is the marker of the outside and face [k]
    is not a kept face. *)
Definition numbered (s : Subdivision A) (kept : Face A -> bool) (k id : N) : Prop :=
  (exists j f, nthN (inner_faces s) j = Some f /\ findex f = k /\ kept f = true /\
               id = lengthN (filter kept (firstn (N.to_nat j) (inner_faces s)))) \/
  (id = MAX /\ forall f, In f (inner_faces s) -> findex f = k -> kept f = false).

(** ** Histories of calls *)
Inductive setting := Radius (r : F A) | Segments (n : N) | Simplification (p : F A) | OuterEdge (b : bool).
Definition apply_setting (t : Triangulation A) (s : setting) : Triangulation A :=
  match s with
  | Radius r => set_agent_radius t r
  | Segments n => set_agent_radius_segments t n
  | Simplification p => set_agent_radius_simplification t p
  | OuterEdge b => agent_radius_on_outer_edge t b
  end.
(** The last value given to each setting, or its default. *)
Fixpoint last_radius (d : F A) (l : list setting) : F A :=
  match l with [] => d | Radius r :: l' => last_radius r l' | _ :: l' => last_radius d l' end.
Fixpoint last_segments (d : N) (l : list setting) : N :=
  match l with [] => d | Segments n :: l' => last_segments n l' | _ :: l' => last_segments d l' end.
Fixpoint last_simplification (d : F A) (l : list setting) : F A :=
  match l with [] => d | Simplification p :: l' => last_simplification p l' | _ :: l' => last_simplification d l' end.
Fixpoint last_outer (d : bool) (l : list setting) : bool :=
  match l with [] => d | OuterEdge b :: l' => last_outer b l' | _ :: l' => last_outer d l' end.

Inductive call := AddObstacle (o : ring A) | AddObstacles (os : list (ring A)) | Prebuild.
Definition apply_call (lib : TriLib A) (t : Triangulation A) (c : call) : res (Triangulation A) :=
  match c with
  | AddObstacle o => Ok (add_obstacle t o)
  | AddObstacles os => Ok (add_obstacles t os)
  | Prebuild => prebuild lib t
  end.
Definition run_calls (lib : TriLib A) (t : Triangulation A) (cs : list call) : res (Triangulation A) := foldM (apply_call lib) t cs.
(** The obstacles added by the calls. *)
Fixpoint added (cs : list call) : list (ring A) :=
  match cs with
  | [] => []
  | AddObstacle o :: cs' => o :: added cs'
  | AddObstacles os :: cs' => os ++ added cs'
  | Prebuild :: cs' => added cs'
  end.
Fixpoint prebuilds (cs : list call) : nat :=
  match cs with
  | [] => O
  | Prebuild :: cs' => S (prebuilds cs')
  | _ :: cs' => prebuilds cs'
  end.

(** The outline of obstacle [o] in the triangulation: the closed ring, inflated and simplified if there is an agent radius. *)
Definition outline (lib : TriLib A) (a : AgentRadius A) (o r : ring A) : Prop :=
  match a with
  | RNone => r = close o
  | RObstacles radius n p | REverything radius n p =>
      if enough radius then exists i, inflate_ring lib (close o) radius n = Ok i /\ r = close (simplify_vw lib p (fst i))
      else r = close o
  end.
End SpecTriangulation.
