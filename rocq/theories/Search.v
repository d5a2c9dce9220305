(** The path search: src/instance.rs, src/lib.rs 230-343 and 613-668.
    Default features: no detailed-layers.  The `stats`, `verbose`, `debug`/`fail_fast` code is not modelled
    (`fail_fast` starts at -1 and only counts down). *)
From Coq Require Import List NArith ZArith Bool.
From Verif Require Import Base Arith U32 Mesh Helpers Locate.
Import ListNotations.
Open Scope N_scope.

(** instance.rs 47-51 *)
Inductive SuccType := LeftNonObs | Obs | RightNonObs.
Definition ty_is_right (t : SuccType) : bool := match t with RightNonObs => true | _ => false end.

Section Search.
Context {A : Arith}.

(** lib.rs 61-70 *)
Record Path := mkPath { plength : F A; ppath : list (vec2 A) }.

(** lib.rs 614-626 *)
Record Node := mkNode {
  npath : list (vec2 A);
  nroot : vec2 A;
  ninterval : vec2 A * vec2 A;
  nedge : N * N;
  nfrom : N;                 (* polygon_from *)
  nto : N;                   (* polygon_to *)
  nprev : N;                 (* previous_polygon_layer *)
  ng : F A;                  (* distance_start_to_root *)
  nh : F A                   (* heuristic *)
}.

(** distance_start_to_root + heuristic *)
Definition node_f (n : Node) : F A := fadd (ng n) (nh n).

(** lib.rs 656-668: Ord for SearchNode; the BinaryHeap pops a greatest element *)
Definition node_cmp (a b : Node) : comparison :=
  match ftotal (node_f a) (node_f b) with
  | Lt => Gt
  | Eq => ftotal (ng a) (ng b)
  | Gt => Lt
  end.

(** instance.rs 54-58 *)
Record Successor := mkSucc {
  sinterval : vec2 A * vec2 A;
  sedge : N * N;
  sty : SuccType
}.

(** instance.rs 60-71: the immutable part of SearchInstance *)
Record Ctx := mkCtx {
  cmesh : Mesh A;
  cgoal : vec2 A;            (* to *)
  cpto : N;                  (* polygon_to *)
  cblocked : list N          (* blocked_layers, a set *)
}.

(** instance.rs 60-63: the mutable part.  [squeue] is the content of the BinaryHeap, [shist] the HashMap
    from roots to costs, looked up by Vec2 equality (see C44 for the hash). *)
Record State := mkState {
  squeue : list Node;
  sbuffer : list Node;
  shist : list (vec2 A * F A)
}.

(** instance.rs 88-92 *)
Inductive Step := Found (p : Path) | NotFound | Continue.

(** Library oracles: the polygon finder's query and BinaryHeap::pop. *)
Record Lib := mkLib {
  lbvh : list (vec2 A * vec2 A) -> vec2 A -> list N;
  lpop : list Node -> option (Node * list Node)
}.

(** HashMap::get *)
Fixpoint hist_get (h : list (vec2 A * F A)) (r : vec2 A) : option (F A) :=
  match h with
  | [] => None
  | (k, v) :: t => if veq k r then Some v else hist_get t r
  end.
(** OccupiedEntry::insert *)
Fixpoint hist_set (h : list (vec2 A * F A)) (r : vec2 A) (x : F A) : list (vec2 A * F A) :=
  match h with
  | [] => []
  | (k, v) :: t => if veq k r then (k, x) :: t else (k, v) :: hist_set t r x
  end.

(** instance.rs 600-612: the new node of add_node *)
Definition new_node (c : Ctx) (root : vec2 A) (other : N) (s e : vec2 A * N) (n : Node) : Node :=
  let moved := negb (veq root (nroot n)) in
  mkNode (if moved then npath n ++ [root] else npath n)
         root (fst s, fst e) (snd s, snd e) (nto n) other (id_layer (nto n))
         (if moved then fadd (ng n) (vdist (nroot n) root) else ng n)
         (heuristic root (cgoal c) (fst s, fst e)).

(** instance.rs 537-645: add_node *)
Definition add_node (c : Ctx) (st : State) (root : vec2 A) (other : N) (s e : vec2 A * N) (n : Node) : State :=
  let nn := new_node c root other s e n in
  if fnan (ng nn) || fnan (nh nn) then st
  else
    match hist_get (shist st) root with
    | Some o =>
        if flt o (ng nn) then st
        else mkState (squeue st) (sbuffer st ++ [nn]) (hist_set (shist st) root (ng nn))
    | None => mkState (squeue st) (sbuffer st ++ [nn]) ((root, ng nn) :: shist st)
    end.

(** instance.rs 649-665: flush_nodes *)
Definition flush_nodes (st : State) : State :=
  mkState (squeue st ++ sbuffer st) [] (shist st).

(** instance.rs 186-191 and 708-713: the polygon on the other side of an edge *)
Definition other_side (sv ev : Vertex A) (p : N) : N :=
  match find (fun i => negb (N.eqb i p))
             (filter (fun i => negb (N.eqb i MAX) && memN i (vpolys ev)) (vpolys sv)) with
  | Some i => i
  | None => MAX
  end.

(** [self.mesh.layers\[id.layer()\].polygons\[id.polygon()\]] *)
Definition mesh_polygon (m : Mesh A) (id : N) : res Polygon :=
  let* l := index (layers m) (id_layer id) in index (polygons l) (id_polygon id).

(** instance.rs 159-171: the empty node *)
Definition empty_node (from : vec2 A) (pfrom : N) : Node :=
  mkNode [] from (vzero, vzero) (0, 0) pfrom pfrom (id_layer pfrom) (fz 0) (fz 0).

(** instance.rs 175-213: one edge of the starting polygon *)
Definition setup_edge (c : Ctx) (from : vec2 A) (pfrom : N) (l : Layer A) (st : State) (e : N * N) : res State :=
  match nthN (vertices l) (fst e), nthN (vertices l) (snd e) with
  | Some sv, Some ev =>
      let os := other_side sv ev pfrom in
      if memN (id_layer os) (cblocked c) then Ok st
      else
        let* go :=
          (if N.eqb os (cpto c) then Ok true
           else if N.eqb os MAX then Ok false
           else let* p := mesh_polygon (cmesh c) os in Ok (negb (is_one_way p))) in
        Ok (if go
            then add_node c st from os (vadd (coords sv) (offset l), fst e)
                          (vadd (coords ev) (offset l), snd e) (empty_node from pfrom)
            else st)
  | _, _ => Ok st
  end.

(** instance.rs 120-216: setup *)
Definition setup (c : Ctx) (from : vec2 A) (pfrom : N) : res State :=
  let* l := index (layers (cmesh c)) (id_layer pfrom) in
  let* p := index (polygons l) (id_polygon pfrom) in
  let* es := edges_index p in
  let* st := foldM (setup_edge c from pfrom l) (mkState [] [] [(from, fz 0)]) es in
  Ok (flush_nodes st).

(** instance.rs 374-378: first vertex of the polygon within 0.001 (squared) of [pt] *)
Fixpoint close_index (l : Layer A) (pt : vec2 A) (vs : list N) (i : N) : res (option N) :=
  match vs with
  | [] => Ok None
  | v :: r =>
      let* vv := index (vertices l) v in
      if flt (vdist2 (vadd (coords vv) (offset l)) pt) (flit 1 1000) then Ok (Some i)
      else close_index l pt r (i + 1)
  end.

(** instance.rs 390-391: stable sort by distance and first element: the first index of a minimal distance.
    [partial_cmp().unwrap()] panics if a NaN is compared, which any sort of at least two elements does. *)
Fixpoint argmin (best : N * F A) (l : list (N * F A)) : N :=
  match l with
  | [] => fst best
  | x :: r => if flt (snd x) (snd best) then argmin x r else argmin best r
  end.
Definition nearest_index (ds : list (F A)) : res N :=
  match enumerate ds with
  | [] => Panic
  | [x] => Ok (fst x)
  | x :: r => if existsb fnan ds then Panic else Ok (argmin x r)
  end.

(** instance.rs 365-394 *)
Definition right_index (c : Ctx) (l : Layer A) (p : Polygon) (n : Node) : res N :=
  let* pl := index (layers (cmesh c)) (nprev n) in
  let* v := index (vertices pl) (snd (nedge n)) in
  let pt := vadd (coords v) (offset pl) in
  let* o := close_index l pt (pverts p) 0 in
  match o with
  | Some i => Ok (i + 1)
  | None =>
      let* ds := mapM (fun v => let* vv := index (vertices l) v in
                                Ok (vdist2 (vadd (coords vv) (offset l)) pt)) (pverts p) in
      let* i := nearest_index ds in
      Ok (i + 1)
  end.

Definition c1em6 : F A := flit 1 1000000.
Definition c1em10 : F A := flit 1 10000000000.

(** instance.rs 428-474: the right end of the interval.
    Output: the successor cut off (if any), the new start point, the new type *)
Definition cut_right (root r : vec2 A) (edge : N * N) (ty : SuccType) (sp ep : vec2 A)
  : list Successor * vec2 A * SuccType :=
  match side sp (root, r) with
  | SRight =>
      match line_intersect_segment (root, r) (sp, ep) with
      | Some x =>
          let ty1 := if fgt (vdist2 x ep) c1em6 then Obs else ty in
          if fgt (vdist2 x sp) c1em6 && fgt (vdist2 x ep) c1em6
          then ([mkSucc (sp, x) edge ty], x, ty1) else ([], sp, ty1)
      | None => ([], sp, ty)
      end
  | SLeft => ([], sp, if ty_is_right ty then Obs else ty)
  | SEdge => ([], sp, match side ep (root, r) with SEdge | SLeft => Obs | SRight => ty end)
  end.

(** instance.rs 475-503: the left end.  Output: `end_intersection_p`, `found_intersection` *)
Definition cut_left (root l sp ep : vec2 A) : option (vec2 A) * bool :=
  match side ep (root, l) with
  | SLeft =>
      match line_intersect_segment (root, l) (sp, ep) with
      | Some x => (if fgt (vdist2 x ep) c1em6 then Some x else None, true)
      | None => (None, false)
      end
  | _ => (None, false)
  end.

(** instance.rs 509-529: the type after this edge *)
Definition next_type (root : vec2 A) (i : vec2 A * vec2 A) (ep : vec2 A) (found : bool) (ty : SuccType) : SuccType :=
  match side ep (root, snd i) with
  | SLeft => if found then LeftNonObs else ty
  | SEdge => match side ep (root, fst i) with SEdge | SLeft => LeftNonObs | SRight => ty end
  | SRight => ty
  end.

(** instance.rs 410-529: one edge; input: the current successor type, the two end points (with offset);
    output: the successors pushed and the new type *)
Definition cut_edge (root : vec2 A) (i : vec2 A * vec2 A) (edge : N * N) (ty : SuccType) (sp ep : vec2 A)
  : list Successor * SuccType :=
  let r := cut_right root (fst i) edge ty sp ep in
  let sp1 := snd (fst r) in
  let ty1 := snd r in
  let e := cut_left root (snd i) sp1 ep in
  let ty2 := next_type root i ep (snd e) ty1 in
  match fst e with
  | Some x => (fst (fst r) ++ [mkSucc (sp1, x) edge ty1; mkSucc (x, ep) edge ty2], ty2)
  | None => (fst (fst r) ++ [mkSucc (sp1, ep) edge ty1], ty2)
  end.

(** instance.rs 398-530: the loop over the edges.  Line 399 compares with [>], not [>=]. *)
Fixpoint cut_edges (l : Layer A) (root : vec2 A) (i : vec2 A * vec2 A) (es : list (N * N)) (ty : SuccType)
  : res (list Successor) :=
  match es with
  | [] => Ok []
  | (a, b) :: r =>
      if lengthN (vertices l) <? N.max a b then cut_edges l root i r ty
      else
        let* sv := get_unchecked (vertices l) a in
        let* ev := get_unchecked (vertices l) b in
        let '(out, ty') := cut_edge root i (a, b) ty (vadd (coords sv) (offset l)) (vadd (coords ev) (offset l)) in
        let* rest := cut_edges l root i r ty' in
        Ok (out ++ rest)
  end.

(** instance.rs 344-533: edges_between *)
Definition edges_between (c : Ctx) (n : Node) : res (list Successor) :=
  let* l := index (layers (cmesh c)) (id_layer (nto n)) in
  let* p := index (polygons l) (id_polygon (nto n)) in
  let* ri := right_index c l p n in
  let li := lengthN (pverts p) + ri - 2 in
  let* es := circular_edges_index p ri li in
  cut_edges l (nroot n) (ninterval n) es RightNonObs.

(** instance.rs 784-797 and 818-831: may the path turn at this end of the interval? *)
Definition corner_ok (c : Ctx) (n : Node) (vi : N) (pt : vec2 A) : res bool :=
  let* pl := index (layers (cmesh c)) (nprev n) in
  let* v := index (vertices pl) vi in
  Ok ((is_corner v
       || (negb (match cblocked c with [] => true | _ => false end)
           && existsb (fun p => N.eqb p MAX || memN (id_layer p) (cblocked c)) (vpolys v)))
      && flt (vdist2 (vadd (coords v) (offset pl)) pt) c1em10).

(** instance.rs 688-864: one successor of [n] *)
Definition expand_one (c : Ctx) (n : Node) (l : Layer A) (st : State) (s : Successor) : res State :=
  let* sv := get_unchecked (vertices l) (fst (sedge s)) in
  let* ev := get_unchecked (vertices l) (snd (sedge s)) in
  let os := other_side sv ev (nto n) in
  if N.eqb os MAX then Ok st                                  (* 728 *)
  else if memN (id_layer os) (cblocked c) then Ok st          (* 737 *)
  else
    let* dead := (if N.eqb (cpto c) os then Ok false           (* 747 *)
                  else let* p := mesh_polygon (cmesh c) os in Ok (is_one_way p)) in
    if dead then Ok st
    else if N.eqb (nfrom n) os then Ok st                     (* 760 *)
    else
      let* root :=
        match sty s with
        | RightNonObs =>                                      (* 771-806 *)
            if fgt (vdist2 (fst (sinterval s)) (vadd (coords sv) (offset l))) c1em10 then Ok None
            else let* ok := corner_ok c n (fst (nedge n)) (fst (ninterval n)) in
                 Ok (if ok then Some (fst (ninterval n)) else None)
        | Obs => Ok (Some (nroot n))                          (* 807 *)
        | LeftNonObs =>                                       (* 808-840 *)
            if fgt (vdist2 (snd (sinterval s)) (vadd (coords ev) (offset l))) c1em10 then Ok None
            else let* ok := corner_ok c n (snd (nedge n)) (snd (ninterval n)) in
                 Ok (if ok then Some (snd (ninterval n)) else None)
        end in
      match root with
      | None => Ok st
      | Some root =>
          if flt (vdist2 (fst (sinterval s)) (snd (sinterval s))) c1em10 then Ok st   (* 848 *)
          else Ok (add_node c st root os (fst (sinterval s), fst (sedge s))
                            (snd (sinterval s), snd (sedge s)) n)
      end.

(** instance.rs 688-864: all the successors of [n] *)
Definition expand (c : Ctx) (n : Node) (st : State) : res State :=
  let* ss := edges_between c n in
  let* l := index (layers (cmesh c)) (id_layer (nto n)) in
  foldM (expand_one c n l) st ss.

(** instance.rs 878-887: going exactly back *)
Definition reverse_of (n prev : Node) : bool :=
  veq (nroot n) (nroot prev)
  && N.eqb (nto n) (nfrom prev) && N.eqb (nfrom n) (nto prev)
  && veq (fst (ninterval n)) (snd (ninterval prev))
  && veq (snd (ninterval n)) (fst (ninterval prev)).

(** instance.rs 675-912: successors.  [fuel] bounds the number of rounds of the `loop`; C17 shows
    that [succ_fuel] rounds always suffice. *)
Fixpoint successors (fuel : nat) (c : Ctx) (visited : list N) (n : Node) (st : State) : res State :=
  match fuel with
  | O => NoFuel
  | S fuel =>
      let* st := expand c n st in
      match sbuffer st with
      | [n'] =>
          if N.eqb (nto n') (cpto c) then Ok (flush_nodes st)
          else
            let st := mkState (squeue st) [] (shist st) in
            if reverse_of n' n then Ok (flush_nodes st)
            else if memN (nto n') visited then Ok (flush_nodes st)
            else successors fuel c (nto n' :: visited) n' st
      | _ => Ok (flush_nodes st)
      end
  end.

(** number of neighbour entries of the mesh, plus two *)
Definition succ_fuel (m : Mesh A) : nat :=
  S (S (fold_right (fun l n => fold_right (fun v k => length (vpolys v) + k) 0 (vertices l) + n)
                   0 (layers m)))%nat.

(** instance.rs 262-329: the path of a node that reaches the target polygon (`complete` is always true) *)
Definition final_path (c : Ctx) (n : Node) : Path :=
  mkPath (node_f n)
         ((match turning_point (nroot n) (cgoal c) (ninterval n) with
           | Some t => npath n ++ [t]
           | None => npath n
           end) ++ [cgoal c]).

(** instance.rs 218-340: next *)
Definition next (lib : Lib) (c : Ctx) (st : State) : res (State * Step) :=
  match lpop lib (squeue st) with
  | None => Ok (st, NotFound)
  | Some (n, q) =>
      let st := mkState q (sbuffer st) (shist st) in
      let dominated := match hist_get (shist st) (nroot n) with
                       | Some o => flt o (ng n)
                       | None => false
                       end in
      if dominated then Ok (st, Continue)
      else if N.eqb (nto n) (cpto c) then Ok (st, Found (final_path c n))
      else let* st := successors (succ_fuel (cmesh c)) c [] n st in Ok (st, Continue)
  end.

(** lib.rs 313-342: the bounded loop of path_on_layers.  After NotFound the loop goes on with an empty
    queue until the bound, which changes nothing. *)
Fixpoint run (k : nat) (lib : Lib) (c : Ctx) (st : State) : res (option Path) :=
  match k with
  | O => Ok None
  | S k =>
      let* r := next lib c st in
      match snd r with
      | Found p => Ok (Some p)
      | NotFound | Continue => run k lib c (fst r)
      end
  end.

(** lib.rs 256-265: the polygon of an end point, searched if it is not already known *)
Definition locate_end (lib : Lib) (m : Mesh A) (c : Coords A) : res (option N) :=
  if negb (N.eqb (cpoly c) MAX) then Ok (Some (cpoly c))
  else let* o := get_closest_point (lbvh lib) m c in Ok (option_map (fun c => cpoly c) o).

(** lib.rs 267-278: true if the islands show that there is no path *)
Definition islands_differ (isl : list N) (a b : N) : bool :=
  match nthN isl a, nthN isl b with
  | Some x, Some y => negb (N.eqb x y)
  | _, _ => false
  end.
Definition islands_reject (m : Mesh A) (ps pe : N) : res bool :=
  if N.eqb (lengthN (layers m)) 1 then
    let* l := index (layers m) (id_layer ps) in
    Ok (match islands l with
        | None => false
        | Some isl => islands_differ isl (id_polygon ps) (id_polygon pe)
        end)
  else Ok false.

(** lib.rs 244-343: path_on_layers *)
Definition path_on_layers (lib : Lib) (m : Mesh A) (from to : Coords A) (blocked : list N) : res (option Path) :=
  let* os := locate_end lib m from in
  match os with
  | None => Ok None
  | Some ps =>
      let* oe := locate_end lib m to in
      match oe with
      | None => Ok None
      | Some pe =>
          let* rej := islands_reject m ps pe in
          if rej then Ok None
          else if N.eqb ps pe then
            Ok (Some (mkPath (vdist (cpos from) (cpos to)) [cpos to]))
          else
            let c := mkCtx m (cpos to) pe blocked in
            let* st := setup c (cpos from) ps in
            run (count_polygons m * 10) lib c st
      end
  end.

(** lib.rs 233-235: path *)
Definition path (lib : Lib) (m : Mesh A) (from to : Coords A) : res (option Path) :=
  path_on_layers lib m from to [].

End Search.

Arguments Path A : clear implicits.
Arguments Node A : clear implicits.
Arguments Successor A : clear implicits.
Arguments Ctx A : clear implicits.
Arguments State A : clear implicits.
Arguments Step A : clear implicits.
Arguments Lib A : clear implicits.
Arguments succ_fuel {A} m : simpl never.
