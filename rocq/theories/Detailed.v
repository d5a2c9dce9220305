(** The search with the feature `detailed-layers`: src/instance.rs and src/lib.rs with the `cfg(feature = "detailed-layers")`
    code.  Layers then have a scale (layers.rs 23-25, default (1,1), 36-37), search nodes a list of possible points of layer
    changes, and path_on_layers goes on searching after the first path.
    The scales are not a field of [Layer] in the model: they are the list [dscales], one for each layer, in order; indexing it is
    `self.mesh.layers\[i\].scale`.  edges_between, corner_ok, other_side do not depend on the feature and are those of Search.v. *)
From Coq Require Import List NArith ZArith Bool.
From Verif Require Import Base Arith U32 Mesh Helpers Locate Search AsyncPath.
Import ListNotations.
Open Scope N_scope.

Section Detailed.
Context {A : Arith}.

(** glam: Vec2 * Vec2, component by component *)
Definition vmulv (a b : vec2 A) : vec2 A := V (fmul (vx a) (vx b)) (fmul (vy a) (vy b)).

(** lib.rs 61-70: Path with path_with_layers *)
Record DPath := mkDPath { dlength : F A; dpath : list (vec2 A); dlayers : list (vec2 A * N) }.

(** lib.rs 614-626: SearchNode with path_with_layers, here [dpoints]: (a, a, layer) for a turn at a,
    (a, b, layer) for entering the layer through the interval from a to b *)
Record DNode := mkDNode { dnode : Node A; dpoints : list (vec2 A * vec2 A * N) }.

(** instance.rs 60-71: the immutable part; [dfrom] is `from: (Vec2, u8)` *)
Record DCtx := mkDCtx { dctx : Ctx A; dscales : list (vec2 A); dfrom : vec2 A * N }.

Record DState := mkDState { dqueue : list DNode; dbuffer : list DNode; dhist : list (vec2 A * F A) }.

(** instance.rs 88-92 *)
Inductive DStep := DFound (p : DPath) | DNotFound | DContinue.

(** Library oracles, as [Lib] *)
Record DLib := mkDLib {
  dbvh : list (vec2 A * vec2 A) -> vec2 A -> list N;
  dpop : list DNode -> option (DNode * list DNode)
}.

(** instance.rs 549-612: the new node of add_node *)
Definition dnew_node (c : DCtx) (root : vec2 A) (other : N) (s e : vec2 A * N) (n : DNode) : res DNode :=
  let b := dnode n in
  let moved := negb (veq root (nroot b)) in
  let lay := id_layer (nto b) in
  let* g := (if moved then let* sc := index (dscales c) lay in
                           Ok (fadd (ng b) (vdist (nroot b) (vmulv root sc)))     (* 569-573 *)
             else Ok (ng b)) in
  let pts := if moved then dpoints n ++ [(root, root, lay)] else dpoints n in      (* 560-562 *)
  let pts := if N.eqb (id_layer other) lay then pts
             else pts ++ [(fst s, fst e, id_layer other)] in                       (* 576-579 *)
  let* ss := index (dscales c) (id_layer (snd s)) in                               (* 591: the layer of a vertex index *)
  let* se := index (dscales c) (id_layer (snd e)) in
  Ok (mkDNode
        (mkNode (if moved then npath b ++ [root] else npath b)
                root (fst s, fst e) (snd s, snd e) (nto b) other lay g
                (heuristic root (cgoal (dctx c)) (vmulv (fst s) ss, vmulv (fst e) se)))
        pts).

(** instance.rs 537-645: add_node *)
Definition dadd_node (c : DCtx) (st : DState) (root : vec2 A) (other : N) (s e : vec2 A * N) (n : DNode)
  : res DState :=
  let* nn := dnew_node c root other s e n in
  let g := ng (dnode nn) in
  Ok (if fnan g || fnan (nh (dnode nn)) then st
      else
        match hist_get (dhist st) root with
        | Some o =>
            if flt o g then st
            else mkDState (dqueue st) (dbuffer st ++ [nn]) (hist_set (dhist st) root g)
        | None => mkDState (dqueue st) (dbuffer st ++ [nn]) ((root, g) :: dhist st)
        end).

(** instance.rs 649-665: flush_nodes *)
Definition dflush (st : DState) : DState := mkDState (dqueue st ++ dbuffer st) [] (dhist st).

(** instance.rs 175-213: one edge of the starting polygon *)
Definition dsetup_edge (c : DCtx) (from : vec2 A) (pfrom : N) (l : Layer A) (st : DState) (e : N * N) : res DState :=
  match nthN (vertices l) (fst e), nthN (vertices l) (snd e) with
  | Some sv, Some ev =>
      let os := other_side sv ev pfrom in
      if memN (id_layer os) (cblocked (dctx c)) then Ok st
      else
        let* go :=
          (if N.eqb os (cpto (dctx c)) then Ok true
           else if N.eqb os MAX then Ok false
           else let* p := mesh_polygon (cmesh (dctx c)) os in Ok (negb (is_one_way p))) in
        if go
        then dadd_node c st from os (vadd (coords sv) (offset l), fst e)
                       (vadd (coords ev) (offset l), snd e) (mkDNode (empty_node from pfrom) [])
        else Ok st
  | _, _ => Ok st
  end.

(** instance.rs 120-216: setup *)
Definition dsetup (c : DCtx) (from : vec2 A) (pfrom : N) : res DState :=
  let* l := index (layers (cmesh (dctx c))) (id_layer pfrom) in
  let* p := index (polygons l) (id_polygon pfrom) in
  let* es := edges_index p in
  let* st := foldM (dsetup_edge c from pfrom l) (mkDState [] [] [(from, fz 0)]) es in
  Ok (dflush st).

(** instance.rs 688-864: one successor of [n]; as [expand_one] *)
Definition dexpand_one (c : DCtx) (n : DNode) (l : Layer A) (st : DState) (s : Successor A) : res DState :=
  let x := dctx c in
  let b := dnode n in
  let* sv := get_unchecked (vertices l) (fst (sedge s)) in
  let* ev := get_unchecked (vertices l) (snd (sedge s)) in
  let os := other_side sv ev (nto b) in
  if N.eqb os MAX then Ok st
  else if memN (id_layer os) (cblocked x) then Ok st
  else
    let* dead := (if N.eqb (cpto x) os then Ok false
                  else let* p := mesh_polygon (cmesh x) os in Ok (is_one_way p)) in
    if dead then Ok st
    else if N.eqb (nfrom b) os then Ok st
    else
      let* root :=
        match sty s with
        | RightNonObs =>
            if fgt (vdist2 (fst (sinterval s)) (vadd (coords sv) (offset l))) c1em10 then Ok None
            else let* ok := corner_ok x b (fst (nedge b)) (fst (ninterval b)) in
                 Ok (if ok then Some (fst (ninterval b)) else None)
        | Obs => Ok (Some (nroot b))
        | LeftNonObs =>
            if fgt (vdist2 (snd (sinterval s)) (vadd (coords ev) (offset l))) c1em10 then Ok None
            else let* ok := corner_ok x b (snd (nedge b)) (snd (ninterval b)) in
                 Ok (if ok then Some (snd (ninterval b)) else None)
        end in
      match root with
      | None => Ok st
      | Some root =>
          if flt (vdist2 (fst (sinterval s)) (snd (sinterval s))) c1em10 then Ok st
          else dadd_node c st root os (fst (sinterval s), fst (sedge s))
                         (snd (sinterval s), snd (sedge s)) n
      end.

(** instance.rs 688-864 *)
Definition dexpand (c : DCtx) (n : DNode) (st : DState) : res DState :=
  let* ss := edges_between (dctx c) (dnode n) in
  let* l := index (layers (cmesh (dctx c))) (id_layer (nto (dnode n))) in
  foldM (dexpand_one c n l) st ss.

(** instance.rs 675-912: successors *)
Fixpoint dsuccessors (fuel : nat) (c : DCtx) (visited : list N) (n : DNode) (st : DState) : res DState :=
  match fuel with
  | O => NoFuel
  | S fuel =>
      let* st := dexpand c n st in
      match dbuffer st with
      | [n'] =>
          let b := dnode n' in
          if N.eqb (nto b) (cpto (dctx c)) then Ok (dflush st)
          else
            let st := mkDState (dqueue st) [] (dhist st) in
            if reverse_of b (dnode n) then Ok (dflush st)
            else if memN (nto b) visited then Ok (dflush st)
            else dsuccessors fuel c (nto b :: visited) n' st
      | _ => Ok (dflush st)
      end
  end.

(** instance.rs 277-303: the points where the path enters another layer.  [last] is `path_with_layers_end\[0\].0`. *)
Fixpoint fill (last from : vec2 A) (pts : list (vec2 A * vec2 A * N)) : list (vec2 A * N) :=
  match pts with
  | [] => []
  | (a, b, l) :: r =>
      if veq a b then (a, l) :: fill last a r
      else
        let to := match find (fun q : vec2 A * vec2 A * N => veq (fst (fst q)) (snd (fst q))) r with
                  | Some q => fst (fst q)
                  | None => last
                  end in
        match line_intersect_segment (from, to) (a, b) with
        | Some x => (x, l) :: fill last x r
        | None => fill last from r
        end
  end.

(** instance.rs 304-314: a point closer than 0.01 to the next one is dropped *)
Fixpoint thin (l : list (vec2 A * N)) : list (vec2 A * N) :=
  match l with
  | [] => []
  | p :: r =>
      match r with
      | [] => [p]
      | n :: _ => if flt (vdist2 (fst p) (fst n)) EPS then thin r else p :: thin r
      end
  end.

(** instance.rs 262-276: the end of the path *)
Definition dend (c : Ctx A) (n : Node A) : list (vec2 A) :=
  (match turning_point (nroot n) (cgoal c) (ninterval n) with Some t => [t] | None => [] end) ++ [cgoal c].

(** instance.rs 277-316: path_with_layers *)
Definition dwith_layers (c : DCtx) (n : DNode) : list (vec2 A * N) :=
  let e := dend (dctx c) (dnode n) in
  thin (fill (hd (cgoal (dctx c)) e) (fst (dfrom c)) (dpoints n)
        ++ map (fun p => (p, id_layer (nto (dnode n)))) e).

(** instance.rs 322-329: the length *)
Definition dleg (c : DCtx) (acc : F A * (vec2 A * N)) (p : vec2 A * N) : res (F A * (vec2 A * N)) :=
  let* sc := index (dscales c) (snd (snd acc)) in
  Ok (fadd (fst acc) (vdist (vmulv (fst (snd acc)) sc) (vmulv (fst p) sc)), p).
Definition dsum (c : DCtx) (l : list (vec2 A * N)) : res (F A) :=
  let* r := foldM (dleg c) (fz 0, dfrom c) l in Ok (fst r).

(** instance.rs 262-333 *)
Definition dfinal (c : DCtx) (n : DNode) : res DPath :=
  let* len := dsum c (dwith_layers c n) in
  Ok (mkDPath len (npath (dnode n) ++ dend (dctx c) (dnode n)) (dwith_layers c n)).

(** instance.rs 218-340: next *)
Definition dnext (lib : DLib) (c : DCtx) (st : DState) : res (DState * DStep) :=
  match dpop lib (dqueue st) with
  | None => Ok (st, DNotFound)
  | Some (n, q) =>
      let st := mkDState q (dbuffer st) (dhist st) in
      let dominated := match hist_get (dhist st) (nroot (dnode n)) with
                       | Some o => flt o (ng (dnode n))
                       | None => false
                       end in
      if dominated then Ok (st, DContinue)
      else if N.eqb (nto (dnode n)) (cpto (dctx c)) then
        let* p := dfinal c n in Ok (st, DFound p)
      else let* st := dsuccessors (succ_fuel (cmesh (dctx c))) c [] n st in Ok (st, DContinue)
  end.

(** lib.rs 313-334: the bounded loop, which collects the paths.  When the queue is empty, each further round moves the first
    path to the end. *)
Fixpoint drun (k : nat) (lib : DLib) (c : DCtx) (st : DState) (paths : list DPath) : res (list DPath) :=
  match k with
  | O => Ok paths
  | S k =>
      let* r := dnext lib c st in
      drun k lib c (fst r)
           match snd r with
           | DFound p => paths ++ [p]
           | DNotFound => match paths with [] => [] | p :: q => q ++ [p] end
           | DContinue => paths
           end
  end.

(** lib.rs 335-342: stable sort by length and first element; `partial_cmp().unwrap()` panics if a NaN is compared, which any sort
    of at least two elements does *)
Fixpoint shortest (best : DPath) (l : list DPath) : DPath :=
  match l with
  | [] => best
  | x :: r => if flt (dlength x) (dlength best) then shortest x r else shortest best r
  end.
Definition dselect (paths : list DPath) : res (option DPath) :=
  match paths with
  | [] => Ok None
  | [p] => Ok (Some p)
  | p :: r => if existsb (fun p => fnan (dlength p)) paths then Panic else Ok (Some (shortest p r))
  end.

(** locate_end only uses the polygon finder *)
Definition dlib_lib (lib : DLib) : Lib A := mkLib (dbvh lib) (fun _ => None).

(** lib.rs 244-343: path_on_layers *)
Definition dpath_on_layers (lib : DLib) (m : Mesh A) (scales : list (vec2 A)) (from to : Coords A) (blocked : list N)
  : res (option DPath) :=
  let* os := locate_end (dlib_lib lib) m from in
  match os with
  | None => Ok None
  | Some ps =>
      let* oe := locate_end (dlib_lib lib) m to in
      match oe with
      | None => Ok None
      | Some pe =>
          let* rej := islands_reject m ps pe in
          if rej then Ok None
          else if N.eqb ps pe then
            Ok (Some (mkDPath (vdist (cpos from) (cpos to)) [cpos to] [(cpos to, id_layer pe)]))
          else
            let c := mkDCtx (mkCtx m (cpos to) pe blocked) scales (cpos from, id_layer ps) in
            let* st := dsetup c (cpos from) ps in
            let* paths := drun (count_polygons m * 10) lib c st [] in
            dselect paths
      end
  end.

(** async_helpers.rs 38-50: what polling the future gives once the search is set up: the outcome of the first of [k] steps that
    does not return Continue; None if all of them do *)
Fixpoint dfirst (k : nat) (lib : DLib) (c : DCtx) (st : DState) : res (option (option DPath)) :=
  match k with
  | O => Ok None
  | S k =>
      let* r := dnext lib c st in
      match snd r with
      | DFound p => Ok (Some (Some p))
      | DNotFound => Ok (Some None)
      | DContinue => dfirst k lib c (fst r)
      end
  end.

(** async_helpers.rs 35-112: what the future returned by get_path gives when polled until the search has made [k] steps (its
    first poll locates the ends and sets the search up) *)
Definition dget_path (k : nat) (lib : DLib) (m : Mesh A) (scales : list (vec2 A)) (from to : vec2 A)
  : res (option (option DPath)) :=
  let* ps := get_point_location (dbvh lib) m (coords_on_mesh from) in
  if N.eqb ps MAX then Ok (Some None)
  else
    let* pe := get_point_location (dbvh lib) m (coords_on_mesh to) in
    if N.eqb pe MAX then Ok (Some None)
    else
      let* rej := async_islands_reject m ps pe in
      if rej then Ok (Some None)
      else if N.eqb ps pe then Ok (Some (Some (mkDPath (vdist from to) [to] [(to, id_layer pe)])))
      else
        let c := mkDCtx (mkCtx m to pe []) scales (from, id_layer ps) in
        let* st := dsetup c from ps in
        dfirst k lib c st.

End Detailed.

Arguments DPath A : clear implicits.
Arguments DNode A : clear implicits.
Arguments DCtx A : clear implicits.
Arguments DState A : clear implicits.
Arguments DStep A : clear implicits.
Arguments DLib A : clear implicits.
