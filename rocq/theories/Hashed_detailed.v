(** The search with the feature `detailed-layers` (Detailed.v) with a hash table of roots (Hashed.v) instead of the lookup by
    equality.  The code of the search is the same as in Detailed.v except for the lookups. *)
From Coq Require Import List NArith ZArith Bool.
From Verif Require Import Base Arith U32 Mesh Helpers Locate Search AsyncPath Detailed Hashed.
Import ListNotations.
Open Scope N_scope.

Section Hashed_detailed.
Context {A : Arith} (seed : Seed).

(** instance.rs 60-63: the mutable part of SearchInstance *)
Record HDState := mkHDState { hdqueue : list (DNode A); hdbuffer : list (DNode A); dtable : table (A := A) }.

(** instance.rs 537-645: add_node *)
Definition hdadd_node (c : DCtx A) (st : HDState) (root : vec2 A) (other : N) (s e : vec2 A * N) (n : DNode A)
  : res HDState :=
  let* nn := dnew_node c root other s e n in
  let g := ng (dnode nn) in
  Ok (if fnan g || fnan (nh (dnode nn)) then st
      else
        match table_get seed (dtable st) root with
        | Some o =>
            if flt o g then st
            else mkHDState (hdqueue st) (hdbuffer st ++ [nn]) (table_set seed (dtable st) root g)
        | None => mkHDState (hdqueue st) (hdbuffer st ++ [nn]) (table_add seed (dtable st) root g)
        end).

(** instance.rs 649-665: flush_nodes *)
Definition hdflush (st : HDState) : HDState := mkHDState (hdqueue st ++ hdbuffer st) [] (dtable st).

(** instance.rs 175-213: one edge of the starting polygon *)
Definition hdsetup_edge (c : DCtx A) (from : vec2 A) (pfrom : N) (l : Layer A) (st : HDState) (e : N * N) : res HDState :=
  match nthN (vertices l) (fst e), nthN (vertices l) (snd e) with
  | Some sv, Some ev =>
      let os := other_side sv ev pfrom in
      if memN (id_layer os) (cblocked (dctx c)) then Ok st
      else
        let* go :=
          (if N.eqb os (cpto (dctx c)) then Ok true
           else if N.eqb os MAX then Ok false
           else let* p := mesh_polygon (cmesh (dctx c)) os in Ok (negb (is_one_way p))) in
        if go
        then hdadd_node c st from os (vadd (coords sv) (offset l), fst e)
                       (vadd (coords ev) (offset l), snd e) (mkDNode (empty_node from pfrom) [])
        else Ok st
  | _, _ => Ok st
  end.

(** instance.rs 120-216: setup *)
Definition hdsetup (c : DCtx A) (from : vec2 A) (pfrom : N) : res HDState :=
  let* l := index (layers (cmesh (dctx c))) (id_layer pfrom) in
  let* p := index (polygons l) (id_polygon pfrom) in
  let* es := edges_index p in
  let* st := foldM (hdsetup_edge c from pfrom l) (mkHDState [] [] (table_add seed (table_new seed) from (fz 0))) es in
  Ok (hdflush st).

(** instance.rs 688-864: one successor of [n]; as [expand_one] *)
Definition hdexpand_one (c : DCtx A) (n : DNode A) (l : Layer A) (st : HDState) (s : Successor A) : res HDState :=
  let x := dctx c in
  let b := dnode n in
  let* sv := get_unchecked (vertices l) (fst (sedge s)) in
  let* ev := get_unchecked (vertices l) (snd (sedge s)) in
  let os := other_side sv ev (nto b) in
  if N.eqb os MAX then Ok st
  else if memN (id_layer os) (cblocked x) then Ok st
  else
    let* dead := (if N.eqb (cpto x) os then Ok false
                  else let* p := mesh_polygon (cmesh x) os in Ok (is_one_way p)) in
    if dead then Ok st
    else if N.eqb (nfrom b) os then Ok st
    else
      let* root :=
        match sty s with
        | RightNonObs =>
            if fgt (vdist2 (fst (sinterval s)) (vadd (coords sv) (offset l))) c1em10 then Ok None
            else let* ok := corner_ok x b (fst (nedge b)) (fst (ninterval b)) in
                 Ok (if ok then Some (fst (ninterval b)) else None)
        | Obs => Ok (Some (nroot b))
        | LeftNonObs =>
            if fgt (vdist2 (snd (sinterval s)) (vadd (coords ev) (offset l))) c1em10 then Ok None
            else let* ok := corner_ok x b (snd (nedge b)) (snd (ninterval b)) in
                 Ok (if ok then Some (snd (ninterval b)) else None)
        end in
      match root with
      | None => Ok st
      | Some root =>
          if flt (vdist2 (fst (sinterval s)) (snd (sinterval s))) c1em10 then Ok st
          else hdadd_node c st root os (fst (sinterval s), fst (sedge s))
                         (snd (sinterval s), snd (sedge s)) n
      end.

(** instance.rs 688-864 *)
Definition hdexpand (c : DCtx A) (n : DNode A) (st : HDState) : res HDState :=
  let* ss := edges_between (dctx c) (dnode n) in
  let* l := index (layers (cmesh (dctx c))) (id_layer (nto (dnode n))) in
  foldM (hdexpand_one c n l) st ss.

(** instance.rs 675-912: successors *)
Fixpoint hdsuccessors (fuel : nat) (c : DCtx A) (visited : list N) (n : DNode A) (st : HDState) : res HDState :=
  match fuel with
  | O => NoFuel
  | S fuel =>
      let* st := hdexpand c n st in
      match hdbuffer st with
      | [n'] =>
          let b := dnode n' in
          if N.eqb (nto b) (cpto (dctx c)) then Ok (hdflush st)
          else
            let st := mkHDState (hdqueue st) [] (dtable st) in
            if reverse_of b (dnode n) then Ok (hdflush st)
            else if memN (nto b) visited then Ok (hdflush st)
            else hdsuccessors fuel c (nto b :: visited) n' st
      | _ => Ok (hdflush st)
      end
  end.

(** instance.rs 218-340: next *)
Definition hdnext (lib : DLib A) (c : DCtx A) (st : HDState) : res (HDState * DStep A) :=
  match dpop lib (hdqueue st) with
  | None => Ok (st, DNotFound)
  | Some (n, q) =>
      let st := mkHDState q (hdbuffer st) (dtable st) in
      let dominated := match table_get seed (dtable st) (nroot (dnode n)) with
                       | Some o => flt o (ng (dnode n))
                       | None => false
                       end in
      if dominated then Ok (st, DContinue)
      else if N.eqb (nto (dnode n)) (cpto (dctx c)) then
        let* p := dfinal c n in Ok (st, DFound p)
      else let* st := hdsuccessors (succ_fuel (cmesh (dctx c))) c [] n st in Ok (st, DContinue)
  end.

(** lib.rs 313-334: the bounded loop, which collects the paths.  When the queue is empty, each further round moves the first
    path to the end. *)
Fixpoint hdrun (k : nat) (lib : DLib A) (c : DCtx A) (st : HDState) (paths : list (DPath A)) : res (list (DPath A)) :=
  match k with
  | O => Ok paths
  | S k =>
      let* r := hdnext lib c st in
      hdrun k lib c (fst r)
           match snd r with
           | DFound p => paths ++ [p]
           | DNotFound => match paths with [] => [] | p :: q => q ++ [p] end
           | DContinue => paths
           end
  end.

(** lib.rs 244-343: path_on_layers *)
Definition hdpath_on_layers (lib : DLib A) (m : Mesh A) (scales : list (vec2 A)) (from to : Coords A) (blocked : list N)
  : res (option (DPath A)) :=
  let* os := locate_end (dlib_lib lib) m from in
  match os with
  | None => Ok None
  | Some ps =>
      let* oe := locate_end (dlib_lib lib) m to in
      match oe with
      | None => Ok None
      | Some pe =>
          let* rej := islands_reject m ps pe in
          if rej then Ok None
          else if N.eqb ps pe then
            Ok (Some (mkDPath (vdist (cpos from) (cpos to)) [cpos to] [(cpos to, id_layer pe)]))
          else
            let c := mkDCtx (mkCtx m (cpos to) pe blocked) scales (cpos from, id_layer ps) in
            let* st := hdsetup c (cpos from) ps in
            let* paths := hdrun (count_polygons m * 10) lib c st [] in
            dselect paths
      end
  end.

(** async_helpers.rs 38-50: what polling the future gives once the search is set up: the outcome of the first of [k] steps that
    does not return Continue; None if all of them do *)
Fixpoint hdfirst (k : nat) (lib : DLib A) (c : DCtx A) (st : HDState) : res (option (option (DPath A))) :=
  match k with
  | O => Ok None
  | S k =>
      let* r := hdnext lib c st in
      match snd r with
      | DFound p => Ok (Some (Some p))
      | DNotFound => Ok (Some None)
      | DContinue => hdfirst k lib c (fst r)
      end
  end.

(** async_helpers.rs 35-112: what the future returned by get_path gives when polled until the search has made [k] steps (its
    first poll locates the ends and sets the search up) *)
Definition hdget_path (k : nat) (lib : DLib A) (m : Mesh A) (scales : list (vec2 A)) (from to : vec2 A)
  : res (option (option (DPath A))) :=
  let* ps := get_point_location (dbvh lib) m (coords_on_mesh from) in
  if N.eqb ps MAX then Ok (Some None)
  else
    let* pe := get_point_location (dbvh lib) m (coords_on_mesh to) in
    if N.eqb pe MAX then Ok (Some None)
    else
      let* rej := async_islands_reject m ps pe in
      if rej then Ok (Some None)
      else if N.eqb ps pe then Ok (Some (Some (mkDPath (vdist from to) [to] [(to, id_layer pe)])))
      else
        let c := mkDCtx (mkCtx m to pe []) scales (from, id_layer ps) in
        let* st := hdsetup c from ps in
        hdfirst k lib c st.

End Hashed_detailed.
