(** The search with a hash table of roots, instead of the lookup by equality of [Search.v].

    hashbrown's HashMap is seeded at random for every table, so the slot of a root changes from one run to the next.
    Here the table is a list of buckets; the hasher, the first capacity and the growth policy are arbitrary functions.
    Simplification: hashbrown uses open addressing with groups of slots; buckets with chaining here. *)
From Coq Require Import List NArith ZArith Bool.
From Verif Require Import Base Arith U32 Mesh Helpers Locate Search AsyncPath.
Import ListNotations.
Open Scope N_scope.

(** What the seed of a table decides: the hash of the two integers fed to the hasher, the first number of buckets
    (0 is one bucket), and whether to grow, and to which number of buckets, when a root is added to that many roots in
    that many buckets. *)
Record Seed := mkSeed {
  hasher : Z * Z -> N;
  capacity : N;
  growth : N -> N -> option N
}.

Section Hashed.
Context {A : Arith} (seed : Seed).

(** instance.rs 31-37: the integers fed to the hasher, with PRECISION = 1000.0 (lib.rs 15) *)
Definition hash_key (v : vec2 A) : Z * Z := (fi32 (fmul (vx v) (fz 1000)), fi32 (fmul (vy v) (fz 1000))).

Definition bucket : Type := list (vec2 A * F A).
Definition table : Type := list bucket.

(** the bucket of a root, among [n] buckets *)
Definition slot (n : N) (r : vec2 A) : N := hasher seed (hash_key r) mod n.

(** HashMap::with_capacity(10) (instance.rs 133) or HashMap::new(): at least one bucket, all empty *)
Definition table_new : table := [] :: repeat [] (N.to_nat (N.pred (capacity seed))).

(** HashMap::get: only the roots of the bucket are compared, with == (instance.rs 22-27) *)
Definition table_get (t : table) (r : vec2 A) : option (F A) :=
  match nthN t (slot (lengthN t) r) with
  | Some b => hist_get b r
  | None => None
  end.

(** change one bucket *)
Fixpoint change (t : table) (i : N) (f : bucket -> bucket) : table :=
  match t with
  | [] => []
  | b :: r => if N.eqb i 0 then f b :: r else b :: change r (N.pred i) f
  end.

(** OccupiedEntry::insert *)
Definition table_set (t : table) (r : vec2 A) (x : F A) : table :=
  change t (slot (lengthN t) r) (fun b => hist_set b r x).

(** growing moves all the roots to their slots among [n] buckets *)
Definition rehash (t : table) (n : N) : table :=
  map (fun i => filter (fun e => N.eqb (slot n (fst e)) i) (concat t)) (rangeN n).

(** VacantEntry::insert *)
Definition table_add (t : table) (r : vec2 A) (x : F A) : table :=
  let t := match growth seed (lengthN (concat t)) (lengthN t) with
           | Some n => rehash t (N.succ (N.pred n))
           | None => t
           end in
  change t (slot (lengthN t) r) (fun b => (r, x) :: b).

(** instance.rs 60-63: the mutable part of SearchInstance *)
Record HState := mkHState {
  hqueue : list (Node A);
  hbuffer : list (Node A);
  htable : table
}.

(** instance.rs 537-645: add_node *)
Definition hadd_node (c : Ctx A) (st : HState) (root : vec2 A) (other : N) (s e : vec2 A * N) (n : Node A) : HState :=
  let nn := new_node c root other s e n in
  if fnan (ng nn) || fnan (nh nn) then st
  else
    match table_get (htable st) root with
    | Some o =>
        if flt o (ng nn) then st
        else mkHState (hqueue st) (hbuffer st ++ [nn]) (table_set (htable st) root (ng nn))
    | None => mkHState (hqueue st) (hbuffer st ++ [nn]) (table_add (htable st) root (ng nn))
    end.

(** instance.rs 649-665: flush_nodes *)
Definition hflush (st : HState) : HState := mkHState (hqueue st ++ hbuffer st) [] (htable st).

(** instance.rs 175-213: one edge of the starting polygon *)
Definition hsetup_edge (c : Ctx A) (from : vec2 A) (pfrom : N) (l : Layer A) (st : HState) (e : N * N) : res HState :=
  match nthN (vertices l) (fst e), nthN (vertices l) (snd e) with
  | Some sv, Some ev =>
      let os := other_side sv ev pfrom in
      if memN (id_layer os) (cblocked c) then Ok st
      else
        let* go :=
          (if N.eqb os (cpto c) then Ok true
           else if N.eqb os MAX then Ok false
           else let* p := mesh_polygon (cmesh c) os in Ok (negb (is_one_way p))) in
        Ok (if go
            then hadd_node c st from os (vadd (coords sv) (offset l), fst e)
                          (vadd (coords ev) (offset l), snd e) (empty_node from pfrom)
            else st)
  | _, _ => Ok st
  end.

(** instance.rs 120-216: setup; 157 inserts the start with cost 0 *)
Definition hsetup (c : Ctx A) (from : vec2 A) (pfrom : N) : res HState :=
  let* l := index (layers (cmesh c)) (id_layer pfrom) in
  let* p := index (polygons l) (id_polygon pfrom) in
  let* es := edges_index p in
  let* st := foldM (hsetup_edge c from pfrom l) (mkHState [] [] (table_add table_new from (fz 0))) es in
  Ok (hflush st).

(** instance.rs 688-864: one successor of [n] *)
Definition hexpand_one (c : Ctx A) (n : Node A) (l : Layer A) (st : HState) (s : Successor A) : res HState :=
  let* sv := get_unchecked (vertices l) (fst (sedge s)) in
  let* ev := get_unchecked (vertices l) (snd (sedge s)) in
  let os := other_side sv ev (nto n) in
  if N.eqb os MAX then Ok st
  else if memN (id_layer os) (cblocked c) then Ok st
  else
    let* dead := (if N.eqb (cpto c) os then Ok false
                  else let* p := mesh_polygon (cmesh c) os in Ok (is_one_way p)) in
    if dead then Ok st
    else if N.eqb (nfrom n) os then Ok st
    else
      let* root :=
        match sty s with
        | RightNonObs =>
            if fgt (vdist2 (fst (sinterval s)) (vadd (coords sv) (offset l))) c1em10 then Ok None
            else let* ok := corner_ok c n (fst (nedge n)) (fst (ninterval n)) in
                 Ok (if ok then Some (fst (ninterval n)) else None)
        | Obs => Ok (Some (nroot n))
        | LeftNonObs =>
            if fgt (vdist2 (snd (sinterval s)) (vadd (coords ev) (offset l))) c1em10 then Ok None
            else let* ok := corner_ok c n (snd (nedge n)) (snd (ninterval n)) in
                 Ok (if ok then Some (snd (ninterval n)) else None)
        end in
      match root with
      | None => Ok st
      | Some root =>
          if flt (vdist2 (fst (sinterval s)) (snd (sinterval s))) c1em10 then Ok st
          else Ok (hadd_node c st root os (fst (sinterval s), fst (sedge s))
                             (snd (sinterval s), snd (sedge s)) n)
      end.

(** instance.rs 688-864: all the successors of [n] *)
Definition hexpand (c : Ctx A) (n : Node A) (st : HState) : res HState :=
  let* ss := edges_between c n in
  let* l := index (layers (cmesh c)) (id_layer (nto n)) in
  foldM (hexpand_one c n l) st ss.

(** instance.rs 675-912: successors *)
Fixpoint hsuccessors (fuel : nat) (c : Ctx A) (visited : list N) (n : Node A) (st : HState) : res HState :=
  match fuel with
  | O => NoFuel
  | S fuel =>
      let* st := hexpand c n st in
      match hbuffer st with
      | [n'] =>
          if N.eqb (nto n') (cpto c) then Ok (hflush st)
          else
            let st := mkHState (hqueue st) [] (htable st) in
            if reverse_of n' n then Ok (hflush st)
            else if memN (nto n') visited then Ok (hflush st)
            else hsuccessors fuel c (nto n' :: visited) n' st
      | _ => Ok (hflush st)
      end
  end.

(** instance.rs 218-340: next *)
Definition hnext (lib : Lib A) (c : Ctx A) (st : HState) : res (HState * Step A) :=
  match lpop lib (hqueue st) with
  | None => Ok (st, NotFound)
  | Some (n, q) =>
      let st := mkHState q (hbuffer st) (htable st) in
      let dominated := match table_get (htable st) (nroot n) with
                       | Some o => flt o (ng n)
                       | None => false
                       end in
      if dominated then Ok (st, Continue)
      else if N.eqb (nto n) (cpto c) then Ok (st, Found (final_path c n))
      else let* st := hsuccessors (succ_fuel (cmesh c)) c [] n st in Ok (st, Continue)
  end.

(** lib.rs 313-342: the bounded loop of path_on_layers *)
Fixpoint hrun (k : nat) (lib : Lib A) (c : Ctx A) (st : HState) : res (option (Path A)) :=
  match k with
  | O => Ok None
  | S k =>
      let* r := hnext lib c st in
      match snd r with
      | Found p => Ok (Some p)
      | NotFound | Continue => hrun k lib c (fst r)
      end
  end.

(** lib.rs 244-343: path_on_layers *)
Definition hpath_on_layers (lib : Lib A) (m : Mesh A) (from to : Coords A) (blocked : list N) : res (option (Path A)) :=
  let* os := locate_end lib m from in
  match os with
  | None => Ok None
  | Some ps =>
      let* oe := locate_end lib m to in
      match oe with
      | None => Ok None
      | Some pe =>
          let* rej := islands_reject m ps pe in
          if rej then Ok None
          else if N.eqb ps pe then
            Ok (Some (mkPath (vdist (cpos from) (cpos to)) [cpos to]))
          else
            let c := mkCtx m (cpos to) pe blocked in
            let* st := hsetup c (cpos from) ps in
            hrun (count_polygons m * 10) lib c st
      end
  end.

(** lib.rs 233-235: path *)
Definition hpath (lib : Lib A) (m : Mesh A) (from to : Coords A) : res (option (Path A)) :=
  hpath_on_layers lib m from to [].

(** async_helpers.rs 14-22: FuturePath *)
Record HFuture := mkHFuture {
  hffrom : vec2 A;
  hfto : vec2 A;
  hfmesh : Mesh A;
  hfinst : option (Ctx A * HState)
}.

(** lib.rs 216-224: get_path *)
Definition hget_path (m : Mesh A) (from to : vec2 A) : HFuture := mkHFuture from to m None.

(** async_helpers.rs 40-46 *)
Fixpoint hthree (k : nat) (lib : Lib A) (c : Ctx A) (st : HState) : res (HState * option (option (Path A))) :=
  match k with
  | O => Ok (st, None)
  | S k =>
      let* r := hnext lib c st in
      match snd r with
      | Found p => Ok (fst r, Some (Some p))
      | NotFound => Ok (fst r, Some None)
      | Continue => hthree k lib c (fst r)
      end
  end.

(** async_helpers.rs 35-112: poll *)
Definition hpoll (lib : Lib A) (f : HFuture) : res (HFuture * bool * Poll A) :=
  match hfinst f with
  | Some (c, st) =>
      let* r := hthree 3 lib c st in
      let f' := mkHFuture (hffrom f) (hfto f) (hfmesh f) (Some (c, fst r)) in
      Ok (match snd r with
          | Some o => (f', false, Ready o)
          | None => (f', true, Pending)
          end)
  | None =>
      let* ps := get_point_location (lbvh lib) (hfmesh f) (coords_on_mesh (hffrom f)) in
      if N.eqb ps MAX then Ok (f, false, Ready None)
      else
        let* pe := get_point_location (lbvh lib) (hfmesh f) (coords_on_mesh (hfto f)) in
        if N.eqb pe MAX then Ok (f, false, Ready None)
        else
          let* rej := async_islands_reject (hfmesh f) ps pe in
          if rej then Ok (f, false, Ready None)
          else if N.eqb ps pe then
            Ok (f, false, Ready (Some (mkPath (vdist (hffrom f) (hfto f)) [hfto f])))
          else
            let c := mkCtx (hfmesh f) (hfto f) pe [] in
            let* st := hsetup c (hffrom f) ps in
            Ok (mkHFuture (hffrom f) (hfto f) (hfmesh f) (Some (c, st)), true, Pending)
  end.

(** Not code of /repo: an executor, as [poll_times] *)
Fixpoint hpoll_times (k : nat) (lib : Lib A) (f : HFuture) : res (option (option (Path A)) * list bool) :=
  match k with
  | O => Ok (None, [])
  | S k =>
      let* r := hpoll lib f in
      let '(f', woken, p) := r in
      match p with
      | Ready o => Ok (Some o, [woken])
      | Pending => let* r' := hpoll_times k lib f' in Ok (fst r', woken :: snd r')
      end
  end.
End Hashed.
