(** Merging polygons: src/merger.rs. *)
From Coq Require Import List NArith ZArith Bool.
From Verif Require Import Base Arith U32 Mesh Helpers Cleanup.
Import ListNotations.
Open Scope N_scope.

Section Merger.
Context {A : Arith}.

(** geo::Polygon::unsigned_area (primitives.rs 131-146), an oracle *)
Variable area_of : list (vec2 A) -> F A.
(** slice::sort_by of merger.rs 36 (decreasing areas), an oracle: only that it permutes its input is used *)
Variable sort_area : list (N * F A) -> list (N * F A).
(** geo::IsConvex::is_ccw_convex of the closed line through the points (merger.rs 95-97), an oracle *)
Variable convex : list (vec2 A) -> bool.

(** merger.rs 162-172: UnionFind::find.  The i32 of the code are N here: the value -1 never occurs, because the only id
    converted to -1 is u32::MAX, which is tested before; other ids above i32::MAX are out of range in both. *)
Fixpoint uf_find (fuel : nat) (par : list N) (x : N) : res N :=
  match fuel with
  | O => NoFuel
  | S f => let* p := index par x in
           if N.eqb p x then Ok p else uf_find f par p
  end.

(** merger.rs 151-160: UnionFind::find_and_update (path compression) *)
Fixpoint uf_find_update (fuel : nat) (par : list N) (x : N) : res (list N * N) :=
  match fuel with
  | O => NoFuel
  | S f => let* p := index par x in
           if N.eqb p x then Ok (par, p)
           else let* pr := uf_find_update f par p in
                Ok (updN (fst pr) x (fun _ => snd pr), snd pr)
  end.

Definition uf_fuel (par : list N) : nat := S (length par).
Definition find (par : list N) (x : N) : res N := uf_find (uf_fuel par) par x.

(** merger.rs 174-178: UnionFind::union *)
Definition uf_union (par : list N) (x y : N) : res (list N) :=
  let* px := uf_find_update (uf_fuel par) par x in
  let* py := uf_find_update (uf_fuel (fst px)) (fst px) y in
  let* _ := index (fst py) (snd py) in
  Ok (updN (fst py) (snd py) (fun _ => snd px)).

(** merger.rs 145-149: UnionFind::new *)
Definition uf_new {T} (l : list T) : list N := map fst (enumerate l).

(** Iterator::skip_while / take_while with the predicate `!= x` *)
Fixpoint skip_until (x : N) (l : list N) : list N :=
  match l with
  | [] => []
  | y :: r => if N.eqb y x then l else skip_until x r
  end.
Fixpoint take_until (x : N) (l : list N) : list N :=
  match l with
  | [] => []
  | y :: r => if N.eqb y x then [] else y :: take_until x r
  end.

(** merger.rs 73-93: the indices of the joined polygon *)
Definition joined (vs ws : list N) (e0 e1 : N) : list N :=
  take_until e0 (skip_until e1 (vs ++ vs)) ++ take_until e1 (skip_until e0 (ws ++ ws)).

(** merger.rs 46-63: the polygon on the other side of the edge: the first polygon of the start vertex that is
    not the polygon itself and is also listed by the end vertex *)
Definition other_side (pi : N) (start fin : Vertex A) : option N :=
  List.find (fun i => negb (N.eqb i MAX) && negb (N.eqb i pi) && memN i (vpolys fin)) (vpolys start).

(** merger.rs 45-104: one edge of the polygon; Some for a merge (and break) *)
Definition merge_edge (vs : list (Vertex A)) (ps : list Polygon) (par : list N) (pi : N) (poly : Polygon)
    (e : N * N) : res (option (list Polygon * list N)) :=
  match nthN vs (fst e), nthN vs (snd e) with
  | Some start, Some fin =>
      match other_side pi start fin with
      | None => Ok None
      | Some o =>
          let* ro := find par o in
          if negb (N.eqb ro o) then Ok None
          else
            let* op := index ps o in
            if lengthN (pverts poly) + lengthN (pverts op) <? 2 then Panic
            else
              let js := joined (pverts poly) (pverts op) (fst e) (snd e) in
              let* cs := mapM (index vs) js in
              if convex (map (fun v => coords v) cs) then
                let* par' := uf_union par pi o in
                Ok (Some (updN ps pi (fun _ => mkPolygon js false), par'))
              else Ok None
      end
  | _, _ => Ok None
  end.

(** merger.rs 44-104: the loop over the edges, stopped by the first merge *)
Fixpoint merge_edges vs ps par pi poly (es : list (N * N)) : res (list Polygon * list N) :=
  match es with
  | [] => Ok (ps, par)
  | e :: r => let* o := merge_edge vs ps par pi poly e in
              match o with
              | Some s => Ok s
              | None => merge_edges vs ps par pi poly r
              end
  end.

(** merger.rs 38-105: one polygon *)
Definition merge_step (vs : list (Vertex A)) (s : list Polygon * list N) (pi : N) : res (list Polygon * list N) :=
  let* r := find (snd s) pi in
  if negb (N.eqb r pi) then Ok s
  else let* poly := index (fst s) pi in
       let* es := edges_index poly in
       merge_edges vs (fst s) (snd s) pi poly es.

(** slice::swap *)
Definition swapN {T} (l : list T) (i j : N) : res (list T) :=
  let* a := index l i in
  let* b := index l j in
  Ok (updN (updN l i (fun _ => b)) j (fun _ => a)).

(** merger.rs 109-124: the new index of polygon i, whose parent is p; the polygons are moved on the way *)
Definition renumber_step (par : list N) (s : (list N * N) * list Polygon) (ip : N * N)
    : res ((list N * N) * list Polygon) :=
  let ni := fst (fst s) in
  let kept := snd (fst s) in
  let ps := snd s in
  let* r := find par (snd ip) in
  let* nr := index ni r in
  let ni1 := if N.eqb nr MAX then updN ni r (fun _ => kept) else ni in
  let kept1 := if N.eqb nr MAX then kept + 1 else kept in
  let* j := index ni1 r in
  if N.eqb (fst ip) r then
    let* ps1 := if N.eqb (fst ip) j then Ok ps else swapN ps (fst ip) j in
    Ok ((ni1, kept1), ps1)
  else Ok ((updN ni1 (fst ip) (fun _ => j), kept1), ps).

(** merger.rs 107-124 *)
Definition renumber (par : list N) (ps : list Polygon) : res ((list N * N) * list Polygon) :=
  foldM (renumber_step par) ((map (fun _ => MAX) ps, 0), ps) (enumerate par).

(** merger.rs 127-134: the neighbours of a vertex *)
Definition rename_vertex (ni : list N) (v : Vertex A) : res (Vertex A) :=
  let* ids := mapM (fun p => if N.eqb p MAX then Ok MAX else index ni p) (vpolys v) in
  Ok (mkVertex (coords v) (dedup ids) (is_corner v)).

(** primitives.rs 131-146: Polygon::area *)
Definition polygon_area (vs : list (Vertex A)) (p : Polygon) : res (F A) :=
  let* cs := mapM (index vs) (pverts p) in
  Ok (area_of (map (fun v => coords v) cs)).

(** merger.rs 27-36: the order in which the polygons are visited.  partial_cmp(..).unwrap() panics on NaN, and every
    element is compared at least once when there are at least two. *)
Definition merge_order (l : Layer A) : res (list N) :=
  let* areas := mapM (polygon_area (vertices l)) (polygons l) in
  if (1 <? lengthN areas) && existsb fnan areas then Panic
  else Ok (map fst (sort_area (enumerate areas))).

(** merger.rs 25-136: Layer::merge_polygons *)
Definition layer_merge (l : Layer A) : res (Layer A * bool) :=
  let* order := merge_order l in
  let* s := foldM (merge_step (vertices l)) (polygons l, uf_new (polygons l)) order in
  let* rn := renumber (snd s) (fst s) in
  let kept := snd (fst rn) in
  if lengthN (snd rn) <? kept then Panic (* resize_with: unreachable!() *)
  else
    let* vs := mapM (rename_vertex (fst (fst rn))) (vertices l) in
    Ok (layer_unbake (mkLayer vs (firstn (N.to_nat kept) (snd rn)) (offset l) (baked l) (islands l)),
        negb (N.eqb (lengthN (fst (fst rn))) kept)).

(** merger.rs 12-18: Mesh::merge_polygons *)
Definition mesh_merge (m : Mesh A) : res (Mesh A * bool) :=
  let* lb := until_true layer_merge (layers m) in
  Ok (mkMesh (fst lb) (search_delta m) (search_steps m), snd lb).

(** the callers' idiom `while mesh.merge_polygons() {}` (tests of merger.rs, examples) *)
Fixpoint merge_all (fuel : nat) (m : Mesh A) : res (Mesh A) :=
  match fuel with
  | O => NoFuel
  | S f => let* mb := mesh_merge m in
           if snd mb then merge_all f (fst mb) else Ok (fst mb)
  end.

End Merger.
