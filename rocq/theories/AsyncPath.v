(** The future returned by Mesh::get_path: src/async_helpers.rs, src/lib.rs 216-224. *)
From Coq Require Import List NArith ZArith Bool.
From Verif Require Import Base Arith U32 Mesh Helpers Locate Search.
Import ListNotations.
Open Scope N_scope.

Section Async.
Context {A : Arith}.

(** async_helpers.rs 15-21; [finst] is the field `instance` (with the context it borrows).
    The field `ending_polygon` is never read and is left out. *)
Record Future := mkFuture {
  ffrom : vec2 A;
  fto : vec2 A;
  fmesh : Mesh A;
  finst : option (Ctx A * State A)
}.

(** std::task::Poll *)
Inductive Poll := Ready (o : option (Path A)) | Pending.

(** lib.rs 216-224: get_path *)
Definition get_path (m : Mesh A) (from to : vec2 A) : Future := mkFuture from to m None.

(** async_helpers.rs 40-46: up to three steps; None = all three continued *)
Fixpoint three (k : nat) (lib : Lib A) (c : Ctx A) (st : State A) : res (State A * option (option (Path A))) :=
  match k with
  | O => Ok (st, None)
  | S k =>
      let* r := next lib c st in
      match snd r with
      | Found p => Ok (fst r, Some (Some p))
      | NotFound => Ok (fst r, Some None)
      | Continue => three k lib c (fst r)
      end
  end.

(** async_helpers.rs 61-73: island test of the future.  The islands of the layer are indexed with the whole
    u32 id ([starting_polygon_index as usize]), not only its polygon part. *)
Definition async_islands_reject (m : Mesh A) (ps pe : N) : res bool :=
  if N.eqb (id_layer ps) (id_layer pe) then
    let* l := index (layers m) (id_layer ps) in
    Ok (match islands l with
        | None => false
        | Some isl => islands_differ isl ps pe
        end)
  else Ok false.

(** async_helpers.rs 35-112: poll.  Result: the future afterwards, whether the waker was woken, the poll result. *)
Definition poll (lib : Lib A) (f : Future) : res (Future * bool * Poll) :=
  match finst f with
  | Some (c, st) =>
      let* r := three 3 lib c st in
      let f' := mkFuture (ffrom f) (fto f) (fmesh f) (Some (c, fst r)) in
      Ok (match snd r with
          | Some o => (f', false, Ready o)
          | None => (f', true, Pending)
          end)
  | None =>
      let* ps := get_point_location (lbvh lib) (fmesh f) (coords_on_mesh (ffrom f)) in
      if N.eqb ps MAX then Ok (f, false, Ready None)
      else
        let* pe := get_point_location (lbvh lib) (fmesh f) (coords_on_mesh (fto f)) in
        if N.eqb pe MAX then Ok (f, false, Ready None)
        else
          let* rej := async_islands_reject (fmesh f) ps pe in
          if rej then Ok (f, false, Ready None)
          else if N.eqb ps pe then
            Ok (f, false, Ready (Some (mkPath (vdist (ffrom f) (fto f)) [fto f])))
          else
            let c := mkCtx (fmesh f) (fto f) pe [] in
            let* st := setup c (ffrom f) ps in
            Ok (mkFuture (ffrom f) (fto f) (fmesh f) (Some (c, st)), true, Pending)
  end.

(** Not code of /repo: an executor polling again after every Pending, at most [k] times.
    Result: the answer (None if still pending) and the log of the waker calls, one entry per poll. *)
Fixpoint poll_times (k : nat) (lib : Lib A) (f : Future) : res (option (option (Path A)) * list bool) :=
  match k with
  | O => Ok (None, [])
  | S k =>
      let* r := poll lib f in
      let '(f', woken, p) := r in
      match p with
      | Ready o => Ok (Some o, [woken])
      | Pending => let* r' := poll_times k lib f' in Ok (fst r', woken :: snd r')
      end
  end.

End Async.
Arguments Future A : clear implicits.
Arguments Poll A : clear implicits.
