(** [AgentManager], /repo/src/repast4py/core.py lines 23-305.

    An agent is its unique id and the identity of the Python object ([obj]); the attribute
    [local_rank], which the manager writes, is kept in the map [am_lrank] from objects.
    Exceptions are values; the state returned with an exception contains the effects made before
    it was raised. *)
From Coq Require Import List Arith ZArith Lia Bool.
From Verif Require Import PyDict.
Import ListNotations.
Open Scope Z_scope.

(** Agent.uid: (id, type, rank). *)
Definition uid : Type := Z * Z * Z.
Definition utype (u : uid) : Z := snd (fst u).
Record agent := Agent { a_uid : uid; a_obj : nat }.

Inductive result (A : Type) := Ok (a : A) | KeyError | ValueError | OtherError.
Arguments Ok {A}. Arguments KeyError {A}. Arguments ValueError {A}. Arguments OtherError {A}.

(** core.py 23-41 *)
Record ghost := Ghost { g_agent : agent; g_refs : Z }.
(** core.py 44-63 *)
Record ghosted := Ghosted { gd_agent : agent; gd_ranks : dict Z Z }.

(** core.py 66-86 *)
Record manager := Manager {
  am_rank : Z;
  am_local : dict uid agent;
  am_ghosted : dict uid ghosted;
  am_ghost : dict uid ghost;
  am_req : list uid;
  am_lrank : dict nat Z }.

Definition new_manager (rank : Z) : manager := Manager rank [] [] [] [] [].

Definition upd_local m x := Manager (am_rank m) x (am_ghosted m) (am_ghost m) (am_req m) (am_lrank m).
Definition upd_ghosted m x := Manager (am_rank m) (am_local m) x (am_ghost m) (am_req m) (am_lrank m).
Definition upd_ghost m x := Manager (am_rank m) (am_local m) (am_ghosted m) x (am_req m) (am_lrank m).
Definition upd_req m x := Manager (am_rank m) (am_local m) (am_ghosted m) (am_ghost m) x (am_lrank m).
Definition upd_lrank m x := Manager (am_rank m) (am_local m) (am_ghosted m) (am_ghost m) (am_req m) x.

(** core.py 88-99 *)
Definition is_requested (u : uid) (m : manager) : bool := existsb (keq u) (am_req m).

(** core.py 101-108; a set: adding twice changes nothing *)
Definition add_req_ghost (u : uid) (m : manager) : manager :=
  if is_requested u m then m else upd_req m (am_req m ++ [u]).

(** core.py 110-126; the second component is what is appended to [ghosted_deleted] *)
Definition delete_local (u : uid) (m : manager) : manager * list ghosted * option agent :=
  let gone := match dget u (am_ghosted m) with Some g => [g] | None => [] end in
  let m1 := upd_ghosted m (ddel u (am_ghosted m)) in
  (upd_local m1 (ddel u (am_local m1)), gone, dget u (am_local m)).

(** core.py 128-137 *)
Definition remove_local (u : uid) (m : manager) : manager * option agent :=
  (upd_local m (ddel u (am_local m)), dget u (am_local m)).

(** core.py 139-146 *)
Definition add_local (a : agent) (m : manager) : manager :=
  let m1 := upd_lrank m (dset (a_obj a) (am_rank m) (am_lrank m)) in
  upd_local m1 (dset (a_uid a) a (am_local m1)).

(** core.py 148-157 *)
Definition get_local (u : uid) (m : manager) : option agent := dget u (am_local m).

(** core.py 159-169 *)
Definition is_ghosted_to (r : Z) (u : uid) (m : manager) : bool :=
  match dget u (am_ghosted m) with
  | Some g => dmem r (gd_ranks g)
  | None => false
  end.

(** core.py 171-192 *)
Definition tag_as_ghosted (r : Z) (u : uid) (m : manager) : manager * result agent :=
  match dget u (am_ghosted m) with
  | Some g =>
    let ranks := match dget r (gd_ranks g) with
                 | Some n => dset r (n + 1) (gd_ranks g)
                 | None => dset r 1 (gd_ranks g)
                 end in
    (upd_ghosted m (dset u (Ghosted (gd_agent g) ranks) (am_ghosted m)), Ok (gd_agent g))
  | None =>
    match dget u (am_local m) with
    | Some a => (upd_ghosted m (dset u (Ghosted a [(r, 1)]) (am_ghosted m)), Ok a)
    | None => (m, KeyError)
    end
  end.

(** core.py 194-203 *)
Definition set_as_ghosted (ranks : dict Z Z) (u : uid) (m : manager) : manager * result unit :=
  match ranks with
  | [] => (m, Ok tt)
  | _ =>
    match dget u (am_local m) with
    | Some a => (upd_ghosted m (dset u (Ghosted a ranks) (am_ghosted m)), Ok tt)
    | None => (m, KeyError)
    end
  end.

(** core.py 205-219 *)
Definition delete_ghosted (u : uid) (m : manager) : manager * result (dict Z Z) :=
  match dget u (am_ghosted m) with
  | Some g => (upd_ghosted m (ddel u (am_ghosted m)), Ok (gd_ranks g))
  | None => (m, KeyError)
  end.

(** core.py 221-236 *)
Definition untag_as_ghosted (r : Z) (u : uid) (m : manager) : manager * result unit :=
  match dget u (am_ghosted m) with
  | None => (m, KeyError)
  | Some g =>
    match dget r (gd_ranks g) with
    | None => (m, KeyError)
    | Some n =>
      let ranks := dset r (n - 1) (gd_ranks g) in
      let ranks := if n - 1 =? 0 then ddel r ranks else ranks in
      (upd_ghosted m (dset u (Ghosted (gd_agent g) ranks) (am_ghosted m)), Ok tt)
    end
  end.

(** core.py 238-251 *)
Definition remove_ghost (u : uid) (m : manager) : manager * result unit :=
  if is_requested u m then (m, Ok tt)
  else
    match dget u (am_ghost m) with
    | None => (m, KeyError)
    | Some g =>
      if g_refs g - 1 =? 0 then (upd_ghost m (ddel u (am_ghost m)), Ok tt)
      else (upd_ghost m (dset u (Ghost (g_agent g) (g_refs g - 1)) (am_ghost m)), Ok tt)
    end.

(** core.py 253-261 *)
Definition delete_ghost (u : uid) (m : manager) : manager * result unit :=
  match dget u (am_ghost m) with
  | None => (m, KeyError)
  | Some _ => (upd_ghost m (ddel u (am_ghost m)), Ok tt)
  end.

(** core.py 263-275 *)
Definition add_ghost (r : Z) (a : agent) (incr : Z) (m : manager) : manager :=
  let m1 := upd_lrank m (dset (a_obj a) r (am_lrank m)) in
  upd_ghost m1 (dset (a_uid a) (Ghost a incr) (am_ghost m1)).

(** core.py 277-285; the second component are the agents handed to [projection.add] *)
Definition add_ghosts_to_projection (m : manager) : manager * list agent :=
  (upd_ghost m (map (fun e => (fst e, Ghost (g_agent (snd e)) (g_refs (snd e) + 1))) (am_ghost m)),
   map (fun e => g_agent (snd e)) (am_ghost m)).

(** core.py 287-305 *)
Definition get_ghost (u : uid) (incr : Z) (m : manager) : manager * option agent :=
  match dget u (am_ghost m) with
  | Some g => (upd_ghost m (dset u (Ghost (g_agent g) (g_refs g + incr)) (am_ghost m)), Some (g_agent g))
  | None => (m, None)
  end.

(** A call on a manager, for histories. *)
Inductive mop :=
| MAddReq (u : uid) | MDeleteLocal (u : uid) | MRemoveLocal (u : uid) | MAddLocal (a : agent)
| MTag (r : Z) (u : uid) | MSetGhosted (ranks : dict Z Z) (u : uid) | MDeleteGhosted (u : uid)
| MUntag (r : Z) (u : uid) | MRemoveGhost (u : uid) | MDeleteGhost (u : uid)
| MAddGhost (r : Z) (a : agent) (incr : Z) | MGhostsToProjection | MGetGhost (u : uid) (incr : Z).

(** A caller that goes on after a [KeyError] sees the state left behind by the failed call. *)
Definition mstep (m : manager) (o : mop) : manager :=
  match o with
  | MAddReq u => add_req_ghost u m
  | MDeleteLocal u => fst (fst (delete_local u m))
  | MRemoveLocal u => fst (remove_local u m)
  | MAddLocal a => add_local a m
  | MTag r u => fst (tag_as_ghosted r u m)
  | MSetGhosted ranks u => fst (set_as_ghosted ranks u m)
  | MDeleteGhosted u => fst (delete_ghosted u m)
  | MUntag r u => fst (untag_as_ghosted r u m)
  | MRemoveGhost u => fst (remove_ghost u m)
  | MDeleteGhost u => fst (delete_ghost u m)
  | MAddGhost r a i => add_ghost r a i m
  | MGhostsToProjection => fst (add_ghosts_to_projection m)
  | MGetGhost u i => fst (get_ghost u i m)
  end.
Definition mrun (m : manager) (ops : list mop) : manager := fold_left mstep ops m.
