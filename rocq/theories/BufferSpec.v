(** What the buffers of a space have to hold, and in which models the theorems say so. *)
From Coq Require Import List ZArith Bool.
From Verif Require Import PyDict AgentModel SpaceModel TopologyModel TopologySpec ContextModel WorldModel WorldSpec.
Import ListNotations.
Open Scope Z_scope.

(** A rank is the neighbor of another at most once: always without periodic borders; with them each dimension has three processes or more. *)
Definition spread (t : topo) : Prop :=
  let nx := px (t_procs t) in let ny := py (t_procs t) in let nz := pz (t_procs t) in
  t_per t = true ->
  match t_dims t with
  | 1%nat => 3 <= nx
  | 2%nat => 3 <= nx /\ 3 <= ny
  | _ => (nx = 1 \/ 3 <= nx) /\ (ny = 1 \/ 3 <= ny) /\ (nz = 1 \/ 3 <= nz)
  end.

(** Unused dimensions start at 0; periodic dimensions are small enough for doubles. *)
Definition border_ok (bd : border) (b : bbox) : Prop :=
  match bd with
  | Sticky => (byext b = 0 -> bymin b = 0) /\ (bzext b = 0 -> bzmin b = 0)
  | Periodic => bxext b <= 2 ^ 53 /\ byext b <= 2 ^ 53 /\ bzext b <= 2 ^ 53
  end.

(** ** A model on one process *)
(** State and location of each agent, without ranks: what the calls ask for. *)
Definition sheet := uid -> option (Z * option point).
Definition upd (s : sheet) (u : uid) (x : option (Z * option point)) : sheet := fun v => if keq v u then x else s v.
Definition origin : point := Pt 0 0 0.
Definition sheet_step (tr : point -> point -> point) (s : sheet) (o : wop) : sheet :=
  match o with
  | WAdd _ a x => upd s (a_uid a) (Some (x, None))
  | WRemove _ u => upd s u None
  | WMove _ _ u q => upd s u (match s u with Some (x, _) => Some (x, Some (tr q origin)) | None => None end)
  | WState _ u x => upd s u (match s u with Some (_, l) => Some (x, l) | None => None end)
  | WMoveAgents moves => fun v => match s v with
                                  | Some (x, l) => Some (x, if existsb (keq v) (map fst (concat moves)) then None else l)
                                  | None => None
                                  end
  | _ => s
  end.
Definition sheet_of (tr : point -> point -> point) (ops : list wop) : sheet := fold_left (sheet_step tr) ops (fun _ => None).

(** ** What the ranks show *)
Definition shown (a : option agent) (c : context) (u : uid) : option (Z * option point) :=
  match a, dget 0 (c_projs c) with
  | Some a, Some p => Some (state_of a c, p_location u p)
  | _, _ => None
  end.
(** A local agent's state and location; those of a ghost. *)
Definition local_view (w : world) (i : nat) (u : uid) : option (Z * option point) :=
  match nth_error w i with Some c => shown (ctx_agent u c) c u | None => None end.
Definition ghost_view (w : world) (i : nat) (u : uid) : option (Z * option point) :=
  match nth_error w i with Some c => shown (ghost_agent u c) c u | None => None end.

(** The calls: no other projection and no requests; with a buffer, no synchronization without ghosts.  [owner] is the id of an object. *)
Definition plain_op (owner : nat -> uid) (n : nat) (buf : Z) (o : wop) : Prop :=
  match o with
  | WAdd _ a _ => owner (a_obj a) = a_uid a
  | WProjection _ => False
  | WSync g => g = true \/ buf <= 0
  | WMoveAgents moves => length moves = n
  | WRequest _ => False
  | _ => True
  end.
(** The space, as its constructor makes it on each rank. *)
Definition shared (name : Z) (bd : border) (t : topo) (buf : Z) (r : Z) : proj :=
  Proj name Multi (transform bd (t_box t)) buf (new_dspace t r) [].
(** The ids of the agents at a location; whether the agent is in the space. *)
Definition cell_view (w : world) (i : nat) (q : point) : list uid :=
  match nth_error w i with
  | Some c => match dget 0 (c_projs c) with Some p => map a_uid (snd (sp_get_agents q (d_space (p_ds p)))) | None => [] end
  | None => []
  end.
Definition in_view (w : world) (i : nat) (u : uid) : bool :=
  match nth_error w i with
  | Some c => match dget 0 (c_projs c) with Some p => p_contains u p | None => false end
  | None => false
  end.
(** All of it: [fobj] makes the objects, [owner] gives an object's id. *)
Definition fits (fobj : Z -> nat -> uid -> nat) (owner : nat -> uid) (bd : border) (t : topo) (buf : Z) (n : nat) (ops : list wop) : Prop :=
  (forall r k u, owner (fobj r k u) = u) /\ topo_shape t /\ border_ok bd (t_box t) /\ spread t /\ cells_each t (Z.max 1 buf) /\ Z.of_nat n = t_size t /\
  Forall (plain_op owner n buf) ops /\ NoDup (added ops).
