(** Worlds of two processes with one-dimensional grids, for the examples and counterexamples. *)
From Coq Require Import List Arith ZArith Lia Bool.
From Verif Require Import PyDict AgentModel SpaceModel TopologyModel ContextModel WorldModel.
Import ListNotations.
Open Scope Z_scope.

(** A fresh object for each call of the restoring function: rank and number of the call. *)
Definition fresh_obj (r : Z) (n : nat) (u : uid) : nat := (1000 + 100 * Z.to_nat r + n)%nat.
Definition uw (n r : Z) : uid := (n, 0, r).
Definition aw (n r : Z) : agent := Agent (uw n r) (Z.to_nat (10 * n + r)).
Definition line (procs : Z) (per : bool) : topo := Topo 1 (Pt procs 1 1) per (BBox 0 10 0 0 0 0).
(** The cells 0 - 4 belong to rank 0, 5 - 9 to rank 1. *)
Definition grid (name : Z) (oc : occupancy) (buf : Z) (r : Z) : proj :=
  Proj name oc (transform Sticky (BBox 0 10 0 0 0 0)) buf (new_dspace (line 2 false) r) [].
Definition ring (procs : Z) (name : Z) (buf : Z) (r : Z) : proj :=
  Proj name Multi (transform Periodic (BBox 0 10 0 0 0 0)) buf (new_dspace (line procs true) r) [].
Definition at_x (x : Z) : point := Pt x 0 0.

(** What can be seen of a context: local agents, ghosts, and the agents of each space with their locations. *)
Definition locals (c : context) : list uid := dkeys (am_local (c_man c)).
Definition ghosts (c : context) : list uid := dkeys (am_ghost (c_man c)).
Definition agent_state (u : uid) (c : context) : option Z := option_map (fun a => state_of a c) (ctx_agent u c).
Definition ghost_state (u : uid) (c : context) : option Z := option_map (fun a => state_of a c) (ghost_agent u c).
Definition places (pid : Z) (c : context) : list (uid * option point) :=
  match dget pid (c_projs c) with
  | Some p => map (fun e => (fst e, p_location (fst e) p)) (s_agents (d_space (p_ds p)))
  | None => []
  end.
Definition look (w : option world) : option (list (list uid * list uid * list (list (uid * option point)))) :=
  option_map (map (fun c => (locals c, ghosts c, map (fun k => places k c) (dkeys (c_projs c))))) w.
Definition go (n : nat) (ops : list wop) : option world := wrun fresh_obj (new_world n) ops.
