(** [read_network] called by all ranks (/repo/src/repast4py/network.py 883-1079), on a new context.

    What a rank reads in the file is that of NetFileModel.v: its agents, the agents to request and the calls of [add_edge].  The context,
    the requests and the network are those of NetMoveModel.v, where agents are objects: [born r u] is the object that [create_agent] returns
    for the node of the agent [u] on rank [r], and [make] is [restore_agent].  [None]: some rank raises an exception. *)
From Coq Require Import List Arith ZArith Lia Bool.
From Verif Require Import PyDict AgentModel WorldModel NetModel NetWorldModel NetMoveModel.
From Verif Require NetFileModel.
Import ListNotations.
Open Scope Z_scope.

Definition was_read : Type := NetFileModel.read attrs.
Definition line_edge : Type := uid * uid * option attrs.
Definition own_agents (rd : was_read) : list uid := map (NetFileModel.uid_of attrs) (NetFileModel.rd_agents attrs rd).
Definition is_own (rd : was_read) (u : uid) : bool := existsb (keq u) (own_agents rd).
Definition inside (rd : was_read) (e : line_edge) : bool := is_own rd (fst (fst e)) && is_own rd (snd (fst e)).
(** An edge without attributes is added without keyword arguments. *)
Definition keywords (a : option attrs) : attrs := match a with Some kw => kw | None => [] end.

Section NetRead.
Variable dir : bool.
Variable make : Z -> nat -> uid -> nat.
Variable born : Z -> uid -> nat.

Definition add_line (e : line_edge) (p : mpeer) : option mpeer := mnet_call dir (NAddEdge (fst (fst e)) (snd (fst e)) (keywords (snd e))) p.
Definition add_own (u : uid) (p : mpeer) : option mpeer := mctx_add u (born (rank_of p) u) p.
(** 911-934, 943-963: the nodes, then the edges of two agents of the rank *)
Definition read_own (rd : was_read) (p : mpeer) : option mpeer :=
  obind (foldo add_own (own_agents rd) p) (foldo add_line (filter (inside rd) (NetFileModel.rd_edges attrs rd))).
(** 937-940: an agent is requested from the rank in its id *)
Definition asks (rd : was_read) : list (uid * Z) := map (fun u => (u, snd u)) (NetFileModel.rd_requested attrs rd).
(** 995-1003 [_create_edges]: the agents are those of the rank and the last ones received *)
Definition read_other (rd : was_read) : mpeer -> option mpeer := foldo add_line (filter (fun e => negb (inside rd e)) (NetFileModel.rd_edges attrs rd)).
(** 1053-1079 *)
Definition mread (rds : list was_read) (w : mworld) : option mworld :=
  obind (mapo (fun e => read_own (fst e) (snd e)) (combine rds w)) (fun w =>
  obind (mrequest make (map asks rds) w) (fun w =>
  obind (mapo (fun e => read_other (fst e) (snd e)) (combine rds w)) (msynchronize dir make))).
End NetRead.

(** 1057: a single process creates all agents *)
Definition file_rank (n : nat) (r : Z) : option Z := if Nat.eqb n 1 then None else Some r.
(** All ranks read the file; also whether the network is directed. *)
Definition read_all (loads : NetFileModel.text -> option attrs) (make : Z -> nat -> uid -> nat) (born : Z -> uid -> nat) (n : nat) (lines : list NetFileModel.text) : option (bool * mworld) :=
  obind (mapo (fun r => NetFileModel.read_network attrs loads (file_rank n r) lines) (map Z.of_nat (seq 0 n))) (fun rds =>
  match rds with
  | [] => None
  | rd :: _ => let dir := NetFileModel.rd_directed attrs rd in option_map (pair dir) (mread dir make born rds (new_mworld n))
  end).
