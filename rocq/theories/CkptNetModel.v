(** Checkpoints of networks: /repo/src/repast4py/checkpoint.py 339-447, on the ranks of NetWorldModel.v.

    [save_network] keeps the attribute dictionaries of the edges by reference; they are copied when the checkpoint is written ([dump]).  The
    network to restore into is the projection of the context, as in NetWorldModel.v.  [None]: some rank raises an exception. *)
From Coq Require Import List Arith ZArith Lia Bool.
From Verif Require Import PyDict AgentModel WorldModel NetModel NetWorldModel.
Import ListNotations.
Open Scope Z_scope.

(** An agent, its successors (neighbors if undirected) and its predecessors, each with its local rank and the attributes of the edge *)
Definition others (A : Type) : Type := list (uid * Z * A).
Definition netsave (A : Type) : Type := list (uid * others A * others A).

Section CkptNet.
Variable dir : bool.

(** 339-361 *)
Definition successors (nd : uid) (g : graph) : others nat := map (fun e => (fst e, lr (fst e), snd e)) (nbrs nd (g_adj g)).
Definition predecessors (nd : uid) (g : graph) : option (others nat) :=
  mapo (fun o => match edge_ref o nd g with Some r => Some (o, lr o, r) | None => None end) (dkeys (nbrs nd (g_pred g))).
Definition save_node (g : graph) (nd : uid) : option (uid * others nat * others nat) :=
  match (if dir then predecessors nd g else Some []) with Some pre => Some (nd, successors nd g, pre) | None => None end.
Definition save_network (rank : Z) (n : net) : option (netsave nat) :=
  mapo (save_node (n_g n)) (filter (fun u => lr u =? rank) (dkeys (g_adj (n_g n)))).
(** [dill.dump]: the attributes as they are now *)
Definition dump_others (n : net) (l : others nat) : others attrs := map (fun e => (fst e, read (snd e) (n_g n))) l.
Definition dump (n : net) (d : netsave nat) : netsave attrs := map (fun e => (fst (fst e), dump_others n (snd (fst e)), dump_others n (snd e))) d.

(** ** NetworkRestorer *)
(** The rank; the context and the network; [requests]; [ghost_edges]: the number in front of the agents is [true] for 1 *)
Record restorer := Restorer { rs_rank : Z; rs_peer : peer; rs_requests : dict uid Z; rs_ghosts : list (bool * uid * uid * attrs) }.
(** 408-412 *)
Definition put_edge (r : Z) (u v : uid) (kw : attrs) (p : peer) : peer := Peer (p_man p) (add_edge dir r lr u v kw (p_net p)) (p_gone p).
(** 402-406 and 414-424, one of [others]; [pre]: with [_make_pre_edge] and [_add_pre_edge].  If the agent is not in the context then [node] is [None], and
    the adder and [node.uid] raise [AttributeError]. *)
Definition add_one (pre : bool) (nd : uid) (e : uid * Z * attrs) (s : restorer) : option restorer :=
  let '(o, rk, kw) := e in
  let m := p_man (rs_peer s) in
  let '(u, v) := if pre then (o, nd) else (nd, o) in
  if dmem nd (am_local m) then
    if dmem o (am_local m) || dmem o (am_ghost m) then Some (Restorer (rs_rank s) (put_edge (rs_rank s) u v kw (rs_peer s)) (rs_requests s) (rs_ghosts s))
    else Some (Restorer (rs_rank s) (rs_peer s) (dset o rk (rs_requests s)) (rs_ghosts s ++ [(pre, u, v, kw)]))
  else None.
(** 433-447; the list of predecessors of an undirected network is empty *)
Definition restore_node (e : uid * others attrs * others attrs) (s : restorer) : option restorer :=
  let '(nd, suc, pre) := e in obind (foldo (add_one false nd) suc s) (foldo (add_one true nd) pre).
Definition restore (r : Z) (d : netsave attrs) (p : peer) : option restorer := foldo restore_node d (Restorer r p [] []).
(** 426-431; [requests] has an agent for each id that was requested *)
Definition create (s : restorer) (e : bool * uid * uid * attrs) (p : peer) : option peer :=
  let '(pre, u, v, kw) := e in
  if dmem v (rs_requests s) && dmem u (am_local (p_man p)) then Some (if pre then put_edge (rs_rank s) v u kw p else put_edge (rs_rank s) u v kw p) else None.
(** 363-391, on all ranks *)
Definition restore_network (data : list (netsave attrs)) (w : nworld) : option nworld :=
  obind (mapo (fun e => restore (fst (fst e)) (snd (fst e)) (snd e)) (combine (combine (ranks_of w) data) w)) (fun l =>
  obind (request (map rs_requests l) (map rs_peer l)) (fun w =>
  mapo (fun e => foldo (create (fst e)) (rs_ghosts (fst e)) (snd e)) (combine l w))).

(** Each rank saves its network and writes the checkpoint at once. *)
Definition save_rank (r : Z) (p : peer) : option (netsave attrs) := option_map (dump (p_net p)) (save_network r (p_net p)).
Definition save_all (w : nworld) : option (list (netsave attrs)) := mapo (fun e => save_rank (fst e) (snd e)) (combine (ranks_of w) w).
End CkptNet.
