(** Moving agents of a network that have no edges to agents of other ranks: the calls before the move, and what a move may be. *)
From Coq Require Import List Arith ZArith Lia Bool.
From Verif Require Import PyDict AgentModel NetModel NetSpec NetWorldModel NetMoveModel.
Import ListNotations.
Open Scope Z_scope.

(** The calls before the move: agents are added and removed, each rank adds, updates and removes edges between its agents, and synchronizes.
    There are no requested agents and no moves.  [remove] of a network is not called: the agents of a context are nodes of its network. *)
Definition local_call (o : vop) : Prop :=
  match o with
  | VAgent _ _ _ | VRemove _ _ | VSynch => True
  | VCall _ (NRemove _) => False
  | VCall _ o => named o
  | VRequest _ | VMove _ => False
  end.
Definition added (o : vop) : list (Z * uid * nat) := match o with VAgent r u o => [(r, u, o)] | _ => [] end.
(** An agent is added once, by one rank, and each time with an object that this rank did not use. *)
Record local_history (ops : list vop) : Prop := {
  lh_calls : Forall local_call ops;
  lh_agents : NoDup (map (fun e => snd (fst e)) (flat_map added ops));
  lh_objects : NoDup (map (fun e => (fst (fst e), snd e)) (flat_map added ops)) }.
(** [create_agent] returns a new object each time. *)
Record new_objects (make : Z -> nat -> uid -> nat) (ops : list vop) : Prop := {
  no_other : forall r k k' u u', make r k u = make r k' u' -> k = k';
  no_added : forall r k u v o, In (VAgent r v o) ops -> make r k u <> o }.

Definition is_local (w : mworld) (r : Z) (u : uid) : Prop := exists p, at_mrank r w = Some p /\ dmem u (am_local (q_man p)) = true.
Definition moves_of (moves : list (list (uid * Z))) (r : Z) : list (uid * Z) := if 0 <=? r then nth (Z.to_nat r) moves [] else [].
(** What the ranks may move: local agents, each once, to other ranks, and no two agents of one edge. *)
Record may_move (w : mworld) (moves : list (list (uid * Z))) : Prop := {
  mm_length : length moves = length w;
  mm_local : forall r u d, In (u, d) (moves_of moves r) -> is_local w r u;
  mm_once : forall r, NoDup (map fst (moves_of moves r));
  mm_dest : forall r u d, In (u, d) (moves_of moves r) -> 0 <= d < Z.of_nat (length w) /\ d <> r;
  mm_apart : forall r u v d d', In (u, d) (moves_of moves r) -> In (v, d') (moves_of moves r) -> edge_on w r u v = None }.
(** The rank of an agent of rank [r] after the move. *)
Inductive goes (moves : list (list (uid * Z))) (r : Z) (u : uid) : Z -> Prop :=
| goes_to : forall d, In (u, d) (moves_of moves r) -> goes moves r u d
| stays : ~ In u (map fst (moves_of moves r)) -> goes moves r u r.
