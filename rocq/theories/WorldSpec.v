(** Where agents are, where they are to go, and who is alive. *)
From Coq Require Import List Arith ZArith Lia Bool.
From Verif Require Import PyDict AgentModel SpaceModel TopologyModel ContextModel ContextSpec WorldModel.
Import ListNotations.
Open Scope Z_scope.

(** The agent is local to the rank. *)
Definition lives (u : uid) (i : nat) (w : world) : Prop := exists c, nth_error w i = Some c /\ ctx_agent u c <> None.
(** The agent was moved, in some space of the rank, to a location of rank [d] (C39 is about this record), and it is not one of the copies
    in the buffer. *)
Definition outside (w : world) (i : nat) (u : uid) (d : Z) : Prop :=
  exists c k p q, nth_error w i = Some c /\ dget k (c_projs c) = Some p /\ In (u, (d, q)) (d_oob (p_ds p)) /\ ~ In u (map a_uid (p_ghosts p)).
(** No agent is outside in two spaces with locations of different ranks. *)
Definition agree (w : world) : Prop := forall i u d d', outside w i u d -> outside w i u d' -> d = d'.
(** No copy in a buffer is outside. *)
Definition no_ghost_outside (w : world) : Prop :=
  forall i c k p u, nth_error w i = Some c -> dget k (c_projs c) = Some p -> In u (dkeys (d_oob (p_ds p))) -> ~ In u (map a_uid (p_ghosts p)).
(** From rank [i] the agent should come to rank [j]. *)
Definition bound_for (w : world) (u : uid) (i j : nat) : Prop :=
  outside w i u (Z.of_nat j) \/ (j = i /\ forall d, ~ outside w i u d).
(** With explicit moves. *)
Definition sent_to (moves : list (list (uid * Z))) (w : world) (u : uid) (i j : nat) : Prop :=
  exists l, nth_error moves i = Some l /\
  (In (u, Z.of_nat j) l \/ (~ In u (map fst l) /\ bound_for w u i j)).

(** A projection as its constructor leaves it. *)
Definition fresh_proj (p : proj) : Prop := d_oob (p_ds p) = [] /\ p_ghosts p = [].

(** ** Histories *)
(** The agents added and not removed. *)
Definition alive_step (l : list uid) (o : wop) : list uid :=
  match o with
  | WAdd _ a _ => a_uid a :: l
  | WRemove _ u => filter (fun v => negb (keq u v)) l
  | _ => l
  end.
Definition alive (ops : list wop) : list uid := fold_left alive_step ops [].

(** How the model has to use the library for the theorems: ids are not used twice, and what [agree] and [no_ghost_outside] say. *)
Definition ok_op (w : world) (o : wop) : Prop :=
  match o with
  | WAdd _ a _ => forall i, ~ lives (a_uid a) i w
  | WProjection p => forall r, fresh_proj (p r)
  | WSync g => agree w /\ (g = false -> no_ghost_outside w)
  | WMoveAgents moves => agree w /\ length moves = length w
  | WRequest reqs => length reqs = length w
  | _ => True
  end.
(** ... in every step. *)
Fixpoint proper (fobj : Z -> nat -> uid -> nat) (w : world) (ops : list wop) : Prop :=
  match ops with
  | [] => True
  | o :: t => ok_op w o /\ forall w', wstep fobj w o = Some w' -> proper fobj w' t
  end.

(** No agent is outside with a location of a rank that has a ghost of it. *)
Definition apart (w : world) : Prop := forall u i j c, outside w i u (Z.of_nat j) -> nth_error w j = Some c -> ghost_agent u c = None.
(** ... whenever [move_agents] is called. *)
Definition careful_op (w : world) (o : wop) : Prop := match o with WMoveAgents _ => apart w | _ => True end.
Fixpoint careful (fobj : Z -> nat -> uid -> nat) (w : world) (ops : list wop) : Prop :=
  match ops with
  | [] => True
  | o :: t => careful_op w o /\ forall w', wstep fobj w o = Some w' -> careful fobj w' t
  end.

(** ** Hypotheses about the calls only *)
Definition calls_ok (n : nat) (o : wop) : Prop :=
  match o with
  | WProjection p => forall r, fresh_proj (p r)
  | WMoveAgents m => length m = n
  | WRequest r => length r = n
  | _ => True
  end.
Definition added (ops : list wop) : list uid := flat_map (fun o => match o with WAdd _ a _ => [a_uid a] | _ => [] end) ops.
Definition spaces (ops : list wop) : list (Z -> proj) := flat_map (fun o => match o with WProjection p => [p] | _ => [] end) ops.
(** One space at most; no synchronization without ghosts if it has a buffer. *)
Definition one_space (ops : list wop) : Prop :=
  (length (spaces ops) <= 1)%nat /\ ((forall g, In (WSync g) ops -> g = true) \/ (forall p r, In p (spaces ops) -> p_buf (p r) <= 0)).

(** ** Queries *)
(** [agents(type)] of the context yields the local agents of the type, each once. *)
Definition type_index (c : context) : Prop := forall draw t l, agents draw (Some t) None false c = Ok l ->
  NoDup l /\ forall a, In a l <-> ctx_agent (a_uid a) c = Some a /\ utype (a_uid a) = t.
Definition types_known (c : context) : Prop := forall draw u, ctx_agent u c <> None -> exists l, agents draw (Some (utype u)) None false c = Ok l.
