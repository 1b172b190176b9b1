(** The parts of [Checkpoint], /repo/src/repast4py/checkpoint.py, that save and restore agents, values and spaces.

    Writing a checkpoint to a file and reading it is not modelled: it gives an equal checkpoint.  What [Agent.save] returns is copied when it
    is saved (the id and the state of WorldModel.v); the objects that users save are values.  A space is a projection of ContextModel.v with
    an arbitrary border transformation, so that it also stands for the location map of a continuous space. *)
From Coq Require Import List Arith ZArith Lia Bool.
From Verif Require Import PyDict AgentModel SpaceModel TopologyModel ContextModel WorldModel.
Import ListNotations.
Open Scope Z_scope.

(** checkpoint.py 55-61 *)
Record store := Store { k_agents : list saved; k_other : dict Z Z; k_spaces : dict Z (dict uid point) }.
Definition new_store : store := Store [] [] [].

(** 112-123; [l]: the agents in the order of the iterable *)
Definition save_agents (c : context) (l : list agent) (k : store) : store :=
  Store (k_agents k ++ map (fun a => save a c) l) (k_other k) (k_spaces k).

Section Restore.
Variable fobj : Z -> nat -> uid -> nat.
(** 125-149 in the loop of its example, [for agent in ckp.restore_agents(f): context.add(agent)] *)
Definition restore_agent (c : context) (d : saved) : context := let '(c, a) := restore fobj d c in ctx_add a c.
Definition restore_agents (k : store) (c : context) : context := fold_left restore_agent (k_agents k) c.
End Restore.

(** 264-271 *)
Definition save_value (key v : Z) (k : store) : store := Store (k_agents k) (dset key v (k_other k)) (k_spaces k).
(** 273-301 *)
Definition restore_value {A B : Type} (key : Z) (restorer : Z -> A -> B) (args : A) (k : store) : result B :=
  match dget key (k_other k) with Some v => Ok (restorer v args) | None => KeyError end.

(** [context.agents()] *)
Definition local_agents (c : context) : list agent := dvals (am_local (c_man c)).
(** 303-316; [None]: [AttributeError], an agent has no location *)
Fixpoint locations (l : list agent) (p : proj) (d : dict uid point) : option (dict uid point) :=
  match l with
  | [] => Some d
  | a :: t => match p_location (a_uid a) p with Some q => locations t p (dset (a_uid a) q d) | None => None end
  end.
Definition save_space (c : context) (p : proj) (k : store) : option store :=
  match locations (local_agents c) p [] with
  | Some d => Some (Store (k_agents k) (k_other k) (dset (p_name p) d (k_spaces k)))
  | None => None
  end.
(** 318-336.  What [move] returns is not looked at. *)
Fixpoint place (l : list agent) (d : dict uid point) (p : proj) : proj * result unit :=
  match l with
  | [] => (p, Ok tt)
  | a :: t => match dget (a_uid a) d with
              | None => (p, KeyError)
              | Some q => match p_move a q p with
                          | (p, Ok _) => place t d p
                          | (p, ValueError) => (p, ValueError)
                          | (p, KeyError) => (p, KeyError)
                          | (p, OtherError) => (p, OtherError)
                          end
              end
  end.
Definition restore_space (c : context) (p : proj) (k : store) : proj * result unit :=
  match dget (p_name p) (k_spaces k) with None => (p, KeyError) | Some d => place (local_agents c) d p end.

(** Calls on a checkpoint; after an exception it is as before. *)
Inductive kop := KAgents (c : context) (l : list agent) | KValue (key v : Z) | KSpace (c : context) (p : proj).
Definition kstep (k : store) (o : kop) : store :=
  match o with
  | KAgents c l => save_agents c l k
  | KValue key v => save_value key v k
  | KSpace c p => match save_space c p k with Some k => k | None => k end
  end.
Definition krun (k : store) (h : list kop) : store := fold_left kstep h k.
