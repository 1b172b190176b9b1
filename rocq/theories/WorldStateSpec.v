(** The states of agents and of their copies. *)
From Coq Require Import List Arith ZArith Bool.
From Verif Require Import PyDict AgentModel ContextModel WorldModel WorldSpec.
Import ListNotations.
Open Scope Z_scope.

(** What the calls say: the state that each agent was given last. *)
Definition told_step (s : uid -> option Z) (o : wop) : uid -> option Z :=
  match o with
  | WAdd _ a x => fun v => if keq v (a_uid a) then Some x else s v
  | WRemove _ u => fun v => if keq v u then None else s v
  | WState _ u x => fun v => if keq v u then match s u with Some _ => Some x | None => None end else s v
  | _ => s
  end.
Definition told_state (ops : list wop) : uid -> option Z := fold_left told_step ops (fun _ => None).

(** What the ranks say: the state of a local agent; of a ghost. *)
Definition state_at (w : world) (i : nat) (u : uid) : option Z :=
  match nth_error w i with Some c => option_map (fun a => state_of a c) (ctx_agent u c) | None => None end.
Definition copy_at (w : world) (i : nat) (u : uid) : option Z :=
  match nth_error w i with Some c => option_map (fun a => state_of a c) (ghost_agent u c) | None => None end.

(** An object is of one agent: [owner] gives its id.  The function that restores agents may make an object each time or keep one. *)
Definition objects_ok (fobj : Z -> nat -> uid -> nat) (owner : nat -> uid) (ops : list wop) : Prop :=
  (forall r k u, owner (fobj r k u) = u) /\ forall r a x, In (WAdd r a x) ops -> owner (a_obj a) = a_uid a.
(** Objects are never used twice: not on a rank by the restoring function, nor one of it by the model. *)
Definition objects_new (fobj : Z -> nat -> uid -> nat) (ops : list wop) : Prop :=
  (forall r k k' u u', fobj r k u = fobj r k' u' -> k = k') /\
  (forall r k u r' a x, In (WAdd r' a x) ops -> fobj r k u <> a_obj a) /\
  NoDup (flat_map (fun o => match o with WAdd _ a _ => [a_obj a] | _ => [] end) ops).
