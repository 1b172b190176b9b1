(** Specification of a space: the located agents in order of arrival at their location. *)
From Coq Require Import List Arith ZArith Lia Bool.
From Verif Require Import PyDict AgentModel SpaceModel.
Import ListNotations.
Open Scope Z_scope.

(** [v_arrived]: the located agents, the last one to arrive at its location comes last;
    [v_last]: the last point the space has computed or was asked about. *)
Record view := View { v_in : list uid; v_arrived : list (agent * point); v_last : point }.

Definition located_at (p : point) (l : list (agent * point)) : list agent :=
  map fst (filter (fun e => keq (snd e) p) l).
Definition place_of (u : uid) (l : list (agent * point)) : option point :=
  option_map snd (find (fun e => keq (a_uid (fst e)) u) l).
Definition drop (u : uid) (l : list (agent * point)) : list (agent * point) :=
  filter (fun e => negb (keq (a_uid (fst e)) u)) l.
Definition is_in (u : uid) (v : view) : bool := existsb (keq u) (v_in v).

Definition vstep (oc : occupancy) (tr : point -> point -> point) (v : view) (o : sop) : view :=
  match o with
  | SAdd a => View (a_uid a :: v_in v) (v_arrived v) (v_last v)
  | SRemove u =>
    View (filter (fun x => negb (keq x u)) (v_in v)) (drop u (v_arrived v))
         (match place_of u (v_arrived v) with Some p => p | None => v_last v end)
  | SMove a p =>
    if is_in (a_uid a) v then
      let w := tr p (v_last v) in
      let stay := View (v_in v) (v_arrived v) w in
      if match place_of (a_uid a) (v_arrived v) with Some q => keq q w | None => false end then stay
      else if match oc with Single => negb (match located_at w (v_arrived v) with [] => true | _ => false end)
                          | Multi => false end then stay
      else View (v_in v) (drop (a_uid a) (v_arrived v) ++ [(a, w)]) w
    else v
  | SGetAgent p | SGetAgents p => View (v_in v) (v_arrived v) p
  end.
Definition vrun oc tr (v : view) (ops : list sop) : view := fold_left (vstep oc tr) ops v.

(** The agent objects passed to the space: one Python object per id. *)
Definition op_agent (o : sop) : option agent :=
  match o with SAdd a | SMove a _ => Some a | _ => None end.
Definition one_object_per_id (ops : list sop) : Prop :=
  exists f : uid -> nat, (forall u v, f u = f v -> u = v) /\
  forall o a, In o ops -> op_agent o = Some a -> a_obj a = f (a_uid a).
(** No agent is added while it is in the space. *)
Fixpoint added_once (inside : list uid) (ops : list sop) : Prop :=
  match ops with
  | [] => True
  | SAdd a :: t => ~ In (a_uid a) inside /\ added_once (a_uid a :: inside) t
  | SRemove u :: t => added_once (filter (fun x => negb (keq x u)) inside) t
  | _ :: t => added_once inside t
  end.
