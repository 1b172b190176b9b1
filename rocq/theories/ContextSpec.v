(** The population of a context as a list of agents in the order of insertion, computed from the history alone. *)
From Coq Require Import List Arith ZArith Lia Bool.
From Verif Require Import PyDict AgentModel SpaceModel TopologyModel ContextModel.
Import ListNotations.
Open Scope Z_scope.

Definition has_id (u : uid) (a : agent) : bool := keq u (a_uid a).
Definition has_type (t : Z) (a : agent) : bool := t =? utype (a_uid a).

(** An agent added again takes the place it had. *)
Definition put (a : agent) (l : list agent) : list agent :=
  if existsb (has_id (a_uid a)) l then map (fun b => if has_id (a_uid a) b then a else b) l else l ++ [a].
Definition without (u : uid) (l : list agent) : list agent := filter (fun b => negb (has_id u b)) l.

Definition pstep (l : list agent) (o : cop) : list agent :=
  match o with
  | CAdd a | CIn a => put a l
  | CRemove u | COut u => without u l
  | CGhost _ _ | CProjection _ | CMove _ _ _ => l
  end.
Definition population (ops : list cop) : list agent := fold_left pstep ops [].

(** Has there ever been an agent of the type? *)
Definition adds_type (t : Z) (o : cop) : bool :=
  match o with CAdd a | CIn a => has_type t a | _ => false end.
Definition type_known (t : Z) (ops : list cop) : bool := existsb (adds_type t) ops.

(** The names of the projections that were accepted. *)
Fixpoint accepted (names : list Z) (ops : list cop) : list Z :=
  match ops with
  | [] => names
  | CProjection p :: t => accepted (if existsb (Z.eqb (p_name p)) names then names else names ++ [p_name p]) t
  | _ :: t => accepted names t
  end.
