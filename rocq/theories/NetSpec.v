(** What the calls on a network mean, by their history only. *)
From Coq Require Import List Arith ZArith Bool.
From Verif Require Import PyDict AgentModel NetModel.
Import ListNotations.
Open Scope Z_scope.

(** [x], [y] are the ends of the edge [u], [v]; the order does not matter if the network is undirected. *)
Definition same_edge (dir : bool) (u v x y : uid) : Prop := (x = u /\ y = v) \/ (dir = false /\ x = v /\ y = u).
(** A call that removes the edge. *)
Definition kills (dir : bool) (u v : uid) (o : nop) : Prop :=
  match o with NRemoveEdge x y => same_edge dir u v x y | NRemove w => w = u \/ w = v | NClear => True | _ => False end.
Definition adds (dir : bool) (u v : uid) (o : nop) : Prop := match o with NAddEdge x y _ => same_edge dir u v x y | _ => False end.
(** The edge was added and not removed since. *)
Definition present (dir : bool) (ops : list nop) (u v : uid) : Prop :=
  exists pre o post, ops = pre ++ o :: post /\ adds dir u v o /\ Forall (fun x => ~ kills dir u v x) post.
(** The values that a call writes for an edge. *)
Definition writes (dir : bool) (u v : uid) (k : Z) (x : Z) (o : nop) : Prop :=
  match o with NAddEdge a b kw | NUpdate a b kw => same_edge dir u v a b /\ dget k kw = Some x | _ => False end.
(** The last value written for an edge that exists since. *)
Definition last_value (dir : bool) (ops : list nop) (u v : uid) (k x : Z) : Prop :=
  exists pre o post, ops = pre ++ o :: post /\ writes dir u v k x o /\ present dir (pre ++ [o]) u v /\
    Forall (fun p => ~ kills dir u v p /\ forall y, ~ writes dir u v k y p) post.
(** The agent was added, by itself or with an edge, and not removed since. *)
Definition adds_node (u : uid) (o : nop) : Prop := match o with NAdd x => x = u | NAddEdge x y _ => x = u \/ y = u | _ => False end.
Definition is_node (ops : list nop) (u : uid) : Prop :=
  exists pre o post, ops = pre ++ o :: post /\ adds_node u o /\ Forall (fun x => x <> NRemove u) post.
(** The names of the keyword arguments of a call are different. *)
Definition named (o : nop) : Prop := match o with NAddEdge _ _ kw | NUpdate _ _ kw => dwf kw | _ => True end.
