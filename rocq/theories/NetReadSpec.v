(** What the ranks should have after they read a network file. *)
From Coq Require Import List Arith ZArith Lia Bool.
From Verif Require Import PyDict AgentModel NetModel NetSpec NetWorldModel NetMoveModel.
From Verif Require NetFileModel NetFileSpec.
Import ListNotations.
Open Scope Z_scope.

Definition file_graph : Type := NetFileModel.graph attrs.
Definition file_agent : Type := NetFileModel.agent attrs.
(** The attributes of an edge in the file; none are written for an empty dictionary. *)
Definition written (a : option attrs) : attrs := match a with Some kw => kw | None => [] end.
(** Edges with the same ends have the same attributes: networkx's [Graph] and [DiGraph] have no parallel edges. *)
Definition simple (g : file_graph) : Prop := forall e e', In e (NetFileModel.g_edges attrs g) -> In e' (NetFileModel.g_edges attrs g) ->
  (NetFileModel.e_u attrs e = NetFileModel.e_u attrs e' /\ NetFileModel.e_v attrs e = NetFileModel.e_v attrs e') \/
  (NetFileModel.g_directed attrs g = false /\ NetFileModel.e_u attrs e = NetFileModel.e_v attrs e' /\ NetFileModel.e_v attrs e = NetFileModel.e_u attrs e') ->
  written (NetFileModel.e_attr attrs e) = written (NetFileModel.e_attr attrs e').
(** The rank of an agent of the file, when [n] ranks read it. *)
Definition lives (n : nat) (r : Z) (a : file_agent) : Prop := n = 1%nat \/ NetFileModel.ag_rank attrs a = r.
(** The agents and edges of the file. *)
Definition in_file (g : file_graph) (ranks : list Z) (u : uid) (a : file_agent) : Prop := In a (NetFileSpec.placed attrs g ranks) /\ NetFileModel.uid_of attrs a = u.
Definition file_edge (g : file_graph) (ranks : list Z) (a b : file_agent) (kw : attrs) : Prop := exists e, In e (NetFileModel.g_edges attrs g) /\
  In a (NetFileSpec.placed attrs g ranks) /\ In b (NetFileSpec.placed attrs g ranks) /\ NetFileModel.ag_id attrs a = NetFileModel.e_u attrs e /\ NetFileModel.ag_id attrs b = NetFileModel.e_v attrs e /\
  kw = written (NetFileModel.e_attr attrs e).
(** What the functions given to [read_network] return: different objects for different agents. *)
Record objects (make : Z -> nat -> uid -> nat) (born : Z -> uid -> nat) : Prop := {
  ob_created : forall r u v, born r u = born r v -> u = v;
  ob_restored : forall r k k' u v, make r k u = make r k' v -> u = v;
  ob_other : forall r k u v, make r k u <> born r v }.
Definition is_ghost (w : mworld) (r : Z) (u : uid) : Prop := exists p, at_mrank r w = Some p /\ dmem u (am_ghost (q_man p)) = true.
