(** Network files: what is written and read. *)
From Coq Require Import List Arith ZArith Bool Ascii String.
From Verif Require Import NetFileModel.
Import ListNotations.
Open Scope Z_scope.
Open Scope list_scope.

(** The number of nodes of a rank. *)
Definition load (r : Z) (ranks : list Z) : nat := List.length (filter (Z.eqb r) ranks).

Section Spec.
Variable A : Type.
(** A simple graph: the nodes are distinct, and edges connect nodes. *)
Definition wf_graph (g : graph A) : Prop :=
  NoDup (map (n_id A) (g_nodes A g)) /\
  forall e, In e (g_edges A g) -> In (e_u A e) (map (n_id A) (g_nodes A g)) /\ In (e_v A e) (map (n_id A) (g_nodes A g)).
(** The agent that should be created for a node on a rank. *)
Definition type_of (t : type_attr) : Z := match t with TInt z => z | _ => 0 end.
Definition agent_of (n : node A) (r : Z) : agent A := {| ag_id := n_id A n; ag_type := type_of (n_type A n); ag_rank := r; ag_attr := n_attr A n |}.
(** Nodes with their ranks. *)
Definition placed (g : graph A) (ranks : list Z) : list (agent A) := map (fun p => agent_of (fst p) (snd p)) (combine (g_nodes A g) ranks).
(** Whether a rank creates the agent; a single process ([None]) creates all. *)
Definition on (rank : option Z) (a : agent A) : bool := match rank with None => true | Some r => ag_rank A a =? r end.
(** The agent of a node. *)
Definition lookup (l : list (agent A)) (i : Z) : option (agent A) := find (fun a => ag_id A a =? i) l.
(** The edges a rank should have: those with an agent of the rank, with their attributes. *)
Definition edges_on (rank : option Z) (l : list (agent A)) (es : list (edge A)) : list (uid * uid * option A) :=
  flat_map (fun e => match lookup l (e_u A e), lookup l (e_v A e) with
    | Some a, Some b => if on rank a || on rank b then [(uid_of A a, uid_of A b, e_attr A e)] else []
    | _, _ => []
    end) es.
(** The agents of other ranks it has to ask for. *)
Definition needed (rank : option Z) (l : list (agent A)) (es : list (edge A)) (u : uid) : Prop :=
  exists e a b, In e es /\ on rank a = true /\ on rank b = false /\ uid_of A b = u /\
  (lookup l (e_u A e) = Some a /\ lookup l (e_v A e) = Some b \/ lookup l (e_v A e) = Some a /\ lookup l (e_u A e) = Some b).
(** The texts of the attributes: one pair of braces around something. *)
Definition flat (t : text) : Prop := exists body, t = "{"%char :: body ++ ["}"%char] /\ body <> [] /\ ~ In "}"%char body.
Definition attrs_of (g : graph A) : list A :=
  flat_map (fun n => match n_attr A n with Some a => [a] | None => [] end) (g_nodes A g) ++
  flat_map (fun e => match e_attr A e with Some a => [a] | None => [] end) (g_edges A g).
Definition word (t : text) : Prop := forall c, In c t -> is_space c = false.
End Spec.
