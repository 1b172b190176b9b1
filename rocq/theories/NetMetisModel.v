(** [write_network] with [partition_method='metis'] (/repo/src/repast4py/network.py 1143-1157).  What [nxmetis.partition] returns is given: a list of
    lists of nodes, one for each rank.  [None]: an exception. *)
From Coq Require Import List ZArith Bool Ascii String.
From Verif Require Import PyDict NetFileModel.
Import ListNotations.
Open Scope Z_scope.
Open Scope list_scope.

Section Metis.
Variable A : Type.
Variable dumps : A -> text.
(** [graph.nodes[nid]]: a [KeyError] if it is not a node *)
Definition node_of (g : graph A) (i : Z) : option (node A) := find (fun n => n_id A n =? i) (g_nodes A g).
(** 1153-1155 *)
Fixpoint write_part (g : graph A) (i : Z) (part : list Z) : option (list text) :=
  match part with
  | [] => Some []
  | nid :: t =>
      match node_of g nid with
      | Some n => match write_node A dumps n i, write_part g i t with Some l, Some ls => Some (l :: ls) | _, _ => None end
      | None => None
      end
  end.
Fixpoint write_parts (g : graph A) (i : Z) (parts : list (list Z)) : option (list text) :=
  match parts with
  | [] => Some []
  | p :: t => match write_part g i p, write_parts g (i + 1) t with Some a, Some b => Some (a ++ b) | _, _ => None end
  end.
(** 1150-1157 *)
Definition metis_network (g : graph A) (name : text) (parts : list (list Z)) : option (list text) :=
  match write_parts g 0 parts with
  | Some ls => Some ((name ++ space :: str (if g_directed A g then "1" else "0")) :: ls ++ edges_line :: map (write_edge A dumps) (g_edges A g))
  | None => None
  end.
End Metis.
