(** [write_network] that raises: what is in the file (/repo/src/repast4py/network.py 1115-1140).  The file is opened, which empties it, before
    the nodes are written one by one; [with] closes it when [_write_node] raises.  [old] is the file before the call, [None] if there is none.
    The flag: no exception.  The exceptions of [_write_node] are those of [write_node]; others, e.g. of [json.dumps], are not modelled. *)
From Coq Require Import List Arith ZArith Bool Ascii String.
From Verif Require Import NetFileModel.
Import ListNotations.
Open Scope Z_scope.
Open Scope list_scope.

Section Fail.
Variable A : Type.
Variable dumps : A -> text.
(** 1137-1138: the lines written before the exception, if there is one *)
Fixpoint written (ns : list (node A)) (ranks : list Z) : list text * bool :=
  match ns, ranks with
  | [], _ => ([], true)
  | n :: t, r :: u => match write_node A dumps n r with Some l => let '(ls, ok) := written t u in (l :: ls, ok) | None => ([], false) end
  | _ :: _, [] => ([], false)
  end.
(** 1115-1140 *)
Definition write_file (shuffle : list Z -> list Z) (g : graph A) (name : text) (n_ranks : nat) (old : option (list text)) : option (list text) * bool :=
  match assign_ranks shuffle (List.length (g_nodes A g)) n_ranks with
  | None => (old, false)
  | Some ranks =>
      let desc := name ++ space :: str (if g_directed A g then "1" else "0") in
      match written (g_nodes A g) ranks with
      | (ls, true) => (Some (desc :: ls ++ edges_line :: map (write_edge A dumps) (g_edges A g)), true)
      | (ls, false) => (Some (desc :: ls), false)
      end
  end.
End Fail.
