(** Networks on one process: /repo/src/repast4py/network.py 30-290 and 602-880, and the networkx graphs they use.

    An agent is a node by the identity of its object: the C type has neither a hash nor a comparison of its own (coremodule.cpp
    305-350).  A node here is a name of an object; any names will do, and as long as a process has one object of each agent they may be
    the ids.  [lrank] gives the [local_rank] of an object.  The attribute dictionaries are objects: an edge and a [GhostedEdge] hold a
    reference, the index in [g_heap].  Names and values of attributes are numbers.  A failed call returns
    [false] and the network it leaves behind. *)
From Coq Require Import List Arith ZArith Lia Bool.
From Verif Require Import PyDict AgentModel.
Import ListNotations.
Open Scope Z_scope.

Definition edge : Type := uid * uid.
Definition attrs : Type := dict Z Z.
(** [dict.update] *)
Definition aupdate (kw a : attrs) : attrs := fold_left (fun a e => dset (fst e) (snd e) a) kw a.

(** ** networkx.Graph and networkx.DiGraph *)
(** [_adj] (and [_succ], which is the same object) and [_pred]; the nodes are the keys of both.  [_pred] is only used by [DiGraph]. *)
Record graph := Graph { g_adj : dict uid (dict uid nat); g_pred : dict uid (dict uid nat); g_heap : list attrs }.
Definition new_graph : graph := Graph [] [] [].
Definition nbrs (u : uid) (d : dict uid (dict uid nat)) : dict uid nat := match dget u d with Some n => n | None => [] end.
(** [d[u][v] = r]; the key [u] exists *)
Definition link (u v : uid) (r : nat) (d : dict uid (dict uid nat)) : dict uid (dict uid nat) := dset u (dset v r (nbrs u d)) d.
Definition unlink (u v : uid) (d : dict uid (dict uid nat)) : dict uid (dict uid nat) := if dmem u d then dset u (ddel v (nbrs u d)) d else d.
Definition has_node (u : uid) (g : graph) : bool := dmem u (g_adj g).
Definition has_edge (u v : uid) (g : graph) : bool := dmem v (nbrs u (g_adj g)).
Definition touch (u : uid) (d : dict uid (dict uid nat)) : dict uid (dict uid nat) := if dmem u d then d else dset u [] d.
Definition add_node (u : uid) (g : graph) : graph := Graph (touch u (g_adj g)) (touch u (g_pred g)) (g_heap g).
Fixpoint set_nth {A : Type} (l : list A) (n : nat) (x : A) : list A :=
  match l, n with [], _ => [] | _ :: l, O => x :: l | y :: l, S n => y :: set_nth l n x end.
Definition read (r : nat) (g : graph) : attrs := nth r (g_heap g) [].
Definition write (r : nat) (a : attrs) (g : graph) : graph := Graph (g_adj g) (g_pred g) (set_nth (g_heap g) r a).
(** [graph.edges[(u, v)]]: the attributes of an edge *)
Definition edge_ref (u v : uid) (g : graph) : option nat := dget v (nbrs u (g_adj g)).
Definition g_add_edge (dir : bool) (u v : uid) (kw : attrs) (g : graph) : graph :=
  let g := add_node v (add_node u g) in
  let '(r, g) := match edge_ref u v g with
                 | Some r => (r, g)
                 | None => (length (g_heap g), Graph (g_adj g) (g_pred g) (g_heap g ++ [[]]))
                 end in
  let g := write r (aupdate kw (read r g)) g in
  if dir then Graph (link u v r (g_adj g)) (link v u r (g_pred g)) (g_heap g)
  else Graph (link v u r (link u v r (g_adj g))) (g_pred g) (g_heap g).
(** [None]: [NetworkXError] *)
Definition g_remove_edge (dir : bool) (u v : uid) (g : graph) : option graph :=
  if has_edge u v g then
    Some (if dir then Graph (unlink u v (g_adj g)) (unlink v u (g_pred g)) (g_heap g)
          else Graph (if keq u v then unlink u v (g_adj g) else unlink v u (unlink u v (g_adj g))) (g_pred g) (g_heap g))
  else None.
Definition g_remove_node (dir : bool) (u : uid) (g : graph) : option graph :=
  if has_node u g then
    Some (if dir then
            let pred := fold_left (fun d v => unlink v u d) (dkeys (nbrs u (g_adj g))) (g_pred g) in
            let adj := ddel u (g_adj g) in
            let adj := fold_left (fun d v => unlink v u d) (dkeys (nbrs u pred)) adj in
            Graph adj (ddel u pred) (g_heap g)
          else Graph (ddel u (fold_left (fun d v => unlink v u d) (dkeys (nbrs u (g_adj g))) (g_adj g))) (ddel u (g_pred g)) (g_heap g))
  else None.
Definition g_clear_edges (g : graph) : graph :=
  Graph (map (fun e => (fst e, [])) (g_adj g)) (map (fun e => (fst e, [])) (g_pred g)) (g_heap g).
(** [graph.edges]: those of an undirected graph are listed from the end that comes first. *)
Fixpoint edges_from (dir : bool) (seen : list uid) (adj : dict uid (dict uid nat)) : list edge :=
  match adj with
  | [] => []
  | (u, ns) :: t =>
    map (fun v => (u, v)) (if dir then dkeys ns else filter (fun v => negb (existsb (keq v) seen)) (dkeys ns)) ++ edges_from dir (u :: seen) t
  end.
Definition edge_list (dir : bool) (g : graph) : list edge := edges_from dir [] (g_adj g).
(** [graph.size()]: half of the sum of the degrees *)
Definition degree (dir : bool) (g : graph) (e : uid * dict uid nat) : nat :=
  (length (snd e) + if dir then length (nbrs (fst e) (g_pred g)) else if dmem (fst e) (snd e) then 1 else 0)%nat.
Definition g_size (dir : bool) (g : graph) : nat := (list_sum (map (degree dir g) (g_adj g)) / 2)%nat.

(** ** SharedNetwork *)
(** 30-34 *)
Record gedge := GEdge { ge_local : uid; ge_ghost : uid; ge_attr : nat }.
(** 61-87, 627: the sets [edges_to_update], ..., and [canonical_edge_keys]; the number in [edges_to_remove] is the index of the ghost: [true] is 1 *)
Record net := Net {
  n_g : graph; n_upd : list edge; n_ghosted : dict edge gedge; n_new : dict edge gedge; n_rem : dict edge bool; n_ref : list uid;
  n_keys : dict edge edge }.
Definition new_net : net := Net new_graph [] [] [] [] [] [].
Definition set_g n x := Net x (n_upd n) (n_ghosted n) (n_new n) (n_rem n) (n_ref n) (n_keys n).
Definition set_upd n x := Net (n_g n) x (n_ghosted n) (n_new n) (n_rem n) (n_ref n) (n_keys n).
Definition set_ghosted n x := Net (n_g n) (n_upd n) x (n_new n) (n_rem n) (n_ref n) (n_keys n).
Definition set_new n x := Net (n_g n) (n_upd n) (n_ghosted n) x (n_rem n) (n_ref n) (n_keys n).
Definition set_rem n x := Net (n_g n) (n_upd n) (n_ghosted n) (n_new n) x (n_ref n) (n_keys n).
Definition set_ref n x := Net (n_g n) (n_upd n) (n_ghosted n) (n_new n) (n_rem n) x (n_keys n).
Definition set_keys n x := Net (n_g n) (n_upd n) (n_ghosted n) (n_new n) (n_rem n) (n_ref n) x.

Section Net.
(** [DirectedSharedNetwork]; the rank of the process; the local ranks of the agents *)
Variable dir : bool.
Variable rank : Z.
Variable lrank : uid -> Z.
Definition here (u : uid) : bool := lrank u =? rank.

(** 649-657, 790-800; [None]: [KeyError] *)
Definition get_key (u v : uid) (n : net) : option edge := if dir then Some (u, v) else dget (u, v) (n_keys n).
(** 659-669, 813-822 *)
Definition add_key (u v : uid) (n : net) : net :=
  if dir then n else set_keys n (dset (v, u) (u, v) (dset (u, v) (u, v) (n_keys n))).
(** 671-680, 802-811 *)
Definition remove_key (u v : uid) (n : net) : net * bool :=
  if dir then (n, true)
  else if dmem (u, v) (n_keys n) then
    let ks := ddel (u, v) (n_keys n) in
    if dmem (v, u) ks then (set_keys n (ddel (v, u) ks), true) else (set_keys n ks, false)
  else (n, false).
(** 682-719, 824-859 *)
Definition add_ghost_edge (u v loc gho : uid) (kw : attrs) (n : net) : net :=
  let n := if has_node gho (n_g n) then n else set_ref n (n_ref n ++ [gho]) in
  let n := add_key u v (set_g n (g_add_edge dir u v kw (n_g n))) in
  match edge_ref u v (n_g n) with
  | Some r => let n := set_new n (dset (u, v) (GEdge loc gho r) (n_new n)) in set_rem n (ddel (u, v) (n_rem n))
  | None => n
  end.
Definition add_edge (u v : uid) (kw : attrs) (n : net) : net :=
  if here u && negb (here v) then add_ghost_edge u v u v kw n
  else if negb (here u) && here v then add_ghost_edge u v v u kw n
  else let n := add_key u v n in set_g n (g_add_edge dir u v kw (n_g n)).
(** 195-208 *)
Definition n_add (u : uid) (n : net) : net := set_g n (add_node u (n_g n)).
(** 210-219 *)
Definition n_remove (u : uid) (n : net) : net * bool :=
  match g_remove_node dir u (n_g n) with Some g => (set_g n g, true) | None => (n, false) end.
Definition cross (u v : uid) : bool := xorb (here u) (here v).
(** 221-241; the key leads to the attributes, for each name *)
Definition update_edge (u v : uid) (kw : attrs) (n : net) : net * bool :=
  match get_key u v n with
  | None => (n, false)
  | Some k =>
    let n' := match kw, edge_ref (fst k) (snd k) (n_g n) with
              | [], _ => Some n
              | _, Some r => Some (set_g n (write r (aupdate kw (read r (n_g n))) (n_g n)))
              | _, None => None
              end in
    match n' with
    | None => (n, false)
    | Some n => (if cross u v then (if existsb (keq k) (n_upd n) then n else set_upd n (n_upd n ++ [k])) else n, true)
    end
  end.
(** 243-266 *)
Definition discard (k : edge) (l : list edge) : list edge := filter (fun x => negb (keq k x)) l.
Definition remove_edge (u v : uid) (n : net) : net * bool :=
  match g_remove_edge dir u v (n_g n) with
  | None => (n, false)
  | Some g =>
    let n := set_g n g in
    if cross u v then
      match get_key u v n with
      | None => (n, false)
      | Some k =>
        let n := set_rem n (dset k (negb (here (snd k))) (n_rem n)) in
        if dmem k (n_ghosted n) then
          let n := set_ghosted n (ddel k (n_ghosted n)) in
          let n := set_new (set_upd n (discard k (n_upd n))) (ddel k (n_new n)) in
          remove_key u v n
        else (n, false)
      end
    else remove_key u v n
  end.
(** 268-278 *)
Fixpoint clear_ghosted (l : list edge) (n : net) : net * bool :=
  match l with
  | [] => (n, true)
  | (u, v) :: l =>
    match get_key u v n with
    | None => (n, false)
    | Some k => clear_ghosted l (set_upd (set_rem n (dset k (here (fst k)) (n_rem n))) (discard k (n_upd n)))
    end
  end.
Definition clear_edges (n : net) : net * bool :=
  let n := set_g n (g_clear_edges (n_g n)) in
  match clear_ghosted (dkeys (n_ghosted n)) n with
  | (n, true) => (set_ghosted (set_new n []) [], true)
  | (n, false) => (n, false)
  end.
(** 280-290 *)
Definition contains_edge (u v : uid) (n : net) : bool := has_edge u v (n_g n).
(** 734-743, 874-880; [None]: [NetworkXError], not a node *)
Definition num_edges (u : uid) (n : net) : option nat :=
  if has_node u (n_g n) then Some (length (nbrs u (g_adj (n_g n))) + if dir then length (nbrs u (g_pred (n_g n))) else 0)%nat else None.
(** 101-111 *)
Definition edge_count (n : net) : nat := g_size dir (n_g n).
Definition node_count (n : net) : nat := length (g_adj (n_g n)).
(** [graph.edges[(u, v)]] *)
Definition edge_attrs (u v : uid) (n : net) : option attrs := option_map (fun r => read r (n_g n)) (edge_ref u v (n_g n)).

(** Calls; a caller may go on after an exception. *)
Inductive nop := NAdd (u : uid) | NRemove (u : uid) | NAddEdge (u v : uid) (kw : attrs) | NUpdate (u v : uid) (kw : attrs) | NRemoveEdge (u v : uid) | NClear.
Definition nstep (n : net) (o : nop) : net * bool :=
  match o with
  | NAdd u => (n_add u n, true)
  | NRemove u => n_remove u n
  | NAddEdge u v kw => (add_edge u v kw n, true)
  | NUpdate u v kw => update_edge u v kw n
  | NRemoveEdge u v => remove_edge u v n
  | NClear => clear_edges n
  end.
Definition nrun (n : net) (ops : list nop) : net := fold_left (fun n o => fst (nstep n o)) ops n.
End Net.
