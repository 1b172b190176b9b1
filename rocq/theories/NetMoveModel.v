(** Networks whose agents move between processes: a context on each rank with one [SharedNetwork] as its only projection
    (/repo/src/repast4py/network.py 292-600, context.py 43-60, 115-128, 207-308, 409-550).

    The type of agents has neither a hash nor a comparison of its own (coremodule.cpp 305-350), so that two objects of one agent are two nodes.
    Objects are numbers here; a node of a graph is the name of an object, and [local_rank] belongs to an object.  [create_agent] is a function
    of the model: the [n]-th call on rank [r], for the agent [u], returns the object [make r n u].  The state of agents is not modelled (see
    WorldModel.v).  A collective operation is done phase by phase on all ranks.  [None]: some rank raises an exception. *)
From Coq Require Import List Arith ZArith Lia Bool.
From Verif Require Import PyDict AgentModel SpaceModel TopologyModel ContextModel WorldModel NetModel NetWorldModel.
Import ListNotations.
Open Scope Z_scope.

(** The name of an object. *)
Definition name (o : nat) : uid := (Z.of_nat o, 0, 0).
Definition obj_of (x : uid) : nat := Z.to_nat (fst (fst x)).
Definition node (a : agent) : uid := name (a_obj a).
(** [_agent_manager]; the network; [removed_ghosteds]; the ids of the objects; the number of calls of [create_agent];
    [_agent_moved_edges], with the dictionaries of attributes; [_no_longer_ghosts] *)
Record mpeer := MPeer {
  q_man : manager; q_net : net; q_gone : list ghosted; q_ids : dict nat uid; q_made : nat; q_moved : list (uid * uid * nat); q_no : list (Z * uid) }.
Definition mworld := list mpeer.
Definition new_mpeer (r : Z) : mpeer := MPeer (new_manager r) new_net [] [] 0 [] [].
Definition new_mworld (n : nat) : mworld := map (fun r => new_mpeer (Z.of_nat r)) (seq 0 n).
Definition put_man p x := MPeer x (q_net p) (q_gone p) (q_ids p) (q_made p) (q_moved p) (q_no p).
Definition put_net p x := MPeer (q_man p) x (q_gone p) (q_ids p) (q_made p) (q_moved p) (q_no p).
Definition put_gone p x := MPeer (q_man p) (q_net p) x (q_ids p) (q_made p) (q_moved p) (q_no p).
Definition put_ids p x := MPeer (q_man p) (q_net p) (q_gone p) x (q_made p) (q_moved p) (q_no p).
Definition put_made p x := MPeer (q_man p) (q_net p) (q_gone p) (q_ids p) x (q_moved p) (q_no p).
Definition put_moved p x := MPeer (q_man p) (q_net p) (q_gone p) (q_ids p) (q_made p) x (q_no p).
Definition put_no p x := MPeer (q_man p) (q_net p) (q_gone p) (q_ids p) (q_made p) (q_moved p) x.

Definition rank_of (p : mpeer) : Z := am_rank (q_man p).
(** [agent.uid] and [agent.local_rank] *)
Definition id_of (p : mpeer) (x : uid) : uid := match dget (obj_of x) (q_ids p) with Some u => u | None => (0, 0, 0) end.
Definition lr_of (p : mpeer) (x : uid) : Z := match dget (obj_of x) (am_lrank (q_man p)) with Some r => r | None => snd (id_of p x) end.
Definition agent_of (p : mpeer) (x : uid) : agent := Agent (id_of p x) (obj_of x).

Definition mphase {X} (send : mpeer -> option (mpeer * list (Z * X))) (recv : list (Z * X) -> mpeer -> option mpeer) (w : mworld) : option mworld :=
  obind (mapo send w) (fun l =>
  obind (exchange (map snd l)) (fun rs =>
  mapo (fun e => recv (fst e) (snd e)) (combine rs (map fst l)))).

Section NetMove.
Variable dir : bool.
Variable make : Z -> nat -> uid -> nat.

(** [create_agent] *)
Definition create (u : uid) (p : mpeer) : mpeer * agent :=
  let o := make (rank_of p) (q_made p) u in
  (put_made (put_ids p (dset o u (q_ids p))) (S (q_made p)), Agent u o).
Definition net_add (a : agent) (p : mpeer) : mpeer := put_net p (n_add (node a) (q_net p)).
(** [None]: a [NetworkXError] *)
Definition net_remove (x : uid) (p : mpeer) : option mpeer := option_map (fun g => put_net p (set_g (q_net p) g)) (g_remove_node dir x (n_g (q_net p))).

(** ** network.py 423-448 *)
Definition mref_send (x : uid) (p : mpeer) : option (mpeer * list (Z * uid)) :=
  if has_node x (n_g (q_net p)) then
    let u := id_of p x in
    let m := match get_ghost u 1 (q_man p) with (m, Some _) => m | (m, None) => add_ghost (lr_of p x) (agent_of p x) 1 m end in
    Some (put_man p m, [(lr_of p x, u)])
  else Some (p, []).
Definition mpre_send (p : mpeer) : option (mpeer * list (Z * uid)) :=
  obind (foldm mref_send (n_ref (q_net p)) p) (fun e => Some (put_net (fst e) (set_ref (q_net (fst e)) []), snd e)).
Definition mtag_recv (e : Z * uid) (p : mpeer) : option mpeer :=
  match tag_as_ghosted (fst e) (snd e) (q_man p) with (m, Ok _) => Some (put_man p m) | _ => None end.

(** ** context.py 207-239 *)
Definition mgone_send (p : mpeer) : option (mpeer * list (Z * uid)) :=
  Some (put_gone p [], flat_map (fun g => map (fun r => (r, a_uid (gd_agent g))) (dkeys (gd_ranks g))) (q_gone p)).
Definition mgone_recv (e : Z * uid) (p : mpeer) : option mpeer :=
  match get_ghost (snd e) 1 (q_man p) with
  | (m, Some a) => obind (net_remove (node a) (put_man p m)) (fun p =>
                   match delete_ghost (snd e) (q_man p) with (m, Ok _) => Some (put_man p m) | _ => None end)
  | _ => None
  end.
Definition mstate_send (p : mpeer) : option (mpeer * list (Z * uid)) :=
  Some (p, flat_map (fun e => map (fun r => (r, a_uid (gd_agent (snd e)))) (dkeys (gd_ranks (snd e)))) (am_ghosted (q_man p))).
Definition mstate_recv (e : Z * uid) (p : mpeer) : option mpeer := if dmem (snd e) (am_ghost (q_man p)) then Some p else None.

(** ** network.py 292-330 *)
Definition mrem_send (e : edge * bool) (p : mpeer) : option (mpeer * list (Z * (uid * uid))) :=
  let k := fst e in
  let ghost := if snd e then snd k else fst k in
  let other := if snd e then fst k else snd k in
  match untag_as_ghosted (lr_of p ghost) (id_of p other) (q_man p) with
  | (m, Ok _) => Some (put_man p m, [(lr_of p ghost, (id_of p (fst k), id_of p (snd k)))])
  | _ => None
  end.
Definition mremoved_send (p : mpeer) : option (mpeer * list (Z * (uid * uid))) :=
  obind (foldm mrem_send (n_rem (q_net p)) p) (fun e => Some (put_net (fst e) (set_rem (q_net (fst e)) []), snd e)).
Definition get_agent (u : uid) (m : manager) : option agent := dget u (am_local m).
Definition get_ghost_agent (u : uid) (m : manager) : option agent := option_map g_agent (dget u (am_ghost m)).
(** The two ends of a received edge: one is a ghost, the other one is local; [true]: the first is the ghost. *)
Definition ends_of (u v : uid) (m : manager) : option (uid * uid * bool) :=
  match get_ghost_agent u m with
  | Some a => option_map (fun b => (node a, node b, true)) (get_agent v m)
  | None => match get_agent u m, get_ghost_agent v m with Some a, Some b => Some (node a, node b, false) | _, _ => None end
  end.
Definition mdrop_ghost (x : uid) (p : mpeer) : option mpeer :=
  if in_edge dir x (n_g (q_net p)) then Some p
  else match remove_ghost (id_of p x) (q_man p) with (m, Ok _) => net_remove x (put_man p m) | _ => None end.
Definition mrem_recv (e : Z * (uid * uid)) (p : mpeer) : option mpeer :=
  obind (ends_of (fst (snd e)) (snd (snd e)) (q_man p)) (fun '(x, y, f) =>
  obind (g_remove_edge dir x y (n_g (q_net p))) (fun g =>
  obind (mdrop_ghost (if f then x else y) (put_net p (set_g (q_net p) g))) (fun p =>
  match remove_key dir x y (q_net p) with (n, true) => Some (put_net p n) | _ => None end))).

(** ** network.py 332-379 *)
Definition msg : Type := (Z * uid) + (Z * (uid * uid * attrs)).
Definition mnew_send (e : edge * gedge) (p : mpeer) : option (mpeer * list msg) :=
  let ge := snd e in
  let other := lr_of p (ge_ghost ge) in
  let loc := id_of p (ge_local ge) in
  let p := put_net p (set_ghosted (q_net p) (dset (fst e) ge (n_ghosted (q_net p)))) in
  let msg := inr (other, (id_of p (fst (fst e)), id_of p (snd (fst e)), read (ge_attr ge) (n_g (q_net p)))) in
  if is_ghosted_to other loc (q_man p) then Some (p, [msg])
  else match tag_as_ghosted other loc (q_man p) with
       | (m, Ok _) => Some (put_man p m, [inl (other, loc); msg])
       | _ => None
       end.
Definition mupd_send (k : edge) (p : mpeer) : option (mpeer * list msg) :=
  match dget k (n_ghosted (q_net p)) with
  | Some ge => Some (p, [inr (lr_of p (ge_ghost ge), (id_of p (fst k), id_of p (snd k), read (ge_attr ge) (n_g (q_net p))))])
  | None => None
  end.
Definition mvertices_send (p : mpeer) : option (mpeer * list msg) :=
  obind (foldm mnew_send (n_new (q_net p)) p) (fun e1 =>
  let p := put_net (fst e1) (set_new (q_net (fst e1)) []) in
  obind (foldm mupd_send (n_upd (q_net p)) p) (fun e2 =>
  Some (put_net (fst e2) (set_upd (q_net (fst e2)) []), snd e1 ++ snd e2))).
Definition magents_of (l : list msg) : list (Z * uid) := flat_map (fun x => match x with inl e => [e] | inr _ => [] end) l.
Definition medges_of (l : list msg) : list (Z * (uid * uid * attrs)) := flat_map (fun x => match x with inr e => [e] | inl _ => [] end) l.
Definition magent_recv (e : Z * uid) (p : mpeer) : option mpeer :=
  let '(p, a) := create (snd e) p in
  Some (net_add a (put_man p (add_ghost (fst e) a 1 (q_man p)))).
(** 381-409 *)
Definition medge_recv (e : Z * (uid * uid * attrs)) (p : mpeer) : option mpeer :=
  let '(u, v, kw) := snd e in
  obind (ends_of u v (q_man p)) (fun '(x, y, _) =>
  Some (put_net p (add_key dir x y (set_g (q_net p) (g_add_edge dir x y kw (n_g (q_net p))))))).
Definition msync_vertices (w : mworld) : option mworld :=
  obind (mapo mvertices_send w) (fun l =>
  obind (exchange (map (fun e => magents_of (snd e)) l)) (fun rs =>
  obind (mapo (fun e => foldo magent_recv (fst e) (snd e)) (combine rs (map fst l))) (fun w =>
  obind (exchange (map (fun e => medges_of (snd e)) l)) (fun rs =>
  mapo (fun e => foldo medge_recv (fst e) (snd e)) (combine rs w))))).
(** 411-421 *)
Definition mnet_synch (w : mworld) : option mworld := obind (mphase mremoved_send (foldo mrem_recv) w) msync_vertices.

(** ** context.py 207-308, with [sync_ghosts] *)
Definition mpre_synch : mworld -> option mworld := mphase mpre_send (foldo mtag_recv).
Definition mupdate (w : mworld) : option mworld := obind (mphase mgone_send (foldo mgone_recv) w) (mphase mstate_send (foldo mstate_recv)).
Definition msynchronize (w : mworld) : option mworld := obind (mpre_synch w) (fun w => obind (mupdate w) mnet_synch).

(** ** context.py 409-471 *)
Definition mreq_one (e : uid * Z) (p : mpeer) : option (mpeer * list (Z * uid)) :=
  match get_ghost (fst e) 0 (q_man p) with
  | (m, Some a) => Some (net_add a (put_man p (add_req_ghost (a_uid a) m)), [])
  | (m, None) => Some (put_man p m, [(snd e, fst e)])
  end.
Definition mreq_tag (e : Z * uid) (p : mpeer) : option (mpeer * list (Z * uid)) :=
  match tag_as_ghosted (fst e) (snd e) (q_man p) with
  | (m, Ok a) => Some (put_man p m, [(fst e, a_uid a)])
  | _ => None
  end.
Definition mreq_recv (e : Z * uid) (p : mpeer) : option mpeer :=
  let '(p, a) := create (snd e) p in
  Some (net_add a (put_man p (add_req_ghost (a_uid a) (add_ghost (fst e) a 1 (q_man p))))).
Definition mrequest (reqs : list (list (uid * Z))) (w : mworld) : option mworld :=
  obind (mapo (fun e => foldm mreq_one (fst e) (snd e)) (combine reqs w)) (fun l =>
  obind (exchange (map snd l)) (fun rs =>
  obind (mapo (fun e => foldm mreq_tag (fst e) (snd e)) (combine rs (map fst l))) (fun l =>
  obind (exchange (map snd l)) (fun rs =>
  mapo (fun e => foldo mreq_recv (fst e) (snd e)) (combine rs (map fst l)))))).

(** ** Moving agents *)
(** network.py 721-732, 861-872: the edges of an agent with their attributes; [None]: not a node *)
Definition edges_at (x : uid) (n : net) : option (list (uid * uid * nat)) :=
  if has_node x (n_g n) then
    Some (map (fun e => (x, fst e, snd e)) (nbrs x (g_adj (n_g n))) ++
          if dir then map (fun e => (fst e, x, snd e)) (nbrs x (g_pred (n_g n))) else [])
  else None.
(** network.py 472-538.  The state of the loop: the peer, the second element of [moving_agent_data], [edges_to_remove], [nodes_to_remove]. *)
Definition moving_edge (x : uid) (dest : Z) (e : uid * uid * nat) (s : mpeer * option (dict Z Z) * list edge * list uid) : option (mpeer * option (dict Z Z) * list edge * list uid) :=
  let '(p, data, es, ns) := s in
  let '(u, v, attr) := e in
  let other := if keq (id_of p u) (id_of p x) then v else u in
  if negb (lr_of p other =? rank_of p) && negb (is_requested (id_of p other) (q_man p)) then
    let es := es ++ [(u, v)] in
    obind (num_edges dir other (q_net p)) (fun c =>
    if Nat.eqb c 1 then
      match remove_ghost (id_of p other) (q_man p) with
      | (m, Ok _) => Some (put_no (put_man p m) (q_no p ++ [(lr_of p other, id_of p other)]), data, es, ns ++ [other])
      | _ => None
      end
    else Some (p, data, es, ns))
  else
    let data := match data with
                | None => Some [(rank_of p, 1)]
                | Some d => Some (match dget (rank_of p) d with Some c => dset (rank_of p) (c + 1) d | None => dset (rank_of p) 1 d end)
                end in
    Some (put_moved (put_man p (add_ghost dest (agent_of p x) 0 (q_man p))) (q_moved p ++ [(id_of p u, id_of p v, attr)]), data, es, ns).
Definition drop_edge (k : edge) (p : mpeer) : option mpeer :=
  obind (g_remove_edge dir (fst k) (snd k) (n_g (q_net p))) (fun g =>
  match remove_key dir (fst k) (snd k) (set_g (q_net p) g) with (n, true) => Some (put_net p n) | _ => None end).
Definition moving_rank (x : uid) (dest : Z) (data : option (dict Z Z)) (p : mpeer) : option (mpeer * option (dict Z Z)) :=
  obind (edges_at x (q_net p)) (fun l =>
  obind (foldo (moving_edge x dest) l (p, data, [], [])) (fun '(p, data, es, ns) =>
  obind (foldo drop_edge es p) (fun p =>
  obind (foldo net_remove ns p) (fun p =>
  obind (net_remove x p) (fun p => Some (p, data)))))).
(** context.py 505-520: the messages are the ids of the agents with the ranks that they are ghosted to *)
Definition leave_one (e : uid * Z) (p : mpeer) : option (mpeer * list (Z * (uid * option (dict Z Z)))) :=
  match remove_local (fst e) (q_man p) with
  | (m, Some a) =>
    let '(m, data) := match delete_ghosted (fst e) m with (m, Ok d) => (m, Some d) | (m, _) => (m, None) end in
    obind (moving_rank (node a) (snd e) data (put_man p m)) (fun '(p, data) => Some (p, [(snd e, (fst e, data))]))
  | _ => None
  end.
(** context.py 522-534 *)
Definition arrive_one (e : Z * (uid * option (dict Z Z))) (s : mpeer * list uid) : option (mpeer * list uid) :=
  let '(p, gs) := s in
  let '(u, data) := snd e in
  let '(p, a) := create u p in
  let gs := if dmem (a_uid a) (am_ghost (q_man p)) then gs ++ [a_uid a] else gs in
  let p := net_add a (put_man p (add_local a (q_man p))) in
  match data with
  | None => Some (p, gs)
  | Some d => match set_as_ghosted (ddel (rank_of p) d) (a_uid a) (q_man p) with (m, Ok _) => Some (put_man p m, gs) | _ => None end
  end.
(** network.py 555-559 *)
Definition no_send (p : mpeer) : option (mpeer * list (Z * uid)) := Some (put_no p [], q_no p).
Definition untag_recv (e : Z * uid) (p : mpeer) : option mpeer :=
  match untag_as_ghosted (fst e) (snd e) (q_man p) with (m, Ok _) => Some (put_man p m) | _ => None end.
(** network.py 561-599 *)
Definition take_edge (a : agent) (e : uid * uid * nat) (p : mpeer) : option mpeer :=
  let '(u, v, attr) := e in
  obind (g_remove_edge dir u v (n_g (q_net p))) (fun g =>
  let kw := read attr g in
  let g := if keq (id_of p u) (a_uid a) then g_add_edge dir (node a) v kw g else g_add_edge dir u (node a) kw g in
  Some (put_net p (set_g (q_net p) g))).
Definition set_lrank (x : uid) (r : Z) (m : manager) : manager := upd_lrank m (dset (obj_of x) r (am_lrank m)).
Definition follow_edge (dest : Z) (e : uid * uid * nat) (p : mpeer) : option mpeer :=
  obind (get_key dir (fst (fst e)) (snd (fst e)) (q_net p)) (fun k =>
  match dget k (n_ghosted (q_net p)) with
  | Some ge => Some (put_net (put_man p (set_lrank (ge_ghost ge) dest (q_man p))) (set_new (q_net p) (dset k ge (n_new (q_net p)))))
  | None => Some p
  end).
Definition moved_one (e : uid * Z) (p : mpeer) : option mpeer :=
  if snd e =? rank_of p then
    match get_ghost (fst e) 1 (q_man p) with
    | (m, Some g) =>
      match get_local (fst e) m with
      | Some a => obind (edges_at (node g) (q_net p)) (fun l => obind (foldo (take_edge a) l (put_man p m)) (net_remove (node g)))
      | None => None
      end
    | (m, None) => Some (put_man p m)
    end
  else
    match get_ghost (fst e) 0 (q_man p) with
    | (m, Some g) => obind (edges_at (node g) (q_net p)) (fun l => foldo (follow_edge (snd e)) l (put_man p m))
    | (m, None) => Some (put_man p m)
    end.
(** context.py 473-485; [all] are the agents that each rank moves *)
Definition others_moved (all : list (list (uid * Z))) (r : Z) : list (uid * Z) :=
  flat_map (fun e => if Z.of_nat (fst e) =? r then [] else snd e) (combine (seq 0 (length all)) all).
Definition agents_moved (all : list (list (uid * Z))) (w : mworld) : option mworld :=
  if forallb (fun l => match l with [] => true | _ => false end) all then Some w
  else obind (mphase no_send (foldo untag_recv) w) (mapo (fun p => foldo moved_one (others_moved all (rank_of p)) p)).
Definition unghost (u : uid) (p : mpeer) : option mpeer := match delete_ghost u (q_man p) with (m, Ok _) => Some (put_man p m) | _ => None end.
(** network.py 450-470 *)
Definition known_agent (u : uid) (p : mpeer) : mpeer * option agent :=
  match get_local u (q_man p) with
  | Some a => (p, Some a)
  | None => match get_ghost u 0 (q_man p) with (m, o) => (put_man p m, o) end
  end.
Definition post_edge (e : uid * uid * nat) (p : mpeer) : option mpeer :=
  let '(u, v, attr) := e in
  let '(p, a) := known_agent u p in
  let '(p, b) := known_agent v p in
  match a, b with
  | Some a, Some b => Some (put_net p (add_edge dir (rank_of p) (lr_of p) (node a) (node b) (read attr (n_g (q_net p))) (q_net p)))
  | _, _ => None
  end.
Definition post_moved (p : mpeer) : option mpeer := option_map (fun p => put_moved p []) (foldo post_edge (q_moved p) p).
(** context.py 487-550: each rank gives a list of ids and of the ranks to move to.  There is no bounded projection. *)
Definition move_agents (moves : list (list (uid * Z))) (w : mworld) : option mworld :=
  obind (mapo (fun e => foldm leave_one (fst e) (snd e)) (combine moves w)) (fun l =>
  obind (exchange (map snd l)) (fun rs =>
  obind (mapo (fun e => foldo arrive_one (fst e) (snd e, [])) (combine rs (map fst l))) (fun l =>
  obind (agents_moved moves (map fst l)) (fun w =>
  obind (mapo (fun e => foldo unghost (fst e) (snd e)) (combine (map snd l) w)) (fun w =>
  obind (mpre_synch w) (fun w =>
  obind (mupdate w) (fun w =>
  obind (mnet_synch w) (fun w =>
  obind (mapo post_moved w) mnet_synch)))))))).

(** ** Calls *)
Definition at_mrank (r : Z) (w : mworld) : option mpeer := if 0 <=? r then nth_error w (Z.to_nat r) else None.
Definition on_mrank (r : Z) (f : mpeer -> option mpeer) (w : mworld) : option mworld :=
  obind (at_mrank r w) (fun p => option_map (set_nth w (Z.to_nat r)) (f p)).
(** context.py 43-55, with a new object *)
Definition mctx_add (u : uid) (o : nat) (p : mpeer) : option mpeer :=
  let a := Agent u o in
  Some (net_add a (put_ids (put_man p (add_local a (q_man p))) (dset o u (q_ids p)))).
(** context.py 115-128 *)
Definition mctx_remove (u : uid) (p : mpeer) : option mpeer :=
  match delete_local u (q_man p) with
  | (m, gone, Some a) => net_remove (node a) (put_gone (put_man p m) (q_gone p ++ gone))
  | _ => None
  end.
(** A rank calls its network with the agents that it has, local or as ghosts. *)
Definition find_agent (p : mpeer) (u : uid) : option uid :=
  match get_agent u (q_man p) with Some a => Some (node a) | None => option_map node (get_ghost_agent u (q_man p)) end.
Definition find2 (p : mpeer) (u v : uid) (f : uid -> uid -> nop) : option nop := obind (find_agent p u) (fun x => option_map (f x) (find_agent p v)).
Definition on_nodes (p : mpeer) (o : nop) : option nop :=
  match o with
  | NAdd u => option_map NAdd (find_agent p u)
  | NRemove u => option_map NRemove (find_agent p u)
  | NAddEdge u v kw => find2 p u v (fun x y => NAddEdge x y kw)
  | NUpdate u v kw => find2 p u v (fun x y => NUpdate x y kw)
  | NRemoveEdge u v => find2 p u v NRemoveEdge
  | NClear => Some NClear
  end.
Definition mnet_call (o : nop) (p : mpeer) : option mpeer :=
  obind (on_nodes p o) (fun o => match nstep dir (rank_of p) (lr_of p) (q_net p) o with (n, true) => Some (put_net p n) | _ => None end).
(** [contains_edge] and the attributes *)
Definition sees (p : mpeer) (u v : uid) : option attrs := obind (find_agent p u) (fun x => obind (find_agent p v) (fun y => edge_attrs x y (q_net p))).

Inductive vop :=
| VAgent (r : Z) (u : uid) (o : nat) | VRemove (r : Z) (u : uid) | VRequest (reqs : list (list (uid * Z))) | VCall (r : Z) (o : nop) | VSynch
| VMove (moves : list (list (uid * Z))).
Definition vstep (w : mworld) (o : vop) : option mworld :=
  match o with
  | VAgent r u o => on_mrank r (mctx_add u o) w
  | VRemove r u => on_mrank r (mctx_remove u) w
  | VRequest reqs => if Nat.eqb (length reqs) (length w) then mrequest reqs w else None
  | VCall r o => on_mrank r (mnet_call o) w
  | VSynch => msynchronize w
  | VMove moves => if Nat.eqb (length moves) (length w) then move_agents moves w else None
  end.
Definition vrun (w : mworld) (ops : list vop) : option mworld := fold_left (fun w o => obind w (fun w => vstep w o)) ops (Some w).
Definition edge_on (w : mworld) (r : Z) (u v : uid) : option attrs := obind (at_mrank r w) (fun p => sees p u v).
End NetMove.
