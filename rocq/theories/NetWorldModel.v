(** Networks shared by several processes: a context on each rank with one [SharedNetwork] as its only projection
    (/repo/src/repast4py/network.py 292-448, context.py 43-60, 115-128, 207-308, 409-471).

    Agents are added to the context of the rank in their id and do not move, so that [local_rank] is that rank on every process.  A
    process has one object of each agent: [create_agent] returns the object that it made before for the same id, as those with a cache
    do (docs/guide/distributing_agents.adoc 109-140); for other ones see NetMoveModel.v.  Nodes are then ids.  The state of
    agents is not modelled here (see WorldModel.v), only whether it can be updated.  A collective operation is done phase by phase on all ranks.
    [None]: some rank raises an exception in a collective operation. *)
From Coq Require Import List Arith ZArith Lia Bool.
From Verif Require Import PyDict AgentModel SpaceModel TopologyModel ContextModel WorldModel NetModel.
Import ListNotations.
Open Scope Z_scope.

Definition lr (u : uid) : Z := snd u.
Definition ag (u : uid) : agent := Agent u 0%nat.
(** [_agent_manager], the network, [removed_ghosteds] *)
Record peer := Peer { p_man : manager; p_net : net; p_gone : list ghosted }.
Definition nworld := list peer.
Definition new_peer (r : Z) : peer := Peer (new_manager r) new_net [].
Definition new_nworld (n : nat) : nworld := map (fun r => new_peer (Z.of_nat r)) (seq 0 n).

Fixpoint foldo {A S} (f : A -> S -> option S) (l : list A) (s : S) : option S :=
  match l with [] => Some s | a :: l => match f a s with Some s => foldo f l s | None => None end end.
(** A loop that also makes messages. *)
Fixpoint foldm {A S X} (f : A -> S -> option (S * list X)) (l : list A) (s : S) : option (S * list X) :=
  match l with
  | [] => Some (s, [])
  | a :: l => match f a s with
              | Some (s, x) => match foldm f l s with Some (s, y) => Some (s, x ++ y) | None => None end
              | None => None
              end
  end.
(** One phase: each rank makes its messages, then each rank handles what it receives. *)
Definition phase {X} (send : peer -> option (peer * list (Z * X))) (recv : list (Z * X) -> peer -> option peer) (w : nworld) : option nworld :=
  match mapo send w with
  | None => None
  | Some l => match exchange (map snd l) with
              | None => None
              | Some rs => mapo (fun e => recv (fst e) (snd e)) (combine rs (map fst l))
              end
  end.

Section NetWorld.
Variable dir : bool.

(** ** network.py 423-448 *)
Definition ref_send (u : uid) (p : peer) : option (peer * list (Z * uid)) :=
  if has_node u (n_g (p_net p)) then
    let m := match get_ghost u 1 (p_man p) with (m, Some _) => m | (m, None) => add_ghost (lr u) (ag u) 1 m end in
    Some (Peer m (p_net p) (p_gone p), [(lr u, u)])
  else Some (p, []).
Definition pre_send (p : peer) : option (peer * list (Z * uid)) :=
  match foldm ref_send (n_ref (p_net p)) p with
  | Some (p, msgs) => Some (Peer (p_man p) (set_ref (p_net p) []) (p_gone p), msgs)
  | None => None
  end.
Definition tag_recv (e : Z * uid) (p : peer) : option peer :=
  match tag_as_ghosted (fst e) (snd e) (p_man p) with (m, Ok _) => Some (Peer m (p_net p) (p_gone p)) | _ => None end.

(** ** context.py 207-239 *)
Definition gone_send (p : peer) : option (peer * list (Z * uid)) :=
  Some (Peer (p_man p) (p_net p) [], flat_map (fun g => map (fun r => (r, a_uid (gd_agent g))) (dkeys (gd_ranks g))) (p_gone p)).
Definition gone_recv (e : Z * uid) (p : peer) : option peer :=
  match get_ghost (snd e) 1 (p_man p) with
  | (m, Some a) => match n_remove dir (a_uid a) (p_net p), delete_ghost (snd e) m with
                   | (n, true), (m, Ok _) => Some (Peer m n (p_gone p))
                   | _, _ => None
                   end
  | _ => None
  end.
Definition state_send (p : peer) : option (peer * list (Z * uid)) :=
  Some (p, flat_map (fun e => map (fun r => (r, a_uid (gd_agent (snd e)))) (dkeys (gd_ranks (snd e)))) (am_ghosted (p_man p))).
Definition state_recv (e : Z * uid) (p : peer) : option peer := if dmem (snd e) (am_ghost (p_man p)) then Some p else None.

(** ** network.py 292-330 *)
Definition rem_send (e : edge * bool) (p : peer) : option (peer * list (Z * edge)) :=
  let k := fst e in
  let ghost := if snd e then snd k else fst k in
  let other := if snd e then fst k else snd k in
  match untag_as_ghosted (lr ghost) other (p_man p) with
  | (m, Ok _) => Some (Peer m (p_net p) (p_gone p), [(lr ghost, k)])
  | _ => None
  end.
Definition removed_send (p : peer) : option (peer * list (Z * edge)) :=
  match foldm rem_send (n_rem (p_net p)) p with
  | Some (p, msgs) => Some (Peer (p_man p) (set_rem (p_net p) []) (p_gone p), msgs)
  | None => None
  end.
(** 638-647, 779-788 *)
Definition in_edge (u : uid) (g : graph) : bool :=
  match nbrs u (g_adj g) with
  | _ :: _ => true
  | [] => if dir then match nbrs u (g_pred g) with _ :: _ => true | [] => false end else false
  end.
Definition drop_ghost (u : uid) (p : peer) : option peer :=
  if in_edge u (n_g (p_net p)) then Some p
  else match remove_ghost u (p_man p) with
       | (m, Ok _) => match g_remove_node dir u (n_g (p_net p)) with
                      | Some g => Some (Peer m (set_g (p_net p) g) (p_gone p))
                      | None => None
                      end
       | _ => None
       end.
Definition rem_recv (e : Z * edge) (p : peer) : option peer :=
  let '(u, v) := snd e in
  let m := p_man p in
  match (if dmem u (am_ghost m) then (if dmem v (am_local m) then Some u else None)
         else if dmem u (am_local m) && dmem v (am_ghost m) then Some v else None) with
  | None => None
  | Some ghost =>
    match g_remove_edge dir u v (n_g (p_net p)) with
    | None => None
    | Some g => match drop_ghost ghost (Peer m (set_g (p_net p) g) (p_gone p)) with
                | Some p => match remove_key dir u v (p_net p) with (n, true) => Some (Peer (p_man p) n (p_gone p)) | _ => None end
                | None => None
                end
    end
  end.

(** ** network.py 332-379: the messages are agents and, for the next phase, edges *)
Definition new_send (e : edge * gedge) (p : peer) : option (peer * list ((Z * uid) + (Z * (edge * attrs)))) :=
  let ge := snd e in
  let other := lr (ge_ghost ge) in
  let n := set_ghosted (p_net p) (dset (fst e) ge (n_ghosted (p_net p))) in
  let msg := inr (other, (fst e, read (ge_attr ge) (n_g n))) in
  if is_ghosted_to other (ge_local ge) (p_man p) then Some (Peer (p_man p) n (p_gone p), [msg])
  else match tag_as_ghosted other (ge_local ge) (p_man p) with
       | (m, Ok _) => Some (Peer m n (p_gone p), [inl (other, ge_local ge); msg])
       | _ => None
       end.
Definition upd_send (k : edge) (p : peer) : option (peer * list ((Z * uid) + (Z * (edge * attrs)))) :=
  match dget k (n_ghosted (p_net p)) with
  | Some ge => Some (p, [inr (lr (ge_ghost ge), (k, read (ge_attr ge) (n_g (p_net p))))])
  | None => None
  end.
Definition vertices_send (p : peer) : option (peer * list ((Z * uid) + (Z * (edge * attrs)))) :=
  match foldm new_send (n_new (p_net p)) p with
  | None => None
  | Some (p, l1) => match foldm upd_send (n_upd (p_net p)) (Peer (p_man p) (set_new (p_net p) []) (p_gone p)) with
                    | None => None
                    | Some (p, l2) => Some (Peer (p_man p) (set_upd (p_net p) []) (p_gone p), l1 ++ l2)
                    end
  end.
Definition agents_of (l : list ((Z * uid) + (Z * (edge * attrs)))) : list (Z * uid) :=
  flat_map (fun x => match x with inl e => [e] | inr _ => [] end) l.
Definition edges_of (l : list ((Z * uid) + (Z * (edge * attrs)))) : list (Z * (edge * attrs)) :=
  flat_map (fun x => match x with inr e => [e] | inl _ => [] end) l.
Definition agent_recv (e : Z * uid) (p : peer) : option peer :=
  Some (Peer (add_ghost (fst e) (ag (snd e)) 1 (p_man p)) (n_add (snd e) (p_net p)) (p_gone p)).
(** 381-409 *)
Definition edge_recv (e : Z * (edge * attrs)) (p : peer) : option peer :=
  let '(u, v) := fst (snd e) in
  let m := p_man p in
  if (if dmem u (am_ghost m) then dmem v (am_local m) else dmem u (am_local m) && dmem v (am_ghost m)) then
    let n := set_g (p_net p) (g_add_edge dir u v (snd (snd e)) (n_g (p_net p))) in
    Some (Peer m (add_key dir u v n) (p_gone p))
  else None.
Definition sync_vertices (w : nworld) : option nworld :=
  match mapo vertices_send w with
  | None => None
  | Some l =>
    match exchange (map (fun e => agents_of (snd e)) l) with
    | None => None
    | Some rs =>
      match mapo (fun e => foldo agent_recv (fst e) (snd e)) (combine rs (map fst l)) with
      | None => None
      | Some w => match exchange (map (fun e => edges_of (snd e)) l) with
                  | None => None
                  | Some rs => mapo (fun e => foldo edge_recv (fst e) (snd e)) (combine rs w)
                  end
      end
    end
  end.

(** ** context.py 263-308, with [sync_ghosts] *)
Definition obind {A B} (x : option A) (f : A -> option B) : option B := match x with Some a => f a | None => None end.
Definition synchronize (w : nworld) : option nworld :=
  obind (phase pre_send (foldo tag_recv) w) (fun w =>
  obind (phase gone_send (foldo gone_recv) w) (fun w =>
  obind (phase state_send (foldo state_recv) w) (fun w =>
  obind (phase removed_send (foldo rem_recv) w) sync_vertices))).

(** ** context.py 409-471: each rank gives a list of ids and of the ranks to request from *)
Definition req_one (e : uid * Z) (p : peer) : option (peer * list (Z * uid)) :=
  match get_ghost (fst e) 0 (p_man p) with
  | (m, Some a) => Some (Peer (add_req_ghost (a_uid a) m) (n_add (a_uid a) (p_net p)) (p_gone p), [])
  | (m, None) => Some (Peer m (p_net p) (p_gone p), [(snd e, fst e)])
  end.
Definition req_tag (e : Z * uid) (p : peer) : option (peer * list (Z * uid)) :=
  match tag_as_ghosted (fst e) (snd e) (p_man p) with
  | (m, Ok a) => Some (Peer m (p_net p) (p_gone p), [(fst e, a_uid a)])
  | _ => None
  end.
Definition req_recv (e : Z * uid) (p : peer) : option peer :=
  Some (Peer (add_req_ghost (snd e) (add_ghost (fst e) (ag (snd e)) 1 (p_man p))) (n_add (snd e) (p_net p)) (p_gone p)).
Definition request (reqs : list (list (uid * Z))) (w : nworld) : option nworld :=
  obind (mapo (fun e => foldm req_one (fst e) (snd e)) (combine reqs w)) (fun l =>
  obind (exchange (map snd l)) (fun rs =>
  obind (mapo (fun e => foldm req_tag (fst e) (snd e)) (combine rs (map fst l))) (fun l =>
  obind (exchange (map snd l)) (fun rs =>
  mapo (fun e => foldo req_recv (fst e) (snd e)) (combine rs (map fst l)))))).

(** ** Calls *)
Definition at_rank (r : Z) (w : nworld) : option peer := if 0 <=? r then nth_error w (Z.to_nat r) else None.
Definition on_rank (r : Z) (f : peer -> option peer) (w : nworld) : option nworld :=
  match at_rank r w with
  | Some p => match f p with Some p => Some (set_nth w (Z.to_nat r) p) | None => None end
  | None => None
  end.
(** context.py 43-55 *)
Definition ctx_add (u : uid) (p : peer) : option peer := Some (Peer (add_local (ag u) (p_man p)) (n_add u (p_net p)) (p_gone p)).
(** context.py 115-128 *)
Definition ctx_remove (u : uid) (p : peer) : option peer :=
  match delete_local u (p_man p) with
  | (m, gone, Some _) => match n_remove dir u (p_net p) with (n, true) => Some (Peer m n (p_gone p ++ gone)) | _ => None end
  | _ => None
  end.
(** The caller may go on after an exception. *)
Definition net_call (r : Z) (o : nop) (p : peer) : option peer := Some (Peer (p_man p) (fst (nstep dir r lr (p_net p) o)) (p_gone p)).
Inductive wop := WAgent (u : uid) | WRemove (u : uid) | WRequest (reqs : list (list (uid * Z))) | WCall (r : Z) (o : nop) | WSynch.
Definition wstep (w : nworld) (o : wop) : option nworld :=
  match o with
  | WAgent u => on_rank (lr u) (ctx_add u) w
  | WRemove u => on_rank (lr u) (ctx_remove u) w
  | WRequest reqs => if Nat.eqb (length reqs) (length w) then request reqs w else None
  | WCall r o => on_rank r (net_call r o) w
  | WSynch => synchronize w
  end.
Definition wrun (w : nworld) (ops : list wop) : option nworld := fold_left (fun w o => obind w (fun w => wstep w o)) ops (Some w).
Definition net_of (w : nworld) (r : Z) : net := match at_rank r w with Some p => p_net p | None => new_net end.
End NetWorld.
