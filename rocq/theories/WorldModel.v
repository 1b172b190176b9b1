(** All processes together: the collective operations of [SharedContext], /repo/src/repast4py/context.py, with shared grids as projections
    (space.py 137-271).

    A world is the list of the contexts of the ranks.  A collective operation is done phase by phase on all ranks; between the phases is the
    [alltoall].  [None]: some rank raises an exception (or stops with an uncaught C++ exception). *)
From Coq Require Import List Arith ZArith Lia Bool.
From Verif Require Import PyDict AgentModel SpaceModel TopologyModel ContextModel.
Import ListNotations.
Open Scope Z_scope.

Definition world := list context.
Definition new_world (n : nat) : world := map (fun r => new_context (Z.of_nat r)) (seq 0 n).

Fixpoint mapo {A B} (f : A -> option B) (l : list A) : option (list B) :=
  match l with
  | [] => Some []
  | a :: t => match f a, mapo f t with Some b, Some r => Some (b :: r) | _, _ => None end
  end.

(** [comm.alltoall]: what each rank receives, with the sending rank, in the order of the sending ranks.  [None]: [IndexError], there is no
    rank with the number. *)
Definition ranks_of {A} (l : list A) : list Z := map Z.of_nat (seq 0 (length l)).
Definition exchange {X} (sends : list (list (Z * X))) : option (list (list (Z * X))) :=
  let n := Z.of_nat (length sends) in
  if forallb (forallb (fun e => (0 <=? fst e) && (fst e <? n))) sends then
    Some (map (fun j => flat_map (fun s => map (fun e => (fst s, snd e)) (filter (fun e => fst e =? j) (snd s)))
                          (combine (ranks_of sends) sends)) (ranks_of sends))
  else None.

(** What [Agent.save] returns: the id and the state; no state in the tuples [(agent_id,)] of context.py 149. *)
Definition saved : Type := uid * option Z.
Definition state_of (a : agent) (c : context) : Z := match dget (a_obj a) (c_state c) with Some s => s | None => 0 end.
Definition save (a : agent) (c : context) : saved := (a_uid a, Some (state_of a c)).

(** distributed_space.h 80: [out_of_bounds_agents] is ordered by id, core.h 28-34. *)
Definition uid_ltb (a b : uid) : bool :=
  let '(i, t, r) := a in let '(j, t', r') := b in
  if negb (i =? j) then i <? j else if negb (t =? t') then t <? t' else r <? r'.
Fixpoint oob_insert (e : uid * (Z * point)) (l : list (uid * (Z * point))) : list (uid * (Z * point)) :=
  match l with
  | [] => [e]
  | x :: t => if uid_ltb (fst e) (fst x) then e :: l else x :: oob_insert e t
  end.
Definition get_oob (d : dspace) : list (uid * (Z * point)) := fold_right oob_insert [] (d_oob d).

(** The loops of space.py 213-259: the cells of a range. *)
Definition zrange (a b : Z) : list Z := map (fun k => a + Z.of_nat k) (seq 0 (Z.to_nat (b - a))).
Definition cells (dims : nat) (g : brange) : list point :=
  match dims with
  | 1%nat => map (fun x => Pt x 0 0) (zrange (rx0 g) (rx1 g))
  | 2%nat => flat_map (fun x => map (fun y => Pt x y 0) (zrange (ry0 g) (ry1 g))) (zrange (rx0 g) (rx1 g))
  | _ => flat_map (fun x => flat_map (fun y => map (fun z => Pt x y z) (zrange (rz0 g) (rz1 g))) (zrange (ry0 g) (ry1 g)))
           (zrange (rx0 g) (rx1 g))
  end.

Section World.
(** The function that restores agents may create an object or return one it has kept: the object is an arbitrary function of rank, number of
    the call and id. *)
Variable fobj : Z -> nat -> uid -> nat.
Definition restore (d : saved) (c : context) : context * agent :=
  let o := fobj (c_rank c) (c_calls c) (fst d) in
  let c := set_calls c (S (c_calls c)) in
  (match snd d with Some s => set_state c (dset o s (c_state c)) | None => c end, Agent (fst d) o).

(** ** Phases of one rank *)
(** space.py 185-198 *)
Fixpoint drop_ghosts (l : list agent) (m : manager) (p : proj) : option (manager * proj) :=
  match l with
  | [] => Some (m, p)
  | a :: t => match remove_ghost (a_uid a) m with
              | (m', Ok _) => drop_ghosts t m' (p_remove (a_uid a) p)
              | _ => None
              end
  end.
Definition pre_proj (m : manager) (p : proj) : option (manager * proj) :=
  if 0 <? p_buf p then
    match drop_ghosts (p_ghosts p) m p with Some (m', p') => Some (m', upd_ghosts p' []) | None => None end
  else Some (m, p).
Fixpoint pre_projs (m : manager) (ps : dict Z proj) : option (manager * dict Z proj) :=
  match ps with
  | [] => Some (m, [])
  | (k, p) :: t => match pre_proj m p with
                   | Some (m', p') => match pre_projs m' t with Some (m2, ps') => Some (m2, (k, p') :: ps') | None => None end
                   | None => None
                   end
  end.
(** context.py 241-246 *)
Definition pre_synch (c : context) : option context :=
  match pre_projs (c_man c) (c_projs c) with Some (m, ps) => Some (set_projs (set_man c m) ps) | None => None end.

(** What is sent for an agent out of bounds: context.py 150-165. *)
Record item := Item { i_data : saved; i_ranks : option (dict Z Z); i_pid : Z; i_pt : point }.

(** One turn of the loop, context.py 145-165; also the pairs appended to [oob_agents]. *)
Definition gather_entry (pid : Z) (e : uid * (Z * point)) (c : context) : option (context * (Z * item) * list (uid * Z)) :=
  let '(u, (dest, q)) := e in
  let '(m, oa) := remove_local u (c_man c) in
  let c := set_man c m in
  match oa with
  | None => Some (c, (dest, Item (u, None) None pid q), [])
  | Some a =>
    match type_del u (c_types c), dget pid (c_projs c) with
    | Some ts, Some p =>
      let c := set_types c ts in
      let d := save a c in
      let '(c, g) := match delete_ghosted u (c_man c) with
                     | (m2, Ok r) => (set_man c m2, Some r)
                     | (m2, _) => (set_man c m2, None)
                     end in
      Some (set_projs c (dset pid (p_remove u p) (c_projs c)), (dest, Item d g pid q), [(u, dest)])
    | _, _ => None
    end
  end.
Fixpoint gather_entries (pid : Z) (es : list (uid * (Z * point))) (c : context) : option (context * list (Z * item) * list (uid * Z)) :=
  match es with
  | [] => Some (c, [], [])
  | e :: t => match gather_entry pid e c with
              | None => None
              | Some (c, it, mv) => match gather_entries pid t c with
                                    | Some (c, its, mvs) => Some (c, it :: its, mv ++ mvs)
                                    | None => None
                                    end
              end
  end.
(** context.py 143-167 *)
Definition gather_proj (pid : Z) (c : context) : option (context * list (Z * item) * list (uid * Z)) :=
  match dget pid (c_projs c) with
  | None => None
  | Some p => match gather_entries pid (get_oob (p_ds p)) c with
              | None => None
              | Some (c, its, mvs) =>
                Some (set_projs c (match dget pid (c_projs c) with
                                   | Some p => dset pid (upd_ds p (ds_clear (p_ds p))) (c_projs c)
                                   | None => c_projs c
                                   end), its, mvs)
              end
  end.
Fixpoint gather_projs (pids : list Z) (c : context) : option (context * list (Z * item) * list (uid * Z)) :=
  match pids with
  | [] => Some (c, [], [])
  | k :: t => match gather_proj k c with
              | None => None
              | Some (c, its, mvs) => match gather_projs t c with
                                      | Some (c, its', mvs') => Some (c, its ++ its', mvs ++ mvs')
                                      | None => None
                                      end
              end
  end.
(** context.py 130-167 *)
Definition gather (c : context) : option (context * list (Z * item) * list (uid * Z)) := gather_projs (dkeys (c_projs c)) c.

(** An agent arrives: context.py 186-201 and 515-528.  The second component is appended to [ghosts_to_remove]. *)
Definition arrive (d : saved) (ranks : option (dict Z Z)) (c : context) : context * list uid * agent :=
  let '(c, a) := restore d c in
  let gone := if dmem (a_uid a) (am_ghost (c_man c)) then [a_uid a] else [] in
  let c := ctx_add a c in
  let c := match ranks with
           | Some r => set_man c (fst (set_as_ghosted (ddel (c_rank c) r) (a_uid a) (c_man c)))
           | None => c
           end in
  (c, gone, a).
(** One turn of the loop, context.py 177-205 *)
Definition recv_item (it : item) (c : context) : option (context * list uid) :=
  let '(c, gone, a) := match get_local (fst (i_data it)) (c_man c) with
                       | Some a => (c, [], a)
                       | None => arrive (i_data it) (i_ranks it) c
                       end in
  match dget (i_pid it) (c_projs c) with
  | None => None
  | Some p => match p_move a (i_pt it) p with
              | (p', Ok _) => Some (set_projs c (dset (i_pid it) p' (c_projs c)), gone)
              | _ => None
              end
  end.
Fixpoint recv_items (its : list (Z * item)) (c : context) : option (context * list uid) :=
  match its with
  | [] => Some (c, [])
  | (_, it) :: t => match recv_item it c with
                    | None => None
                    | Some (c, g) => match recv_items t c with Some (c, g') => Some (c, g ++ g') | None => None end
                    end
  end.
(** context.py 295-296 and 535-536 *)
Fixpoint delete_ghosts (l : list uid) (c : context) : option context :=
  match l with
  | [] => Some c
  | u :: t => match delete_ghost u (c_man c) with (m, Ok _) => delete_ghosts t (set_man c m) | _ => None end
  end.

(** context.py 212-215 *)
Definition removed_sends (c : context) : list (Z * uid) :=
  flat_map (fun g => map (fun r => (r, a_uid (gd_agent g))) (dkeys (gd_ranks g))) (c_removed c).
(** context.py 217-222 *)
Definition recv_removed (u : uid) (c : context) : option context :=
  match get_ghost u 1 (c_man c) with
  | (m, Some _) =>
    let c := map_projs (p_remove u) (set_man c m) in
    match delete_ghost u (c_man c) with (m, Ok _) => Some (set_man c m) | _ => None end
  | _ => None
  end.
(** context.py 231-234 *)
Definition state_sends (c : context) : list (Z * saved) :=
  flat_map (fun e => map (fun r => (r, save (gd_agent (snd e)) c)) (dkeys (gd_ranks (snd e)))) (am_ghosted (c_man c)).
(** context.py 236-239 *)
Definition recv_state (d : saved) (c : context) : option context :=
  match dget (fst d) (am_ghost (c_man c)) with
  | Some g => Some (match snd d with Some s => set_state c (dset (a_obj (g_agent g)) s (c_state c)) | None => c end)
  | None => None
  end.
Fixpoint recv_all {X} (f : X -> context -> option context) (l : list (Z * X)) (c : context) : option context :=
  match l with
  | [] => Some c
  | (_, x) :: t => match f x c with Some c => recv_all f t c | None => None end
  end.

(** space.py 137-156 and 213-259: what is sent for the buffers; the queries leave the last cell in the working point *)
Definition fill (pid : Z) (c : context) : option (context * list (Z * (saved * point))) :=
  match dget pid (c_projs c) with
  | None => None
  | Some p =>
    if 0 <? p_buf p then
      let d := p_ds p in
      let t := d_topo d in
      match neighbor_buffers t (p_buf p) (d_rank d) with
      | None => None
      | Some bs =>
        let dims := num_dims (t_box t) in
        let s := d_space d in
        let sent := flat_map (fun b => flat_map (fun q => map (fun a => (fst b, (save a c, q))) (acc_getall (s_locs s) q))
                                         (cells dims (snd b))) bs in
        let w := last (flat_map (fun b => cells dims (snd b)) bs) (s_wpt s) in
        Some (set_projs c (dset pid (upd_ds p (upd_space d (Space (s_agents s) (s_locs s) w))) (c_projs c)), sent)
      end
    else Some (c, [])
  end.
(** space.py 172-183; [None] also if this rank, unlike the sender, has no buffer and takes no part *)
Definition recv_ghost (pid : Z) (from : Z) (x : saved * point) (c : context) : option context :=
  let '(m, g) := get_ghost (fst (fst x)) 1 (c_man c) in
  let '(c, a) := match g with
                 | Some a => (set_man c m, a)
                 | None => let '(c, a) := restore (fst x) c in (set_man c (add_ghost from a 1 (c_man c)), a)
                 end in
  match dget pid (c_projs c) with
  | None => None
  | Some p =>
    if 0 <? p_buf p then
      match p_move a (snd x) (p_add a (upd_ghosts p (p_ghosts p ++ [a]))) with
      | (p, Ok _) => Some (set_projs c (dset pid p (c_projs c)))
      | _ => None
      end
    else None
  end.
Fixpoint recv_ghosts (pid : Z) (l : list (Z * (saved * point))) (c : context) : option context :=
  match l with
  | [] => Some c
  | (r, x) :: t => match recv_ghost pid r x c with Some c => recv_ghosts pid t c | None => None end
  end.

(** ** Collective operations *)
Definition zipo {X} (f : list (Z * X) -> context -> option context) (w : world) (recv : list (list (Z * X))) : option world :=
  mapo (fun e => f (snd e) (fst e)) (combine w recv).
(** context.py 207-224 *)
Definition update_removed (w : world) : option world :=
  match exchange (map removed_sends w) with
  | None => None
  | Some recv => match zipo (recv_all recv_removed) w recv with
                 | Some w => Some (map (fun c => set_removed c []) w)
                 | None => None
                 end
  end.
(** context.py 226-239 *)
Definition update_ghosts (w : world) : option world :=
  match update_removed w with
  | None => None
  | Some w => match exchange (map state_sends w) with
              | None => None
              | Some recv => zipo (recv_all recv_state) w recv
              end
  end.
(** space.py 200-211 *)
Definition synch_proj (pid : Z) (w : world) : option world :=
  match mapo (fill pid) w with
  | None => None
  | Some cs => match exchange (map snd cs) with
               | None => None
               | Some recv => zipo (recv_ghosts pid) (map fst cs) recv
               end
  end.
Fixpoint synch_projs (pids : list Z) (w : world) : option world :=
  match pids with
  | [] => Some w
  | k :: t => match synch_proj k w with Some w => synch_projs t w | None => None end
  end.
Definition pids_of (w : world) : list Z := match w with [] => [] | c :: _ => dkeys (c_projs c) end.
(** context.py 248-261; every rank has projections with the same ids, as adding one is a collective operation *)
Definition synch_ghosts (w : world) : option world :=
  match update_ghosts w with Some w => synch_projs (pids_of w) w | None => None end.

(** context.py 285-292: agents out of bounds are moved.  Also [ghosts_to_remove] of each rank and [any_moved]. *)
Definition move_oob (w : world) : option (list (context * list uid) * bool) :=
  match mapo gather w with
  | None => None
  | Some gs =>
    match exchange (map (fun x => snd (fst x)) gs) with
    | None => None
    | Some recv =>
      match mapo (fun e => recv_items (snd e) (fst e)) (combine (map (fun x => fst (fst x)) gs) recv) with
      | Some cs => Some (cs, existsb (fun x => match snd x with [] => false | _ => true end) gs)
      | None => None
      end
    end
  end.
(** context.py 263-308; the calls for projections that are not bounded and [_post_agents_moved_rank] do nothing here *)
Definition synchronize (sync_ghosts : bool) (w : world) : option world :=
  match (if sync_ghosts then mapo pre_synch w else Some w) with
  | None => None
  | Some w =>
    match move_oob w with
    | None => None
    | Some (cs, any) =>
      match (if any then mapo (fun x => delete_ghosts (snd x) (fst x)) cs else Some (map fst cs)) with
      | None => None
      | Some w => if sync_ghosts then synch_ghosts w else Some w
      end
    end
  end.

(** One turn of the loop, context.py 505-516.  [None] also if there is no such local agent. *)
Definition leave (e : uid * Z) (c : context) : option (context * (Z * (saved * option (dict Z Z)))) :=
  let '(u, dest) := e in
  let '(m, oa) := remove_local u (c_man c) in
  let c := set_man c m in
  match type_del u (c_types c), oa with
  | Some ts, Some a =>
    let c := set_types c ts in
    let d := save a c in
    let '(c, g) := match delete_ghosted u (c_man c) with
                   | (m2, Ok r) => (set_man c m2, Some r)
                   | (m2, _) => (set_man c m2, None)
                   end in
    Some (map_projs (p_remove u) c, (dest, (d, g)))
  | _, _ => None
  end.
Fixpoint leave_all (l : list (uid * Z)) (c : context) : option (context * list (Z * (saved * option (dict Z Z)))) :=
  match l with
  | [] => Some (c, [])
  | e :: t => match leave e c with
              | None => None
              | Some (c, x) => match leave_all t c with Some (c, xs) => Some (c, x :: xs) | None => None end
              end
  end.
Fixpoint arrive_all (l : list (Z * (saved * option (dict Z Z)))) (c : context) : context * list uid :=
  match l with
  | [] => (c, [])
  | (_, (d, g)) :: t => let '(c, gone, _) := arrive d g c in let '(c, gone') := arrive_all t c in (c, gone ++ gone')
  end.
(** context.py 486-549; [moves]: the argument of each rank *)
Definition move_agents (moves : list (list (uid * Z))) (w : world) : option world :=
  match mapo (fun e => leave_all (snd e) (fst e)) (combine w moves) with
  | None => None
  | Some cs =>
    match exchange (map snd cs) with
    | None => None
    | Some recv =>
      match mapo (fun e => let '(c, gone) := arrive_all (snd e) (fst e) in delete_ghosts gone c) (combine (map fst cs) recv) with
      | None => None
      | Some w =>
        match mapo pre_synch w with
        | None => None
        | Some w => match move_oob w with
                    | None => None
                    | Some (cs, _) => synch_ghosts (map fst cs)
                    end
        end
      end
    end
  end.

(** One turn of the loop, context.py 419-433; also the request sent *)
Definition ask (e : uid * Z) (c : context) : context * list (Z * uid) :=
  let '(u, r) := e in
  match get_ghost u 0 (c_man c) with
  | (m, None) => (c, [(r, u)])
  | (m, Some a) =>
    let c := set_man c (add_req_ghost (a_uid a) m) in
    (map_projs (fun p => if p_contains (a_uid a) p then p else p_add a p) c, [])
  end.
Fixpoint ask_all (l : list (uid * Z)) (c : context) : context * list (Z * uid) :=
  match l with
  | [] => (c, [])
  | e :: t => let '(c, x) := ask e c in let '(c, xs) := ask_all t c in (c, x ++ xs)
  end.
(** context.py 456-461 *)
Fixpoint answer (l : list (Z * uid)) (c : context) : option (context * list (Z * saved)) :=
  match l with
  | [] => Some (c, [])
  | (r, u) :: t =>
    match tag_as_ghosted r u (c_man c) with
    | (m, Ok a) => let c := set_man c m in
                   match answer t c with Some (c, xs) => Some (c, (r, save a c) :: xs) | None => None end
    | _ => None
    end
  end.
(** context.py 464-469 *)
Fixpoint add_requested (l : list (Z * saved)) (c : context) : context :=
  match l with
  | [] => c
  | (r, d) :: t => let '(c, a) := restore d c in
                   let c := ctx_add_ghost r a c in
                   add_requested t (set_man c (add_req_ghost (a_uid a) (c_man c)))
  end.
(** context.py 438-471 *)
Definition request_agents (reqs : list (list (uid * Z))) (w : world) : option world :=
  let cs := map (fun e => ask_all (snd e) (fst e)) (combine w reqs) in
  match exchange (map snd cs) with
  | None => None
  | Some recv =>
    match mapo (fun e => answer (snd e) (fst e)) (combine (map fst cs) recv) with
    | None => None
    | Some cs =>
      match exchange (map snd cs) with
      | None => None
      | Some recv => Some (map (fun e => add_requested (snd e) (fst e)) (combine (map fst cs) recv))
      end
    end
  end.

(** ** Histories of a distributed model *)
(** [r] is the rank on which something is done.  Agents are moved by their own rank. *)
Inductive wop :=
| WAdd (r : nat) (a : agent) (s : Z) | WRemove (r : nat) (u : uid) | WMove (r : nat) (pid : Z) (u : uid) (q : point)
| WState (r : nat) (u : uid) (s : Z) | WProjection (p : Z -> proj)
| WSync (ghosts : bool) | WMoveAgents (moves : list (list (uid * Z))) | WRequest (reqs : list (list (uid * Z))).

Definition on_rank (r : nat) (f : context -> option context) (w : world) : option world :=
  match nth_error w r with
  | None => None
  | Some c => match f c with Some c' => Some (set_nth r c' w) | None => None end
  end.
Definition wstep (w : world) (o : wop) : option world :=
  match o with
  | WAdd r a s => on_rank r (fun c => Some (ctx_add a (set_state c (dset (a_obj a) s (c_state c))))) w
  | WRemove r u => on_rank r (fun c => match ctx_remove u c with (c, Ok _) => Some c | _ => None end) w
  | WMove r pid u q =>
    on_rank r (fun c => match get_local u (c_man c), dget pid (c_projs c) with
                        | Some a, Some p => match p_move a q p with
                                            | (p, Ok _) => Some (set_projs c (dset pid p (c_projs c)))
                                            | _ => None
                                            end
                        | _, _ => None
                        end) w
  | WState r u s => on_rank r (fun c => match get_local u (c_man c) with
                                        | Some a => Some (set_state c (dset (a_obj a) s (c_state c)))
                                        | None => None
                                        end) w
  | WProjection p => mapo (fun c => match add_projection (p (c_rank c)) c with (c, Ok _) => Some c | _ => None end) w
  | WSync g => synchronize g w
  | WMoveAgents moves => move_agents moves w
  | WRequest reqs => request_agents reqs w
  end.
Fixpoint wrun (w : world) (ops : list wop) : option world :=
  match ops with
  | [] => Some w
  | o :: t => match wstep w o with Some w => wrun w t | None => None end
  end.
End World.
