(** All processes together, with one shared continuous space: [SharedCSpace], /repo/src/repast4py/space.py 304-437, under the collective
    operations of [SharedContext] (context.py 130-308).

    A rank is its context (without other projections), the continuous space with its tree (cspace.h, built with the bounds of the whole space
    on every rank: distributed_space.h 140-170), the agents out of bounds and the buffered agents.  Collective operations are done phase by
    phase on all ranks, as in [WorldModel]; [None]: some rank raises an exception or crashes. *)
From Coq Require Import List Arith ZArith Lia Bool.
From Verif Require Import PyDict AgentModel SpaceModel TopologyModel ContextModel WorldModel GeometryModel TreeModel.
Import ListNotations.
Open Scope Z_scope.

Record crank := CRank { k_ctx : context; k_sp : cspace; k_oob : dict uid (Z * point); k_ghosts : list agent }.
Definition cworld := list crank.
Definition kset_ctx k c := CRank c (k_sp k) (k_oob k) (k_ghosts k).
Definition kset_sp k s := CRank (k_ctx k) s (k_oob k) (k_ghosts k).
Definition kset_oob k o := CRank (k_ctx k) (k_sp k) o (k_ghosts k).
Definition kset_ghosts k l := CRank (k_ctx k) (k_sp k) (k_oob k) l.
Definition k_man k := c_man (k_ctx k).
Definition kset_man k m := kset_ctx k (set_man (k_ctx k) m).
Definition k_rank k := c_rank (k_ctx k).

Section CWorld.
(** As in [WorldModel]: the object that the function restoring agents returns. *)
Variable fobj : Z -> nat -> uid -> nat.
Variable oc : occupancy.
Variable bd : border.
Variable t : topo.
Variable thr : Z.
(** The size of the buffer; ranks exchange buffers if it is positive (space.py 308). *)
Variable buf : Z.

Definition c_tr : point -> point -> point := c_border bd (t_box t).
Definition new_rank (r : Z) : crank := CRank (new_context r) (new_cspace (t_box t)) [] [].
Definition new_cworld (n : nat) : cworld := map (fun r => new_rank (Z.of_nat r)) (seq 0 n).

(** distributed_space.h 220-225 *)
Definition k_add (a : agent) (k : crank) : crank := kset_sp k (cs_add a (k_sp k)).
(** distributed_space.h 227-238 *)
Definition k_remove (u : uid) (k : crank) : option crank :=
  match cs_remove oc (t_box t) u (k_sp k) with
  | Some s => Some (kset_oob (kset_sp k s) (ddel u (k_oob k)))
  | None => None
  end.
(** distributed_space.h 272-300, with [contains] on real coordinates: lower ends included, upper ends excluded (space_types.h) *)
Definition k_move (a : agent) (to : point) (k : crank) : option (crank * result (option point)) :=
  match cs_move oc (t_box t) thr c_tr a to (k_sp k) with
  | None => None
  | Some (s, res) =>
    let k := kset_sp k s in
    match res with
    | Ok (Some pt) =>
      let oob := ddel (a_uid a) (k_oob k) in
      let oob := if box_contains (local_bounds t (k_rank k)) pt then oob
                 else match find (fun e => box_contains (fst e) pt) (all_bounds t (k_rank k)) with
                      | Some (_, n) => dset (a_uid a) (n, pt) oob
                      | None => oob
                      end in
      Some (kset_oob k oob, res)
    | _ => Some (k, res)
    end
  end.

(** ** Phases of one rank *)
(** space.py 350-363 *)
Fixpoint kdrop (l : list agent) (k : crank) : option crank :=
  match l with
  | [] => Some k
  | a :: l => match k_remove (a_uid a) k with
              | None => None
              | Some k => match remove_ghost (a_uid a) (k_man k) with
                          | (m, Ok _) => kdrop l (kset_man k m)
                          | _ => None
                          end
              end
  end.
Definition kpre (k : crank) : option crank :=
  if 0 <? buf then match kdrop (k_ghosts k) k with Some k => Some (kset_ghosts k []) | None => None end
  else Some k.

(** One turn of the loop, context.py 145-165; the projection's part is space.py 430-432 *)
Definition kgather_entry (e : uid * (Z * point)) (k : crank) : option (crank * (Z * item) * list (uid * Z)) :=
  let '(u, (dest, q)) := e in
  let '(m, oa) := remove_local u (k_man k) in
  let k := kset_man k m in
  match oa with
  | None => Some (k, (dest, Item (u, None) None 0 q), [])
  | Some a =>
    match type_del u (c_types (k_ctx k)) with
    | None => None
    | Some ts =>
      let k := kset_ctx k (set_types (k_ctx k) ts) in
      let d := save a (k_ctx k) in
      let '(k, g) := match delete_ghosted u (k_man k) with
                     | (m2, Ok r) => (kset_man k m2, Some r)
                     | (m2, _) => (kset_man k m2, None)
                     end in
      match k_remove u k with
      | Some k => Some (k, (dest, Item d g 0 q), [(u, dest)])
      | None => None
      end
    end
  end.
Fixpoint kgather_entries (es : list (uid * (Z * point))) (k : crank) : option (crank * list (Z * item) * list (uid * Z)) :=
  match es with
  | [] => Some (k, [], [])
  | e :: es => match kgather_entry e k with
               | None => None
               | Some (k, it, mv) => match kgather_entries es k with
                                     | Some (k, its, mvs) => Some (k, it :: its, mv ++ mvs)
                                     | None => None
                                     end
               end
  end.
(** context.py 143-167; the agents out of bounds are ordered by id as in [get_oob] *)
Definition kgather (k : crank) : option (crank * list (Z * item) * list (uid * Z)) :=
  match kgather_entries (fold_right oob_insert [] (k_oob k)) k with
  | Some (k, its, mvs) => Some (kset_oob k [], its, mvs)
  | None => None
  end.

(** [SharedContext.add] with the space as projection *)
Definition kctx_add (a : agent) (k : crank) : crank := k_add a (kset_ctx k (ctx_add a (k_ctx k))).
(** context.py 186-201 *)
Definition karrive (d : saved) (ranks : option (dict Z Z)) (k : crank) : crank * list uid * agent :=
  let '(c, a) := restore fobj d (k_ctx k) in
  let k := kset_ctx k c in
  let gone := if dmem (a_uid a) (am_ghost (k_man k)) then [a_uid a] else [] in
  let k := kctx_add a k in
  let k := match ranks with
           | Some r => kset_man k (fst (set_as_ghosted (ddel (k_rank k) r) (a_uid a) (k_man k)))
           | None => k
           end in
  (k, gone, a).
(** context.py 177-205 *)
Definition krecv_item (it : item) (k : crank) : option (crank * list uid) :=
  let '(k, gone, a) := match get_local (fst (i_data it)) (k_man k) with
                       | Some a => (k, [], a)
                       | None => karrive (i_data it) (i_ranks it) k
                       end in
  match k_move a (i_pt it) k with
  | Some (k, Ok _) => Some (k, gone)
  | _ => None
  end.
Fixpoint krecv_items (its : list (Z * item)) (k : crank) : option (crank * list uid) :=
  match its with
  | [] => Some (k, [])
  | (_, it) :: its => match krecv_item it k with
                      | None => None
                      | Some (k, g) => match krecv_items its k with Some (k, g') => Some (k, g ++ g') | None => None end
                      end
  end.
(** context.py 295-296 *)
Definition kdelete (l : list uid) (k : crank) : option crank :=
  match delete_ghosts l (k_ctx k) with Some c => Some (kset_ctx k c) | None => None end.

(** context.py 217-222 *)
Definition krecv_removed (u : uid) (k : crank) : option crank :=
  match get_ghost u 1 (k_man k) with
  | (m, Some _) =>
    match k_remove u (kset_man k m) with
    | None => None
    | Some k => match delete_ghost u (k_man k) with (m, Ok _) => Some (kset_man k m) | _ => None end
    end
  | _ => None
  end.
Definition krecv_state (d : saved) (k : crank) : option crank :=
  match recv_state d (k_ctx k) with Some c => Some (kset_ctx k c) | None => None end.
Fixpoint krecv_all {X} (f : X -> crank -> option crank) (l : list (Z * X)) (k : crank) : option crank :=
  match l with
  | [] => Some k
  | (_, x) :: l => match f x k with Some k => krecv_all f l k | None => None end
  end.

(** space.py 381-384: the box of a range *)
Definition range_box (g : brange) : bbox := BBox (rx0 g) (rx1 g - rx0 g) (ry0 g) (ry1 g - ry0 g) (rz0 g) (rz1 g - rz0 g).
(** space.py 385-387.  An agent that is found but has no location: [AttributeError]. *)
Definition pack (k : crank) (to : Z) (a : agent) : option (Z * (saved * point)) :=
  match cs_location (a_uid a) (k_sp k) with
  | Some q => Some (to, (save a (k_ctx k), q))
  | None => None
  end.
Definition pack_range (k : crank) (b : Z * brange) : option (list (Z * (saved * point))) :=
  match cs_within (t_box t) (range_box (snd b)) (k_sp k) with
  | Some l => mapo (pack k (fst b)) l
  | None => None
  end.
(** space.py 365-389 and 427 *)
Definition kfill (k : crank) : option (list (Z * (saved * point))) :=
  if 0 <? buf then
    match neighbor_buffers t buf (k_rank k) with
    | None => None
    | Some bs => match mapo (pack_range k) bs with Some ls => Some (concat ls) | None => None end
    end
  else Some [].
(** space.py 403-413 *)
Definition krecv_ghost (from : Z) (x : saved * point) (k : crank) : option crank :=
  let '(m, g) := get_ghost (fst (fst x)) 1 (k_man k) in
  let '(k, a) := match g with
                 | Some a => (kset_man k m, a)
                 | None => let '(c, a) := restore fobj (fst x) (k_ctx k) in (kset_ctx k (set_man c (add_ghost from a 1 (c_man c))), a)
                 end in
  match k_move a (snd x) (k_add a (kset_ghosts k (k_ghosts k ++ [a]))) with
  | Some (k, Ok _) => Some k
  | _ => None
  end.
Fixpoint krecv_ghosts (l : list (Z * (saved * point))) (k : crank) : option crank :=
  match l with
  | [] => Some k
  | (r, x) :: l => match krecv_ghost r x k with Some k => krecv_ghosts l k | None => None end
  end.

(** ** Collective operations *)
Definition kzip {X} (f : list (Z * X) -> crank -> option crank) (w : cworld) (recv : list (list (Z * X))) : option cworld :=
  mapo (fun e => f (snd e) (fst e)) (combine w recv).
(** context.py 207-224 *)
Definition kupdate_removed (w : cworld) : option cworld :=
  match exchange (map (fun k => removed_sends (k_ctx k)) w) with
  | None => None
  | Some recv => match kzip (krecv_all krecv_removed) w recv with
                 | Some w => Some (map (fun k => kset_ctx k (set_removed (k_ctx k) [])) w)
                 | None => None
                 end
  end.
(** context.py 226-239 *)
Definition kupdate_ghosts (w : cworld) : option cworld :=
  match kupdate_removed w with
  | None => None
  | Some w => match exchange (map (fun k => state_sends (k_ctx k)) w) with
              | None => None
              | Some recv => kzip (krecv_all krecv_state) w recv
              end
  end.
(** space.py 415-428 *)
Definition kbuffers (w : cworld) : option cworld :=
  match mapo kfill w with
  | None => None
  | Some ls => match exchange ls with
               | None => None
               | Some recv => kzip krecv_ghosts w recv
               end
  end.
(** context.py 248-261 *)
Definition ksynch_ghosts (w : cworld) : option cworld :=
  match kupdate_ghosts w with Some w => kbuffers w | None => None end.
(** context.py 285-292 *)
Definition kmove_oob (w : cworld) : option (list (crank * list uid) * bool) :=
  match mapo kgather w with
  | None => None
  | Some gs =>
    match exchange (map (fun x => snd (fst x)) gs) with
    | None => None
    | Some recv =>
      match mapo (fun e => krecv_items (snd e) (fst e)) (combine (map (fun x => fst (fst x)) gs) recv) with
      | Some cs => Some (cs, existsb (fun x => match snd x with [] => false | _ => true end) gs)
      | None => None
      end
    end
  end.
(** context.py 263-308 *)
Definition ksynchronize (sync_ghosts : bool) (w : cworld) : option cworld :=
  match (if sync_ghosts then mapo kpre w else Some w) with
  | None => None
  | Some w =>
    match kmove_oob w with
    | None => None
    | Some (cs, any) =>
      match (if any then mapo (fun x => kdelete (snd x) (fst x)) cs else Some (map fst cs)) with
      | None => None
      | Some w => if sync_ghosts then ksynch_ghosts w else Some w
      end
    end
  end.

(** ** Histories *)
(** [i] is the rank on which something is done; agents are moved, changed and removed by their own rank. *)
Inductive kop :=
| KAdd (i : nat) (a : agent) (x : Z) | KRemove (i : nat) (u : uid) | KMove (i : nat) (u : uid) (q : point)
| KState (i : nat) (u : uid) (x : Z) | KSync (ghosts : bool).
Definition kon (i : nat) (f : crank -> option crank) (w : cworld) : option cworld :=
  match nth_error w i with
  | None => None
  | Some k => match f k with Some k' => Some (set_nth i k' w) | None => None end
  end.
Definition kstep (w : cworld) (o : kop) : option cworld :=
  match o with
  | KAdd i a x => kon i (fun k => Some (kctx_add a (kset_ctx k (set_state (k_ctx k) (dset (a_obj a) x (c_state (k_ctx k))))))) w
  | KRemove i u => kon i (fun k => match ctx_remove u (k_ctx k) with
                                   | (c, Ok _) => k_remove u (kset_ctx k c)
                                   | _ => None
                                   end) w
  | KMove i u q => kon i (fun k => match get_local u (k_man k) with
                                   | Some a => match k_move a q k with Some (k, Ok _) => Some k | _ => None end
                                   | None => None
                                   end) w
  | KState i u x => kon i (fun k => match get_local u (k_man k) with
                                    | Some a => Some (kset_ctx k (set_state (k_ctx k) (dset (a_obj a) x (c_state (k_ctx k)))))
                                    | None => None
                                    end) w
  | KSync g => ksynchronize g w
  end.
Fixpoint krun (w : cworld) (ops : list kop) : option cworld :=
  match ops with
  | [] => Some w
  | o :: ops => match kstep w o with Some w => krun w ops | None => None end
  end.
End CWorld.
