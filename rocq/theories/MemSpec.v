(** Specification of iterators on values.

    An iterator of a grid of multiple occupancy is a cursor in the row of the agents at its location: agents
    before the cursor are done, the others are to do.  An agent that arrives is put at the end; when nothing is
    left to do, it is behind the iterator.  When the agent leaves that would be next, the iterator is lost until
    [iter()] is called.  The iterator belongs to the location as long as there are agents: when the last one
    leaves, it stays empty. *)
From Coq Require Import List Arith ZArith Lia Bool.
From Verif Require Import PyDict AgentModel SpaceModel.
Import ListNotations.
Open Scope Z_scope.

Record siter := SI { si_pt : point; si_on : bool; si_done : list agent; si_todo : list agent; si_lost : bool }.

Definition si_here (w : point) (s : siter) : bool := si_on s && keq (si_pt s) w.

Definition si_arrive (a : agent) (w : point) (s : siter) : siter :=
  if si_here w s then
    match si_todo s with
    | [] => SI (si_pt s) true (si_done s ++ [a]) [] (si_lost s)
    | _ => SI (si_pt s) true (si_done s) (si_todo s ++ [a]) (si_lost s)
    end
  else s.

Definition nonempty {A} (l : list A) : bool := match l with [] => false | _ => true end.

Definition si_leave (a : agent) (w : point) (s : siter) : siter :=
  if si_here w s then
    match erase_first a (si_done s) with
    | Some d => SI (si_pt s) (nonempty (d ++ si_todo s)) d (si_todo s) (si_lost s)
    | None =>
      match si_todo s with
      | [] => s
      | b :: t =>
        if same_obj a b then SI (si_pt s) (nonempty (si_done s ++ t)) (si_done s) t true
        else match erase_first a t with
             | Some t' => SI (si_pt s) true (si_done s) (b :: t') (si_lost s)
             | None => s
             end
      end
    end
  else s.

Definition si_reset (s : siter) : siter := SI (si_pt s) (si_on s) [] (si_done s ++ si_todo s) false.

(** One step: the agent that is given, [None] at the end. *)
Definition si_next (s : siter) : siter * option agent :=
  match si_todo s with
  | [] => (s, None)
  | b :: t => (SI (si_pt s) (si_on s) (si_done s ++ [b]) t (si_lost s), Some b)
  end.

(** What [get_agents] returns in a space *)
Definition si_new (oc : occupancy) (v : point) (s : space) : siter :=
  let l := acc_getall (s_locs s) v in
  SI v (match oc with Multi => nonempty l | Single => false end) [] l false.

(** What a call of the grid changes: an agent leaves its location or arrives at one. *)
Definition si_remove (oc : occupancy) (u : uid) (s : space) (i : siter) : siter :=
  match dget u (s_agents s) with
  | Some (a, Some p) => si_leave a p i
  | _ => i
  end.
Definition si_move (oc : occupancy) (tr : point -> point -> point) (a : agent) (v : point) (s : space) (i : siter) : siter :=
  match dget (a_uid a) (s_agents s) with
  | None => i
  | Some (_, o) =>
    let w := tr v (s_wpt s) in
    if match o with Some p => keq p w | None => false end then i
    else match acc_put oc a (s_locs s) w with
         | None => i
         | Some _ => match o with
                     | Some p => si_leave a p (si_arrive a w i)
                     | None => si_arrive a w i
                     end
         end
  end.

(** ** Programs

    A point that the program made is a value ([Own]); a point that the grid returned is the location of an
    agent ([Of]): its coordinates are those of the agent as long as the agent is in the grid.  [z_ags]: the agents
    the program has references to. *)
From Verif Require Import MemModel.

Inductive meaning := Own (v : point) | Of (u : uid).
Record spec := Spec { z_sp : space; z_pt : dict nat meaning; z_it : dict nat siter; z_ags : list agent }.
Definition new_spec : spec := Spec new_space [] [] [].

(** The coordinates of a point *)
Definition coords (p : nat) (z : spec) : point :=
  match dget p (z_pt z) with
  | Some (Own v) => v
  | Some (Of u) => match sp_location u (z_sp z) with Some v => v | None => Pt 0 0 0 end
  | None => Pt 0 0 0
  end.
(** An agent leaves the grid (or is added again): the points of its location keep the coordinates. *)
Definition released (u : uid) (s : space) (e : meaning) : meaning :=
  match e with
  | Of u' => if keq u' u then Own (match sp_location u s with Some v => v | None => Pt 0 0 0 end) else e
  | _ => e
  end.
Definition release (u : uid) (s : space) (d : dict nat meaning) : dict nat meaning :=
  map (fun e => (fst e, released u s (snd e))) d.

(** The program changes a point that the grid returned: it changes what the grid has as the location of the
    agent, the agent stays where it is. *)
Definition relocate (u : uid) (v : point) (s : space) : space :=
  match dget u (s_agents s) with
  | Some (a, _) => Space (dset u (a, Some v) (s_agents s)) (s_locs s) (s_wpt s)
  | None => s
  end.

Section Spec.
Variable oc : occupancy.
Variable tr : point -> point -> point.

Definition upd_it (f : siter -> siter) (d : dict nat siter) : dict nat siter := map (fun e => (fst e, f (snd e))) d.

(** What a call with the answer [r] does *)
Definition spec_step (c : call) (r : answer) (z : spec) : spec :=
  let s := z_sp z in
  match c with
  | UAgent u => match r with AAgent a => Spec s (z_pt z) (z_it z) (a :: z_ags z) | _ => z end
  | UPoint v => match r with APoint p => Spec s (dset p (Own v) (z_pt z)) (z_it z) (z_ags z) | _ => z end
  | UReset p v =>
    match dget p (z_pt z) with
    | Some (Of u) => Spec (relocate u v s) (z_pt z) (z_it z) (z_ags z)
    | _ => Spec s (dset p (Own v) (z_pt z)) (z_it z) (z_ags z)
    end
  | UDropA a => Spec s (z_pt z) (z_it z) (drop_ag a (z_ags z))
  | UDropP p => z
  | UAdd a => Spec (sp_add a s) (release (a_uid a) s (z_pt z)) (z_it z) (z_ags z)
  | URemove a =>
    Spec (fst (sp_remove oc (a_uid a) s)) (release (a_uid a) s (z_pt z)) (upd_it (si_remove oc (a_uid a) s) (z_it z)) (z_ags z)
  | UMove a p =>
    let v := coords p z in
    Spec (fst (sp_move oc tr a v s))
         (match r with APoint q => dset q (Of (a_uid a)) (z_pt z) | _ => z_pt z end)
         (upd_it (si_move oc tr a v s) (z_it z)) (z_ags z)
  | ULocation a =>
    match r with APoint q => Spec s (dset q (Of (a_uid a)) (z_pt z)) (z_it z) (z_ags z) | _ => z end
  | UContains _ => z
  | UGetAgent p =>
    Spec (fst (sp_get_agent (coords p z) s)) (z_pt z) (z_it z) (match r with AAgent a => a :: z_ags z | _ => z_ags z end)
  | UGetAgents p =>
    Spec (fst (sp_get_agents (coords p z) s)) (z_pt z)
         (match r with AIter i => dset i (si_new oc (coords p z) s) (z_it z) | _ => z_it z end) (z_ags z)
  | UIter i =>
    Spec s (z_pt z) (match dget i (z_it z) with Some x => dset i (si_reset x) (z_it z) | None => z_it z end) (z_ags z)
  | UNext i =>
    Spec s (z_pt z) (match dget i (z_it z) with Some x => dset i (fst (si_next x)) (z_it z) | None => z_it z end)
         (match r with AAgent a => a :: z_ags z | _ => z_ags z end)
  end.

(** The point that stands for the location of an agent is one object: it is the one that was returned
    before, if there was one. *)
Definition same_point (u : uid) (q : nat) (z : spec) : Prop :=
  forall q', dget q' (z_pt z) = Some (Of u) <-> (q' = q /\ dget q (z_pt z) <> None).

(** What a call may answer *)
Definition answer_ok (c : call) (r : answer) (z : spec) : Prop :=
  let s := z_sp z in
  match c with
  | UAgent u => exists o, r = AAgent (Agent u o) /\ forall a, In a (z_ags z) -> a_obj a <> o
  | UPoint v => exists p, r = APoint p /\ dget p (z_pt z) = None
  | UReset _ _ | UDropA _ | UDropP _ => r = ANone
  | UAdd a => r = ABool true
  | URemove a => r = ABool (snd (sp_remove oc (a_uid a) s))
  | UMove a p =>
    match snd (sp_move oc tr a (coords p z) s) with
    | Ok (Some _) => exists q, r = APoint q /\ same_point (a_uid a) q z
    | Ok None => r = ANone
    | _ => r = AError
    end
  | ULocation a =>
    match sp_location (a_uid a) s with
    | Some _ => exists q, r = APoint q /\ same_point (a_uid a) q z
    | None => r = ANone
    end
  | UContains a => r = ABool (sp_contains (a_uid a) s)
  | UGetAgent p => r = match snd (sp_get_agent (coords p z) s) with Some a => AAgent a | None => ANone end
  | UGetAgents p => exists i, r = AIter i /\ dget i (z_it z) = None
  | UIter i => r = AIter i
  | UNext i =>
    match dget i (z_it z) with
    | Some x => si_lost x = false /\ r = match snd (si_next x) with Some a => AAgent a | None => AStop end
    | None => False
    end
  end.

(** The only calls that may follow a pointer to freed memory: with multiple occupancy [next] of a lost iterator;
    with single occupancy [next] when the agent is not in the grid and the program has no reference to it. *)
Definition may_fault (c : call) (z : spec) : Prop :=
  match c with
  | UNext i =>
    match dget i (z_it z) with
    | Some x =>
      match oc with
      | Multi => si_lost x = true
      | Single => exists b, si_todo x = [b] /\ ~ In (a_obj b) (map a_obj (z_ags z)) /\
                   forall u e, dget u (s_agents (z_sp z)) = Some e -> a_obj (fst e) <> a_obj b
      end
    | None => False
    end
  | _ => False
  end.

(** The program changes the coordinates of a point that the grid returned. *)
Definition meddles (c : call) (z : spec) : Prop :=
  match c with UReset p _ => exists u, dget p (z_pt z) = Some (Of u) | _ => False end.

(** The answers of a program.  Fewer answers than calls: the next call follows a pointer to freed memory. *)
Fixpoint accepts (cs : list call) (out : list answer) (z : spec) : Prop :=
  match cs with
  | [] => out = []
  | c :: t =>
    match out with
    | [] => may_fault c z
    | r :: out' => answer_ok c r z /\ accepts t out' (spec_step c r z)
    end
  end.

(** The state after the answers *)
Fixpoint after (cs : list call) (out : list answer) (z : spec) : spec :=
  match cs, out with
  | c :: t, r :: out' => after t out' (spec_step c r z)
  | _, _ => z
  end.

(** A condition on every call that is answered *)
Fixpoint each (P : call -> spec -> Prop) (cs : list call) (out : list answer) (z : spec) : Prop :=
  match cs, out with
  | c :: t, r :: out' => P c z /\ each P t out' (spec_step c r z)
  | _, _ => True
  end.

(** The calls as operations on values (SpaceModel.v) *)
Definition grid_op (c : call) (z : spec) : list sop :=
  match c with
  | UAdd a => [SAdd a]
  | URemove a => [SRemove (a_uid a)]
  | UMove a p => [SMove a (coords p z)]
  | UGetAgent p => [SGetAgent (coords p z)]
  | UGetAgents p => [SGetAgents (coords p z)]
  | _ => []
  end.
Fixpoint grid_ops (cs : list call) (out : list answer) (z : spec) : list sop :=
  match cs, out with
  | c :: t, r :: out' => grid_op c z ++ grid_ops t out' (spec_step c r z)
  | _, _ => []
  end.

(** The program does not change a point that the grid returned. *)
Definition untouched (c : call) (z : spec) : Prop :=
  match c with UReset p _ => forall u, dget p (z_pt z) <> Some (Of u) | _ => True end.

(** The call does not disturb a loop with iterator [i]: the loop is not started again
    after it has got an agent, no agent arrives at its location, and no agent leaves that the loop has not come to. *)
Definition calm (i : nat) (c : call) (z : spec) : Prop :=
  match dget i (z_it z) with
  | None => True
  | Some x =>
    let later a := In (a_obj a) (map a_obj (si_todo x)) in
    match c with
    | UIter j => j = i -> si_done x = []
    | URemove a =>
      match dget (a_uid a) (s_agents (z_sp z)) with
      | Some (b, Some w) => w = si_pt x -> ~ later b
      | _ => True
      end
    | UMove a p =>
      tr (coords p z) (s_wpt (z_sp z)) <> si_pt x /\ (sp_location (a_uid a) (z_sp z) = Some (si_pt x) -> ~ later a)
    | _ => True
    end
  end.

(** What the loop gets *)
Fixpoint nexts (i : nat) (cs : list call) (out : list answer) : list answer :=
  match cs, out with
  | UNext j :: t, r :: out' => if Nat.eqb j i then r :: nexts i t out' else nexts i t out'
  | _ :: t, _ :: out' => nexts i t out'
  | _, _ => []
  end.
End Spec.
