(** The binary heap of CPython's [heapq] (Lib/heapq.py, whose functions schedule.py 119, 309 and 421 call), and
    the schedule of ScheduleModel.v with its queue kept in such a heap, as in the code.

    The entries are the tuples [(at, order_idx, event)].  A comparison of two tuples with the same [at] and the same
    [order_idx] compares the events, which raises [TypeError] unless they are the same object: [ScheduledEvent]
    (schedule.py 46-160) defines no order. *)
From Coq Require Import List Arith ZArith Bool Lia.
From Verif Require Import PySort ScheduleModel.
Import ListNotations.
Open Scope Z_scope.

(** The result of a call: [HRaise] is the [TypeError], [HFuel] a loop that runs longer than the fuel. *)
Inductive hres (A : Type) := HOk (a : A) | HRaise | HFuel.
Arguments HOk {A} a. Arguments HRaise {A}. Arguments HFuel {A}.

Definition hbind {A B} (r : hres A) (f : A -> hres B) : hres B :=
  match r with HOk a => f a | HRaise => HRaise | HFuel => HFuel end.

Notation entry := (Z * Z * nat)%type.

(** [x < y] on the tuples. *)
Definition tuple_lt (x y : entry) : hres bool :=
  let '(a, o, h) := x in let '(b, p, k) := y in
  if negb (a =? b) then HOk (a <? b)
  else if negb (o =? p) then HOk (o <? p)
  else if Nat.eqb h k then HOk false else HRaise.

(** [heap[i] = x]. *)
Fixpoint store (i : nat) (x : entry) (l : list entry) : list entry :=
  match l, i with
  | [], _ => []
  | _ :: t, O => x :: t
  | y :: t, S j => y :: store j x t
  end.

(** [_siftdown(heap, startpos, pos)] after [newitem = heap[pos]]. *)
Fixpoint siftdown (fuel : nat) (heap : list entry) (startpos pos : nat) (newitem : entry) : hres (list entry) :=
  match fuel with
  | O => HFuel
  | S f =>
    if Nat.ltb startpos pos then
      let parentpos := Nat.div2 (pos - 1) in
      match nth_error heap parentpos with
      | None => HFuel
      | Some parent =>
        hbind (tuple_lt newitem parent) (fun b =>
        if b then siftdown f (store pos parent heap) startpos parentpos newitem
        else HOk (store pos newitem heap))
      end
    else HOk (store pos newitem heap)
  end.

(** The loop of [_siftup(heap, pos)] after [newitem = heap[pos]], and the final [_siftdown]. *)
Fixpoint siftup (fuel : nat) (heap : list entry) (startpos pos : nat) (newitem : entry) : hres (list entry) :=
  let endpos := length heap in
  let childpos := (2 * pos + 1)%nat in
  match fuel with
  | O => HFuel
  | S f =>
    if Nat.ltb childpos endpos then
      let rightpos := S childpos in
      match nth_error heap childpos with
      | None => HFuel
      | Some child =>
        match (if Nat.ltb rightpos endpos then nth_error heap rightpos else None) with
        | None => siftup f (store pos child heap) startpos childpos newitem
        | Some rchild =>
          hbind (tuple_lt child rchild) (fun b =>
          if b then siftup f (store pos child heap) startpos childpos newitem
          else siftup f (store pos rchild heap) startpos rightpos newitem)
        end
      end
    else siftdown (S (length heap)) (store pos newitem heap) startpos pos newitem
  end.

(** [heappush(heap, item)]. *)
Definition heappush (heap : list entry) (item : entry) : hres (list entry) :=
  siftdown (S (length heap)) (heap ++ [item]) 0 (length heap) item.

(** [heappop(heap)]: the heap afterwards; the value returned is not used by schedule.py.  An empty
    heap raises [IndexError]. *)
Definition heappop (heap : list entry) : hres (list entry) :=
  match rev heap with
  | [] => HRaise
  | lastelt :: _ =>
    match removelast heap with
    | [] => HOk []
    | h0 => siftup (length heap) (store 0 lastelt h0) 0 0 lastelt
    end
  end.

Section HeapSchedule.
Variable fadd : Z -> Z -> Z.
Variable act : list obs -> nat -> list cmd.
Variable rng : nat -> nat.

(** The functions of ScheduleModel.v that use the queue, on states whose [queue] is the array of the heap. *)

(** schedule.py 295-309 [Schedule._push_event]. *)
Definition hpush_event (s : st) (at_ : Z) (h : nat) : hres st :=
  if tick s <=? at_ then
    let c := ctr s in
    let s1 := set_ev (set_ctr s (c + 1) c) (upd (ev s) h (set_order (ev s h) c)) in
    if at_ =? tick s then HOk (set_g s1 (group_add (g s1) (e_pt (ev s1 h)) h))
    else hbind (heappush (queue s1) (at_, c, h)) (fun q => HOk (set_queue s1 q))
  else HOk s.

Definition halloc_push (s : st) (e : event) : hres st :=
  let h := nexth s in
  let s1 := set_nexth (set_ev s (upd (ev s) h e)) (S h) in
  hpush_event (observe s1 (OSched (tick s) (e_at e) (g_exec (g s)) h)) (e_at e) h.

(** schedule.py 311-398, 479-603. *)
Definition hdo_cmd (s : st) (c : cmd) : hres st :=
  match c with
  | CEvent a pt pr cb tag meta => halloc_push s (mkEvent a None (User cb) pt pr 0 TOneTime tag meta)
  | CRepeat a iv pt pr cb tag meta => halloc_push s (mkEvent a (Some iv) (User cb) pt pr 0 TRepeating tag meta)
  | CSchedStop a => halloc_push s (mkEvent a None StopRunner PRandom None 0 TStop None 0)
  | CEnd _ _ _ | CVoid _ | CStop => HOk (do_cmd s c)
  end.

Fixpoint hdo_cmds (s : st) (l : list cmd) : hres st :=
  match l with
  | [] => HOk s
  | c :: r => hbind (hdo_cmd s c) (fun s' => hdo_cmds s' r)
  end.

(** schedule.py 71-72. *)
Definition hcall_event (s : st) (h : nat) : hres st :=
  let c := e_call (ev s h) in
  let s1 := observe s (OCall (tick s) h c) in
  match c with
  | Noop => HOk s1
  | StopRunner => HOk (set_go (observe s1 OStop) false)
  | User cb => hdo_cmds s1 (act (tr s1) cb)
  end.

(** schedule.py 108-119, 124-126, 152-155. *)
Definition hreschedule (s : st) (h : nat) : hres st :=
  let e := ev s h in
  match e_iv e, e_type e with
  | _, TVoid => HOk s
  | None, _ => HOk s
  | Some iv, _ =>
    let a := fadd (e_at e) iv in
    let s1 := observe (set_ev s (upd (ev s) h (set_at e a))) (OResched h (e_at e) a) in
    hbind (heappush (queue s1) (a, e_order e, h)) (fun q => HOk (set_queue s1 q))
  end.

(** schedule.py 243-250. *)
Fixpoint hrun_list (s : st) (l : list nat) : hres (st * list nat * bool) :=
  match l with
  | [] => HOk (s, [], false)
  | h :: t =>
    let s1 := set_g s (set_size (g s) (g_size (g s) - 1)) in
    hbind (hcall_event s1 h) (fun s' =>
    hbind (hreschedule s' h) (fun s2 =>
    if g_intr (g s2) then HOk (s2, t, true) else hrun_list s2 t))
  end.

(** schedule.py 239-258. *)
Definition hexecute_evts (s : st) (w : which) : hres (st * bool) :=
  let l := get_list w (g s) in
  hbind (hrun_list (set_g s (put_list w (g s) [])) l) (fun r =>
  let '(s1, rest, interrupted) := r in
  let s2 := set_g s1 (put_list w (g s1) rest) in
  if interrupted then
    let s3 := add_during_ex rng s2 in HOk (set_g s3 (set_intr (g s3) false), true)
  else HOk (s2, false)).

(** schedule.py 260-271. *)
Definition hgroup_execute (s : st) : hres st :=
  let s0 := set_g s (set_exec (g s) true) in
  hbind (hexecute_evts s0 WFirst) (fun r1 =>
  if snd r1 then HOk (fst r1) else
  hbind (hexecute_evts (fst r1) WPrio) (fun r2 =>
  if snd r2 then HOk (fst r2) else
  hbind (hexecute_evts (fst r2) WLast) (fun r3 =>
  if snd r3 then HOk (fst r3) else HOk (set_g (fst r3) (set_exec (g (fst r3)) false))))).

(** schedule.py 431-433. *)
Fixpoint hgroup_loop (fuel : nat) (s : st) : hres st :=
  if 0 <? g_size (g s) then
    match fuel with
    | O => HFuel
    | S f => hbind (hgroup_execute s) (hgroup_loop f)
    end
  else HOk s.

(** schedule.py 418-427: [evt] is the event at the top of the heap. *)
Fixpoint hpop_tick (fuel : nat) (t : Z) (evt : nat) (f : nat -> event) (gr : group) (q : list entry) : hres (group * list entry) :=
  match fuel with
  | O => HFuel
  | S n =>
    hbind (heappop q) (fun q' =>
    let gr' := group_add gr (e_pt (f evt)) evt in
    match q' with
    | [] => HOk (gr', q')
    | (t', _, evt') :: _ => if t' =? t then hpop_tick n t evt' f gr' q' else HOk (gr', q')
    end)
  end.

(** schedule.py 411-433 [Schedule.execute]. *)
Definition hexecute (fuel : nat) (s : st) : hres st :=
  match queue s with
  | [] => HOk s
  | (t, _, evt) :: _ =>
    hbind (hpop_tick (length (queue s)) t evt (ev s) (group_reset (g s)) (queue s)) (fun r =>
    hgroup_loop fuel (group_sort rng (observe (set_tick (set_queue (set_g s (fst r)) (snd r)) t) (OTick t))))
  end.

(** Everything that can happen to one schedule: API calls between ticks, and [execute]. *)
Inductive hstep : st -> st -> Prop :=
| hstep_api s c s' : hdo_cmd s c = HOk s' -> hstep s s'
| hstep_exec s fuel s' : hexecute fuel s = HOk s' -> hstep s s'.

Inductive hreachable : st -> Prop :=
| hreach_init : hreachable init
| hreach_step s s' : hreachable s -> hstep s s' -> hreachable s'.

End HeapSchedule.
