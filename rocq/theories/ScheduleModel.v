(** Model of /repo/src/repast4py/schedule.py (single rank): events, [ScheduleGroup],
    [Schedule] and the scheduling methods of [SharedScheduleRunner].

    Ticks and priorities are doubles in the code.  Only [<], [==] and [+] are applied to
    them, so a non-NaN double is represented by an integer that is order-isomorphic to
    it; the addition of [RepeatingEvent.reschedule] is the Section variable [fadd], on which nothing
    is assumed.  NaN priorities are [None].

    User callables are an oracle [act]: given everything observed so far (newest first) and
    the identity of the callable, the list of API calls it makes.  RNG draws are an
    arbitrary stream [rng].  Exceptions raised by callables and re-entrant [execute] calls
    are not modelled. *)
From Coq Require Import List Arith ZArith Bool Lia.
From Verif Require Import PySort.
Import ListNotations.
Open Scope Z_scope.

(** schedule.py 30-35 [PriorityType]. *)
Inductive ptype := PFirst | PLast | PRandom | PPriority.

(** schedule.py 38-43 [EvtType], the ['__type'] entry of the metadata. *)
Inductive etype := TStop | TRepeating | TOneTime | TEnd | TVoid.

(** What a [ScheduledEvent] calls: a user callable, [SharedScheduleRunner.stop]
    (599-603) or [_noop_evt] (22-23). *)
Inductive callee := User (c : nat) | StopRunner | Noop.

(** schedule.py 46-160: [ScheduledEvent] and its subclasses. [e_iv] is [Some interval] for a
    [RepeatingEvent] and [None] for a [OneTimeEvent]. The user's metadata is reduced to
    an opaque value [e_meta] and the ['tag'] entry [e_tag]. *)
Record event := mkEvent {
  e_at : Z; e_iv : option Z; e_call : callee; e_pt : ptype; e_prio : option Z;
  e_order : Z; e_type : etype; e_tag : option nat; e_meta : nat }.

(** What can be observed. [OTick t]: the schedule starts executing tick [t].
    [OSched now at busy h]: a schedule call at tick [now] for tick [at] returned the
    event [h]; [busy] says whether it was made by a running callable. [OCall t h c]: event [h]
    was executed at tick [t], calling [c]. [OResched h t t']: [h] was rescheduled from [t] to [t'].
    [OVoid h]: [h.void()] was called.  [OStop]: the runner's [stop] was called. *)
Inductive obs :=
| OTick (t : Z)
| OSched (now at_ : Z) (busy : bool) (h : nat)
| OVoid (h : nat)
| OCall (t : Z) (h : nat) (c : callee)
| OResched (h : nat) (t t' : Z)
| OStop.

(** API calls a callable (or the code between two ticks) can make. *)
Inductive cmd :=
| CEvent (at_ : Z) (pt : ptype) (pr : option Z) (cb : nat) (tag : option nat) (meta : nat)
| CRepeat (at_ iv : Z) (pt : ptype) (pr : option Z) (cb : nat) (tag : option nat) (meta : nat)
| CSchedStop (at_ : Z)
| CEnd (cb : nat) (tag : option nat) (meta : nat)
| CVoid (h : nat)
| CStop.

(** schedule.py 163-185: the fields of [ScheduleGroup]; events are handles. The list
    [evts_to_execute] is never used and left out. *)
Record group := mkGroup {
  g_first : list nat; g_last : list nat; g_random : list nat; g_prio : list nat;
  g_added : list nat; g_exec : bool; g_intr : bool; g_size : Z }.

(** schedule.py 287-293 [Schedule.__init__] and 472-477 [SharedScheduleRunner.__init__]
    ([next_tick] is in RunnerModel.v).  [queue] is the heap, kept as the list sorted by
    [(at, order_idx)]; the binary heap itself is in
    HeapModel.v, and HeapProps.v proves that it makes no difference.  [ev] maps a handle to the event object; handles
    from [nexth] on are not allocated.  [rngk] is the number of RNG draws so far, [tr] the
    observations, newest first. *)
Record st := mkSt {
  queue : list (Z * Z * nat); tick : Z; ctr : Z; last_count : Z; g : group;
  ev : nat -> event; nexth : nat; rngk : nat; tr : list obs; go : bool; ends : list nat }.

Definition set_queue s v := mkSt v (tick s) (ctr s) (last_count s) (g s) (ev s) (nexth s) (rngk s) (tr s) (go s) (ends s).
Definition set_tick s v := mkSt (queue s) v (ctr s) (last_count s) (g s) (ev s) (nexth s) (rngk s) (tr s) (go s) (ends s).
Definition set_ctr s v l := mkSt (queue s) (tick s) v l (g s) (ev s) (nexth s) (rngk s) (tr s) (go s) (ends s).
Definition set_g s v := mkSt (queue s) (tick s) (ctr s) (last_count s) v (ev s) (nexth s) (rngk s) (tr s) (go s) (ends s).
Definition set_ev s v := mkSt (queue s) (tick s) (ctr s) (last_count s) (g s) v (nexth s) (rngk s) (tr s) (go s) (ends s).
Definition set_nexth s v := mkSt (queue s) (tick s) (ctr s) (last_count s) (g s) (ev s) v (rngk s) (tr s) (go s) (ends s).
Definition set_rngk s v := mkSt (queue s) (tick s) (ctr s) (last_count s) (g s) (ev s) (nexth s) v (tr s) (go s) (ends s).
Definition set_go s v := mkSt (queue s) (tick s) (ctr s) (last_count s) (g s) (ev s) (nexth s) (rngk s) (tr s) v (ends s).
Definition set_ends s v := mkSt (queue s) (tick s) (ctr s) (last_count s) (g s) (ev s) (nexth s) (rngk s) (tr s) (go s) v.
Definition observe s o := mkSt (queue s) (tick s) (ctr s) (last_count s) (g s) (ev s) (nexth s) (rngk s) (o :: tr s) (go s) (ends s).

Definition upd (f : nat -> event) (h : nat) (e : event) : nat -> event :=
  fun k => if Nat.eqb k h then e else f k.

Definition set_order e v := mkEvent (e_at e) (e_iv e) (e_call e) (e_pt e) (e_prio e) v (e_type e) (e_tag e) (e_meta e).
Definition set_at e v := mkEvent v (e_iv e) (e_call e) (e_pt e) (e_prio e) (e_order e) (e_type e) (e_tag e) (e_meta e).

(** schedule.py 121-127 and 157-160 [void]. In the code [RepeatingEvent.void] also replaces
    [reschedule] by a no-op; here [reschedule] tests [e_type = TVoid]. *)
Definition void_event e := mkEvent (e_at e) (e_iv e) Noop (e_pt e) (e_prio e) (e_order e) TVoid (e_tag e) (e_meta e).

Definition set_first gr v := mkGroup v (g_last gr) (g_random gr) (g_prio gr) (g_added gr) (g_exec gr) (g_intr gr) (g_size gr).
Definition set_last gr v := mkGroup (g_first gr) v (g_random gr) (g_prio gr) (g_added gr) (g_exec gr) (g_intr gr) (g_size gr).
Definition set_random gr v := mkGroup (g_first gr) (g_last gr) v (g_prio gr) (g_added gr) (g_exec gr) (g_intr gr) (g_size gr).
Definition set_prio gr v := mkGroup (g_first gr) (g_last gr) (g_random gr) v (g_added gr) (g_exec gr) (g_intr gr) (g_size gr).
Definition set_added gr v := mkGroup (g_first gr) (g_last gr) (g_random gr) (g_prio gr) v (g_exec gr) (g_intr gr) (g_size gr).
Definition set_exec gr v := mkGroup (g_first gr) (g_last gr) (g_random gr) (g_prio gr) (g_added gr) v (g_intr gr) (g_size gr).
Definition set_intr gr v := mkGroup (g_first gr) (g_last gr) (g_random gr) (g_prio gr) (g_added gr) (g_exec gr) v (g_size gr).
Definition set_size gr v := mkGroup (g_first gr) (g_last gr) (g_random gr) (g_prio gr) (g_added gr) (g_exec gr) (g_intr gr) v.

(** schedule.py 167-176 [ScheduleGroup.__init__]. *)
Definition group_init : group := mkGroup [] [] [] [] [] false false 0.

(** schedule.py 178-185 [ScheduleGroup.reset] ([executing] is not reset). *)
Definition group_reset (gr : group) : group := mkGroup [] [] [] [] [] (g_exec gr) false 0.

(** schedule.py 198-208 [ScheduleGroup._add_evt]. *)
Definition group_add1 (gr : group) (pt : ptype) (h : nat) : group :=
  let gr' := match pt with
             | PRandom => set_random gr (g_random gr ++ [h])
             | PFirst => set_first gr (g_first gr ++ [h])
             | PLast => set_last gr (g_last gr ++ [h])
             | PPriority => set_prio gr (g_prio gr ++ [h])
             end in
  set_size gr' (g_size gr' + 1).

(** schedule.py 191-196 [ScheduleGroup.add_evt]. *)
Definition group_add (gr : group) (pt : ptype) (h : nat) : group :=
  if g_exec gr then set_intr (set_added gr (g_added gr ++ [h])) true
  else group_add1 gr pt h.

(** [sort(key=lambda evt: evt.order_idx)], schedule.py 213-217. *)
Definition order_lt (f : nat -> event) (a b : nat) : bool := e_order (f a) <? e_order (f b).

(** [sort(key=lambda evt: evt.priority)], schedule.py 222; comparisons with NaN are false. *)
Definition prio_lt (f : nat -> event) (a b : nat) : bool :=
  match e_prio (f a), e_prio (f b) with
  | Some x, Some y => x <? y
  | _, _ => false
  end.

(** heapq.heappush on the sorted-list representation of the heap; tuples are compared
    by [at], then [order_idx]. *)
Fixpoint qinsert (x : Z * Z * nat) (q : list (Z * Z * nat)) : list (Z * Z * nat) :=
  match q with
  | [] => [x]
  | y :: t =>
    let '(a, o, _) := x in let '(b, p, _) := y in
    if (a <? b) || ((a =? b) && (o <? p)) then x :: q else y :: qinsert x t
  end.

(** The tick before the first one, the double -1e-39 (schedule.py 290), and -1.0, the value of
    [next_tick] for an empty queue (406-407), as order-isomorphic codes: minus the bit
    pattern of the absolute value. *)
Definition tick0 : Z := -4023340849777945987.
Definition no_tick : Z := -4607182418800017408.

(** schedule.py 287-293, 472-477. *)
Definition init : st :=
  mkSt [] tick0 0 0 group_init
    (fun _ => mkEvent 0 None Noop PRandom None 0 TVoid None 0) 0 0 [] true [].

Section Schedule.
Variable fadd : Z -> Z -> Z.
Variable act : list obs -> nat -> list cmd.
Variable rng : nat -> nat.

(** The loop of schedule.py 223-225: insert each event of [l] at a position drawn
    uniformly from 0..len.  The same function starting from an empty list stands for
    [default_rng.shuffle] (228): every permutation is the result for some stream; numpy's
    own algorithm is not modelled. *)
Fixpoint random_insert (k : nat) (acc l : list nat) : list nat * nat :=
  match l with
  | [] => (acc, k)
  | x :: t => random_insert (S k) (insert_at (Nat.modulo (rng k) (S (length acc))) x acc) t
  end.

(** schedule.py 210-231 [ScheduleGroup.sort]. *)
Definition group_sort (s : st) : st :=
  let gr := g s in
  let f := ev s in
  let random := py_sort (order_lt f) (g_random gr) in
  let prio := py_sort (order_lt f) (g_prio gr) in
  let first := py_sort (order_lt f) (g_first gr) in
  let last := py_sort (order_lt f) (g_last gr) in
  let '(prio', k) :=
    match prio with
    | [] => random_insert (rngk s) [] random
    | _ => random_insert (rngk s) (py_sort (prio_lt f) prio) random
    end in
  set_rngk (set_g s (mkGroup first last [] prio' (g_added gr) (g_exec gr) (g_intr gr) (g_size gr))) k.

(** schedule.py 233-237 [ScheduleGroup._add_during_ex_evts]. *)
Definition add_during_ex (s : st) : st :=
  let gr := fold_left (fun gr h => group_add1 gr (e_pt (ev s h)) h) (g_added (g s)) (g s) in
  let s' := group_sort (set_g s gr) in
  set_g s' (set_added (g s') []).

(** schedule.py 295-309 [Schedule._push_event]. *)
Definition push_event (s : st) (at_ : Z) (h : nat) : st :=
  if tick s <=? at_ then
    let c := ctr s in
    let s1 := set_ev (set_ctr s (c + 1) c) (upd (ev s) h (set_order (ev s h) c)) in
    if at_ =? tick s then set_g s1 (group_add (g s1) (e_pt (ev s1 h)) h)
    else set_queue s1 (qinsert (at_, c, h) (queue s1))
  else s.

(** Allocation of an event object and the push of schedule.py 350-351 and 396-397. *)
Definition alloc_push (s : st) (e : event) : st :=
  let h := nexth s in
  let s1 := set_nexth (set_ev s (upd (ev s) h e)) (S h) in
  push_event (observe s1 (OSched (tick s) (e_at e) (g_exec (g s)) h)) (e_at e) h.

(** The API calls: schedule.py 311-352 and 479-522 ([schedule_event]), 354-398 and 524-569
    ([schedule_repeating_event]), 588-597 ([schedule_stop]), 571-586 ([schedule_end_event]; the
    end event's [at] is infinity and unused, here 0), 121-127/157-160 ([void], on a handle that exists), 599-603 ([stop]). *)
Definition do_cmd (s : st) (c : cmd) : st :=
  match c with
  | CEvent a pt pr cb tag meta => alloc_push s (mkEvent a None (User cb) pt pr 0 TOneTime tag meta)
  | CRepeat a iv pt pr cb tag meta => alloc_push s (mkEvent a (Some iv) (User cb) pt pr 0 TRepeating tag meta)
  | CSchedStop a => alloc_push s (mkEvent a None StopRunner PRandom None 0 TStop None 0)
  | CEnd cb tag meta =>
    let h := nexth s in
    set_ends (set_nexth (set_ev s (upd (ev s) h (mkEvent 0 None (User cb) PRandom None 0 TEnd tag meta))) (S h)) (ends s ++ [h])
  | CVoid h =>
    if Nat.ltb h (nexth s) then observe (set_ev s (upd (ev s) h (void_event (ev s h)))) (OVoid h) else s
  | CStop => set_go (observe s OStop) false
  end.

Definition do_cmds (s : st) (l : list cmd) : st := fold_left do_cmd l s.

(** schedule.py 71-72 [ScheduledEvent.__call__]. *)
Definition call_event (s : st) (h : nat) : st :=
  let c := e_call (ev s h) in
  let s1 := observe s (OCall (tick s) h c) in
  match c with
  | Noop => s1
  | StopRunner => set_go (observe s1 OStop) false
  | User cb => do_cmds s1 (act (tr s1) cb)
  end.

(** schedule.py 108-119 [RepeatingEvent.reschedule] (a no-op once voided, 124-126), 152-155
    [OneTimeEvent.reschedule]. *)
Definition reschedule (s : st) (h : nat) : st :=
  let e := ev s h in
  match e_iv e, e_type e with
  | _, TVoid => s
  | None, _ => s
  | Some iv, _ =>
    let a := fadd (e_at e) iv in
    let s1 := observe (set_ev s (upd (ev s) h (set_at e a))) (OResched h (e_at e) a) in
    set_queue s1 (qinsert (a, e_order e, h) (queue s1))
  end.

(** schedule.py 243-250: the loop of [execute_evts]. Returns the events not executed and
    whether the loop was left by [break]. *)
Fixpoint run_list (s : st) (l : list nat) : st * list nat * bool :=
  match l with
  | [] => (s, [], false)
  | h :: t =>
    let s1 := set_g s (set_size (g s) (g_size (g s) - 1)) in
    let s2 := reschedule (call_event s1 h) h in
    if g_intr (g s2) then (s2, t, true) else run_list s2 t
  end.

Inductive which := WFirst | WPrio | WLast.
Definition get_list (w : which) (gr : group) : list nat :=
  match w with WFirst => g_first gr | WPrio => g_prio gr | WLast => g_last gr end.
Definition put_list (w : which) (gr : group) (l : list nat) : group :=
  match w with WFirst => set_first gr l | WPrio => set_prio gr l | WLast => set_last gr l end.

(** schedule.py 239-258 [ScheduleGroup.execute_evts]. The list is taken out of the group while it is
    iterated over and its remainder put back ([del evts[:next_idx]], 252); nothing
    reads the list in between. *)
Definition execute_evts (s : st) (w : which) : st * bool :=
  let l := get_list w (g s) in
  let '(s1, rest, interrupted) := run_list (set_g s (put_list w (g s) [])) l in
  let s2 := set_g s1 (put_list w (g s1) rest) in
  if interrupted then
    let s3 := add_during_ex s2 in (set_g s3 (set_intr (g s3) false), true)
  else (s2, false).

(** schedule.py 260-271 [ScheduleGroup.execute]. *)
Definition group_execute (s : st) : st :=
  let s0 := set_g s (set_exec (g s) true) in
  let '(s1, i1) := execute_evts s0 WFirst in
  if i1 then s1 else
  let '(s2, i2) := execute_evts s1 WPrio in
  if i2 then s2 else
  let '(s3, i3) := execute_evts s2 WLast in
  if i3 then s3 else set_g s3 (set_exec (g s3) false).

(** schedule.py 431-433: the loop of [Schedule.execute]; [None] when out of fuel. *)
Fixpoint group_loop (fuel : nat) (s : st) : option st :=
  if 0 <? g_size (g s) then
    match fuel with
    | O => None
    | S f => group_loop f (group_execute s)
    end
  else Some s.

(** schedule.py 418-427: pop all events of tick [t] into the group. *)
Fixpoint pop_tick (t : Z) (q : list (Z * Z * nat)) : list nat * list (Z * Z * nat) :=
  match q with
  | (a, o, h) :: q' => if a =? t then let '(l, r) := pop_tick t q' in (h :: l, r) else ([], q)
  | [] => ([], [])
  end.

(** schedule.py 411-430: the first half of [Schedule.execute] (queue not empty, head tick [t]). *)
Definition fill_group (s : st) (t : Z) : st :=
  let '(hs, q) := pop_tick t (queue s) in
  let gr := fold_left (fun gr h => group_add gr (e_pt (ev s h)) h) hs (group_reset (g s)) in
  group_sort (observe (set_tick (set_queue (set_g s gr) q) t) (OTick t)).

(** schedule.py 411-433 [Schedule.execute]. *)
Definition execute (fuel : nat) (s : st) : option st :=
  match queue s with
  | [] => Some s
  | (t, _, _) :: _ => group_loop fuel (fill_group s t)
  end.

(** schedule.py 400-409 [Schedule.next_tick]. *)
Definition next_tick (s : st) : Z := match queue s with [] => no_tick | (t, _, _) :: _ => t end.

(** Everything that can happen to one schedule: API calls between ticks, and [execute]. *)
Inductive step : st -> st -> Prop :=
| step_api s c : step s (do_cmd s c)
| step_exec s fuel s' : execute fuel s = Some s' -> step s s'.

Inductive reachable : st -> Prop :=
| reach_init : reachable init
| reach_step s s' : reachable s -> step s s' -> reachable s'.

(** The reachable states, and the states during a tick after [k] rounds of the loop of
    [Schedule.execute] (431-433), so that a tick that never ends is covered, too. *)
Inductive visible : st -> Prop :=
| vis_idle s : reachable s -> visible s
| vis_tick s t o h q k : reachable s -> queue s = (t, o, h) :: q ->
    visible (Nat.iter k group_execute (fill_group s t)).

(** *** The states in which a callable is running *)
(** In the loop of [execute_evts] (243-250) over [l], from [s]: in the state [s'] the callable of event [h] is running, it has made some of its API calls, [todo] are the
    remaining ones, and [rest] are the events of [l] after [h]. *)
Inductive running : st -> list nat -> st -> nat -> list cmd -> list nat -> Prop :=
| run_here s h t cb s1 i : e_call (ev s h) = User cb ->
    s1 = observe (set_g s (set_size (g s) (g_size (g s) - 1))) (OCall (tick s) h (User cb)) ->
    running s (h :: t) (do_cmds s1 (firstn i (act (tr s1) cb))) h (skipn i (act (tr s1) cb)) t
| run_next s h t s2 s' k todo rest : s2 = reschedule (call_event (set_g s (set_size (g s) (g_size (g s) - 1))) h) h ->
    g_intr (g s2) = false -> running s2 t s' k todo rest -> running s (h :: t) s' k todo rest.
(** [ScheduleGroup.execute] (260-271) calls [execute_evts] in the state [s'] for the list [w]. *)
Inductive round (s : st) : st -> which -> Prop :=
| round_first : round s (set_g s (set_exec (g s) true)) WFirst
| round_prio s1 : execute_evts (set_g s (set_exec (g s) true)) WFirst = (s1, false) -> round s s1 WPrio
| round_last s1 s2 : execute_evts (set_g s (set_exec (g s) true)) WFirst = (s1, false) -> execute_evts s1 WPrio = (s2, false) -> round s s2 WLast.
(** The loop of [Schedule.execute] (431-433). *)
Inductive loops : st -> st -> Prop :=
| loops_refl s : loops s s
| loops_step s s' : 0 < g_size (g s) -> loops (group_execute s) s' -> loops s s'.
(** In state [s], the callable of event [h] is running, as part of [execute] in the state [s0]; [todo] are the API calls that it still makes and
    [r] are the other events that are in the group of the current tick and not yet called. *)
Inductive inside (s0 : st) : st -> nat -> list cmd -> list nat -> Prop :=
| in_call t o k q s1 s2 w s h todo rest : reachable s0 -> queue s0 = (t, o, k) :: q -> loops (fill_group s0 t) s1 -> 0 < g_size (g s1) -> round s1 s2 w ->
    running (set_g s2 (put_list w (g s2) [])) (get_list w (g s2)) s h todo rest ->
    inside s0 s h todo (rest ++ g_first (g s) ++ g_prio (g s) ++ g_last (g s) ++ g_added (g s)).

End Schedule.
