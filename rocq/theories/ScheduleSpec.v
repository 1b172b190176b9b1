(** Vocabulary for the schedule properties, on the list of observations (newest first) only. *)
From Coq Require Import List Arith ZArith Bool Lia.
From Verif Require Import ScheduleModel.
Import ListNotations.
Open Scope Z_scope.

(** The ticks at which event [h] was executed, oldest first. *)
Fixpoint calls (h : nat) (l : list obs) : list Z :=
  match l with
  | [] => []
  | OCall t h' _ :: r => if Nat.eqb h h' then calls h r ++ [t] else calls h r
  | _ :: r => calls h r
  end.

(** The tick an observation belongs to, if any. *)
Definition obs_tick (o : obs) : option Z :=
  match o with
  | OTick t | OSched t _ _ _ | OCall t _ _ => Some t
  | _ => None
  end.

(** [at], [at + iv], [at + iv + iv], ... *)
Fixpoint nth_time (fadd : Z -> Z -> Z) (a iv : Z) (n : nat) : Z :=
  match n with O => a | S m => fadd (nth_time fadd a iv m) iv end.
Definition times (fadd : Z -> Z -> Z) (a iv : Z) (n : nat) : list Z := map (nth_time fadd a iv) (seq 0 n).

(** Repeating events move forward in time ([strict]), or at least not backwards. *)
Definition tlt (strict : bool) (a b : Z) : Prop := if strict then a < b else a <= b.
Definition forward (strict : bool) (l : list obs) : Prop :=
  forall h t t', In (OResched h t t') l -> tlt strict t t'.

(** Priority classes in the order in which they execute. *)
Definition pclass (p : ptype) : nat := match p with PFirst => 0 | PRandom | PPriority => 1 | PLast => 2 end.

(** [h] may execute before [h'] although [h'] was already scheduled for the same tick: [h] has an
    earlier priority class, or both are FIRST (or both LAST) and [h] was scheduled earlier, or both
    are in the middle class. Handles are numbered in the order of the schedule calls. *)
Definition may_precede (e e' : event) (h h' : nat) : Prop :=
  (pclass (e_pt e) < pclass (e_pt e'))%nat \/
  (pclass (e_pt e) = pclass (e_pt e') /\ (pclass (e_pt e) <> 1%nat -> (h < h')%nat)).

(** Two BY_PRIORITY events in the right order: lower priority value first, ties by scheduling order. *)
Definition prio_precede (e e' : event) (h h' : nat) : Prop :=
  match e_prio e, e_prio e' with
  | Some p, Some p' => p < p' \/ (p = p' /\ (h < h')%nat)
  | _, _ => False
  end.

(** No event overtakes another in a tick: if [h'] is executed at tick [t] after [h] was, and
    [h'] had already been scheduled when [h] was executed, then [rel t h h']. *)
Definition no_overtaking (rel : Z -> nat -> nat -> Prop) (l : list obs) : Prop :=
  forall post t h c pre, l = post ++ OCall t h c :: pre ->
  forall h' c', In (OCall t h' c') post ->
  (exists now a b, In (OSched now a b h') pre) -> rel t h h'.

(** Event [e], scheduled for [a], is due at tick [t]. *)
Definition due (fadd : Z -> Z -> Z) (e : event) (a t : Z) : Prop :=
  match e_iv e with
  | None => t = a
  | Some iv => exists n, t = nth_time fadd a iv n
  end.

(** The BY_PRIORITY events due at tick [t] have a priority; and if a running event schedules another event for tick [t]
    in tick [t], then the RANDOM events due at [t] have one, too. *)
Definition prio_guard (fadd : Z -> Z -> Z) (f : nat -> event) (l : list obs) (t : Z) : Prop :=
  forall now a b h, In (OSched now a b h) l -> due fadd (f h) a t ->
  (e_pt (f h) = PPriority -> e_prio (f h) <> None) /\
  (e_pt (f h) = PRandom -> (exists k, In (OSched t t true k) l) -> e_prio (f h) <> None).

(** The tick being executed (or executed last) after the observations [l]. *)
Fixpoint cur_tick (l : list obs) : Z :=
  match l with
  | [] => tick0
  | OTick t :: _ => t
  | _ :: r => cur_tick r
  end.

(** A schedule call the schedule acts on: for a later tick, or for the tick being executed. *)
Definition effective (now a : Z) (busy : bool) : bool := (now <? a) || ((now =? a) && busy).

(** When a one-time event must have been executed, at the end of tick [t]. *)
Definition one_time_calls (now a : Z) (busy : bool) (t : Z) : list Z :=
  if effective now a busy && (a <=? t) then [a] else [].

(** The events executed in [l]; the events scheduled in [l] by a running event for the current tick; the events
    waiting for tick [t] in the queue. *)
Fixpoint called (l : list obs) : list nat :=
  match l with
  | [] => []
  | OCall _ h _ :: r => h :: called r
  | _ :: r => called r
  end.
Fixpoint added (l : list obs) : list nat :=
  match l with
  | [] => []
  | OSched now a true h :: r => if now =? a then h :: added r else added r
  | _ :: r => added r
  end.
Definition pending (t : Z) (q : list (Z * Z * nat)) : list nat :=
  map snd (filter (fun x => fst (fst x) =? t) q).
