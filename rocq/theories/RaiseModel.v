(** Events whose callables raise exceptions: [Schedule.execute] and [SharedScheduleRunner.execute],
    /repo/src/repast4py/schedule.py 239-271, 411-433, 613-624, as in ScheduleModel.v and RunnerModel.v.

    [raises x c] says whether the callable [c] raises after it has made its API calls, [x] being all that was observed when it was
    called.  The program catches the exception outside of [execute] and goes on. *)
From Coq Require Import List Arith ZArith Bool Lia.
From Verif Require Import PySort ScheduleModel RunnerModel.
Import ListNotations.
Open Scope Z_scope.

Section Raise.
Variable fadd : Z -> Z -> Z.
Variable act : list obs -> nat -> list cmd.
Variable rng : nat -> nat.
Variable raises : list obs -> nat -> bool.

(** 71-72: does [evt()] raise? *)
Definition raises_now (s : st) (h : nat) : bool :=
  match e_call (ev s h) with
  | User cb => raises (tr (observe s (OCall (tick s) h (User cb)))) cb
  | _ => false
  end.

(** 243-250: [None] in the second component is an exception, which leaves the loop before [reschedule] *)
Fixpoint run_list_r (s : st) (l : list nat) : st * option (list nat * bool) :=
  match l with
  | [] => (s, Some ([], false))
  | h :: t =>
    let s1 := set_g s (set_size (g s) (g_size (g s) - 1)) in
    let s2 := call_event act s1 h in
    if raises_now s1 h then (s2, None) else
    let s3 := reschedule fadd s2 h in
    if g_intr (g s3) then (s3, Some (t, true)) else run_list_r s3 t
  end.
(** 239-258: after an exception nothing is deleted from the list ([None]) *)
Definition execute_evts_r (s : st) (w : which) : st * option bool :=
  let l := get_list w (g s) in
  match run_list_r (set_g s (put_list w (g s) [])) l with
  | (s1, Some (rest, interrupted)) =>
    let s2 := set_g s1 (put_list w (g s1) rest) in
    if interrupted then let s3 := add_during_ex rng s2 in (set_g s3 (set_intr (g s3) false), Some true)
    else (s2, Some false)
  | (s1, None) => (set_g s1 (put_list w (g s1) l), None)
  end.
(** 260-271; the second component says whether an exception was raised *)
Definition group_execute_r (s : st) : st * bool :=
  let s0 := set_g s (set_exec (g s) true) in
  match execute_evts_r s0 WFirst with
  | (s1, None) => (s1, true)
  | (s1, Some true) => (s1, false)
  | (s1, Some false) =>
    match execute_evts_r s1 WPrio with
    | (s2, None) => (s2, true)
    | (s2, Some true) => (s2, false)
    | (s2, Some false) =>
      match execute_evts_r s2 WLast with
      | (s3, None) => (s3, true)
      | (s3, Some true) => (s3, false)
      | (s3, Some false) => (set_g s3 (set_exec (g s3) false), false)
      end
    end
  end.
(** 431-433 *)
Fixpoint group_loop_r (fuel : nat) (s : st) : option (st * bool) :=
  if 0 <? g_size (g s) then
    match fuel with
    | O => None
    | S f => match group_execute_r s with
             | (s1, true) => Some (s1, true)
             | (s1, false) => group_loop_r f s1
             end
    end
  else Some (s, false).
(** 411-433 *)
Definition execute_r (fuel : nat) (s : st) : option (st * bool) :=
  match queue s with
  | [] => Some (s, false)
  | (t, _, _) :: _ => group_loop_r fuel (fill_group rng s t)
  end.

(** A program with one schedule: API calls, and [execute] in a [try] statement. *)
Inductive step_r : st -> st -> Prop :=
| stepr_api s c : step_r s (do_cmd s c)
| stepr_exec s fuel s' b : execute_r fuel s = Some (s', b) -> step_r s s'.
Inductive steps_r : st -> st -> Prop :=
| stepsr_refl s : steps_r s s
| stepsr_step s s' s'' : steps_r s s' -> step_r s' s'' -> steps_r s s''.

(** 613-621, the loop of the runner of one rank: [env] has the global minima; [inr] is the runner after an exception (621 is not reached; the
    callables may have refreshed [next_tick], [nt]). *)
Definition rank_round_r (fuel : nat) (m : Z) (nt : Z) (r : rank) : option (rank + rank) :=
  if rnt r =? m then
    match execute_r fuel (rs r) with
    | Some (s, false) => Some (inl (mkRank s (next_tick s)))
    | Some (s, true) => Some (inr (mkRank s nt))
    | None => None
    end
  else Some (inl (mkRank (rs r) (next_tick (rs r)))).
Fixpoint rank_loop_r (fuel : nat) (env : list (Z * Z)) (r : rank) : option (rank + rank) :=
  if go (rs r) then
    match env with
    | [] => None
    | (m, nt) :: env' => match rank_round_r fuel m nt r with
                         | Some (inl r') => rank_loop_r fuel env' r'
                         | x => x
                         end
    end
  else Some (inl r).

(** 623-624: the end events; the second component says whether one raised *)
Fixpoint run_ends_r (fuel i : nat) (s : st) : option (st * bool) :=
  match nth_error (ends s) i with
  | None => Some (s, false)
  | Some h =>
    match fuel with
    | O => None
    | S f => let s1 := call_event act s h in if raises_now s h then Some (s1, true) else run_ends_r f (S i) s1
    end
  end.
End Raise.
