(** Model of [SharedScheduleRunner] (/repo/src/repast4py/schedule.py 453-625) on any number of ranks.

    A collective [allreduce] completes only if all ranks take part; a rank whose loop has ended takes part in no
    further one.  Callables act on their own rank's schedule only: MPI communication made by callables
    is not modelled. *)
From Coq Require Import List Arith ZArith Bool Lia Relations.Relation_Operators.
From Verif Require Import PySort ScheduleModel.
Import ListNotations.
Open Scope Z_scope.

(** schedule.py 472-477: a runner is its schedule, [end_evts], [go] (all in [st]) and [next_tick]. *)
Record rank := mkRank { rs : st; rnt : Z }.

(** schedule.py 472-477 [SharedScheduleRunner.__init__]; [next_tick] is -1. *)
Definition rank_init : rank := mkRank init no_tick.

(** schedule.py 479-603: [schedule_event] (520-521) and [schedule_repeating_event] (567-568) refresh [next_tick];
    [schedule_end_event], [schedule_stop] (596-597), [stop] and [void] do not. *)
Definition runner_cmd (r : rank) (c : cmd) : rank :=
  let s := do_cmd (rs r) c in
  match c with
  | CEvent _ _ _ _ _ _ | CRepeat _ _ _ _ _ _ _ => mkRank s (next_tick s)
  | _ => mkRank s (rnt r)
  end.

(** The calls made before [execute]. *)
Definition setup (l : list cmd) : rank := fold_left runner_cmd l rank_init.

(** The result of [comm.allreduce(..., op=MPI.MIN)]. *)
Fixpoint gmin (l : list Z) : Z :=
  match l with
  | [] => 0
  | [x] => x
  | x :: r => Z.min x (gmin r)
  end.

Section Runner.
Variable fadd : Z -> Z -> Z.

(** schedule.py 618-621: one iteration of the loop on one rank, [m] is the global minimum. The changes of
    [next_tick] by callables are overwritten in 621. *)
Definition rank_round (act : list obs -> nat -> list cmd) (rng : nat -> nat) (fuel : nat) (m : Z) (r : rank) : option rank :=
  if rnt r =? m then
    match execute fadd act rng fuel (rs r) with
    | Some s => Some (mkRank s (next_tick s))
    | None => None
    end
  else Some (mkRank (rs r) (next_tick (rs r))).

(** What the callables and the random numbers of each rank are. *)
Variable acts : nat -> list obs -> nat -> list cmd.
Variable rngs : nat -> nat -> nat.

(** One collective round of all ranks. *)
Inductive round (c c' : list rank) : Prop :=
| round_intro :
    (forall r, In r c -> go (rs r) = true) ->
    length c' = length c ->
    (forall i r, nth_error c i = Some r -> exists fuel r', nth_error c' i = Some r' /\
       rank_round (acts i) (rngs i) fuel (gmin (map rnt c)) r = Some r') ->
    round c c'.

Definition rounds : list rank -> list rank -> Prop := clos_refl_trans_n1 _ round.

(** The loop of one rank (617-621) in an arbitrary environment: [env] gives the global minimum of each round. [None] if
    [env] is too short. *)
Fixpoint rank_loop (act : list obs -> nat -> list cmd) (rng : nat -> nat) (fuel : nat) (env : list Z) (r : rank) : option rank :=
  if go (rs r) then
    match env with
    | [] => None
    | m :: env' => match rank_round act rng fuel m r with Some r' => rank_loop act rng fuel env' r' | None => None end
    end
  else Some r.

(** schedule.py 623-624: the end events, which may append to the list being iterated over; [i] is the iterator's index. *)
Fixpoint run_ends (act : list obs -> nat -> list cmd) (fuel i : nat) (s : st) : option st :=
  match nth_error (ends s) i with
  | None => Some s
  | Some h =>
    match fuel with
    | O => None
    | S f => run_ends act f (S i) (call_event act s h)
    end
  end.

(** schedule.py 613-624 [execute] on one rank. *)
Definition rank_execute act rng fuel env (r : rank) : option st :=
  match rank_loop act rng fuel env r with
  | Some r' => run_ends act fuel 0 (rs r')
  | None => None
  end.

End Runner.
