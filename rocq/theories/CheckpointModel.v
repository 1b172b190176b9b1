(** Model of the schedule part of /repo/src/repast4py/checkpoint.py (151-262) on top of the schedule model. *)
From Coq Require Import List Arith ZArith Bool Lia.
From Verif Require Import PySort ScheduleModel RunnerModel.
Import ListNotations.
Open Scope Z_scope.

(** checkpoint.py 36-43 [EvtData]. The metadata is reduced to ['__type'], ['tag'] and an opaque rest, as in the
    schedule model. *)
Record evt_data := mkData {
  d_at : Z; d_order : Z; d_pt : ptype; d_prio : option Z; d_iv : Z; d_type : etype; d_tag : option nat; d_meta : nat }.

(** checkpoint.py 94-110 [_to_evt_data]. Callable metadata values (98-99) are not modelled. *)
Definition to_evt_data (e : event) : evt_data :=
  mkData (e_at e) (e_order e) (e_pt e) (e_prio e)
    (match e_type e, e_iv e with TRepeating, Some iv => iv | _, _ => 0 end) (e_type e) (e_tag e) (e_meta e).

(** checkpoint.py 162-169: [schedule_state]. *)
Record ckpt := mkCkpt { ck_last : Z; ck_tick : Z; ck_evts : list evt_data }.

Definition not_void (s : st) (h : nat) : bool := match e_type (ev s h) with TVoid => false | _ => true end.

(** checkpoint.py 151-169 [save_schedule]. [q] is the heap list, in the order in which it is laid out: some permutation of the
    sorted [queue]. *)
Definition save_schedule (q : list (Z * Z * nat)) (s : st) : ckpt :=
  mkCkpt (last_count s) (tick s)
    (map (fun h => to_evt_data (ev s h)) (filter (not_void s) (ends s) ++ filter (not_void s) (map snd q))).

(** checkpoint.py 32 [DEFAULT_TAG]; tags are numbers. *)
Definition default_tag : nat := 0.

(** checkpoint.py 171-190 [_schedule_evt]. The counter yields the saved [order_idx] once (175); [cb] is what
    the [evt_creator] returned. For a stop event [schedule_stop] is called and [evt] is ignored. *)
Definition schedule_evt (r : rank) (d : evt_data) (cb : nat) : rank :=
  let r := mkRank (set_ctr (rs r) (d_order d) (last_count (rs r))) (rnt r) in
  match d_type d with
  | TOneTime => runner_cmd r (CEvent (d_at d) (d_pt d) (d_prio d) cb (d_tag d) (d_meta d))
  | TRepeating => runner_cmd r (CRepeat (d_at d) (d_iv d) (d_pt d) (d_prio d) cb (d_tag d) (d_meta d))
  | TStop => runner_cmd r (CSchedStop (d_at d))
  | TEnd => runner_cmd r (CEnd cb (d_tag d) (d_meta d))
  | TVoid => r
  end.

(** checkpoint.py 239-256: one iteration. [creator] maps the metadata to a callable, [None] is [IGNORE_EVT]; a creator that
    returns Python's [None] (247-248: a warning; the event then fails when it is called) is not modelled. The variable [evt] is [None] for
    a stop event if [restore_stop_at] is false, and [runner.stop] otherwise (244-252); neither equals [IGNORE_EVT] (254). [evt_processor]
    is not modelled. *)
Definition restore_evt (creator : nat -> option nat) (tag : nat) (restore_stop_at : bool) (r : rank) (d : evt_data) : rank :=
  if Nat.eqb (match d_tag d with Some t => t | None => default_tag end) tag then
    match d_type d with
    | TStop =>
      let evt := if restore_stop_at then Some (Some tt) else Some None in
      match evt with Some _ => schedule_evt r d 0 | None => r end
    | _ => match creator (d_meta d) with Some cb => schedule_evt r d cb | None => r end
    end
  else r.

(** checkpoint.py 234-235: a new runner ([init_schedule_runner]) at the saved tick; the random number generator is not touched. *)
Definition fresh_runner (r : rank) (t : Z) : rank := mkRank (set_tick (set_rngk init (rngk (rs r))) t) no_tick.

(** checkpoint.py 192-262 [restore_schedule]. *)
Definition restore_schedule (creator : nat -> option nat) (tag : nat) (initialize restore_stop_at : bool) (ck : ckpt) (r : rank) : rank :=
  let r0 := if initialize then fresh_runner r (ck_tick ck) else r in
  let r1 := fold_left (restore_evt creator tag restore_stop_at) (ck_evts ck) r0 in
  mkRank (set_ctr (rs r1) (ck_last ck + 1) (ck_last ck)) (rnt r1).

(** checkpoint.py 64-76 [save_random], [restore_random]: the state of [default_rng] is the number of draws [rngk] from its stream; the seed, which is also saved, only
    names the stream. *)
Definition save_random (s : st) : nat := rngk s.
Definition restore_random (k : nat) (r : rank) : rank := mkRank (set_rngk (rs r) k) (rnt r).
