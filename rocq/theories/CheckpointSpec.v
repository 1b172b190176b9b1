(** Vocabulary for the checkpoint properties. *)
From Coq Require Import List Arith ZArith Bool Lia.
From Verif Require Import PySort ScheduleModel RunnerModel CheckpointModel.
Import ListNotations.
Open Scope Z_scope.

(** The pending events, in the order of the queue, as event objects instead of handles. *)
Definition pend (s : st) : list (Z * Z * event) := map (fun x => (fst x, ev s (snd x))) (queue s).

(** The creator given to [restore_schedule] rebuilds the callable of each pending event from its metadata, or ignores the event. *)
Definition faithful (s : st) (creator : nat -> option nat) : Prop :=
  forall h cb, In h (ends s) \/ In h (map snd (queue s)) -> e_call (ev s h) = User cb ->
  creator (e_meta (ev s h)) = Some cb \/ creator (e_meta (ev s h)) = None.

Definition is_void (e : event) : bool := match e_type e with TVoid => true | _ => false end.
(** The event has one of the tags [ts]. *)
Definition tagged (ts : list nat) (e : event) : bool := existsb (Nat.eqb (match e_tag e with Some t => t | None => default_tag end)) ts.
(** The event is not ignored; stop events never are. *)
Definition wants (creator : nat -> option nat) (e : event) : bool :=
  match e_type e with TStop => true | _ => match creator (e_meta e) with Some _ => true | None => false end end.
Definition keep (creator : nat -> option nat) (ts : list nat) (e : event) : bool := negb (is_void e) && tagged ts e && wants creator e.

(** What is visible of a run, without the names of the events: the ticks, what was called when, and stops. *)
Inductive beh := BTick (t : Z) | BCall (t : Z) (c : callee) | BStop.
Definition behaviour (l : list obs) : list beh :=
  flat_map (fun o => match o with OTick t => [BTick t] | OCall t _ c => [BCall t c] | OStop => [BStop] | _ => [] end) l.

(** The position of [h] in a list. *)
Fixpoint index (h : nat) (l : list nat) : option nat :=
  match l with [] => None | x :: r => if Nat.eqb x h then Some O else option_map S (index h r) end.

(** The new name of event [h] of [s] in a schedule restored from it: the events are restored in the order in which they were
    saved; later events are numbered consecutively. *)
Definition new_name (s : st) (q : list (Z * Z * nat)) (h : nat) : option nat :=
  let saved := ends s ++ map snd q in
  if Nat.ltb h (nexth s) then index h saved else Some (length saved + (h - nexth s))%nat.

(** A continuation of a run: API calls between ticks, and ticks. *)
Inductive op := OpCall (c : cmd) | OpTick (fuel : nat).
Fixpoint run_ops (fadd : Z -> Z -> Z) (act : list obs -> nat -> list cmd) (rng : nat -> nat) (s : st) (l : list op) : option st :=
  match l with
  | [] => Some s
  | OpCall c :: l => run_ops fadd act rng (do_cmd s c) l
  | OpTick fuel :: l => match execute fadd act rng fuel s with Some s' => run_ops fadd act rng s' l | None => None end
  end.
