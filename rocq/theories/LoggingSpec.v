(** What the log files should contain. *)
From Coq Require Import List Arith Lia Bool.
From Verif Require Import LoggingModel.
Import ListNotations.

Section Logging.
Variables T V : Type.
Variable conv : V -> V.
Variable ops : list (list V -> V).
(** A value of each column on each rank. *)
Definition vals_ok (cols ranks : nat) (vals : list (list V)) : Prop := length vals = cols /\ forall col, In col vals -> length col = ranks.
(** The calls [log(tick)] with the values of the sources at the time. *)
Definition logged (cs : list (scall T V)) : list (T * list (list V)) :=
  flat_map (fun c => match c with SLog t v => [(t, v)] | SWrite => [] end) cs.
(** The row of such a call: the tick, and for each column the reduction of the values of all ranks. *)
Definition row (p : T * list (list V)) : T * list V := (fst p, map (fun e => fst e (map conv (snd e))) (combine ops (snd p))).
End Logging.

Section Tabular.
Variable R : Type.
(** The rows logged by a rank. *)
Definition rows_of (r : nat) (cs : list (tcall R)) : list R :=
  flat_map (fun c => match c with TRow k x => if Nat.eqb k r then [x] else [] | TWrite => [] end) cs.
(** All rows logged. *)
Definition all_rows (cs : list (tcall R)) : list R := flat_map (fun c => match c with TRow _ x => [x] | TWrite => [] end) cs.
(** Rows by rank, in the order of logging on each. *)
Definition by_rank (n : nat) (cs : list (tcall R)) : list R := flat_map (fun r => rows_of r cs) (seq 0 n).
(** The calls of each interval that ends with a write, and the calls after the last one. *)
Fixpoint intervals (cs cur : list (tcall R)) : list (list (tcall R)) * list (tcall R) :=
  match cs with
  | [] => ([], cur)
  | TWrite :: t => let '(l, r) := intervals t [] in (cur :: l, r)
  | c :: t => intervals t (cur ++ [c])
  end.
Definition calls_on (n : nat) (cs : list (tcall R)) : Prop := Forall (fun c => match c with TRow r _ => r < n | TWrite => True end) cs.
End Tabular.
