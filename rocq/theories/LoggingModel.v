(** /repo/src/repast4py/logging.py: [ReducingDataLogger], [ReducingDataSet] and [TabularLogger].

    All ranks are modelled together; the calls are collective, as the documentation requires.  The text written for a value and a tick
    ([str], [csv.writer]) is not modelled: a row of the file is a tick and a list of values. *)
From Coq Require Import List Arith Lia Bool.
Import ListNotations.

Section Logging.
Variables T V : Type.
(** [numpy.zeros] *)
Variable zero : V.
(** Assignment to an element of the array converts to its [dtype]. *)
Variable conv : V -> V.

(** ** ReducingDataLogger *)
(** logging.py 66 *)
Definition array_size : nat := 500.
(** logging.py 78-82 *)
Record logger := Logger { l_data : list V; l_idx : nat }.
Definition new_logger : logger := Logger (repeat zero array_size) 0.

Fixpoint set_item {A} (i : nat) (x : A) (l : list A) : option (list A) :=
  match l, i with
  | [], _ => None
  | _ :: t, O => Some (x :: t)
  | y :: t, S k => option_map (cons y) (set_item k x t)
  end.
(** logging.py 115-123; [None]: [IndexError] *)
Definition l_log (v : V) (l : logger) : option logger :=
  let data := if Nat.eqb (l_idx l) (length (l_data l)) then l_data l ++ repeat zero array_size else l_data l in
  option_map (fun d => Logger d (S (l_idx l))) (set_item (l_idx l) (conv v) data).

(** [comm.Reduce]: element by element; [op] gives the reduction of the values of all ranks.  [None]: the ranks have arrays of different
    lengths, which is an error. *)
Fixpoint heads_tails {A} (ls : list (list A)) : option (list A * list (list A)) :=
  match ls with
  | [] => Some ([], [])
  | [] :: _ => None
  | (a :: l) :: t => option_map (fun r => (a :: fst r, l :: snd r)) (heads_tails t)
  end.
Fixpoint reduce_arrays (n : nat) (op : list V -> V) (ls : list (list V)) : option (list V) :=
  match n with
  | O => if forallb (fun l => Nat.eqb (length l) 0) ls then Some [] else None
  | S k => match heads_tails ls with
           | Some (hs, ts) => option_map (cons (op hs)) (reduce_arrays k op ts)
           | None => None
           end
  end.
(** logging.py 125-143, all ranks: the new loggers and the array on rank 0 *)
Definition l_reset (l : logger) : logger := Logger (l_data l) 0.
Definition l_values (l : logger) : list V := firstn (l_idx l) (l_data l).
Definition l_reduce (op : list V -> V) (ls : list logger) : option (list logger * list V) :=
  match ls with
  | [] => None
  | l0 :: _ => option_map (fun r => (map l_reset ls, r)) (reduce_arrays (l_idx l0) op (map l_values ls))
  end.

(** ** ReducingDataSet *)
(** logging.py 279-300.  [s_cols]: for each column its loggers, one of each rank; [s_ticks]: of rank 0; [s_rows]: the file after the
    header. *)
Record dset := DSet { s_cols : list (list logger); s_ticks : list T; s_rows : list (T * list V) }.
Definition new_dset (ranks cols : nat) : dset := DSet (repeat (repeat new_logger ranks) cols) [] [].

Fixpoint omap {A B} (f : A -> option B) (l : list A) : option (list B) :=
  match l with
  | [] => Some []
  | a :: t => match f a, omap f t with Some b, Some r => Some (b :: r) | _, _ => None end
  end.
(** logging.py 323-345.  [ops]: the reduction of each column. *)
Definition s_write (ops : list (list V -> V)) (s : dset) : option dset :=
  match omap (fun e => l_reduce (fst e) (snd e)) (combine ops (s_cols s)) with
  | None => None
  | Some rs =>
    match omap (fun i => match nth_error (s_ticks s) i, omap (fun r => nth_error (snd r) i) rs with
                         | Some t, Some vs => Some (t, vs)
                         | _, _ => None
                         end) (seq 0 (length (s_ticks s))) with
    | None => None
    | Some rows => Some (DSet (map fst rs) [] (s_rows s ++ rows))
    end
  end.
(** logging.py 308-321.  [vals]: the value of each column's source on each rank. *)
Definition s_log (ops : list (list V -> V)) (buffer_size : nat) (t : T) (vals : list (list V)) (s : dset) : option dset :=
  match omap (fun e => omap (fun x => l_log (fst x) (snd x)) (combine (fst e) (snd e))) (combine vals (s_cols s)) with
  | None => None
  | Some cols =>
    let s := DSet cols (s_ticks s ++ [t]) (s_rows s) in
    match cols with
    | (l :: _) :: _ => if Nat.leb buffer_size (l_idx l) then s_write ops s else Some s
    | _ => None
    end
  end.
Inductive scall := SLog (t : T) (vals : list (list V)) | SWrite.
Definition s_step (ops : list (list V -> V)) (b : nat) (s : option dset) (c : scall) : option dset :=
  match s, c with
  | Some s, SLog t vals => s_log ops b t vals s
  | Some s, SWrite => s_write ops s
  | None, _ => None
  end.
Definition s_run (ops : list (list V -> V)) (b : nat) (s : dset) (cs : list scall) : option dset := fold_left (s_step ops b) cs (Some s).
End Logging.
Arguments SLog {T V}. Arguments SWrite {T V}. Arguments s_rows {T V}. Arguments s_cols {T V}. Arguments s_ticks {T V}.
Arguments DSet {T V}. Arguments Logger {V}. Arguments l_data {V}. Arguments l_idx {V}.

(** ** TabularLogger *)
(** logging.py 347-411: the rows of each rank that were not written, and the rows of the file after the header *)
Section Tabular.
Variable R : Type.
Record tlogger := TLogger { t_rows : list (list R); t_file : list R }.
Definition new_tlogger (ranks : nat) : tlogger := TLogger (repeat [] ranks) [].
Inductive tcall := TRow (rank : nat) (row : R) | TWrite.
(** logging.py 373-390 *)
Fixpoint append_at (r : nat) (x : R) (l : list (list R)) : list (list R) :=
  match l, r with
  | [], _ => []
  | y :: t, O => (y ++ [x]) :: t
  | y :: t, S k => y :: append_at k x t
  end.
(** logging.py 392-405 *)
Definition t_step (t : tlogger) (c : tcall) : tlogger :=
  match c with
  | TRow r x => TLogger (append_at r x (t_rows t)) (t_file t)
  | TWrite => TLogger (map (fun _ => []) (t_rows t)) (t_file t ++ concat (t_rows t))
  end.
Definition t_run (t : tlogger) (cs : list tcall) : tlogger := fold_left t_step cs t.
End Tabular.
Arguments TRow {R}. Arguments TWrite {R}. Arguments TLogger {R}. Arguments t_rows {R}. Arguments t_file {R}.
