(** What the file of a data set with the loggers of a dataclass should contain. *)
From Coq Require Import List Arith Bool Ascii.
From Verif Require Import PyDict UtilModel LogClassModel.
Import ListNotations.

Section Spec.
Variables ty P T V : Type.
Variable casted : ty -> P -> V.
(** The columns of [create_loggers(.., names)]: the fields in their order, and the names of the columns. *)
Definition column (names : option (list (name * option name))) (f : field ty) : option name :=
  match names with
  | None => Some (f_name f)
  | Some d => match find (fun e => name_eqb (f_name f) (fst e)) d with
              | None => None
              | Some (_, None) => Some (f_name f)
              | Some (_, Some h) => Some h
              end
  end.
Definition columns (fs : list (field ty)) (names : option (list (name * option name))) : list (field ty * name) :=
  flat_map (fun f => match column names f with Some h => [(f, h)] | None => [] end) fs.
(** Of several calls with a reduction and names each. *)
Definition all_columns (fs : list (field ty)) (calls : list ((list V -> V) * option (list (name * option name)))) : list (field ty * name * (list V -> V)) :=
  flat_map (fun c => map (fun e => (e, fst c)) (columns fs (snd c))) calls.

(** The value of an attribute of the instance of rank [r] after some calls (last one first), from the first values [init]. *)
Fixpoint value_at (init : nat -> name -> option P) (past : list (lcall P T)) (r : nat) (n : name) : option P :=
  match past with
  | [] => init r n
  | LSet k m v :: t => if Nat.eqb k r && name_eqb m n then Some v else value_at init t r n
  | _ :: t => value_at init t r n
  end.
(** The calls of [log], each with the calls before it. *)
Fixpoint log_points (past cs : list (lcall P T)) : list (T * list (lcall P T)) :=
  match cs with
  | [] => []
  | LLog t :: k => (t, past) :: log_points (LLog t :: past) k
  | c :: k => log_points (c :: past) k
  end.
(** The row of a call of [log]: in each column the reduction of the values that the field has on the ranks at that time. *)
Definition row_at (init : nat -> name -> option P) (ranks : nat) (cols : list (field ty * name * (list V -> V))) (zero : V) (p : T * list (lcall P T)) : T * list V :=
  (fst p, map (fun c => snd c (map (fun r => match value_at init (snd p) r (f_name (fst (fst c))) with Some v => casted (f_type (fst (fst c))) v | None => zero end) (seq 0 ranks))) cols).
End Spec.

(** Reading the file: lines, and the parts of a line between delimiters. *)
Fixpoint split_on (c : ascii) (s : list ascii) : list (list ascii) :=
  match s with
  | [] => [[]]
  | a :: t => if Ascii.eqb a c then [] :: split_on c t else match split_on c t with w :: k => (a :: w) :: k | [] => [[a]] end
  end.
Definition read_file (delim : ascii) (text : list ascii) : list (list (list ascii)) := map (split_on delim) (removelast (split_on newline text)).
