(** File names and parameters, independently of the code. *)
From Coq Require Import List Arith ZArith Bool Ascii String.
From Verif Require Import UtilModel.
Import ListNotations.
Open Scope list_scope.

(** The extension of a file name: from the last dot on, if there is something before and after that dot. *)
Definition dotted (n st sx : name) : Prop := n = st ++ sx /\ st <> [] /\ exists t, sx = "."%char :: t /\ t <> [] /\ ~ In "."%char t.
Definition splits (n st sx : name) : Prop := dotted n st sx \/ n = st /\ sx = [] /\ forall st' sx', ~ dotted n st' sx'.
(** [10 * value + digit] for each character. *)
Definition digit_value (c : ascii) : nat := nat_of_ascii c - 48.
Definition read_number (n : name) : nat := fold_left (fun v c => 10 * v + digit_value c) n 0.
(** The pair with the key that comes last in the text. *)
Definition last_value (k : string) (l : list (string * value)) : option value :=
  fold_left (fun o e => if String.eqb (fst e) k then Some (snd e) else o) l None.
