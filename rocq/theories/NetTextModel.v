(** Network files as text: network.py 1134-1140 and 1097-1112 ([f_out.write] with a line feed after each line) and 1055-1065 ([open] in text
    mode: line feeds, carriage returns, and both together end a line; [readline] and the loop over the file). The line feed at the end of each
    line that is read is left out: [_parse_graph_desc] and the loop remove it. *)
From Coq Require Import List Arith ZArith Bool Ascii String.
From Verif Require Import NetFileModel.
Import ListNotations.
Open Scope list_scope.

Definition LF : ascii := ascii_of_nat 10.
Definition CR : ascii := ascii_of_nat 13.
Definition file_of (lines : list text) : text := flat_map (fun l => l ++ [LF]) lines.
Fixpoint lines_of (t : text) : list text :=
  match t with
  | [] => []
  | c :: r =>
      if Ascii.eqb c LF then [] :: lines_of r
      else if Ascii.eqb c CR then
        match r with
        | [] => [[]]
        | d :: r' => if Ascii.eqb d LF then [] :: lines_of r' else [] :: lines_of r
        end
      else match lines_of r with a :: b => (c :: a) :: b | [] => [[c]] end
  end.
