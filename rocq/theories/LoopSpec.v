(** What loops over the agents of a context should see, from the history of calls alone. *)
From Coq Require Import List Arith ZArith Lia Bool.
From Verif Require Import PyDict AgentModel SpaceModel TopologyModel ContextModel ContextSpec LoopModel.
Import ListNotations.
Open Scope Z_scope.

Definition of_kind (w : option Z) (u : uid) : bool := match w with None => true | Some t => t =? utype u end.
(** The agents of a kind, in the order of insertion. *)
Definition members (w : option Z) (pop : list agent) : list agent := filter (fun a => of_kind w (a_uid a)) pop.

(** Does the call add an agent of the kind that was not there, or remove one that was? *)
Definition alters (w : option Z) (pop : list agent) (o : cop) : bool :=
  match o with
  | CAdd a | CIn a => of_kind w (a_uid a) && negb (existsb (has_id (a_uid a)) pop)
  | CRemove u | COut u => of_kind w u && existsb (has_id u) pop
  | _ => false
  end.

(** The life of an iterator: the ids of the agents when it was made, how many were returned, whether the agents were altered since, and
    whether it is over; or a list of agents that is left. *)
Inductive life := Watch (w : option Z) (ids : list uid) (seen : nat) (altered over : bool) | Fixed (left : list agent).
Record story := St { s_pop : list agent; s_types : list Z; s_lives : list life }.
Definition start : story := St [] [] [].

Definition hear (pop : list agent) (o : cop) (f : life) : life :=
  match f with
  | Watch w ids seen altered over => Watch w ids seen (altered || alters w pop o) over
  | Fixed _ => f
  end.
Definition known (w : option Z) (types : list Z) : bool := match w with None => true | Some t => existsb (Z.eqb t) types end.
Definition learns (o : cop) (types : list Z) : list Z :=
  match o with CAdd a | CIn a => utype (a_uid a) :: types | _ => types end.
(** [remove] of an agent that is not there raises [KeyError]. *)
Definition answer (pop : list agent) (o : cop) : res :=
  match o with CRemove u => if existsb (has_id u) pop then RNone else RKeyError | _ => RNone end.

Definition turn (pop : list agent) (f : life) : life * res :=
  match f with
  | Fixed [] => (f, RStop)
  | Fixed (a :: t) => (Fixed t, RAgent a)
  | Watch w ids seen altered over =>
    if over then (f, RStop)
    else match nth_error ids seen with
    | None => (Watch w ids seen altered true, RStop)
    | Some u =>
      if altered then (Watch w ids seen altered true, RMutated)
      else (Watch w ids (S seen) altered over, match find (has_id u) pop with Some a => RAgent a | None => RKeyError end)
    end
  end.

Definition sstep (s : story) (o : lop) : story * res :=
  match o with
  | LCtx o => (St (pstep (s_pop s) o) (learns o (s_types s)) (map (hear (s_pop s) o) (s_lives s)), answer (s_pop s) o)
  | LAgents w =>
    if known w (s_types s)
    then (St (s_pop s) (s_types s) (s_lives s ++ [Watch w (map a_uid (members w (s_pop s))) 0 false false]), RIter (length (s_lives s)))
    else (s, RKeyError)
  | LChosen draw w count shuffle =>
    if known w (s_types s)
    then let lst := members w (s_pop s) in
         let lst := if shuffle then np_shuffle draw lst else lst in
         let lst := match count with Some n => slice_to n lst | None => lst end in
         (St (s_pop s) (s_types s) (s_lives s ++ [Fixed lst]), RIter (length (s_lives s)))
    else (s, RKeyError)
  | LNext i =>
    match nth_error (s_lives s) i with
    | Some f => let '(f, r) := turn (s_pop s) f in (St (s_pop s) (s_types s) (set_nth i f (s_lives s)), r)
    | None => (s, RNoIter)
    end
  end.
Fixpoint srun (s : story) (ops : list lop) : story * list res :=
  match ops with
  | [] => (s, [])
  | o :: t => let '(s, r) := sstep s o in let '(s, rs) := srun s t in (s, r :: rs)
  end.

(** The calls on the context in a history, and the agents afterwards. *)
Fixpoint ctx_calls (ops : list lop) : list cop :=
  match ops with [] => [] | LCtx o :: t => o :: ctx_calls t | _ :: t => ctx_calls t end.
Definition pop_after (pop : list agent) (ops : list lop) : list agent := fold_left pstep (ctx_calls ops) pop.
(** Calls that leave the agents of a kind alone. *)
Fixpoint leaves (w : option Z) (pop : list agent) (calls : list cop) : bool :=
  match calls with [] => true | o :: t => negb (alters w pop o) && leaves w (pstep pop o) t end.
(** The agents before the [k]-th visit of a loop that begins with the agents [pop]. *)
Fixpoint pop_at (pop : list agent) (body : nat -> list lop) (k : nat) : list agent :=
  match k with 0%nat => pop | S k => pop_after (pop_at pop body k) (body k) end.
(** Calls that do not use the iterator [i]. *)
Definition other (i : nat) (o : lop) : Prop := match o with LNext j => j <> i | _ => True end.
