(** Agent ids: construction (coremodule.cpp) and the maps of the spaces keyed by them (core.h, space.h). *)
From Coq Require Import List ZArith Lia Bool.
From Verif Require Import PyDict AgentModel.
Import ListNotations.
Open Scope Z_scope.

(** core.h 28-34 [agent_id_comp]. *)
Definition agent_id_comp (a1 a2 : uid) : bool :=
  let '(id1, type1, rank1) := a1 in let '(id2, type2, rank2) := a2 in
  if negb (id1 =? id2) then id1 <? id2 else if negb (type1 =? type2) then type1 <? type2 else rank1 <? rank2.

(** [std::map<R4Py_AgentID*, V, agent_id_comp>] (space.h 40, distributed_space.h 80) as a binary search tree. [find] and [operator\[\]] use the
    comparison only, as the standard library does: descend to the first key that is not less, then test whether the sought key is less than it.
    Rebalancing changes the shape of the tree only, and is not modelled: the theorems hold for trees of any shape. *)
Section Tree.
Variable V : Type.
Inductive tree := Leaf | Node (l : tree) (k : uid) (v : V) (r : tree).
(** [lower_bound]: the last node at which the descent went left. *)
Fixpoint lower_bound (k : uid) (t : tree) (last : option (uid * V)) : option (uid * V) :=
  match t with
  | Leaf => last
  | Node l k' v r => if agent_id_comp k' k then lower_bound k r last else lower_bound k l (Some (k', v))
  end.
Definition find (k : uid) (t : tree) : option V :=
  match lower_bound k t None with
  | Some (k', v) => if agent_id_comp k k' then None else Some v
  | None => None
  end.
(** [m\[k\] = v]: an existing equivalent key is kept. *)
Fixpoint insert (k : uid) (v : V) (t : tree) : tree :=
  match t with
  | Leaf => Node Leaf k v Leaf
  | Node l k' v' r => if agent_id_comp k k' then Node (insert k v l) k' v' r else if agent_id_comp k' k then Node l k' v' (insert k v r) else Node l k' v r
  end.
(** Removal of a node: its successor takes its place. *)
Fixpoint min_of (t : tree) : option (uid * V * tree) :=
  match t with
  | Leaf => None
  | Node l k v r => match min_of l with None => Some (k, v, r) | Some (k0, v0, l') => Some (k0, v0, Node l' k v r) end
  end.
Fixpoint erase (k : uid) (t : tree) : tree :=
  match t with
  | Leaf => Leaf
  | Node l k' v' r =>
      if agent_id_comp k k' then Node (erase k l) k' v' r else if agent_id_comp k' k then Node l k' v' (erase k r)
      else match min_of r with None => l | Some (k0, v0, r') => Node l k0 v0 r' end
  end.
(** Iteration. *)
Fixpoint elements (t : tree) : list (uid * V) :=
  match t with Leaf => [] | Node l k v r => elements l ++ (k, v) :: elements r end.
Inductive mcall := MSet (k : uid) (v : V) | MDel (k : uid).
Definition m_step (t : tree) (c : mcall) : tree := match c with MSet k v => insert k v t | MDel k => erase k t end.
Definition m_run (t : tree) (cs : list mcall) : tree := fold_left m_step cs t.
End Tree.
Arguments Leaf {V}. Arguments Node {V}. Arguments MSet {V}. Arguments MDel {V}.
Arguments find {V}. Arguments insert {V}. Arguments erase {V}. Arguments elements {V}. Arguments min_of {V}. Arguments lower_bound {V}. Arguments m_run {V}.

(** core.h 21-26 [R4Py_AgentID] on a 64 bit little endian system: 8 bytes, 4 bytes, 4 bytes, 8 bytes. The values are those of the fields
    as stored; [as_tuple] is the pointer, or the tuple it points to. *)
Inductive ptr := Null | Garbage (bits : Z) | Tuple (u : Z * Z * Z).
Record agent_id := { f_id : Z; f_type : Z; f_rank : Z; f_tuple : ptr }.
(** coremodule.cpp 176-201 [Agent_new]; [new R4Py_AgentID()] clears all fields. *)
Definition agent_new : agent_id := {| f_id := -1; f_type := -1; f_rank := 0; f_tuple := Null |}.
Definition in_long (z : Z) : bool := (- 2 ^ 63 <=? z) && (z <? 2 ^ 63).
Definition in_int (z : Z) : bool := (- 2 ^ 31 <=? z) && (z <? 2 ^ 31).
Inductive init_result := Built (a : agent_id) | OverflowError (a : agent_id) | ValueError (a : agent_id).
(** coremodule.cpp 203-225 [Agent_init]: the format "li|l" stores a [long] of 8 bytes at the address of the 4 byte field [rank]: the upper half
    goes to the lower half of [as_tuple]. *)
Definition pointer (bits : Z) : ptr := if bits =? 0 then Null else Garbage bits.
Definition agent_init (a : agent_id) (id type : Z) (rank : option Z) : init_result :=
  if negb (in_long id) then OverflowError a
  else if negb (in_int type) then OverflowError {| f_id := id; f_type := f_type a; f_rank := f_rank a; f_tuple := f_tuple a |}
  else
    let a := {| f_id := id; f_type := type; f_rank := f_rank a; f_tuple := f_tuple a |} in
    let finish a :=
      if f_type a <? 0 then ValueError a
      else Built {| f_id := f_id a; f_type := f_type a; f_rank := f_rank a; f_tuple := Tuple (f_id a, f_type a, f_rank a) |} in
    match rank with
    | None => finish a
    | Some r =>
        if negb (in_long r) then OverflowError a
        else finish {| f_id := id; f_type := type; f_rank := r mod 2 ^ 32; f_tuple := pointer (r / 2 ^ 32 mod 2 ^ 32) |}
    end.
(** coremodule.cpp 170-174 [Agent_dealloc]: [None] when [Py_XDECREF] is applied to an address that is not one of an object. *)
Definition agent_dealloc (a : agent_id) : option unit := match f_tuple a with Garbage _ => None | _ => Some tt end.
(** [Agent.uid]. *)
Definition uid_of (a : agent_id) : option uid := match f_tuple a with Tuple u => Some u | _ => None end.
