(** Shared value layers with a read and a write layer: the values that each rank sees, as a replay of the calls. *)
From Coq Require Import List Arith ZArith Bool.
From Verif Require Import PyDict AgentModel SpaceModel TopologyModel TopologySpec ValueSyncSpec ValueRWModel.
Import ListNotations.
Open Scope Z_scope.

Definition cell_eqb (t : topo) (p q : point) : bool := (px p =? px q) && (Nat.eqb (t_dims t) 1 || (py p =? py q)).
Definition owner_rank (t : topo) (p : point) : option Z := find (fun r => contains (local_bounds t r) p) (map Z.of_nat (seq 0 (Z.to_nat (t_size t)))).

Section Spec.
Variable V : Type.
Variable t : topo.
(** For each rank and location: the value that is read there, and the one that will be read after a swap. *)
Definition sheets := Z -> point -> V * V.
Definition replay1 (s : sheets) (o : rwop V) : sheets :=
  match o with
  | RwSet r p v => fun r' q => if (r' =? r) && cell_eqb t q p then (fst (s r' q), v) else s r' q
  | RwGet _ _ => s
  | RwSwap r => fun r' q => if r' =? r then (snd (s r' q), fst (s r' q)) else s r' q
  | RwSynch => fun r' q => match owner_rank t (wrap t q) with Some o => s o (wrap t q) | None => s r' q end
  end.
Definition replay (s : sheets) (ops : list (rwop V)) : sheets := fold_left replay1 ops s.

(** The calls are by ranks, and values are set within the buffer of the caller, which every [get] and [set] can access. *)
Definition rwop_ok (buf : Z) (o : rwop V) : Prop :=
  match o with RwSet r p _ => is_rank t r /\ readable t buf r p | RwGet r _ | RwSwap r => is_rank t r | RwSynch => True end.
Definition is_swap (r : Z) (o : rwop V) : bool := match o with RwSwap r' => r' =? r | _ => false end.
Definition swaps (r : Z) (ops : list (rwop V)) : nat := length (filter (is_swap r) ops).
(** At each synchronization, the numbers of swaps of all ranks are all even or all odd. *)
Definition aligned (ops : list (rwop V)) : Prop :=
  forall h g, ops = h ++ RwSynch :: g -> forall r r', is_rank t r -> is_rank t r' -> Nat.even (swaps r h) = Nat.even (swaps r' h).
End Spec.
