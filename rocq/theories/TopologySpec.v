(** Specification of the topology in terms of cells and process coordinates. *)
From Coq Require Import List Arith ZArith Lia Bool.
From Verif Require Import PyDict AgentModel SpaceModel TopologyModel.
Import ListNotations.
Open Scope Z_scope.

(** A topology of one, two or three dimensions with at least one process in each of them; unused dimensions have one process. *)
Definition topo_shape (t : topo) : Prop :=
  let b := t_box t in
  0 < px (t_procs t) /\ 0 < py (t_procs t) /\ 0 < pz (t_procs t) /\
  0 < bxext b /\
  match t_dims t with
  | 1%nat => byext b = 0 /\ bzext b = 0 /\ py (t_procs t) = 1 /\ pz (t_procs t) = 1
  | 2%nat => 0 < byext b /\ bzext b = 0 /\ pz (t_procs t) = 1
  | 3%nat => 0 < byext b /\ 0 < bzext b
  | _ => False
  end.
(** At least [k] cells for each process in each used dimension. *)
Definition cells_each (t : topo) (k : Z) : Prop :=
  let b := t_box t in
  k * px (t_procs t) <= bxext b /\
  (t_dims t <> 1%nat -> k * py (t_procs t) <= byext b) /\
  (t_dims t = 3%nat -> k * pz (t_procs t) <= bzext b).
Definition topo_ok (t : topo) : Prop := topo_shape t /\ cells_each t 1.
Definition is_rank (t : topo) (r : Z) : Prop := 0 <= r < t_size t.

(** Process coordinates [a] and [b] are equal or adjacent in a dimension with [n] processes. *)
Definition adjacent1 (per : bool) (n a b : Z) : Prop :=
  Z.abs (a - b) <= 1 \/ per = true /\ Z.abs (a - b) = n - 1.
Definition adjacent (t : topo) (a b : Z) : Prop :=
  let p := cart_coords t a in let q := cart_coords t b in
  adjacent1 (t_per t) (px (t_procs t)) (px p) (px q) /\
  adjacent1 (t_per t) (py (t_procs t)) (py p) (py q) /\
  adjacent1 (t_per t) (pz (t_procs t)) (pz p) (pz q).

(** The cell reached from the origin of the bounds by any number of steps, across periodic borders. *)
Definition wrap1 (per : bool) (mn ext q : Z) : Z := if per then mn + (q - mn) mod ext else q.
Definition wrap (t : topo) (q : point) : point :=
  let b := t_box t in
  Pt (wrap1 (t_per t) (bxmin b) (bxext b) (px q)) (wrap1 (t_per t) (bymin b) (byext b) (py q))
     (wrap1 (t_per t) (bzmin b) (bzext b) (pz q)).
(** [p] is at most [buf] cells away, in each dimension, from a cell of rank [b]. *)
Definition near (t : topo) (buf : Z) (b : Z) (p : point) : Prop :=
  exists q, Z.abs (px p - px q) <= buf /\ Z.abs (py p - py q) <= buf /\ Z.abs (pz p - pz q) <= buf /\
  contains (local_bounds t b) (wrap t q) = true.

(** The owner of a point and what is recorded for an agent that is there. *)
Definition owns (t : topo) (r : Z) (p : point) : Prop := is_rank t r /\ contains (local_bounds t r) p = true.
