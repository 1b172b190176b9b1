(** Shared value layers: the cells that a rank can see. *)
From Coq Require Import List Arith ZArith Bool.
From Verif Require Import PyDict AgentModel SpaceModel TopologyModel TopologySpec ValueModel ValueSyncModel.
Import ListNotations.
Open Scope Z_scope.

(** The bounds start at the origin; there are at least two processes, and enough cells for the buffer in each of them.
    Periodic: at least three processes in each dimension, and more cells than the buffer. *)
Definition shared_ok (t : topo) (buf : Z) : Prop :=
  topo_ok t /\ 0 <= buf /\ (t_dims t = 1%nat \/ t_dims t = 2%nat) /\ bxmin (t_box t) = 0 /\ bymin (t_box t) = 0 /\
  if t_per t then 3 <= px (t_procs t) /\ (t_dims t = 2%nat -> 3 <= py (t_procs t)) /\ cells_each t (buf + 1)
  else 2 <= px (t_procs t) /\ cells_each t buf.
(** [q] is at most [buf] cells away from the local bounds of [r] in each dimension and, if the borders are not periodic, in the bounds. *)
Definition reach (t : topo) (buf r : Z) (q : point) : Prop :=
  let l := local_bounds t r in
  (bxmin l - buf <= px q < bxmax l + buf) /\ (t_dims t = 2%nat -> bymin l - buf <= py q < bymax l + buf) /\
  (t_per t = false -> contains (t_box t) q = true).
(** What [get] and [set] can access. With periodic borders: not in one dimension, and not before the origin. *)
Definition readable (t : topo) (buf r : Z) (q : point) : Prop :=
  reach t buf r q /\ (t_per t = true -> t_dims t = 2%nat /\ 0 <= px q /\ 0 <= py q).
Definition exact_box (t : topo) : Prop := t_per t = true -> bxext (t_box t) <= 2 ^ 52 /\ byext (t_box t) <= 2 ^ 52.
Definition op_ok {V : Type} (t : topo) (o : svop V) : Prop := match o with SvSet r _ _ | SvGet r _ => is_rank t r | SvSynch => True end.
(** The index of a cell in the tensor of [r], which begins with the buffer if there is a neighbor on that side. *)
Definition first1 (per : bool) (buf gmin lmin : Z) : Z := if per || (gmin <? lmin) then lmin - buf else lmin.
Definition cell_index (t : topo) (buf r : Z) (q : point) : list Z :=
  let b := t_box t in let l := local_bounds t r in
  let x := px q - first1 (t_per t) buf (bxmin b) (bxmin l) in
  let y := py q - first1 (t_per t) buf (bymin b) (bymin l) in
  if Nat.eqb (t_dims t) 1 then [x] else [y; x].
Definition held {V : Type} (t : topo) (buf : Z) (w : list (layer V)) (r : Z) (q : point) : option V :=
  option_map (fun l => t_cells (ly_grid V l) (cell_index t buf r q)) (nth_error w (Z.to_nat r)).
(** The worlds reached by calls. *)
Definition reached (V : Type) (t : topo) (buf : Z) (w : list (layer V)) : Prop :=
  exists fill rnd ops w0, sv_world V t buf fill rnd = Some w0 /\ Forall (op_ok t) ops /\ sv_run V t buf w0 ops = Some w.
