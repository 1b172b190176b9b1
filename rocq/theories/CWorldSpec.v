(** What the buffers of a shared continuous space have to hold, and in which models the theorems say so. *)
From Coq Require Import List ZArith Bool.
From Verif Require Import PyDict AgentModel SpaceModel TopologyModel TopologySpec ContextModel WorldModel FloatModel TreeModel TreeRun BufferSpec CWorldModel.
Import ListNotations.
Open Scope Z_scope.

(** ** Points *)
(** The point is in the part of the space of rank [r]; lower ends are included. *)
Definition cowns (t : topo) (r : Z) (q : point) : Prop := is_rank t r /\ in_box (local_bounds t r) q.
(** Across periodic borders. *)
Definition cwrap1 (per : bool) (mn ext x : Z) : Z := if per then mn * unit1 + (x - mn * unit1) mod (ext * unit1) else x.
Definition cwrap (t : topo) (q : point) : point :=
  let b := t_box t in
  Pt (cwrap1 (t_per t) (bxmin b) (bxext b) (px q)) (cwrap1 (t_per t) (bymin b) (byext b) (py q)) (cwrap1 (t_per t) (bzmin b) (bzext b) (pz q)).
(** Some point of rank [r]'s part is at most [buf] away in each dimension. *)
Definition cnear (t : topo) (buf r : Z) (q : point) : Prop :=
  exists p, Z.abs (px q - px p) <= buf * unit1 /\ Z.abs (py q - py p) <= buf * unit1 /\ Z.abs (pz q - pz p) <= buf * unit1 /\
  in_box (local_bounds t r) (cwrap t p).

(** ** A model on one process *)
Definition ksheet_step (tr : point -> point -> point) (s : sheet) (o : kop) : sheet :=
  match o with
  | KAdd _ a x => upd s (a_uid a) (Some (x, None))
  | KRemove _ u => upd s u None
  | KMove _ u q => upd s u (match s u with Some (x, _) => Some (x, Some (tr q origin)) | None => None end)
  | KState _ u x => upd s u (match s u with Some (_, l) => Some (x, l) | None => None end)
  | KSync _ => s
  end.
Definition ksheet_of (tr : point -> point -> point) (ops : list kop) : sheet := fold_left (ksheet_step tr) ops (fun _ => None).

(** ** What the ranks show *)
(** State and location of a local agent; of a ghost. *)
Definition klocal (w : cworld) (i : nat) (u : uid) : option (Z * option point) :=
  match nth_error w i with
  | Some k => match ctx_agent u (k_ctx k) with Some a => Some (state_of a (k_ctx k), cs_location u (k_sp k)) | None => None end
  | None => None
  end.
Definition kghost (w : cworld) (i : nat) (u : uid) : option (Z * option point) :=
  match nth_error w i with
  | Some k => match ghost_agent u (k_ctx k) with Some a => Some (state_of a (k_ctx k), cs_location u (k_sp k)) | None => None end
  | None => None
  end.
(** The answer to [get_agents_within] on rank [i]; [None]: no answer. *)
Definition kwithin (t : topo) (w : cworld) (i : nat) (b : bbox) : option (list agent) :=
  match nth_error w i with Some k => cs_within (t_box t) b (k_sp k) | None => None end.

(** ** The models *)
(** In two dimensions points have third coordinate 0. *)
Definition level (b : bbox) (q : point) : Prop := bzext b <= 0 -> pz q = 0.
(** The target of a move: whatever the working point is, the border leads to [p], leaves [p] alone, and [p] is a point of the lattice in the
    bounds. *)
Definition target (bd : border) (t : topo) (j : Z) (q p : point) : Prop :=
  (forall w, level (t_box t) w -> c_tr bd t q w = p) /\ (forall w, level (t_box t) w -> c_tr bd t p w = p) /\
  level (t_box t) p /\ TreeRun.inside (t_box t) p /\ on_lattice j 0 (t_box t) p.
Definition kadded (ops : list kop) : list uid := flat_map (fun o => match o with KAdd _ a _ => [a_uid a] | _ => [] end) ops.
(** With a buffer, no synchronization without ghosts; the points of different agents' moves differ. *)
Definition kplain (owner : nat -> uid) (bd : border) (t : topo) (j buf : Z) (o : kop) : Prop :=
  match o with
  | KAdd _ a _ => owner (a_obj a) = a_uid a
  | KMove _ u q => target bd t j q (c_tr bd t q origin)
  | KSync g => g = true \/ buf <= 0
  | _ => True
  end.
Definition apart_moves (bd : border) (t : topo) (ops : list kop) : Prop :=
  forall i i' u v q q', In (KMove i u q) ops -> In (KMove i' v q') ops -> c_tr bd t q origin = c_tr bd t q' origin -> u = v.
Definition kfits (fobj : Z -> nat -> uid -> nat) (owner : nat -> uid) (bd : border) (t : topo) (thr buf k j : Z) (n : nat) (ops : list kop) : Prop :=
  (forall r c u, owner (fobj r c u) = u) /\ topo_shape t /\ t_dims t <> 1%nat /\ spread t /\ cells_each t (Z.max 1 buf) /\ Z.of_nat n = t_size t /\
  0 <= k /\ 0 <= j /\ 2 * k + j <= 52 /\ within_pow k (t_box t) /\ (thr < 0 \/ 1 <= thr) /\
  Forall (kplain owner bd t j buf) ops /\ apart_moves bd t ops /\ NoDup (kadded ops).
