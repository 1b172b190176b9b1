(** Value layers: the location of a point, and the last value set there. *)
From Coq Require Import List Arith ZArith Bool.
From Verif Require Import PyDict AgentModel SpaceModel ValueModel.
Import ListNotations.
Open Scope Z_scope.

(** The extents of the dimensions used are positive. *)
Definition box_used (b : bbox) : Prop := 0 < bxext b /\ 0 <= byext b /\ 0 <= bzext b.
(** For periodic borders: extents and distances that a double represents exactly. *)
Definition exact1 (mn ext c : Z) : Prop := ext <= 2 ^ 53 /\ Z.abs (c - mn) <= 2 ^ 53.
Definition exact (bd : border) (b : bbox) (p : point) : Prop :=
  bd = Periodic -> exact1 (bxmin b) (bxext b) (px p) /\ exact1 (bymin b) (byext b) (py p) /\ exact1 (bzmin b) (bzext b) (pz p).
(** The coordinate in the bounds that a coordinate stands for: the nearest one, or the one that differs by a multiple of the extent. *)
Definition place1 (bd : border) (mn ext c : Z) : Z :=
  match bd with Sticky => Z.max mn (Z.min (mn + ext - 1) c) | Periodic => mn + (c - mn) mod ext end.
(** Two points are the same location if they agree in each dimension used. *)
Definition same_place (bd : border) (b : bbox) (p q : point) : Prop :=
  place1 bd (bxmin b) (bxext b) (px p) = place1 bd (bxmin b) (bxext b) (px q) /\
  (byext b <> 0 -> place1 bd (bymin b) (byext b) (py p) = place1 bd (bymin b) (byext b) (py q)) /\
  (byext b <> 0 -> bzext b <> 0 -> place1 bd (bzmin b) (bzext b) (pz p) = place1 bd (bzmin b) (bzext b) (pz q)).
(** [v] is the last value set at the location of [p]. *)
Inductive last_set {V} (bd : border) (b : bbox) (p : point) : list (vop V) -> option V -> Prop :=
| LNone : last_set bd b p [] None
| LHere ops q v : same_place bd b p q -> last_set bd b p (ops ++ [VSet q v]) (Some v)
| LElse ops q v r : ~ same_place bd b p q -> last_set bd b p ops r -> last_set bd b p (ops ++ [VSet q v]) r
| LGet ops q r : last_set bd b p ops r -> last_set bd b p (ops ++ [VGet q]) r.
Definition points {V} (ops : list (vop V)) : list point := map (fun o => match o with VSet p _ | VGet p => p end) ops.

(** *** Read and write layers *)
Definition no_swap {V} (ops : list (rop V)) : Prop := ~ In RSwap ops.
Definition not_set {V} (bd : border) (b : bbox) (p : point) (ops : list (rop V)) : Prop := forall q v, In (RSet q v) ops -> ~ same_place bd b p q.
Definition rpoints {V} (ops : list (rop V)) : list point := flat_map (fun o => match o with RSet p _ | RGet p => [p] | RSwap => [] end) ops.
(** *** Neighbours *)
(** [n] is the coordinate of a neighbour: in the bounds and at distance at most one, across the border if it is periodic. *)
Definition neighbor1 (bd : border) (mn ext c n : Z) : Prop :=
  match bd with
  | Sticky => mn <= n <= mn + ext - 1 /\ c - 1 <= n <= c + 1
  | Periodic => mn <= n <= mn + ext - 1 /\ exists d k, c - 1 <= d <= c + 1 /\ n = d + k * ext
  end.
Definition neighbor (bd : border) (b : bbox) (p q : point) : Prop :=
  neighbor1 bd (bxmin b) (bxext b) (px p) (px q) /\
  (if byext b =? 0 then py q = 0 else neighbor1 bd (bymin b) (byext b) (py p) (py q)) /\
  (if (byext b =? 0) || (bzext b =? 0) then pz q = 0 else neighbor1 bd (bzmin b) (bzext b) (pz p) (pz q)).
(** The rows of the coordinates of points, of the dimensions used. *)
Definition rows_of (b : bbox) (l : list point) : list (list Z) :=
  if byext b =? 0 then [map px l] else if bzext b =? 0 then [map px l; map py l] else [map px l; map py l; map pz l].
