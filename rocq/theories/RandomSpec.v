(** Points of the local bounds of a rank. *)
From Coq Require Import ZArith.
From Verif Require Import PyDict AgentModel SpaceModel TopologyModel.
Open Scope Z_scope.

(** [s]: the number of units of 1; unused dimensions have the coordinate 0. *)
Definition half_open (s mn ext v : Z) : Prop := if ext =? 0 then v = 0 else mn * s <= v < (mn + ext) * s.
Definition local_pt (s : Z) (b : bbox) (p : point) : Prop :=
  half_open s (bxmin b) (bxext b) (px p) /\ half_open s (bymin b) (byext b) (py p) /\ half_open s (bzmin b) (bzext b) (pz p).
(** With the upper bounds. *)
Definition closed (s mn ext v : Z) : Prop := if ext =? 0 then v = 0 else mn * s <= v <= (mn + ext) * s.
Definition closed_pt (s : Z) (b : bbox) (p : point) : Prop :=
  closed s (bxmin b) (bxext b) (px p) /\ closed s (bymin b) (byext b) (py p) /\ closed s (bzmin b) (bzext b) (pz p).
(** Bounds that doubles represent. *)
Definition exact1 (mn ext : Z) : Prop := Z.abs mn <= 2 ^ 53 /\ Z.abs (mn + ext) <= 2 ^ 53 /\ ext <= 2 ^ 53.
Definition exact (b : bbox) : Prop := exact1 (bxmin b) (bxext b) /\ exact1 (bymin b) (byext b) /\ exact1 (bzmin b) (bzext b).
(** The bounds start at 0, or are at most 2^j and the draw is not one of the last 2^(j+1) / ext ones of 2^53. *)
Definition safe (mn ext draw : Z) : Prop :=
  mn = 0 \/ exists j, 0 <= j <= 53 /\ Z.abs mn <= 2 ^ j /\ mn + ext <= 2 ^ j /\ 2 ^ (j + 1) <= ext * (2 ^ 53 - draw mod 2 ^ 53).
