(** [get_random_local_pt] of [SharedGrid] and [SharedCSpace], /repo/src/repast4py/space.py 102-135 and 313-346.

    A draw of the generator is an integer.  [rng.integers(lo, hi)] is one of lo, ..., hi - 1 or raises a [ValueError] ([None]) if there is none.
    [rng.uniform(lo, hi)] is, in numpy, [lo + (hi - lo) * u] with the operations of doubles, where [u] is one of the 2^53 doubles k * 2^-53 below 1
    (numpy/random/src/distributions/distributions.c [random_uniform], [next_double]).  Doubles are multiples of 2^-1074 ([unit1] is 1.0) as in FloatModel.v;
    the bounds are integers, so that the product before rounding is a multiple of 2^-53. *)
From Coq Require Import ZArith Lia Bool.
From Verif Require Import PyDict AgentModel SpaceModel FloatModel GeometryModel TopologyModel.
Open Scope Z_scope.

Definition integers (lo hi draw : Z) : option Z := if lo <? hi then Some (lo + draw mod (hi - lo)) else None.
Definition uniform (lo hi draw : Z) : Z :=
  let l := to_double (lo * unit1) in
  let range := to_double (to_double (hi * unit1) - l) in
  to_double (l + to_double (range * (draw mod 2 ^ 53) / 2 ^ 53)).

(** space.py 102-121; the draws are made in the order of the dimensions *)
Definition random_grid (b : bbox) (d1 d2 d3 : Z) : option point :=
  match get_num_dims (byext b) (bzext b) with
  | 1 => match integers (bxmin b) (bxmin b + bxext b) d1 with Some x => Some (Pt x 0 0) | None => None end
  | 2 => match integers (bxmin b) (bxmin b + bxext b) d1, integers (bymin b) (bymin b + byext b) d2 with
         | Some x, Some y => Some (Pt x y 0)
         | _, _ => None
         end
  | _ => match integers (bxmin b) (bxmin b + bxext b) d1, integers (bymin b) (bymin b + byext b) d2, integers (bzmin b) (bzmin b + bzext b) d3 with
         | Some x, Some y, Some z => Some (Pt x y z)
         | _, _, _ => None
         end
  end.
(** space.py 313-332 *)
Definition random_cspace (b : bbox) (d1 d2 d3 : Z) : point :=
  match get_num_dims (byext b) (bzext b) with
  | 1 => Pt (uniform (bxmin b) (bxmin b + bxext b) d1) 0 0
  | 2 => Pt (uniform (bxmin b) (bxmin b + bxext b) d1) (uniform (bymin b) (bymin b + byext b) d2) 0
  | _ => Pt (uniform (bxmin b) (bxmin b + bxext b) d1) (uniform (bymin b) (bymin b + byext b) d2) (uniform (bzmin b) (bzmin b + bzext b) d3)
  end.
