(** Neighbourhoods. *)
From Coq Require Import List ZArith.
Import ListNotations.
Open Scope Z_scope.
(** The columns of a stacked array, as points. *)
Fixpoint columns2 (xs ys : list Z) : list (Z * Z) := match xs, ys with x :: s, y :: t => (x, y) :: columns2 s t | _, _ => [] end.
Fixpoint columns3 (xs ys zs : list Z) : list (Z * Z * Z) :=
  match xs, ys, zs with x :: s, y :: t, z :: u => (x, y, z) :: columns3 s t u | _, _, _ => [] end.
Definition near (a b : Z) : Prop := a - 1 <= b <= a + 1.
(** The one number in the bounds that differs from [x] by a multiple of the extent. *)
Definition wraps_to (lo hi x w : Z) : Prop := lo <= w <= hi /\ exists k, w = x + k * (hi - lo + 1).
