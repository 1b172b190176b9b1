(** Borders of continuous spaces: borders.h instantiated with [R4Py_ContinuousPoint] (coordinates are
    C doubles, bounds C longs).  Overflow of the bounds is not modelled. *)
From Coq Require Import ZArith Lia Bool.
From Verif Require Import SpaceModel FloatModel.
Open Scope Z_scope.

(** borders.h 47-50: the double 0.00000001 *)
Definition offset : double := Fin (6044629098073146 * 2 ^ 995).

(** borders.h 85-87; also 67-69 *)
Definition c_sticky1 (mn mx : Z) (v : double) : double :=
  dmax (of_long mn) (dmin (dsub (of_long mx) offset) v).

(** borders.h 98-99, 107-108, 110-111, 119-126.  Operands of type [long] are converted. *)
Definition c_periodic1 (mn ext : Z) (v : double) : double :=
  let nc := dfmod (dsub v (of_long mn)) (of_long ext) in
  if dlt nc (Fin 0) then dadd (of_long (mn + ext)) nc else dadd (of_long mn) nc.

Definition dpoint : Type := double * double * double.
Definition dx (p : dpoint) : double := fst (fst p).
Definition dy (p : dpoint) : double := snd (fst p).
Definition dz (p : dpoint) : double := snd p.

(** borders.h 72-88 *)
Definition c_sticky (b : bbox) (p : dpoint) : dpoint :=
  (c_sticky1 (bxmin b) (bxmax b) (dx p), c_sticky1 (bymin b) (bymax b) (dy p),
   c_sticky1 (bzmin b) (bzmax b) (dz p)).
(** borders.h 93-127 and 149-165; [w]: the point written to *)
Definition c_periodic (b : bbox) (p w : dpoint) : dpoint :=
  if (0 <? bxext b) && (0 <? byext b) && (0 <? bzext b) then
    (c_periodic1 (bxmin b) (bxext b) (dx p), c_periodic1 (bymin b) (byext b) (dy p),
     c_periodic1 (bzmin b) (bzext b) (dz p))
  else if (0 <? bxext b) && (0 <? byext b) then
    (c_periodic1 (bxmin b) (bxext b) (dx p), c_periodic1 (bymin b) (byext b) (dy p), dz w)
  else (c_periodic1 (bxmin b) (bxext b) (dx p), dy w, dz w).
Definition c_transform (bd : border) (b : bbox) (p w : dpoint) : dpoint :=
  match bd with Sticky => c_sticky b p | Periodic => c_periodic b p w end.
