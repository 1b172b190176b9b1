(** IEEE 754 binary64 numbers, round to nearest even.

    Every finite double is an integral multiple of 2^-1074; [Fin v] is the double v * 2^-1074.  The
    two zeros are identified: they compare equal and none of the modelled functions divides.
    [to_double] of SpaceModel.v rounds an integer to 53 significant bits. *)
From Coq Require Import ZArith Lia Bool.
From Verif Require Import SpaceModel.
Open Scope Z_scope.

Definition unit1 : Z := 2 ^ 1074.
(** 2^1024, the least magnitude that is not finite *)
Definition huge : Z := 2 ^ 2098.

Inductive double := Fin (v : Z) | Inf (neg : bool) | NaN.

(** The double nearest to v * 2^-1074. *)
Definition round (v : Z) : double :=
  let r := to_double v in
  if huge <=? r then Inf false else if r <=? - huge then Inf true else Fin r.
(** Conversion of a C integer. *)
Definition of_long (k : Z) : double := round (k * unit1).

Definition dneg (a : double) : double :=
  match a with Fin v => Fin (- v) | Inf n => Inf (negb n) | NaN => NaN end.
Definition dadd (a b : double) : double :=
  match a, b with
  | NaN, _ | _, NaN => NaN
  | Fin x, Fin y => round (x + y)
  | Inf n, Inf m => if Bool.eqb n m then Inf n else NaN
  | Inf n, Fin _ => Inf n
  | Fin _, Inf m => Inf m
  end.
Definition dsub (a b : double) : double := dadd a (dneg b).
(** [<]; false if an operand is NaN *)
Definition dlt (a b : double) : bool :=
  match a, b with
  | NaN, _ | _, NaN => false
  | Fin x, Fin y => x <? y
  | Inf n, Inf m => n && negb m
  | Inf n, Fin _ => n
  | Fin _, Inf m => negb m
  end.
(** [std::max], [std::min]: the first operand if they are equal or not comparable *)
Definition dmax (a b : double) : double := if dlt a b then b else a.
Definition dmin (a b : double) : double := if dlt b a then b else a.
(** C [fmod]: the exact remainder with the sign of the dividend *)
Definition dfmod (a b : double) : double :=
  match a, b with
  | Fin x, Fin y => if y =? 0 then NaN else Fin (Z.rem x y)
  | Fin x, Inf _ => Fin x
  | _, _ => NaN
  end.

(** Finite doubles. *)
Definition rep (v : Z) : Prop := to_double v = v.
Definition finite_double (v : Z) : Prop := rep v /\ - huge < v < huge.
Definition valid (d : double) : Prop := match d with Fin v => finite_double v | _ => True end.
