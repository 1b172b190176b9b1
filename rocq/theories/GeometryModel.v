(** geometry.py 57-259: the neighbour finders. Arrays are lists, a stacked array is the list of its rows. Integers are unbounded (numpy's are
    64 bit: coordinates within 1 of the limits wrap around). [np.mod] by a positive number is [Z.modulo]. *)
From Coq Require Import List ZArith Lia Bool.
Import ListNotations.
Open Scope Z_scope.

(** 57-62 *)
Definition tile (l : list Z) (n : nat) : list Z := concat (repeat l n).
Definition xoffset_1d : list Z := [-1; 0; 1].
Definition xoffset_2d : list Z := tile xoffset_1d 3.
Definition yoffset_2d : list Z := [-1; -1; -1; 0; 0; 0; 1; 1; 1].
Definition xoffset_3d : list Z := tile xoffset_1d 9.
Definition yoffset_3d : list Z := tile yoffset_2d 3.
Definition zoffset_3d : list Z := repeat (-1) 9 ++ repeat 0 9 ++ repeat 1 9.

(** [p + offsets], [(xs >= lo) & (xs <= hi)], [xs[mask]]. *)
Definition plus (p : Z) (l : list Z) : list Z := map (fun o => p + o) l.
Definition in_range (lo hi : Z) (l : list Z) : list bool := map (fun x => (x >=? lo) && (x <=? hi)) l.
Fixpoint masked (l : list Z) (m : list bool) : list Z :=
  match l, m with
  | x :: t, b :: u => if b then x :: masked t u else masked t u
  | _, _ => []
  end.
(** 66-92 *)
Definition find_1d_nghs_sticky (x xlo xhi : Z) : list Z :=
  let x_pts := plus x xoffset_1d in
  masked x_pts (in_range xlo xhi x_pts).
(** 96-125 *)
Definition find_2d_nghs_sticky (x y xlo xhi ylo yhi : Z) (pytorch_order : bool) : list (list Z) :=
  let x_pts := plus x xoffset_2d in
  let y_pts := plus y yoffset_2d in
  let x_idxs := in_range xlo xhi x_pts in
  let x_pts := masked x_pts x_idxs in
  let y_pts := masked y_pts x_idxs in
  let y_idxs := in_range ylo yhi y_pts in
  let x_pts := masked x_pts y_idxs in
  let y_pts := masked y_pts y_idxs in
  if pytorch_order then [y_pts; x_pts] else [x_pts; y_pts].
(** 129-165 *)
Definition find_3d_nghs_sticky (x y z xlo xhi ylo yhi zlo zhi : Z) (pytorch_order : bool) : list (list Z) :=
  let x_pts := plus x xoffset_3d in
  let y_pts := plus y yoffset_3d in
  let z_pts := plus z zoffset_3d in
  let x_idxs := in_range xlo xhi x_pts in
  let x_pts := masked x_pts x_idxs in
  let y_pts := masked y_pts x_idxs in
  let z_pts := masked z_pts x_idxs in
  let y_idxs := in_range ylo yhi y_pts in
  let x_pts := masked x_pts y_idxs in
  let y_pts := masked y_pts y_idxs in
  let z_pts := masked z_pts y_idxs in
  let z_idxs := in_range zlo zhi z_pts in
  let x_pts := masked x_pts z_idxs in
  let y_pts := masked y_pts z_idxs in
  let z_pts := masked z_pts z_idxs in
  if pytorch_order then [z_pts; y_pts; x_pts] else [x_pts; y_pts; z_pts].
(** 193-196: the wrapping of one dimension. *)
Definition wrap (lo hi : Z) (pts : list Z) : list Z :=
  let extent := hi - lo + 1 in
  let ncs := map (fun x => (x - lo) mod extent) pts in
  map (fun n => if n <? 0 then hi + n else lo + n) ncs.
(** 169-197 *)
Definition find_1d_nghs_periodic (x xlo xhi : Z) : list Z := wrap xlo xhi (plus x xoffset_1d).
(** 201-226 *)
Definition find_2d_nghs_periodic (x y xlo xhi ylo yhi : Z) (pytorch_order : bool) : list (list Z) :=
  let x_pts := wrap xlo xhi (plus x xoffset_2d) in
  let y_pts := wrap ylo yhi (plus y yoffset_2d) in
  if pytorch_order then [y_pts; x_pts] else [x_pts; y_pts].
(** 230-259 *)
Definition find_3d_nghs_periodic (x y z xlo xhi ylo yhi zlo zhi : Z) (pytorch_order : bool) : list (list Z) :=
  let x_pts := wrap xlo xhi (plus x xoffset_3d) in
  let y_pts := wrap ylo yhi (plus y yoffset_3d) in
  let z_pts := wrap zlo zhi (plus z zoffset_3d) in
  if pytorch_order then [z_pts; y_pts; x_pts] else [x_pts; y_pts; z_pts].
(** 21-54; the extents of the bounding box. *)
Definition get_num_dims (yextent zextent : Z) : Z := if (yextent =? 0) && (zextent =? 0) then 1 else if zextent =? 0 then 2 else 3.
