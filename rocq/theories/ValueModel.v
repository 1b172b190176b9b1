(** Value layers: /repo/src/repast4py/value_layer.py 21-421 ([_Impl1D], [_Impl2D], [_Impl3D], [ValueLayer]) and 992-1109 ([ReadWriteValueLayer]).

    A torch tensor is its shape and a function from index tuples; values are abstract, so that conversions to the tensor's type are not modelled.
    Extents are not negative. Exceptions are [None]. *)
From Coq Require Import List Arith ZArith Lia Bool.
From Verif Require Import PyDict AgentModel SpaceModel.
From Verif Require GeometryModel.
Import ListNotations.
Open Scope Z_scope.

(** The index of a tensor of one dimension: negative numbers count from the end, others out of range are an [IndexError]. *)
Definition norm1 (n i : Z) : option Z := if i <? 0 then (if - n <=? i then Some (i + n) else None) else if i <? n then Some i else None.
Fixpoint norm (shape idx : list Z) : option (list Z) :=
  match shape, idx with
  | [], [] => Some []
  | n :: s, i :: t => match norm1 n i, norm s t with Some i, Some t => Some (i :: t) | _, _ => None end
  | _, _ => None
  end.
Definition idx_eqb (a b : list Z) : bool := if list_eq_dec Z.eq_dec a b then true else false.

Section Values.
Variable V : Type.
Record tensor := Tensor { t_shape : list Z; t_cells : list Z -> V }.
(** [grid[idx]] and [grid[idx] = v] *)
Definition tget (t : tensor) (idx : list Z) : option V := option_map (t_cells t) (norm (t_shape t) idx).
Definition tset (t : tensor) (idx : list Z) (v : V) : option tensor :=
  option_map (fun i => Tensor (t_shape t) (fun j => if idx_eqb j i then v else t_cells t j)) (norm (t_shape t) idx).

(** 362-370: the number of dimensions *)
Definition layer_dims (b : bbox) : nat := if byext b =? 0 then 1%nat else if bzext b =? 0 then 2%nat else 3%nat.
(** The attributes of the implementations: [ly_trans] is [pt_translation], [ly_trans1] is [translation[0]] of [_Impl1D],
    [ly_ngh] is [ngh_translation] in the order of the tensor. [ly_tpt] is overwritten by each call. *)
Record layer := Layer { ly_bounds : bbox; ly_border : border; ly_trans : point; ly_trans1 : Z; ly_ngh : list Z; ly_tpt : point; ly_grid : tensor }.
Definition shape_of (b : bbox) : list Z :=
  match layer_dims b with 1%nat => [bxext b] | 2%nat => [byext b; bxext b] | _ => [bzext b; byext b; bxext b] end.
(** 23-39, 104-121, 215-237, 362-370; [cells]: the initial values, a constant or random *)
Definition new_layer (b : bbox) (bd : border) (cells : list Z -> V) : layer :=
  let tr := match layer_dims b with
            | 1%nat => Pt (0 - bxmin b) 0 0
            | 2%nat => Pt (0 - bxmin b) (0 - bymin b) 0
            | _ => Pt (0 - bxmin b) (0 - bymin b) (0 - bzmin b) end in
  Layer b bd tr (0 - bxmin b)
    (match layer_dims b with 1%nat => [0 - bxmin b] | 2%nat => [0 - bymin b; 0 - bxmin b] | _ => [pz tr; py tr; px tr] end)
    (Pt 0 0 0) (Tensor (shape_of b) cells).
(** 47-50, 140-143, 258-261 *)
Definition index (ly : layer) (t : point) : list Z :=
  match layer_dims (ly_bounds ly) with
  | 1%nat => [px t + ly_trans1 ly]
  | 2%nat => [py t + py (ly_trans ly); px t + px (ly_trans ly)]
  | _ => [pz t + pz (ly_trans ly); py t + py (ly_trans ly); px t + px (ly_trans ly)]
  end.
Definition moved (ly : layer) (p : point) : layer :=
  Layer (ly_bounds ly) (ly_border ly) (ly_trans ly) (ly_trans1 ly) (ly_ngh ly) (transform (ly_border ly) (ly_bounds ly) p (ly_tpt ly)) (ly_grid ly).
(** 41-50, 134-143, 252-261 [get] *)
Definition vl_get (ly : layer) (p : point) : layer * option V :=
  let ly := moved ly p in (ly, tget (ly_grid ly) (index ly (ly_tpt ly))).
(** 52-62, 145-158, 263-273 [set]; the flag: no exception *)
Definition vl_set (ly : layer) (p : point) (v : V) : layer * bool :=
  let ly := moved ly p in
  match tset (ly_grid ly) (index ly (ly_tpt ly)) v with
  | Some g => (Layer (ly_bounds ly) (ly_border ly) (ly_trans ly) (ly_trans1 ly) (ly_ngh ly) (ly_tpt ly) g, true)
  | None => (ly, false)
  end.
(** The columns of a list of rows, and advanced indexing by rows of indices. *)
Fixpoint columns (rows : list (list Z)) : list (list Z) :=
  match rows with
  | [] => []
  | [r] => map (fun x => [x]) r
  | r :: rs => map (fun p => fst p :: snd p) (combine r (columns rs))
  end.
Fixpoint tget_all (t : tensor) (l : list (list Z)) : option (list V) :=
  match l with [] => Some [] | i :: l => match tget t i, tget_all t l with Some v, Some vs => Some (v :: vs) | _, _ => None end end.
(** 37-39, 119-121, 233-237 [ngh_finder] and [min_max] *)
Definition finder (ly : layer) (p : point) : list (list Z) :=
  let b := ly_bounds ly in
  let xlo := bxmin b in let xhi := bxmin b + bxext b - 1 in
  let ylo := bymin b in let yhi := bymin b + byext b - 1 in
  let zlo := bzmin b in let zhi := bzmin b + bzext b - 1 in
  match layer_dims b, ly_border ly with
  | 1%nat, Sticky => [GeometryModel.find_1d_nghs_sticky (px p) xlo xhi]
  | 1%nat, Periodic => [GeometryModel.find_1d_nghs_periodic (px p) xlo xhi]
  | 2%nat, Sticky => GeometryModel.find_2d_nghs_sticky (px p) (py p) xlo xhi ylo yhi true
  | 2%nat, Periodic => GeometryModel.find_2d_nghs_periodic (px p) (py p) xlo xhi ylo yhi true
  | _, Sticky => GeometryModel.find_3d_nghs_sticky (px p) (py p) (pz p) xlo xhi ylo yhi zlo zhi true
  | _, Periodic => GeometryModel.find_3d_nghs_periodic (px p) (py p) (pz p) xlo xhi ylo yhi zlo zhi true
  end.
(** 64-74, 160-170, 275-287 [get_nghs]: the values and the rows of the coordinates, x first *)
Definition vl_get_nghs (ly : layer) (p : point) : option (list V * list (list Z)) :=
  let rows := finder ly p in
  let idxs := map (fun e => map (fun x => x + snd e) (fst e)) (combine rows (ly_ngh ly)) in
  option_map (fun vs => (vs, rev rows)) (tget_all (ly_grid ly) (columns idxs)).

Inductive vop := VSet (p : point) (v : V) | VGet (p : point).
Definition vstep (ly : layer) (o : vop) : layer := match o with VSet p v => fst (vl_set ly p v) | VGet p => fst (vl_get ly p) end.
Definition vrun (ly : layer) (ops : list vop) : layer := fold_left vstep ops ly.

(** *** 992-1109 [ReadWriteValueLayer] *)
Record rw := RW { rw_read : layer; rw_write : layer }.
(** 1035-1037 *)
Definition rw_swap (r : rw) : rw := RW (rw_write r) (rw_read r).
(** 1058-1076 *)
Definition rw_get (r : rw) (p : point) : rw * option V := let '(l, v) := vl_get (rw_read r) p in (RW l (rw_write r), v).
Definition rw_set (r : rw) (p : point) (v : V) : rw * bool := let '(l, ok) := vl_set (rw_write r) p v in (RW (rw_read r) l, ok).
(** 1078-1089: there is no attribute [read]; [AttributeError] *)
Definition rw_get_nghs (r : rw) (p : point) : option (list V * list (list Z)) := None.
(** context.py 260-261 calls [_synch_ghosts] without arguments on every value layer; that of [ReadWriteValueLayer] (value_layer.py 1100-1109) takes two: [TypeError] *)
Definition rw_synch_from_context (r : rw) : option rw := None.
Inductive rop := RSet (p : point) (v : V) | RGet (p : point) | RSwap.
Definition rstep (r : rw) (o : rop) : rw := match o with RSet p v => fst (rw_set r p v) | RGet p => fst (rw_get r p) | RSwap => rw_swap r end.
Definition rrun (r : rw) (ops : list rop) : rw := fold_left rstep ops r.
End Values.
Arguments Tensor {V}. Arguments t_shape {V}. Arguments t_cells {V}.
Arguments VSet {V}. Arguments VGet {V}. Arguments RSet {V}. Arguments RGet {V}. Arguments RSwap {V}.
Arguments RW {V}. Arguments rw_read {V}. Arguments rw_write {V}.
