(** The spatial tree and the continuous space that uses it.

    Coordinates are finite doubles, given by their multiple of 2^-1074 as in FloatModel.v; sums are
    rounded.  Points are Python objects with mutable coordinates: a pointer is a [nat], [co] gives the
    current coordinates.  Sums that overflow to infinity are not modelled. *)
From Coq Require Import List Arith ZArith Lia Bool.
From Verif Require Import PyDict AgentModel SpaceModel FloatModel BorderModel.
Import ListNotations.
Open Scope Z_scope.

Definition fadd (a b : Z) : Z := to_double (a + b).
Definition fsub (a b : Z) : Z := to_double (a - b).
(** division by 2.0: inexact for an odd multiple of 2^-1074 only *)
Definition fhalf (a : Z) : Z :=
  let q := a / 2 in if Z.even a then q else if Z.even q then q else q + 1.
(** conversion of [long] to [double] *)
Definition flong (k : Z) : Z := to_double (k * unit1).

(** SpatialTree.h 37-58: [Box2D], [Box3D] *)
Record cell := Cell { c_min : point; c_max : point }.

Section Tree.
(** [true]: [Box3D] *)
Variable b3 : bool.

(** SpatialTree.cpp 14-15, 30-31 with the arguments of SpatialTree.h 80-82; [ext]: the extents *)
Definition mkcell (mn ext : point) : cell :=
  Cell mn (Pt (fadd (px mn) (px ext)) (fadd (py mn) (py ext)) (if b3 then fadd (pz mn) (pz ext) else 0)).
(** SpatialTree.cpp 14-15, 30-31: the extents are computed from the corners *)
Definition x_ext (c : cell) : Z := fsub (px (c_max c)) (px (c_min c)).
Definition y_ext (c : cell) : Z := fsub (py (c_max c)) (py (c_min c)).
Definition z_ext (c : cell) : Z := if b3 then fsub (pz (c_max c)) (pz (c_min c)) else 0.
(** SpatialTree.cpp 17-22, 33-38: closed on both sides *)
Definition cell_contains (c : cell) (p : point) : bool :=
  (px (c_min c) <=? px p) && (px p <=? px (c_max c)) && ((py (c_min c) <=? py p) && (py p <=? py (c_max c))) &&
  (if b3 then (pz (c_min c) <=? pz p) && (pz p <=? pz (c_max c)) else true).
(** SpatialTree.cpp 24-28, 40-46 *)
Definition intersects (c : cell) (b : bbox) : bool :=
  if (flong (bxmax b) <? px (c_min c)) || (px (c_max c) <? flong (bxmin b)) then false
  else if (flong (bymax b) <? py (c_min c)) || (py (c_max c) <? flong (bymin b)) then false
  else if b3 && ((flong (bzmax b) <? pz (c_min c)) || (pz (c_max c) <? flong (bzmin b))) then false
  else true.
(** geometry.cpp 157-174 *)
Definition box_contains (b : bbox) (p : point) : bool :=
  let xc := (flong (bxmin b) <=? px p) && (px p <? flong (bxmax b)) in
  let yc := (flong (bymin b) <=? py p) && (py p <? flong (bymax b)) in
  let zc := (flong (bzmin b) <=? pz p) && (pz p <? flong (bzmax b)) in
  match num_dims b with
  | 2%nat => xc && yc
  | 3%nat => xc && yc && zc
  | _ => xc
  end.

Variable oc : occupancy.
Variable co : nat -> point.

(** SpatialTree.h 89-108 ([MOItems]) and 198-215 ([SOItems]): pointers, with counts for [Multi].
    [SOItems] compares addresses, [MOItems] the current coordinates (geometry.h 95-113).  The order is
    that of insertion instead of that of the keys.  In C++ the result of a search is undefined after
    the coordinates of a key have changed in a way that changes its order relative to the other keys. *)
Definition items := list (nat * nat).
Definition same_item (p q : nat) : bool :=
  match oc with Single => Nat.eqb p q | Multi => keq (co p) (co q) end.
(** SpatialTree.h 115-125, 225-229 *)
Fixpoint it_add (p : nat) (its : items) : items :=
  match its with
  | [] => [(p, 1%nat)]
  | (q, n) :: t => if same_item p q then (q, match oc with Single => n | Multi => S n end) :: t
                   else (q, n) :: it_add p t
  end.
(** SpatialTree.h 127-141, 231-240; [None]: not found *)
Fixpoint it_remove (p : nat) (its : items) : option items :=
  match its with
  | [] => None
  | (q, n) :: t =>
    if same_item p q then
      match oc, n with
      | Multi, S (S m) => Some ((q, S m) :: t)
      | _, _ => Some t
      end
    else option_map (cons (q, n)) (it_remove p t)
  end.

(** SpatialTree.h 323-346 ([ComponentNode]), 384-411 ([CompositeNode], with [Composite3DNode] if the
    first argument is [true]) *)
Inductive node := Leaf (c : cell) (its : items) | Comp (k3 : bool) (c : cell) (size : Z) (ch : list node).

(** the [i]-th child replaced *)
Definition upd_nth {A} (f : A -> A) : list A -> nat -> list A :=
  fix go (l : list A) (i : nat) {struct l} : list A :=
    match l, i with
    | [], _ => []
    | x :: t, O => f x :: t
    | x :: t, S j => x :: go t j
    end.
Definition upd_opt {A} (f : A -> option A) : list A -> nat -> option (list A) :=
  fix go (l : list A) (i : nat) {struct l} : option (list A) :=
    match l, i with
    | [], _ => None
    | x :: t, O => option_map (fun y => y :: t) (f x)
    | x :: t, S j => option_map (cons x) (go t j)
    end.

(** SpatialTree.h 476-477, 530-532 *)
Definition x_plane (c : cell) : Z := fadd (px (c_min c)) (fhalf (x_ext c)).
Definition y_plane (c : cell) : Z := fadd (py (c_min c)) (fhalf (y_ext c)).
Definition z_plane (c : cell) : Z := fadd (pz (c_min c)) (fhalf (z_ext c)).
(** SpatialTree.h 493-506, 556-574 *)
Definition child_index (k3 : bool) (c : cell) (p : point) : nat :=
  let x := x_plane c <=? px p in
  let y := y_plane c <=? py p in
  let z := z_plane c <=? pz p in
  if k3 then ((if x then 4 else 0) + (if y then 2 else 0) + (if z then 1 else 0))%nat
  else ((if x then 2 else 0) + (if y then 1 else 0))%nat.

(** SpatialTree.h 469-487 *)
Definition new_comp2 (mn : point) (ex ey : Z) : node :=
  let c := mkcell mn (Pt ex ey 0) in
  let hx := fhalf (x_ext c) in
  let hy := fhalf (y_ext c) in
  let h := Pt hx hy 0 in
  Comp false c 0
    [Leaf (mkcell (Pt (px mn) (py mn) 0) h) [];
     Leaf (mkcell (Pt (px mn) (fadd (py mn) hy) 0) h) [];
     Leaf (mkcell (Pt (fadd (px mn) hx) (py mn) 0) h) [];
     Leaf (mkcell (Pt (fadd (px mn) hx) (fadd (py mn) hy) 0) h) []].
(** SpatialTree.h 522-550 *)
Definition new_comp3 (mn : point) (ex ey ez : Z) : node :=
  let c := mkcell mn (Pt ex ey ez) in
  let hx := fhalf (x_ext c) in
  let hy := fhalf (y_ext c) in
  let hz := fhalf (z_ext c) in
  let h := Pt hx hy hz in
  Comp true c 0
    [Leaf (mkcell (Pt (px mn) (py mn) (pz mn)) h) [];
     Leaf (mkcell (Pt (px mn) (py mn) (fadd (pz mn) hz)) h) [];
     Leaf (mkcell (Pt (px mn) (fadd (py mn) hy) (pz mn)) h) [];
     Leaf (mkcell (Pt (px mn) (fadd (py mn) hy) (fadd (pz mn) hz)) h) [];
     Leaf (mkcell (Pt (fadd (px mn) hx) (py mn) (pz mn)) h) [];
     Leaf (mkcell (Pt (fadd (px mn) hx) (py mn) (fadd (pz mn) hz)) h) [];
     Leaf (mkcell (Pt (fadd (px mn) hx) (fadd (py mn) hy) (pz mn)) h) [];
     Leaf (mkcell (Pt (fadd (px mn) hx) (fadd (py mn) hy) (fadd (pz mn) hz)) h) []].

(** SpatialTree.h 348-352, 424-436 with a threshold that is not reached (the largest [int]) *)
Fixpoint put_item (p : nat) (t : node) : node :=
  match t with
  | Leaf c its => Leaf c (it_add p its)
  | Comp k3 c n ch =>
    if cell_contains c (co p) then Comp k3 c (n + 1) (upd_nth (put_item p) ch (child_index k3 c (co p))) else t
  end.
(** SpatialTree.h 367-382, 143-155, 242-254; 451-454 are unreachable *)
Definition split (t : node) : node :=
  match t with
  | Leaf c its =>
    fold_left (fun par e => put_item (fst e) par) its
      (if z_ext c =? 0 then new_comp2 (c_min c) (x_ext c) (y_ext c)
       else new_comp3 (c_min c) (x_ext c) (y_ext c) (z_ext c))
  | Comp _ _ _ _ => t
  end.
(** SpatialTree.h 351: the threshold is converted to [size_t] *)
Definition exceeds (thr : Z) (its : items) : bool := (0 <=? thr) && (thr <? Z.of_nat (length its)).
(** SpatialTree.h 348-352, 424-436 *)
Fixpoint add_item (thr : Z) (p : nat) (t : node) : node * bool :=
  match t with
  | Leaf c its => let its' := it_add p its in (Leaf c its', exceeds thr its')
  | Comp k3 c n ch =>
    if cell_contains c (co p) then
      (Comp k3 c (n + 1)
         (upd_nth (fun x => let (x', s) := add_item thr p x in if s then split x' else x')
            ch (child_index k3 c (co p))), false)
    else (t, false)
  end.
(** SpatialTree.h 354-357, 438-448; [None]: false is returned *)
Fixpoint remove_item (p : nat) (t : node) : option node :=
  match t with
  | Leaf c its => option_map (Leaf c) (it_remove p its)
  | Comp k3 c n ch =>
    if cell_contains c (co p) then
      option_map (Comp k3 c (n - 1)) (upd_opt (remove_item p) ch (child_index k3 c (co p)))
    else None
  end.

(** SpatialTree.h 157-168, 257-268.  [None]: the location map has no entry; a null pointer is
    dereferenced ([Multi]) or returned ([Single]). *)
Fixpoint collect (lm : locmap) (b : bbox) (ps : list nat) : option (list agent) :=
  match ps with
  | [] => Some []
  | p :: t =>
    if box_contains b (co p) then
      match dget (co p) lm with
      | Some l => option_map (app l) (collect lm b t)
      | None => None
      end
    else collect lm b t
  end.
(** SpatialTree.h 359-365, 413-422 *)
Fixpoint within (lm : locmap) (b : bbox) (t : node) : option (list agent) :=
  match t with
  | Leaf c its => if (0 <? Z.of_nat (length its)) && intersects c b then collect lm b (map fst its) else Some []
  | Comp _ c n ch =>
    if (0 <? n) && intersects c b then
      fold_right (fun x r => match within lm b x, r with Some l, Some l' => Some (l ++ l') | _, _ => None end) (Some []) ch
    else Some []
  end.
End Tree.

(** space.h 47-55, cspace.h 29.  [cs_tree]: [None] if the pointer is null (one dimension). *)
Record cspace := CSpace {
  cs_agents : dict uid (agent * option nat);
  cs_locs : locmap;
  cs_wpt : point;
  cs_heap : dict nat point;
  cs_next : nat;
  cs_tree : option node }.

Section CSpaceOps.
Variable oc : occupancy.
Variable bounds : bbox.
Variable thr : Z.
Variable tr : point -> point -> point.

Definition is3 : bool := Nat.eqb (num_dims bounds) 3.
(** cspace.h 44-60, SpatialTree.h 596-610 *)
Definition new_cspace : cspace :=
  let mn := Pt (flong (bxmin bounds)) (flong (bymin bounds)) (flong (bzmin bounds)) in
  CSpace [] [] (Pt 0 0 0) [] 0
    (match num_dims bounds with
     | 2%nat => Some (new_comp2 false mn (flong (bxext bounds)) (flong (byext bounds)))
     | 3%nat => Some (new_comp3 true mn (flong (bxext bounds)) (flong (byext bounds)) (flong (bzext bounds)))
     | _ => None
     end).

Definition coords (h : dict nat point) (q : nat) : point :=
  match dget q h with Some p => p | None => Pt 0 0 0 end.

(** space.h 95-104 *)
Definition cs_add (a : agent) (s : cspace) : cspace :=
  CSpace (dset (a_uid a) (a, None) (cs_agents s)) (cs_locs s) (cs_wpt s) (cs_heap s) (cs_next s) (cs_tree s).

(** SpatialTree.h 615-623: the tree is unchanged if the item is not found *)
Definition tree_remove (h : dict nat point) (q : nat) (t : node) : node :=
  match remove_item is3 oc (coords h) q t with Some t' => t' | None => t end.
Definition tree_add (h : dict nat point) (q : nat) (t : node) : node :=
  fst (add_item is3 oc (coords h) thr q t).

(** cspace.h 77-84, space.h 106-120.  [None]: the process crashes. *)
Definition cs_remove (u : uid) (s : cspace) : option cspace :=
  match dget u (cs_agents s) with
  | None => Some s
  | Some (a, None) => Some (CSpace (ddel u (cs_agents s)) (cs_locs s) (cs_wpt s) (cs_heap s) (cs_next s) (cs_tree s))
  | Some (a, Some q) =>
    match cs_tree s with
    | None => None
    | Some t =>
      let w := coords (cs_heap s) q in
      Some (CSpace (ddel u (cs_agents s)) (fst (acc_remove oc a (cs_locs s) w)) w (cs_heap s) (cs_next s)
                   (Some (tree_remove (cs_heap s) q t)))
    end
  end.

(** cspace.h 86-119 *)
Definition cs_move (a : agent) (to : point) (s : cspace) : option (cspace * result (option point)) :=
  match dget (a_uid a) (cs_agents s) with
  | None => Some (s, ValueError)
  | Some (b, o) =>
    let w := tr to (cs_wpt s) in
    let stay := CSpace (cs_agents s) (cs_locs s) w (cs_heap s) (cs_next s) (cs_tree s) in
    match o with
    | Some q =>
      let p := coords (cs_heap s) q in
      if keq p w then Some (stay, Ok (Some p))
      else
        match acc_put oc a (cs_locs s) w with
        | None => Some (stay, Ok None)
        | Some lm =>
          match cs_tree s with
          | None => None
          | Some t =>
            let t1 := tree_remove (cs_heap s) q t in
            let h := dset q w (cs_heap s) in
            Some (CSpace (cs_agents s) (fst (acc_remove oc a lm p)) w h (cs_next s) (Some (tree_add h q t1)),
                  Ok (Some w))
          end
        end
    | None =>
      match acc_put oc a (cs_locs s) w with
      | None => Some (stay, Ok None)
      | Some lm =>
        match cs_tree s with
        | None => None
        | Some t =>
          let q := cs_next s in
          let h := dset q w (cs_heap s) in
          Some (CSpace (dset (a_uid a) (b, Some q) (cs_agents s)) lm w h (S q) (Some (tree_add h q t)),
                Ok (Some w))
        end
      end
    end
  end.

(** space.h 139-146 *)
Definition cs_location (u : uid) (s : cspace) : option point :=
  match dget u (cs_agents s) with Some (_, Some q) => Some (coords (cs_heap s) q) | _ => None end.
(** cspace.h 65-70 *)
Definition cs_within (b : bbox) (s : cspace) : option (list agent) :=
  match cs_tree s with None => None | Some t => within is3 (coords (cs_heap s)) (cs_locs s) b t end.

Definition cs_step (s : cspace) (o : sop) : option cspace :=
  match o with
  | SAdd a => Some (cs_add a s)
  | SRemove u => cs_remove u s
  | SMove a p => option_map fst (cs_move a p s)
  (* space.h 127-137 *)
  | SGetAgent p | SGetAgents p => Some (CSpace (cs_agents s) (cs_locs s) p (cs_heap s) (cs_next s) (cs_tree s))
  end.
Fixpoint cs_run (s : cspace) (ops : list sop) : option cspace :=
  match ops with
  | [] => Some s
  | o :: t => match cs_step s o with Some s' => cs_run s' t | None => None end
  end.
End CSpaceOps.

(** borders.h on finite coordinates; results that are not finite do not occur with finite bounds *)
Definition dval (d : double) : Z := match d with Fin v => v | _ => 0 end.
Definition to_d (p : point) : dpoint := (Fin (px p), Fin (py p), Fin (pz p)).
Definition c_border (bd : border) (b : bbox) (p w : point) : point :=
  let q := c_transform bd b (to_d p) (to_d w) in Pt (dval (dx q)) (dval (dy q)) (dval (dz q)).
