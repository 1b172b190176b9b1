(** Bounding boxes, grid borders and the single-process spaces.

    Coordinates are [Z].  For a continuous space a coordinate stands for an order-isomorphic code of
    a double that is not NaN (both zeros have the same code): the space compares coordinates and
    nothing else; the border transformation is then an arbitrary function [tr].
    Overflow of C [long] is not modelled. *)
From Coq Require Import List Arith ZArith Lia Bool.
From Verif Require Import PyDict AgentModel.
Import ListNotations.
Open Scope Z_scope.

(** geometry.h 57-61 *)
Definition point : Type := Z * Z * Z.
Definition px (p : point) : Z := fst (fst p).
Definition py (p : point) : Z := snd (fst p).
Definition pz (p : point) : Z := snd p.
Definition Pt (x y z : Z) : point := (x, y, z).

(** geometry.h 115-136 *)
Record bbox := BBox {
  bxmin : Z; bxext : Z; bymin : Z; byext : Z; bzmin : Z; bzext : Z }.
Definition bxmax b := bxmin b + bxext b.
Definition bymax b := bymin b + byext b.
Definition bzmax b := bzmin b + bzext b.

(** geometry.cpp 83-91 *)
Definition num_dims (b : bbox) : nat :=
  if 0 <? bzext b then 3%nat else if 0 <? byext b then 2%nat else 1%nat.

(** geometry.cpp 125-140 *)
Definition contains (b : bbox) (p : point) : bool :=
  let xc := (bxmin b <=? px p) && (px p <? bxmax b) in
  let yc := (bymin b <=? py p) && (py p <? bymax b) in
  let zc := (bzmin b <=? pz p) && (pz p <? bzmax b) in
  match num_dims b with
  | 2%nat => xc && yc
  | 3%nat => xc && yc && zc
  | _ => xc
  end.

(** borders.h 85-87, discrete points: offset 1 *)
Definition sticky1 (mn mx v : Z) : Z := Z.max mn (Z.min (mx - 1) v).
(** borders.h 52-88 *)
Definition sticky (b : bbox) (p : point) : point :=
  Pt (sticky1 (bxmin b) (bxmax b) (px p)) (sticky1 (bymin b) (bymax b) (py p))
     (sticky1 (bzmin b) (bzmax b) (pz p)).

(** Conversion of a C [long] to [double] (round to nearest, ties to even): the arguments of [fmod]
    in borders.h 97, 106, 109, 118, 121, 124 are [long]. *)
Definition to_double (v : Z) : Z :=
  let a := Z.abs v in
  if a <=? 2 ^ 53 then v
  else
    let e := Z.log2 a - 52 in
    let s := 2 ^ e in
    let q := Z.shiftr a e in
    let r := a - Z.shiftl q e in
    let q' := if 2 * r <? s then q else if s <? 2 * r then q + 1 else if Z.even q then q else q + 1 in
    Z.sgn v * (q' * s).

(** [coord_type nc = fmod(v - min, extent); nc < 0 ? max + nc : min + nc]; [fmod] of integral doubles
    is exact and is the remainder of truncated division. *)
Definition periodic1 (mn ext v : Z) : Z :=
  let nc := Z.rem (to_double (v - mn)) (to_double ext) in
  if nc <? 0 then (mn + ext) + nc else mn + nc.

(** borders.h 93-127 and 149-165; [w] is the point written to: coordinates that are not transformed
    keep the value they have there. *)
Definition periodic (b : bbox) (p w : point) : point :=
  if (0 <? bxext b) && (0 <? byext b) && (0 <? bzext b) then
    Pt (periodic1 (bxmin b) (bxext b) (px p)) (periodic1 (bymin b) (byext b) (py p))
       (periodic1 (bzmin b) (bzext b) (pz p))
  else if (0 <? bxext b) && (0 <? byext b) then
    Pt (periodic1 (bxmin b) (bxext b) (px p)) (periodic1 (bymin b) (byext b) (py p)) (pz w)
  else Pt (periodic1 (bxmin b) (bxext b) (px p)) (py w) (pz w).

Inductive border := Sticky | Periodic.
Definition transform (bd : border) (b : bbox) (p w : point) : point :=
  match bd with Sticky => sticky b p | Periodic => periodic b p w end.

(** occupancy.h 29-114 ([Multi]) and 117-192 ([Single]).  A location maps to the non-empty list of the
    agents there; the single-occupancy map holds one-element lists. *)
Inductive occupancy := Multi | Single.
Definition locmap := dict point (list agent).

Definition same_obj (a b : agent) : bool := Nat.eqb (a_obj a) (a_obj b).

(** occupancy.h 72-80, 160-169 *)
Definition acc_getall (lm : locmap) (p : point) : list agent :=
  match dget p lm with Some l => l | None => [] end.
(** occupancy.h 53-61, 141-149 *)
Definition acc_get (lm : locmap) (p : point) : option agent :=
  match dget p lm with Some (a :: _) => Some a | _ => None end.

(** occupancy.h 82-94 and 171-180 *)
Definition acc_put (oc : occupancy) (a : agent) (lm : locmap) (p : point) : option locmap :=
  match oc with
  | Multi => match dget p lm with
             | None => Some (dset p [a] lm)
             | Some l => Some (dset p (l ++ [a]) lm)
             end
  | Single => match dget p lm with None => Some (dset p [a] lm) | Some _ => None end
  end.

(** [std::find] compares pointers; [list::erase] of the first hit *)
Fixpoint erase_first (a : agent) (l : list agent) : option (list agent) :=
  match l with
  | [] => None
  | b :: t => if same_obj a b then Some t else option_map (cons b) (erase_first a t)
  end.

(** occupancy.h 96-114 and 182-192; the second component is the returned Boolean *)
Definition acc_remove (oc : occupancy) (a : agent) (lm : locmap) (p : point) : locmap * bool :=
  match dget p lm with
  | None => (lm, false)
  | Some l =>
    match oc with
    | Multi => match erase_first a l with
               | None => (lm, false)
               | Some [] => (ddel p lm, true)
               | Some l' => (dset p l' lm, true)
               end
    | Single => (ddel p lm, true)
    end
  end.

(** space.h 47-55; [s_wpt] is the working point.  The spatial tree of a continuous space is modelled
    separately. *)
Record space := Space {
  s_agents : dict uid (agent * option point);
  s_locs : locmap;
  s_wpt : point }.
Definition new_space : space := Space [] [] (Pt 0 0 0).

Section Space.
Variable oc : occupancy.
(** The border transformation: input point, point written to. *)
Variable tr : point -> point -> point.

(** space.h 95-104 *)
Definition sp_add (a : agent) (s : space) : space :=
  Space (dset (a_uid a) (a, None) (s_agents s)) (s_locs s) (s_wpt s).

(** space.h 106-120 *)
Definition sp_remove (u : uid) (s : space) : space * bool :=
  match dget u (s_agents s) with
  | None => (s, false)
  | Some (a, o) =>
    match o with
    | Some p => let (lm, ok) := acc_remove oc a (s_locs s) p in
                (Space (ddel u (s_agents s)) lm p, ok)
    | None => (Space (ddel u (s_agents s)) (s_locs s) (s_wpt s), false)
    end
  end.

(** space.h 127-131 *)
Definition sp_get_agent (p : point) (s : space) : space * option agent :=
  (Space (s_agents s) (s_locs s) p, acc_get (s_locs s) p).
(** space.h 133-137 *)
Definition sp_get_agents (p : point) (s : space) : space * list agent :=
  (Space (s_agents s) (s_locs s) p, acc_getall (s_locs s) p).
(** space.h 139-146 *)
Definition sp_location (u : uid) (s : space) : option point :=
  match dget u (s_agents s) with Some (_, o) => o | None => None end.
(** space.h 148-151 *)
Definition sp_contains (u : uid) (s : space) : bool := dmem u (s_agents s).

(** grid.h 51-81, cspace.h 85-119.  [Ok None]: the location is occupied;
    [ValueError]: [std::invalid_argument], the agent is not in the space. *)
Definition sp_move (a : agent) (to : point) (s : space) : space * result (option point) :=
  match dget (a_uid a) (s_agents s) with
  | None => (s, ValueError)
  | Some (b, o) =>
    let w := tr to (s_wpt s) in
    match o with
    | Some p =>
      if keq p w then (Space (s_agents s) (s_locs s) w, Ok (Some p))
      else
        match acc_put oc a (s_locs s) w with
        | None => (Space (s_agents s) (s_locs s) w, Ok None)
        | Some lm => (Space (dset (a_uid a) (b, Some w) (s_agents s)) (fst (acc_remove oc a lm p)) w,
                      Ok (Some w))
        end
    | None =>
      match acc_put oc a (s_locs s) w with
      | None => (Space (s_agents s) (s_locs s) w, Ok None)
      | Some lm => (Space (dset (a_uid a) (b, Some w) (s_agents s)) lm w, Ok (Some w))
      end
    end
  end.

(** A call on a space, for histories. *)
Inductive sop :=
| SAdd (a : agent) | SRemove (u : uid) | SMove (a : agent) (p : point)
| SGetAgent (p : point) | SGetAgents (p : point).
Definition sstep (s : space) (o : sop) : space :=
  match o with
  | SAdd a => sp_add a s
  | SRemove u => fst (sp_remove u s)
  | SMove a p => fst (sp_move a p s)
  | SGetAgent p => fst (sp_get_agent p s)
  | SGetAgents p => fst (sp_get_agents p s)
  end.
Definition srun (s : space) (ops : list sop) : space := fold_left sstep ops s.
End Space.
