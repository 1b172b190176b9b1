(** Cartesian topology: /repo/src/repast4py/distributed_space.cpp and distributed_space.h.

    Points stand for the coordinates of a process, too; in dimensions that are not used there is one process with coordinate 0.
    The extents are not negative, so that C's [/] and [%] are [Z.div] and [Z.modulo]. *)
From Coq Require Import List Arith ZArith Lia Bool.
From Verif Require Import PyDict AgentModel SpaceModel.
Import ListNotations.
Open Scope Z_scope.

(** distributed_space.h 47-54.  [t_procs]: the result of [MPI_Dims_create] (some factorisation of the number of processes)
    or the argument of the second constructor. *)
Record topo := Topo { t_dims : nat; t_procs : point; t_per : bool; t_box : bbox }.

Definition t_size (t : topo) : Z := px (t_procs t) * py (t_procs t) * pz (t_procs t).
(** [MPI_Cart_coords]: row-major order of the ranks *)
Definition cart_coords (t : topo) (r : Z) : point :=
  let '(_, ny, nz) := t_procs t in Pt (r / (ny * nz)) (r / nz mod ny) (r mod nz).
(** [MPI_Cart_rank]: coordinates out of range are shifted back into it in periodic dimensions, and an error in others,
    where the callers avoid them. *)
Definition cart_wrap (per : bool) (n c : Z) : Z := if per then c mod n else c.
Definition cart_rank (t : topo) (c : point) : Z :=
  let '(nx, ny, nz) := t_procs t in
  (cart_wrap (t_per t) nx (px c) * ny + cart_wrap (t_per t) ny (py c)) * nz + cart_wrap (t_per t) nz (pz c).

(** distributed_space.cpp 281-290 *)
Definition adjust_min_extent (coord remainder mn ext : Z) : Z * Z :=
  if 0 <? remainder then
    (if (0 <? coord) && (coord <? remainder) then mn + (remainder - (remainder - coord))
     else if remainder <=? coord then mn + remainder else mn,
     ext + (if coord <? remainder then 1 else 0))
  else (mn, ext).
(** distributed_space.cpp 301-303, 311-313, 317-319: one dimension *)
Definition local1 (mn ext procs coord : Z) : Z * Z :=
  let e := ext / procs in adjust_min_extent coord (ext mod procs) (mn + e * coord) e.
(** distributed_space.cpp 298-323 *)
Definition local_bounds (t : topo) (r : Z) : bbox :=
  let b := t_box t in
  let c := cart_coords t r in
  let '(xmin, xext) := local1 (bxmin b) (bxext b) (px (t_procs t)) (px c) in
  let '(ymin, yext) := if Nat.ltb 1 (t_dims t) then local1 (bymin b) (byext b) (py (t_procs t)) (py c) else (0, 0) in
  let '(zmin, zext) := if Nat.eqb (t_dims t) 3 then local1 (bzmin b) (bzext b) (pz (t_procs t)) (pz c) else (0, 0) in
  BBox xmin xext ymin yext zmin zext.

(** The offsets tried in one dimension.  [all]: the list before the adjustment; [std::list::front]/[back] are -1 and 1. *)
Definition prune (n c : Z) (all : list Z) : list Z :=
  let l := if c + hd 0 all <? 0 then tl all else all in
  if n <=? c + last l 0 then removelast l else l.
(** distributed_space.cpp 342-346, 359-377, 413-422 *)
Definition offsets (per : bool) (n c : Z) (all : list Z) : list Z := if per then all else prune n c all.
(** distributed_space.cpp 399-412: only in three dimensions is a periodic dimension with one process treated specially *)
Definition offsets3 (per : bool) (n c : Z) : list Z :=
  if per then (if n =? 1 then [0] else [-1; 0; 1]) else prune n c [-1; 0; 1].

Definition pt_add (c d : point) : point := Pt (px c + px d) (py c + py d) (pz c + pz d).

(** distributed_space.cpp 330-452: rank and coordinates of each neighbor (in unused dimensions the code has -1, which it does not use) *)
Definition neighbors (t : topo) (r : Z) : list (Z * point) :=
  let c := cart_coords t r in
  let '(nx, ny, nz) := t_procs t in
  let per := t_per t in
  let ngh d := let n := cart_rank t (pt_add c d) in (n, cart_coords t n) in
  match t_dims t with
  | 1%nat => map (fun x => ngh (Pt x 0 0)) (offsets per nx (px c) [-1; 1])
  | 2%nat =>
    filter (fun e => negb (fst e =? r))
      (map ngh (filter (fun d => negb ((px d =? 0) && (py d =? 0)))
        (flat_map (fun x => map (fun y => Pt x y 0) (offsets per ny (py c) [-1; 0; 1])) (offsets per nx (px c) [-1; 0; 1]))))
  | _ =>
    map ngh (filter (fun d => negb ((px d =? 0) && (py d =? 0) && (pz d =? 0)))
      (flat_map (fun x => flat_map (fun y => map (fun z => Pt x y z) (offsets3 per nz (pz c)))
        (offsets3 per ny (py c))) (offsets3 per nx (px c))))
  end.

(** ** Buffers *)
(** The range sent to a neighbor: xmin, xmax, ymin, ymax, zmin, zmax. *)
Record brange := BRange { rx0 : Z; rx1 : Z; ry0 : Z; ry1 : Z; rz0 : Z; rz1 : Z }.

(** distributed_space.cpp 45-51, 53-59, 61-67: one dimension *)
Definition buffer1 (o mn mx lo hi buf : Z) : Z * Z :=
  if (o =? -1) || (1 <? o) then (mn, mn + buf)
  else if (o =? 1) || (o <? -1) then (mx - buf, mx - buf + buf)
  else (lo, hi).
(** distributed_space.cpp 23-77 *)
Definition buffer_bounds (o : point) (dims : nat) (b : bbox) (buf : Z) : brange :=
  let '(ylo, yhi) := match dims with 2%nat | 3%nat => (bymin b, bymax b) | _ => (0, 0) end in
  let '(zlo, zhi) := match dims with 3%nat => (bzmin b, bzmax b) | _ => (0, 0) end in
  let '(x0, x1) := buffer1 (px o) (bxmin b) (bxmax b) (bxmin b) (bxmax b) buf in
  let '(y0, y1) := buffer1 (py o) (bymin b) (bymax b) ylo yhi buf in
  let '(z0, z1) := buffer1 (pz o) (bzmin b) (bzmax b) zlo zhi buf in
  BRange x0 x1 y0 y1 z0 z1.

(** The offsets used for each neighbor.  An entry is the neighbor's rank and the difference of the coordinates; the functions are
    generic in the type of the ranks, of which they use equality only. *)
Section Offsets.
Context {K : Type} (eqb : K -> K -> bool).
Definition occurs (k : K) (l : list (K * point)) : nat := length (filter (fun e => eqb k (fst e)) l).

(** distributed_space.cpp 85-97; [pre]: the entries before *)
Fixpoint offsets_1d (pre l : list (K * point)) : list (K * point) :=
  match l with
  | [] => []
  | (k, o) :: t =>
    let o' := if Nat.ltb 0 (occurs k pre) then (if px o <? 0 then 1 else -1) else px o in
    (k, Pt o' 0 0) :: offsets_1d (pre ++ [(k, o)]) t
  end.

(** distributed_space.cpp 119-148: [cnt] and the offsets [ox], [oy] of the first occurrence; the empty list stands for a missing entry *)
Definition fixed_offsets (x2 y2 : bool) (cnt : nat) (ox oy : Z) : list (Z * Z) :=
  match cnt with
  | 1%nat => [(ox, oy)]
  | 2%nat => if x2 && negb (ox =? 0) then [(1, oy); (-1, oy)]
             else if y2 && negb (oy =? 0) then [(ox, 1); (ox, -1)] else []
  | 4%nat => [(1, 1); (1, -1); (-1, 1); (-1, -1)]
  | 6%nat => if x2 then [(-1, -1); (-1, 1); (1, -1); (1, 1); (-1, 0); (1, 0)]
             else if y2 then [(-1, -1); (-1, 1); (1, -1); (1, 1); (0, -1); (0, 1)] else []
  | _ => []
  end.
(** distributed_space.cpp 98-159.  [None]: an element of an empty vector is read (154-156), undefined behaviour. *)
Fixpoint offsets_2d (x2 y2 : bool) (all pre l : list (K * point)) : option (list (K * point)) :=
  match l with
  | [] => Some []
  | (k, o) :: t =>
    let o1 := match find (fun e => eqb k (fst e)) all with Some e => snd e | None => o end in
    match nth_error (fixed_offsets x2 y2 (occurs k all) (px o1) (py o1)) (occurs k pre), offsets_2d x2 y2 all (pre ++ [(k, o)]) t with
    | Some (a, b), Some r => Some ((k, Pt a b 0) :: r)
    | _, _ => None
    end
  end.

(** distributed_space.cpp 187-202 *)
Definition flip (two : bool) (o : Z) : Z :=
  if two then (if o <? 0 then 1 else if 0 <? o then -1 else o) else o.
(** distributed_space.cpp 179-206 *)
Fixpoint offsets_3d (x2 y2 z2 : bool) (pre l : list (K * point)) : list (K * point) :=
  match l with
  | [] => []
  | (k, o) :: t =>
    let o' := if Nat.ltb 0 (occurs k pre) then Pt (flip x2 (px o)) (flip y2 (py o)) (flip z2 (pz o)) else o in
    (k, o') :: offsets_3d x2 y2 z2 (pre ++ [(k, o)]) t
  end.
End Offsets.

(** distributed_space.cpp 79-207: neighbor ranks and ranges *)
Definition neighbor_buffers (t : topo) (buf : Z) (r : Z) : option (list (Z * brange)) :=
  let c := cart_coords t r in
  let '(nx, ny, nz) := t_procs t in
  let l := map (fun e => (fst e, Pt (px (snd e) - px c) (py (snd e) - py c) (pz (snd e) - pz c))) (neighbors t r) in
  let os := match t_dims t with
            | 1%nat => Some (offsets_1d Z.eqb [] l)
            | 2%nat => offsets_2d Z.eqb (nx =? 2) (ny =? 2) l [] l
            | _ => Some (offsets_3d Z.eqb (nx =? 2) (ny =? 2) (nz =? 2) [] l)
            end in
  option_map (map (fun e => (fst e, buffer_bounds (snd e) (t_dims t) (local_bounds t r) buf))) os.

(** The cells of a range: the loops of space.py 213-259 ([_gather_1d], [_gather_2d], [_gather_3d]). *)
Definition in_range (dims : nat) (g : brange) (p : point) : bool :=
  ((rx0 g <=? px p) && (px p <? rx1 g)) &&
  (match dims with 1%nat => true | _ => (ry0 g <=? py p) && (py p <? ry1 g) end) &&
  (match dims with 3%nat => (rz0 g <=? pz p) && (pz p <? rz1 g) | _ => true end).

(** ** Distributed space *)
(** distributed_space.h 177-213: the boxes of the neighbors, then those of the other ranks *)
Definition all_bounds (t : topo) (r : Z) : list (bbox * Z) :=
  let ns := map fst (neighbors t r) in
  map (fun n => (local_bounds t n, n)) ns ++
  map (fun i => (local_bounds t i, i))
    (filter (fun i => negb (i =? r) && negb (existsb (Z.eqb i) ns)) (map Z.of_nat (seq 0 (Z.to_nat (t_size t))))).

(** distributed_space.h 80-94: the space of one rank; [d_oob]: [out_of_bounds_agents] *)
Record dspace := DSpace { d_topo : topo; d_rank : Z; d_space : space; d_oob : dict uid (Z * point) }.
Definition new_dspace (t : topo) (r : Z) : dspace := DSpace t r new_space [].
Definition upd_space d s := DSpace (d_topo d) (d_rank d) s (d_oob d).

Section DSpace.
Variable oc : occupancy.
Variable tr : point -> point -> point.
(** distributed_space.h 215-218 *)
Definition ds_add (a : agent) (d : dspace) : dspace := upd_space d (sp_add a (d_space d)).
(** distributed_space.h 220-223, 230-234, 256-266 *)
Definition ds_remove (u : uid) (d : dspace) : dspace * bool :=
  let '(s, b) := sp_remove oc u (d_space d) in
  (DSpace (d_topo d) (d_rank d) s (ddel u (d_oob d)), b).
(** distributed_space.h 268-295 *)
Definition ds_move (a : agent) (to : point) (d : dspace) : dspace * result (option point) :=
  let '(s, res) := sp_move oc tr a to (d_space d) in
  match res with
  | Ok (Some pt) =>
    let oob := ddel (a_uid a) (d_oob d) in
    let oob := if contains (local_bounds (d_topo d) (d_rank d)) pt then oob
               else match find (fun e => contains (fst e) pt) (all_bounds (d_topo d) (d_rank d)) with
                    | Some (_, n) => dset (a_uid a) (n, pt) oob
                    | None => oob
                    end in
    (DSpace (d_topo d) (d_rank d) s oob, res)
  | _ => (upd_space d s, res)
  end.
(** distributed_space.h 307-316 *)
Definition ds_clear (d : dspace) : dspace := DSpace (d_topo d) (d_rank d) (d_space d) [].

Definition dstep (d : dspace) (o : sop) : dspace :=
  match o with
  | SAdd a => ds_add a d
  | SRemove u => fst (ds_remove u d)
  | SMove a p => fst (ds_move a p d)
  | SGetAgent p => upd_space d (fst (sp_get_agent p (d_space d)))
  | SGetAgents p => upd_space d (fst (sp_get_agents p (d_space d)))
  end.
Definition drun (d : dspace) (ops : list sop) : dspace := fold_left dstep ops d.
End DSpace.
