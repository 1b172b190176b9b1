(** Value layers shared between processes: /repo/src/repast4py/value_layer.py 424-989 ([SharedValueLayer]).

    A world is the list of the layers of all ranks.  The collective calls are modelled for all ranks at once: the messages are computed
    from the layers before the call.  An exception of any rank is [None].  [t_dims] of the topology is the number of dimensions of the
    bounds (509); layers of three dimensions are refused (510-511). *)
From Coq Require Import List Arith ZArith Lia Bool.
From Verif Require Import PyDict AgentModel SpaceModel TopologyModel ValueModel.
Import ListNotations.
Open Scope Z_scope.

(** ** Slices of tensors *)
(** The first index and the number of indices of [start:stop] in a dimension of [n] cells. *)
Definition slice1 (n start stop : Z) : Z * Z :=
  let c i := if i <? 0 then Z.max 0 (i + n) else Z.min i n in (c start, Z.max 0 (c stop - c start)).
(** [None]: more or fewer slices than dimensions (fewer do not occur) *)
Fixpoint slices (shape : list Z) (sl : list (Z * Z)) : option (list (Z * Z)) :=
  match shape, sl with
  | [], [] => Some []
  | n :: s, (a, b) :: l => option_map (cons (slice1 n a b)) (slices s l)
  | _, _ => None
  end.
Definition zrange (n : Z) : list Z := map Z.of_nat (seq 0 (Z.to_nat n)).
(** The index tuples of a shape in row-major order and the position of an index tuple in it. *)
Fixpoint offs (lens : list Z) : list (list Z) :=
  match lens with [] => [[]] | n :: l => flat_map (fun i => map (cons i) (offs l)) (zrange n) end.
Definition prod (l : list Z) : Z := fold_right Z.mul 1 l.
Fixpoint flat (lens o : list Z) : Z :=
  match lens, o with n :: l, i :: o => i * prod l + flat l o | _, _ => 0 end.
Fixpoint idx_add (a b : list Z) : list Z := match a, b with x :: a, y :: b => (x + y) :: idx_add a b | _, _ => [] end.
Fixpoint idx_sub (a b : list Z) : list Z := match a, b with x :: a, y :: b => (x - y) :: idx_sub a b | _, _ => [] end.
Fixpoint in_box (bx : list (Z * Z)) (j : list Z) : bool :=
  match bx, j with
  | [], [] => true
  | (a, n) :: bx, i :: j => (a <=? i) && (i <? a + n) && in_box bx j
  | _, _ => false
  end.
(** Broadcasting: a dimension of one cell is repeated. *)
Fixpoint fits (shape lens : list Z) : bool :=
  match shape, lens with
  | [], [] => true
  | s :: shape, n :: lens => ((s =? n) || (s =? 1)) && fits shape lens
  | _, _ => false
  end.
Fixpoint squeeze (shape o : list Z) : list Z :=
  match shape, o with s :: shape, i :: o => (if s =? 1 then 0 else i) :: squeeze shape o | _, _ => [] end.

Section Shared.
Variable V : Type.
(** [grid[box]] in row-major order *)
Definition tread (g : tensor V) (bx : list (Z * Z)) : list V := map (fun o => t_cells g (idx_add (map fst bx) o)) (offs (map snd bx)).
(** [grid[box] = values.reshape(shape)] *)
Definition twrite (g : tensor V) (bx : list (Z * Z)) (shape : list Z) (vals : list V) : option (tensor V) :=
  if fits shape (map snd bx)
  then Some (Tensor (t_shape g) (fun j =>
    if in_box bx j then nth (Z.to_nat (flat shape (squeeze shape (idx_sub j (map fst bx))))) vals (t_cells g j) else t_cells g j))
  else None.
(** [grid[dst] = grid[src]] *)
Definition tcopy (g : tensor V) (dst src : list (Z * Z)) : option (tensor V) :=
  match slices (t_shape g) src, slices (t_shape g) dst with
  | Some s, Some d => twrite g d (map snd s) (tread g s)
  | _, _ => None
  end.

(** ** The constructor *)
(** 590-669, one dimension; [alone]: what is used without a neighbor on either side *)
Definition buffered1 (per : bool) (gmin gext lmin lext buf : Z) (alone : Z * Z) : Z * Z :=
  if per then (if gmin <? lmin then lmin - buf else 0, lext + buf * 2)
  else if gmin <? lmin then (lmin - buf, if lmin + lext <? gmin + gext then lext + buf * 2 else lext + buf)
  else if lmin + lext <? gmin + gext then (0, lext + buf)
  else alone.
Definition buffered_bounds (t : topo) (buf r : Z) : bbox :=
  let b := t_box t in let l := local_bounds t r in
  let '(x, xe) := buffered1 (t_per t) (bxmin b) (bxext b) (bxmin l) (bxext l) buf (0, 0) in
  let '(y, ye) := if 0 <? byext b then buffered1 (t_per t) (bymin b) (byext b) (bymin l) (byext l) buf (bymin l, byext l) else (0, 0) in
  let '(z, ze) := if 0 <? bzext b then buffered1 (t_per t) (bzmin b) (bzext b) (bzmin l) (bzext l) buf (0, 0) else (0, 0) in
  BBox x xe y ye z ze.
Definition layer_bounds (t : topo) (buf r : Z) : bbox := if 1 <? t_size t then buffered_bounds t buf r else local_bounds t r.
Definition layer_border (t : topo) : border := if t_per t then Periodic else Sticky.
(** 515-518 *)
Definition shift1 (per : bool) (buf mn tr : Z) : Z := if per && (tr =? 0) then buf - mn else tr.
Definition shifted (t : topo) (buf : Z) (tr : point) : point :=
  let b := t_box t in
  Pt (shift1 (t_per t) buf (bxmin b) (px tr)) (if Nat.eqb (t_dims t) 1 then py tr else shift1 (t_per t) buf (bymin b) (py tr)) (pz tr).
Definition with_trans (l : layer V) (tr : point) : layer V :=
  Layer V (ly_bounds V l) (ly_border V l) tr (ly_trans1 V l) (ly_ngh V l) (ly_tpt V l) (ly_grid V l).
Definition with_grid (l : layer V) (g : tensor V) : layer V :=
  Layer V (ly_bounds V l) (ly_border V l) (ly_trans V l) (ly_trans1 V l) (ly_ngh V l) (ly_tpt V l) g.
(** 536-552 *)
Definition sv_fill (t : topo) (r : Z) (fill : option V) (l : layer V) : option (layer V) :=
  match fill with
  | None => Some l
  | Some v =>
    let lb := local_bounds t r in let tr := ly_trans V l in
    let sx := (bxmin lb + px tr, bxmin lb + bxext lb + px tr) in
    let sy := (bymin lb + py tr, bymin lb + byext lb + py tr) in
    match slices (t_shape (ly_grid V l)) (if Nat.eqb (t_dims t) 1 then [sx] else [sy; sx]) with
    | None => None
    | Some bx => Some (with_grid l (Tensor (t_shape (ly_grid V l)) (fun j => if in_box bx j then v else t_cells (ly_grid V l) j)))
    end
  end.
(** 554-561, 563-569: [-b:] is the slice from [-b] to the end *)
Definition buffer_self_x (buf : Z) (lb : bbox) (g : tensor V) : option (tensor V) :=
  let rows := (buf, buf + byext lb) in let n := last (t_shape g) 0 in
  match tcopy g [rows; (- buf, n)] [rows; (buf, buf * 2)] with
  | Some g => tcopy g [rows; (0, buf)] [rows; (- buf * 2, - buf)]
  | None => None
  end.
Definition buffer_self_y (buf : Z) (lb : bbox) (g : tensor V) : option (tensor V) :=
  let cols := (buf, buf + bxext lb) in let n := hd 0 (t_shape g) in
  match tcopy g [(- buf, n); cols] [(buf, buf * 2); cols] with
  | Some g => tcopy g [(0, buf); cols] [(- buf * 2, - buf); cols]
  | None => None
  end.
(** 515, 520-527, 571-573 *)
Definition buffer_self (t : topo) (buf r : Z) (l : layer V) : option (layer V) :=
  let lb := local_bounds t r in
  let g := if t_per t && (px (t_procs t) =? 1) then buffer_self_x buf lb (ly_grid V l) else Some (ly_grid V l) in
  match g with
  | None => None
  | Some g => option_map (with_grid l)
      (if t_per t && negb (Nat.eqb (t_dims t) 1) && (py (t_procs t) =? 1) then buffer_self_y buf lb g else Some g)
  end.
(** 489-529; [rnd]: the random values *)
Definition sv_new (t : topo) (buf : Z) (fill : option V) (r : Z) (rnd : list Z -> V) : option (layer V) :=
  if Nat.eqb (t_dims t) 3 then None else
  let l := new_layer V (layer_bounds t buf r) (layer_border t) rnd in
  match sv_fill t r fill (with_trans l (shifted t buf (ly_trans V l))) with
  | Some l => buffer_self t buf r l
  | None => None
  end.

(** ** Synchronization *)
(** The extents and the origin of a range, in the order of the tensor. *)
Definition range_shape (dims : nat) (g : brange) : list Z :=
  if Nat.eqb dims 1 then [rx1 g - rx0 g] else [ry1 g - ry0 g; rx1 g - rx0 g].
(** 671-683, 747-764: the slice that is sent *)
Definition send_slice (dims : nat) (tr : point) (g : brange) : list (Z * Z) :=
  let sx := (rx0 g + px tr, rx0 g + px tr + (rx1 g - rx0 g)) in
  let sy := (ry0 g + py tr, ry0 g + py tr + (ry1 g - ry0 g)) in
  if Nat.eqb dims 1 then [sx] else [sy; sx].
(** 688-695, 771-780: the number of slices for which there is room in the meta data of one pair of ranks *)
Definition slots (t : topo) : nat :=
  let '(nx, ny, _) := t_procs t in
  if Nat.eqb (t_dims t) 1 then (if negb (nx =? 2) && t_per t then 1%nat else 2%nat)
  else if t_per t then
    (if (nx =? 2) && (ny =? 2) then 4%nat else if (nx =? 2) || (ny =? 2) then (if t_size t =? 2 then 6%nat else 2%nat) else 1%nat)
  else 1%nat.
(** The slices are sorted by rank (685, 767; the sort is stable), so that those for rank [d] are in the order of the topology. *)
Definition ranges_to (t : topo) (buf n d : Z) : option (list brange) :=
  option_map (fun l => map snd (filter (fun e => fst e =? d) l)) (neighbor_buffers t buf n).
(** 966-971: each slice is written at the displacement of the rank, over the ones before *)
Fixpoint segment (dims : nat) (l : layer V) (seg : list V) (gs : list brange) : option (list V) :=
  match gs with
  | [] => Some seg
  | g :: gs =>
    match slices (t_shape (ly_grid V l)) (send_slice dims (ly_trans V l) g) with
    | None => None
    | Some bx =>
      let vs := tread (ly_grid V l) bx in
      if Z.of_nat (length vs) =? prod (range_shape dims g) then segment dims l (vs ++ skipn (length vs) seg) gs else None
    end
  end.
(** 697-702, 787-794 and 966-973: the meta data and the data from rank [n] to rank [d] *)
Definition message (t : topo) (buf : Z) (w : list (layer V)) (n d : Z) : option (list brange * list V) :=
  match nth_error w (Z.to_nat n), ranges_to t buf n d with
  | Some l, Some gs =>
    if Nat.leb (length gs) (slots t) then option_map (fun s => (gs, s)) (segment (t_dims t) l [] gs) else None
  | _, _ => None
  end.
(** 810-815 *)
Definition recv_trans (t : topo) (tr : point) (i : nat) : point :=
  let '(nx, ny, _) := t_procs t in
  if Nat.eqb (t_dims t) 1 then tr
  else if nx =? 1 then Pt (nth i [0; 0; 0; 0; px tr; px tr] (px tr)) (py tr) (pz tr)
  else if ny =? 1 then Pt (px tr) (nth i [0; py tr; 0; py tr; py tr; py tr] (py tr)) (pz tr)
  else tr.
(** 575-588 *)
Definition wrap_start (per : bool) (procs full local buf start : Z) : Z :=
  if 1 <? procs then (if start <? 0 then start + full else if full <=? start then start - full else start)
  else if (start =? local) && per then start + buf else start.
(** 720-738, 817-847 *)
Definition recv_slice (t : topo) (buf r : Z) (tr : point) (i : nat) (g : brange) : list (Z * Z) :=
  let tr := recv_trans t tr i in let b := t_box t in let lb := local_bounds t r in
  let x := wrap_start (t_per t) (px (t_procs t)) (bxext b) (bxext lb) buf (rx0 g + px tr) in
  let y := wrap_start (t_per t) (py (t_procs t)) (byext b) (byext lb) buf (ry0 g + py tr) in
  let sx := (x, x + (rx1 g - rx0 g)) in let sy := (y, y + (ry1 g - ry0 g)) in
  if Nat.eqb (t_dims t) 1 then [sx] else [sy; sx].
(** The slices from one rank (722-740, 820-849: up to the first without rows), each of which is read from the displacement of the rank
    (980-984); what the send buffer has behind the slices is never read. *)
Fixpoint receive (t : topo) (buf r : Z) (i : nat) (gs : list brange) (seg : list V) (l : layer V) : option (layer V) :=
  match gs with
  | [] => Some l
  | g :: gs =>
    let shape := range_shape (t_dims t) g in
    if hd 0 shape =? 0 then Some l else
    match slices (t_shape (ly_grid V l)) (recv_slice t buf r (ly_trans V l) i g) with
    | None => None
    | Some bx =>
      match twrite (ly_grid V l) bx shape (firstn (Z.to_nat (prod shape)) seg) with
      | None => None
      | Some g' => receive t buf r (S i) gs seg (with_grid l g')
      end
    end
  end.
Fixpoint receive_all (t : topo) (buf r : Z) (w : list (layer V)) (ns : list Z) (l : layer V) : option (layer V) :=
  match ns with
  | [] => Some l
  | n :: ns =>
    match message t buf w n r with
    | Some (gs, seg) => match receive t buf r 0 gs seg l with Some l => receive_all t buf r w ns l | None => None end
    | None => None
    end
  end.
Definition synch_rank (t : topo) (buf : Z) (w : list (layer V)) (r : Z) : option (layer V) :=
  match nth_error w (Z.to_nat r) with
  | Some l => match receive_all t buf r w (zrange (t_size t)) l with Some l => buffer_self t buf r l | None => None end
  | None => None
  end.
Fixpoint all_some {A : Type} (l : list (option A)) : option (list A) :=
  match l with
  | [] => Some []
  | Some x :: l => option_map (cons x) (all_some l)
  | None :: _ => None
  end.
(** 957-989 on all ranks; a single process has no [send_data] (531-534): [AttributeError] *)
Definition sv_synch (t : topo) (buf : Z) (w : list (layer V)) : option (list (layer V)) :=
  if 1 <? t_size t then all_some (map (synch_rank t buf w) (zrange (t_size t))) else None.
(** 489-534 on all ranks *)
Definition sv_world (t : topo) (buf : Z) (fill : option V) (rnd : Z -> list Z -> V) : option (list (layer V)) :=
  match all_some (map (fun r => sv_new t buf fill r (rnd r)) (zrange (t_size t))) with
  | Some w => if 1 <? t_size t then sv_synch t buf w else Some w
  | None => None
  end.

(** [get] and [set] of rank [r], and synchronization by all ranks; the operations without exceptions are those with a result. *)
Inductive svop := SvSet (r : Z) (p : point) (v : V) | SvGet (r : Z) (p : point) | SvSynch.
Fixpoint update {A : Type} (l : list A) (n : nat) (x : A) : list A :=
  match l, n with [], _ => [] | _ :: l, O => x :: l | y :: l, S n => y :: update l n x end.
Definition sv_step (t : topo) (buf : Z) (w : list (layer V)) (o : svop) : option (list (layer V)) :=
  match o with
  | SvSet r p v => option_map (fun l => update w (Z.to_nat r) (fst (vl_set V l p v))) (nth_error w (Z.to_nat r))
  | SvGet r p => option_map (fun l => update w (Z.to_nat r) (fst (vl_get V l p))) (nth_error w (Z.to_nat r))
  | SvSynch => sv_synch t buf w
  end.
Fixpoint sv_run (t : topo) (buf : Z) (w : list (layer V)) (ops : list svop) : option (list (layer V)) :=
  match ops with [] => Some w | o :: ops => match sv_step t buf w o with Some w => sv_run t buf w ops | None => None end end.
(** What [get] of rank [r] returns. *)
Definition sv_get (w : list (layer V)) (r : Z) (p : point) : option V :=
  match nth_error w (Z.to_nat r) with Some l => snd (vl_get V l p) | None => None end.
End Shared.
Arguments SvSet {V}. Arguments SvGet {V}. Arguments SvSynch {V}.
