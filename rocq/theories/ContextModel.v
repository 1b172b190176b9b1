(** [SharedContext], /repo/src/repast4py/context.py: the operations of one process.

    The projections of the model are shared grids (/repo/src/repast4py/space.py 60-271); networks, shared continuous spaces and value
    layers are not part of the contexts modelled here.  The state of an agent (what [save] returns besides the id) is an abstract value
    kept in a map from objects. *)
From Coq Require Import List Arith ZArith Lia Bool.
From Verif Require Import PyDict AgentModel SpaceModel TopologyModel.
Import ListNotations.
Open Scope Z_scope.

(** A shared grid: space.py 86-103.  [p_name] stands for the name, [p_ghosts] for [buffered_agents]. *)
Record proj := Proj {
  p_name : Z; p_oc : occupancy; p_tr : point -> point -> point; p_buf : Z; p_ds : dspace; p_ghosts : list agent }.
Definition upd_ds p d := Proj (p_name p) (p_oc p) (p_tr p) (p_buf p) d (p_ghosts p).
Definition upd_ghosts p l := Proj (p_name p) (p_oc p) (p_tr p) (p_buf p) (p_ds p) l.
Definition p_add (a : agent) (p : proj) : proj := upd_ds p (ds_add a (p_ds p)).
Definition p_remove (u : uid) (p : proj) : proj := upd_ds p (fst (ds_remove (p_oc p) u (p_ds p))).
Definition p_move (a : agent) (q : point) (p : proj) : proj * result (option point) :=
  let '(d, r) := ds_move (p_oc p) (p_tr p) a q (p_ds p) in (upd_ds p d, r).
Definition p_contains (u : uid) (p : proj) : bool := sp_contains u (d_space (p_ds p)).
Definition p_location (u : uid) (p : proj) : option point := sp_location u (d_space (p_ds p)).

(** context.py 31-41.  [bounded_projs] is equal to [projections], as all projections are grids; [c_calls] counts the calls of the
    function that restores agents. *)
Record context := Ctx {
  c_man : manager; c_types : dict Z (dict uid agent); c_projs : dict Z proj; c_removed : list ghosted; c_next : Z;
  c_state : dict nat Z; c_calls : nat }.
Definition new_context (rank : Z) : context := Ctx (new_manager rank) [] [] [] 0 [] 0%nat.
Definition c_rank (c : context) : Z := am_rank (c_man c).
Definition set_man c x := Ctx x (c_types c) (c_projs c) (c_removed c) (c_next c) (c_state c) (c_calls c).
Definition set_types c x := Ctx (c_man c) x (c_projs c) (c_removed c) (c_next c) (c_state c) (c_calls c).
Definition set_projs c x := Ctx (c_man c) (c_types c) x (c_removed c) (c_next c) (c_state c) (c_calls c).
Definition set_removed c x := Ctx (c_man c) (c_types c) (c_projs c) x (c_next c) (c_state c) (c_calls c).
Definition set_next c x := Ctx (c_man c) (c_types c) (c_projs c) (c_removed c) x (c_state c) (c_calls c).
Definition set_state c x := Ctx (c_man c) (c_types c) (c_projs c) (c_removed c) (c_next c) x (c_calls c).
Definition set_calls c x := Ctx (c_man c) (c_types c) (c_projs c) (c_removed c) (c_next c) (c_state c) x.

Definition map_projs (f : proj -> proj) (c : context) : context :=
  set_projs c (map (fun e => (fst e, f (snd e))) (c_projs c)).

(** context.py 53: [_agents_by_type.setdefault(type, OrderedDict())[uid] = agent] *)
Definition type_add (a : agent) (ts : dict Z (dict uid agent)) : dict Z (dict uid agent) :=
  let t := utype (a_uid a) in
  dset t (dset (a_uid a) a (match dget t ts with Some d => d | None => [] end)) ts.
(** [del _agents_by_type[type][uid]]; [None]: [KeyError] *)
Definition type_del (u : uid) (ts : dict Z (dict uid agent)) : option (dict Z (dict uid agent)) :=
  match dget (utype u) ts with
  | Some d => if dmem u d then Some (dset (utype u) (ddel u d) ts) else None
  | None => None
  end.

(** context.py 43-55 *)
Definition ctx_add (a : agent) (c : context) : context :=
  let c := set_man c (add_local a (c_man c)) in
  let c := set_types c (type_add a (c_types c)) in
  map_projs (p_add a) c.

(** context.py 57-60 *)
Definition ctx_add_ghost (r : Z) (a : agent) (c : context) : context :=
  let c := set_man c (add_ghost r a (Z.of_nat (length (c_projs c))) (c_man c)) in
  map_projs (p_add a) c.

(** context.py 70-94 *)
Definition add_projection (p : proj) (c : context) : context * result unit :=
  if existsb (fun e => p_name p =? p_name (snd e)) (c_projs c) then (c, ValueError)
  else
    let p1 := fold_left (fun p a => p_add a p) (dvals (am_local (c_man c))) p in
    let '(m, gs) := add_ghosts_to_projection (c_man c) in
    let p2 := fold_left (fun p a => p_add a p) gs p1 in
    (set_next (set_projs (set_man c m) (dset (c_next c) p2 (c_projs c))) (c_next c + 1), Ok tt).

(** context.py 96-113 *)
Definition get_projection (name : Z) (c : context) : result proj :=
  match find (fun e => p_name (snd e) =? name) (c_projs c) with
  | Some e => Ok (snd e)
  | None => KeyError
  end.

(** context.py 115-128 *)
Definition ctx_remove (u : uid) (c : context) : context * result unit :=
  let '(m, gone, _) := delete_local u (c_man c) in
  let c := set_removed (set_man c m) (c_removed c ++ gone) in
  match type_del u (c_types c) with
  | None => (c, KeyError)
  | Some ts => (map_projs (p_remove u) (set_types c ts), Ok tt)
  end.

(** context.py 310-320 *)
Definition contains_type (t : Z) (c : context) : bool :=
  match dget t (c_types c) with Some d => Nat.ltb 0 (length d) | None => false end.

(** [numpy.random.Generator.shuffle] of a list: for i = n-1, ..., 1 the elements i and j are swapped, where j <= i is drawn.
    [draw i] is an arbitrary number; its remainder modulo i + 1 stands for the drawn one. *)
Fixpoint set_nth {A} (i : nat) (x : A) (l : list A) : list A :=
  match l, i with
  | [], _ => []
  | _ :: t, O => x :: t
  | y :: t, S k => y :: set_nth k x t
  end.
Definition swap {A} (i j : nat) (l : list A) : list A :=
  match nth_error l i, nth_error l j with
  | Some x, Some y => set_nth j x (set_nth i y l)
  | _, _ => l
  end.
Fixpoint shuffle_from {A} (draw : nat -> nat) (i : nat) (l : list A) : list A :=
  match i with
  | O => l
  | S k => shuffle_from draw k (swap i (Nat.modulo (draw i) (S i)) l)
  end.
Definition np_shuffle {A} (draw : nat -> nat) (l : list A) : list A := shuffle_from draw (pred (length l)) l.

(** [lst[:count]]: a negative count leaves out elements at the end. *)
Definition slice_to {A} (n : Z) (l : list A) : list A :=
  if 0 <=? n then firstn (Z.to_nat n) l else firstn (length l - Z.to_nat (- n)) l.

(** context.py 322-358.  Without [count] and [shuffle] the result is an iterator; the model has what it yields if the population does
    not change meanwhile. *)
Definition agents (draw : nat -> nat) (ty : option Z) (count : option Z) (shuffle : bool) (c : context) : result (list agent) :=
  let base := match ty with
              | None => Ok (dvals (am_local (c_man c)))
              | Some t => match dget t (c_types c) with Some d => Ok (dvals d) | None => KeyError end
              end in
  match base with
  | Ok l =>
    let l := if shuffle then np_shuffle draw l else l in
    Ok (match count with Some n => slice_to n l | None => l end)
  | e => e
  end.

(** context.py 360-375 and 377-388 *)
Definition ctx_agent (u : uid) (c : context) : option agent := get_local u (c_man c).
Definition ghost_agent (u : uid) (c : context) : option agent := snd (get_ghost u 0 (c_man c)).

(** context.py 390-407; an empty list counts as [None] *)
Fixpoint size_of (ts : list Z) (c : context) (counts : dict Z nat) : result (dict Z nat) :=
  match ts with
  | [] => Ok counts
  | t :: rest => match dget t (c_types c) with
                 | Some d => size_of rest c (dset t (length d) counts)
                 | None => KeyError
                 end
  end.
Definition size (ts : list Z) (c : context) : result (dict Z nat) :=
  match ts with
  | [] => Ok [(-1, length (am_local (c_man c)))]
  | _ => size_of ts c []
  end.

(** A call on a context of one process, for histories.  [COut] and [CIn] are what happens on this process when an agent moves to and from
    another one (context.py 147-152, 506-507 and 187-192, 519-522). *)
Inductive cop :=
| CAdd (a : agent) | CRemove (u : uid) | COut (u : uid) | CIn (a : agent) | CGhost (r : Z) (a : agent)
| CProjection (p : proj) | CMove (pid : Z) (a : agent) (q : point).
Definition cstep (c : context) (o : cop) : context :=
  match o with
  | CAdd a | CIn a => ctx_add a c
  | CRemove u => fst (ctx_remove u c)
  | COut u =>
    let '(m, o) := remove_local u (c_man c) in
    match o with
    | None => set_man c m
    | Some _ => match type_del u (c_types c) with Some ts => set_types (set_man c m) ts | None => set_man c m end
    end
  | CGhost r a => ctx_add_ghost r a c
  | CProjection p => fst (add_projection p c)
  | CMove pid a q => match dget pid (c_projs c) with
                     | Some p => set_projs c (dset pid (fst (p_move a q p)) (c_projs c))
                     | None => c
                     end
  end.
Definition crun (c : context) (ops : list cop) : context := fold_left cstep ops c.
