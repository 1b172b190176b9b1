(** A grid with its memory: the objects that python holds references to, the points and the lists that
    the grid hands out, and iterators.

    /repo/src/repast4py/spacemodule.cpp (DiscretePoint 35-331, Grid 755-970), space.h, grid.h,
    occupancy.h, core.h 42-95, coremodule.cpp 21-50.  [SpaceModel.v] has the same calls on values.

    An object is a number; numbers are not used again.  [None] as a result of a call: the call follows
    a pointer to memory that was freed (its behaviour is undefined).  The program is an arbitrary
    sequence of calls whose arguments are objects that the program has a reference to.

    Not modelled: overflow of reference counts, the end of the grid itself (its iterators must not be
    used any more then), garbage collection of cycles, points of subclasses. *)
From Coq Require Import List Arith ZArith Lia Bool.
From Verif Require Import PyDict AgentModel SpaceModel.
Import ListNotations.
Open Scope Z_scope.

(** occupancy.h 24-25: [std::shared_ptr<std::list<R4Py_Agent*>>]; an element of a [std::list] is a node
    that keeps its identity, and iterators point to nodes.  [ValType] of the accessors: occupancy.h 35
    and 125. *)
Inductive lval := LList (l : nat) | LOne (a : agent).
Notation node := (nat * agent)%type.
(** core.h 60-79: the list and the node that is next; [None]: [end()] *)
Record iter := It { it_list : nat; it_pos : option nat }.

(** space.h 52-57 and 39.  [m_arc]: the agents that are not freed with their reference counts; [m_pts]: the
    points that are not freed with their coordinates and reference counts; [m_map]: the keys of the map are
    pointers into an agent (the first component); the item is an agent and a pointer to a point
    (space_types.h 15-18). *)
Record mem := Mem {
  m_arc : dict nat nat;
  m_pts : dict nat (point * nat);
  m_nxt : nat;
  m_lists : dict nat (list node);
  m_map : dict uid (agent * (agent * option nat));
  m_loc : dict point lval;
  m_wpt : point }.

Definition set_arc m x := Mem x (m_pts m) (m_nxt m) (m_lists m) (m_map m) (m_loc m) (m_wpt m).
Definition set_pts m x := Mem (m_arc m) x (m_nxt m) (m_lists m) (m_map m) (m_loc m) (m_wpt m).
Definition set_nxt m x := Mem (m_arc m) (m_pts m) x (m_lists m) (m_map m) (m_loc m) (m_wpt m).
Definition set_lists m x := Mem (m_arc m) (m_pts m) (m_nxt m) x (m_map m) (m_loc m) (m_wpt m).
Definition set_map m x := Mem (m_arc m) (m_pts m) (m_nxt m) (m_lists m) x (m_loc m) (m_wpt m).
Definition set_loc m x := Mem (m_arc m) (m_pts m) (m_nxt m) (m_lists m) (m_map m) x (m_wpt m).
Definition set_wpt m x := Mem (m_arc m) (m_pts m) (m_nxt m) (m_lists m) (m_map m) (m_loc m) x.

(** List 0 is the static empty list (occupancy.h 31, 49-50, 121, 137-138). *)
Definition new_mem : mem := Mem [] [] 1 [(0%nat, [])] [] [] (Pt 0 0 0).

(** [Py_INCREF], [Py_DECREF] of an agent *)
Definition aincr (a : agent) (m : mem) : option mem :=
  match dget (a_obj a) (m_arc m) with
  | Some n => Some (set_arc m (dset (a_obj a) (S n) (m_arc m)))
  | None => None
  end.
Definition adecr (a : agent) (m : mem) : option mem :=
  match dget (a_obj a) (m_arc m) with
  | Some (S (S n)) => Some (set_arc m (dset (a_obj a) (S n) (m_arc m)))
  | Some _ => Some (set_arc m (ddel (a_obj a) (m_arc m)))
  | None => None
  end.
(** the same of a point *)
Definition pincr (p : nat) (m : mem) : option mem :=
  match dget p (m_pts m) with
  | Some (v, n) => Some (set_pts m (dset p (v, S n) (m_pts m)))
  | None => None
  end.
Definition pdecr (p : nat) (m : mem) : option mem :=
  match dget p (m_pts m) with
  | Some (v, S (S n)) => Some (set_pts m (dset p (v, S n) (m_pts m)))
  | Some _ => Some (set_pts m (ddel p (m_pts m)))
  | None => None
  end.

(** geometry.cpp 28-33 *)
Definition pread (p : nat) (m : mem) : option point :=
  match dget p (m_pts m) with Some (v, _) => Some v | None => None end.
(** geometry.cpp 35-42 *)
Definition pwrite (p : nat) (w : point) (m : mem) : option mem :=
  match dget p (m_pts m) with
  | Some (_, n) => Some (set_pts m (dset p (w, n) (m_pts m)))
  | None => None
  end.
(** geometry.cpp 12-16, spacemodule.cpp 43-63 *)
Definition pnew (w : point) (m : mem) : mem * nat :=
  (set_nxt (set_pts m (dset (m_nxt m) (w, 1%nat) (m_pts m))) (S (m_nxt m)), m_nxt m).

(** [agent_map.find]: core.h [agent_id_comp] reads the keys on the path; here all keys have to be there *)
Definition find (u : uid) (m : mem) : option (option (agent * (agent * option nat))) :=
  if forallb (fun e => dmem (a_obj (fst (snd e))) (m_arc m)) (m_map m)
  then Some (dget u (m_map m)) else None.

Definition nodes (l : nat) (m : mem) : list node :=
  match dget l (m_lists m) with Some ns => ns | None => [] end.

(** [list::erase] of the first node with the agent (occupancy.h 103-108) *)
Fixpoint erase_node (a : agent) (ns : list node) : option (list node) :=
  match ns with
  | [] => None
  | n :: t => if same_obj a (snd n) then Some t else option_map (cons n) (erase_node a t)
  end.

Section Mem.
Variable oc : occupancy.
Variable tr : point -> point -> point.

(** occupancy.h 82-94 and 171-180 *)
Definition put (a : agent) (w : point) (m : mem) : option (mem * bool) :=
  match dget w (m_loc m) with
  | None =>
    match oc with
    | Multi =>
      let l := m_nxt m in
      let m1 := set_nxt (set_lists m (dset l [(S l, a)] (m_lists m))) (S (S l)) in
      option_map (fun m2 => (m2, true)) (aincr a (set_loc m1 (dset w (LList l) (m_loc m1))))
    | Single => option_map (fun m2 => (m2, true)) (aincr a (set_loc m (dset w (LOne a) (m_loc m))))
    end
  | Some (LList l) =>
    let m1 := set_nxt (set_lists m (dset l (nodes l m ++ [(m_nxt m, a)]) (m_lists m))) (S (m_nxt m)) in
    option_map (fun m2 => (m2, true)) (aincr a m1)
  | Some (LOne _) => Some (m, false)
  end.

(** occupancy.h 96-114 and 182-192 *)
Definition take (a : agent) (w : point) (m : mem) : option (mem * bool) :=
  match dget w (m_loc m) with
  | None => Some (m, false)
  | Some (LList l) =>
    match erase_node a (nodes l m) with
    | None => Some (m, false)
    | Some ns =>
      match adecr a (set_lists m (dset l ns (m_lists m))) with
      | None => None
      | Some m1 => Some (match ns with [] => set_loc m1 (ddel w (m_loc m1)) | _ => m1 end, true)
      end
    end
  | Some (LOne b) =>
    match adecr b m with
    | None => None
    | Some m1 => Some (set_loc m1 (ddel w (m_loc m1)), true)
    end
  end.

(** space.h 95-104 *)
Definition m_add (a : agent) (m : mem) : option mem :=
  match aincr a m with
  | None => None
  | Some m1 =>
    match find (a_uid a) m1 with
    | None => None
    | Some (Some (k, _)) => Some (set_map m1 (dset (a_uid a) (k, (a, None)) (m_map m1)))
    | Some None => Some (set_map m1 (dset (a_uid a) (a, (a, None)) (m_map m1)))
    end
  end.

(** space.h 106-120 *)
Definition m_remove (u : uid) (m : mem) : option (mem * bool) :=
  match find u m with
  | None => None
  | Some None => Some (m, false)
  | Some (Some (_, (a, None))) =>
    match adecr a m with
    | None => None
    | Some m1 => Some (set_map m1 (ddel u (m_map m1)), false)
    end
  | Some (Some (_, (a, Some q))) =>
    match pread q m with
    | None => None
    | Some v =>
      match take a v (set_wpt m v) with
      | None => None
      | Some (m1, ok) =>
        match pdecr q m1 with
        | None => None
        | Some m2 =>
          match adecr a m2 with
          | None => None
          | Some m3 => Some (set_map m3 (ddel u (m_map m3)), ok)
          end
        end
      end
    end
  end.

(** grid.h 51-81; the second component: the point that is returned, [OtherError] (not used) *)
Definition m_move (a : agent) (p : nat) (m : mem) : option (mem * result (option nat)) :=
  match find (a_uid a) m with
  | None => None
  | Some None => Some (m, ValueError)
  | Some (Some (k, (b, o))) =>
    match pread p m with
    | None => None
    | Some v =>
      let w := tr v (m_wpt m) in
      let m := set_wpt m w in
      match o with
      | Some q =>
        match pread q m with
        | None => None
        | Some ppt =>
          if keq ppt w then Some (m, Ok (Some q))
          else
            match put a w m with
            | None => None
            | Some (m1, false) => Some (m1, Ok None)
            | Some (m1, true) =>
              match take a ppt m1 with
              | None => None
              | Some (m2, _) =>
                match pwrite q w m2 with
                | None => None
                | Some m3 => Some (m3, Ok (Some q))
                end
              end
            end
        end
      | None =>
        match put a w m with
        | None => None
        | Some (m1, false) => Some (m1, Ok None)
        | Some (m1, true) =>
          let (m2, q) := pnew w m1 in
          Some (set_map m2 (dset (a_uid a) (k, (b, Some q)) (m_map m2)), Ok (Some q))
        end
      end
    end
  end.

(** space.h 139-146 *)
Definition m_location (u : uid) (m : mem) : option (option nat) :=
  match find u m with
  | None => None
  | Some (Some (_, (_, o))) => Some o
  | Some None => Some None
  end.
(** space.h 148-151 *)
Definition m_contains (u : uid) (m : mem) : option bool :=
  match find u m with
  | None => None
  | Some (Some _) => Some true
  | Some None => Some false
  end.

(** space.h 127-131, occupancy.h 53-61, 141-149 *)
Definition m_get_agent (p : nat) (m : mem) : option (mem * option agent) :=
  match pread p m with
  | None => None
  | Some v =>
    Some (set_wpt m v,
          match dget v (m_loc m) with
          | None => None
          | Some (LList l) => match nodes l m with (_, a) :: _ => Some a | [] => None end
          | Some (LOne a) => Some a
          end)
  end.

(** [begin()] *)
Definition first_pos (ns : list node) : option nat :=
  match ns with (n, _) :: _ => Some n | [] => None end.

(** space.h 133-137, occupancy.h 72-80 and 160-169, core.h 76-78, spacemodule.cpp 959-969 *)
Definition m_get_agents (p : nat) (m : mem) : option (mem * iter) :=
  match pread p m with
  | None => None
  | Some v =>
    let m := set_wpt m v in
    Some (match dget v (m_loc m) with
          | None => (m, It 0 (first_pos (nodes 0 m)))
          | Some (LList l) => (m, It l (first_pos (nodes l m)))
          | Some (LOne a) =>
            let l := m_nxt m in
            (set_nxt (set_lists m (dset l [(S l, a)] (m_lists m))) (S (S l)), It l (Some (S l)))
          end)
  end.

(** The node that a pointer points to, and what is behind it; [None]: the node was erased. *)
Fixpoint at_node (n : nat) (ns : list node) : option (agent * list node) :=
  match ns with
  | [] => None
  | (k, a) :: t => if Nat.eqb n k then Some (a, t) else at_node n t
  end.

(** coremodule.cpp 42-50, core.h 80-95: [Some (_, None)] is [StopIteration] *)
Definition it_next (i : iter) (m : mem) : option (mem * iter * option agent) :=
  match it_pos i with
  | None => Some (m, i, None)
  | Some n =>
    match at_node n (nodes (it_list i) m) with
    | None => None
    | Some (a, rest) =>
      match aincr a m with
      | None => None
      | Some m1 => Some (m1, It (it_list i) (first_pos rest), Some a)
      end
    end
  end.
(** coremodule.cpp 36-40, core.h 85-88 *)
Definition it_reset (i : iter) (m : mem) : iter := It (it_list i) (first_pos (nodes (it_list i) m)).

(** The program: what it has references to; an object with several references is there several times. *)
Record prog := Prog {
  g_mem : mem; g_ags : list agent; g_pts : list nat; g_its : dict nat iter }.
Definition new_prog : prog := Prog new_mem [] [] [].

(** Calls; the arguments are objects. *)
Inductive call :=
| UAgent (u : uid)            (* Agent(...) *)
| UPoint (v : point)          (* DiscretePoint(x, y, z) *)
| UReset (p : nat) (v : point) (* the _reset methods of a point, or its array [coordinates] *)
| UDropA (a : agent) | UDropP (p : nat) (* a reference is given up *)
| UAdd (a : agent) | URemove (a : agent) | UMove (a : agent) (p : nat)
| ULocation (a : agent) | UContains (a : agent)
| UGetAgent (p : nat) | UGetAgents (p : nat)
| UIter (i : nat) | UNext (i : nat).

Inductive answer :=
| ANone | ABool (b : bool) | APoint (p : nat) | AAgent (a : agent) | AIter (i : nat) | AStop | AError.

Definition same_agent (a b : agent) : bool := keq (a_uid a) (a_uid b) && Nat.eqb (a_obj a) (a_obj b).
Definition has_ag (a : agent) (g : prog) : bool := existsb (same_agent a) (g_ags g).
Definition has_pt (p : nat) (g : prog) : bool := existsb (Nat.eqb p) (g_pts g).
Fixpoint drop_ag (a : agent) (l : list agent) : list agent :=
  match l with [] => [] | b :: t => if same_agent a b then t else b :: drop_ag a t end.
Fixpoint drop_pt (p : nat) (l : list nat) : list nat :=
  match l with [] => [] | b :: t => if Nat.eqb p b then t else b :: drop_pt p t end.

Definition with_mem (g : prog) (m : mem) : prog := Prog m (g_ags g) (g_pts g) (g_its g).

(** A point that is returned: spacemodule.cpp 905-919 and 921-940 *)
Definition give_point (o : option nat) (g : prog) : option (prog * answer) :=
  match o with
  | None => Some (g, ANone)
  | Some q =>
    match pincr q (g_mem g) with
    | None => None
    | Some m => Some (Prog m (g_ags g) (q :: g_pts g) (g_its g), APoint q)
    end
  end.

(** The arguments of a call are objects the program has. *)
Definition callable (c : call) (g : prog) : bool :=
  match c with
  | UAgent _ | UPoint _ => true
  | UReset p _ | UDropP p | UGetAgent p | UGetAgents p => has_pt p g
  | UDropA a | UAdd a | URemove a | ULocation a | UContains a => has_ag a g
  | UMove a p => has_ag a g && has_pt p g
  | UIter i | UNext i => dmem i (g_its g)
  end.

(** One call of the program *)
Definition exec (c : call) (g : prog) : option (prog * answer) :=
  let m := g_mem g in
  match c with
  | UAgent u =>
    let a := Agent u (m_nxt m) in
    Some (Prog (set_nxt (set_arc m (dset (m_nxt m) 1%nat (m_arc m))) (S (m_nxt m)))
               (a :: g_ags g) (g_pts g) (g_its g), AAgent a)
  | UPoint v =>
    let (m1, p) := pnew v m in Some (Prog m1 (g_ags g) (p :: g_pts g) (g_its g), APoint p)
  | UReset p v => option_map (fun m1 => (with_mem g m1, ANone)) (pwrite p v m)
  | UDropA a =>
    option_map (fun m1 => (Prog m1 (drop_ag a (g_ags g)) (g_pts g) (g_its g), ANone)) (adecr a m)
  | UDropP p =>
    option_map (fun m1 => (Prog m1 (g_ags g) (drop_pt p (g_pts g)) (g_its g), ANone)) (pdecr p m)
  (* spacemodule.cpp 878-885 *)
  | UAdd a => option_map (fun m1 => (with_mem g m1, ABool true)) (m_add a m)
  (* spacemodule.cpp 887-894 *)
  | URemove a => option_map (fun r => (with_mem g (fst r), ABool (snd r))) (m_remove (a_uid a) m)
  (* spacemodule.cpp 921-940 *)
  | UMove a p =>
    match m_move a p m with
    | None => None
    | Some (m1, Ok o) => give_point o (with_mem g m1)
    | Some (m1, _) => Some (with_mem g m1, AError)
    end
  (* spacemodule.cpp 905-919 *)
  | ULocation a =>
    match m_location (a_uid a) m with
    | None => None
    | Some o => give_point o g
    end
  (* spacemodule.cpp 896-903 *)
  | UContains a => option_map (fun b => (g, ABool b)) (m_contains (a_uid a) m)
  (* spacemodule.cpp 942-957 *)
  | UGetAgent p =>
    match m_get_agent p m with
    | None => None
    | Some (m1, None) => Some (with_mem g m1, ANone)
    | Some (m1, Some a) =>
      match aincr a m1 with
      | None => None
      | Some m2 => Some (Prog m2 (a :: g_ags g) (g_pts g) (g_its g), AAgent a)
      end
    end
  (* spacemodule.cpp 959-969 *)
  | UGetAgents p =>
    match m_get_agents p m with
    | None => None
    | Some (m1, i) =>
      Some (Prog (set_nxt m1 (S (m_nxt m1))) (g_ags g) (g_pts g) (dset (m_nxt m1) i (g_its g)),
            AIter (m_nxt m1))
    end
  | UIter i =>
    match dget i (g_its g) with
    | None => Some (g, ANone)
    | Some t => Some (Prog m (g_ags g) (g_pts g) (dset i (it_reset t m) (g_its g)), AIter i)
    end
  | UNext i =>
    match dget i (g_its g) with
    | None => Some (g, ANone)
    | Some t =>
      match it_next t m with
      | None => None
      | Some (m1, t', None) => Some (with_mem g m1, AStop)
      | Some (m1, t', Some a) =>
        Some (Prog m1 (a :: g_ags g) (g_pts g) (dset i t' (g_its g)), AAgent a)
      end
    end
  end.

(** A history with what the calls return.  Sequences with a call whose arguments the program does not
    have are not programs; they end there. *)
Inductive outcome := Done (g : prog) (out : list answer) | Fault (out : list answer) | NoProgram.
Fixpoint exec_all (cs : list call) (g : prog) : outcome :=
  match cs with
  | [] => Done g []
  | c :: t =>
    if callable c g then
      match exec c g with
      | None => Fault []
      | Some (g1, r) =>
        match exec_all t g1 with
        | Done g2 out => Done g2 (r :: out)
        | Fault out => Fault (r :: out)
        | NoProgram => NoProgram
        end
      end
    else NoProgram
  end.
End Mem.
