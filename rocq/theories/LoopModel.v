(** Loops over the agents of a context: [SharedContext.agents], /repo/src/repast4py/context.py 322-358, with the iterators it returns.

    The dictionaries of agents are [collections.OrderedDict]s (core.py 79, context.py 53); [od_state] is the counter in which CPython's
    Objects/odictobject.c notes additions and removals, and the iterators are its [odictiter].  Of the context only the two dictionaries
    are kept; the other calls ([cop] of ContextModel.v) do not change them. *)
From Coq Require Import List Arith ZArith Lia Bool.
From Verif Require Import PyDict AgentModel SpaceModel TopologyModel ContextModel.
Import ListNotations.
Open Scope Z_scope.

Record odict := OD { od_items : dict uid agent; od_state : nat }.
Definition od_new : odict := OD [] 0.

(** [d[k] = v]: [_odict_add_new_node] does nothing if the key has a node *)
Definition od_set (k : uid) (v : agent) (d : odict) : odict :=
  OD (dset k v (od_items d)) (if dmem k (od_items d) then od_state d else S (od_state d)).
(** [d.pop(k, None)]: [_odict_popkey_hash], [_odict_clear_node] *)
Definition od_pop (k : uid) (d : odict) : odict * option agent :=
  match dget k (od_items d) with
  | Some v => (OD (ddel k (od_items d)) (S (od_state d)), Some v)
  | None => (d, None)
  end.
(** [del d[k]]; [None]: [KeyError] *)
Definition od_del (k : uid) (d : odict) : option odict :=
  match od_pop k d with (d, Some _) => Some d | (_, None) => None end.

(** [odictiterobject].  [i_which]: the dictionary, that of all agents or that of a type (they are never replaced by other objects);
    [i_alive]: [di_odict != NULL]; [i_cur]: [di_current]; [i_size]: [di_size]; [i_state]: [di_state].
    [ItList]: an iterator of a list of its own (context.py 342-352), with what is left of it. *)
Inductive iter :=
| ItDict (i_which : option Z) (i_alive : bool) (i_cur : option uid) (i_size : Z) (i_state : nat)
| ItList (l : list agent).

Definition od_first (d : dict uid agent) : option uid := match d with [] => None | e :: _ => Some (fst e) end.
(** the key after [k]; [None] if [k] has no node ([_odict_find_node]) *)
Fixpoint od_after (k : uid) (d : dict uid agent) : option (option uid) :=
  match d with
  | [] => None
  | (k', _) :: t => if keq k k' then Some (od_first t) else od_after k t
  end.
(** [odictiter_new] *)
Definition od_iter (w : option Z) (d : odict) : iter :=
  ItDict w true (od_first (od_items d)) (Z.of_nat (length (od_items d))) (od_state d).

Inductive res :=
| RNone | RKeyError | RIter (i : nat) | RAgent (a : agent) | RStop
| RMutated  (* RuntimeError *) | RNoIter (* there is no such iterator *).

(** [odictiter_iternext] and [odictiter_nextkey] *)
Definition od_next (d : odict) (w : option Z) (alive : bool) (cur : option uid) (size : Z) (state : nat) : iter * res :=
  if negb alive then (ItDict w alive cur size state, RStop)
  else match cur with
  | None => (ItDict w false cur size state, RStop)
  | Some k =>
    if negb (Nat.eqb (od_state d) state) then (ItDict w false cur size state, RMutated)
    else if negb (size =? Z.of_nat (length (od_items d))) then (ItDict w alive cur (-1) state, RMutated)
    else match od_after k (od_items d) with
         | None => (ItDict w alive None size state, RStop)
         | Some nx => (ItDict w alive nx size state,
                       match dget k (od_items d) with Some a => RAgent a | None => RKeyError end)
         end
  end.

Record lctx := LC { l_all : odict; l_types : dict Z odict; l_its : list iter }.
Definition l_new : lctx := LC od_new [] [].

(** core.py 139-146 and context.py 52-53 *)
Definition l_add (a : agent) (l : lctx) : lctx :=
  let t := utype (a_uid a) in
  LC (od_set (a_uid a) a (l_all l))
     (dset t (od_set (a_uid a) a (match dget t (l_types l) with Some d => d | None => od_new end)) (l_types l)) (l_its l).
(** [del self._agents_by_type[type][uid]] *)
Definition l_del_type (u : uid) (l : lctx) : lctx * res :=
  match dget (utype u) (l_types l) with
  | Some d => match od_del u d with
              | Some d => (LC (l_all l) (dset (utype u) d (l_types l)) (l_its l), RNone)
              | None => (l, RKeyError)
              end
  | None => (l, RKeyError)
  end.
(** core.py 126 and context.py 126-127 *)
Definition l_remove (u : uid) (l : lctx) : lctx * res :=
  l_del_type u (LC (fst (od_pop u (l_all l))) (l_types l) (l_its l)).
(** context.py 148-154: an agent that has no local agent is skipped *)
Definition l_out (u : uid) (l : lctx) : lctx * res :=
  let '(d, o) := od_pop u (l_all l) in
  let l := LC d (l_types l) (l_its l) in
  match o with None => (l, RNone) | Some _ => l_del_type u l end.

Definition l_dict (w : option Z) (l : lctx) : option odict :=
  match w with None => Some (l_all l) | Some t => dget t (l_types l) end.
Definition l_open (it : iter) (l : lctx) : lctx * res :=
  (LC (l_all l) (l_types l) (l_its l ++ [it]), RIter (length (l_its l))).

Inductive lop :=
| LCtx (o : cop)
| LAgents (w : option Z)                                                           (* iter(context.agents(w)) *)
| LChosen (draw : nat -> nat) (w : option Z) (count : option Z) (shuffle : bool)  (* iter(context.agents(w, count, shuffle)) *)
| LNext (i : nat).                                                                 (* next(iterator i) *)

Definition lstep (l : lctx) (o : lop) : lctx * res :=
  match o with
  | LCtx (CAdd a) | LCtx (CIn a) => (l_add a l, RNone)
  | LCtx (CRemove u) => l_remove u l
  | LCtx (COut u) => l_out u l
  | LCtx _ => (l, RNone)
  | LAgents w => match l_dict w l with Some d => l_open (od_iter w d) l | None => (l, RKeyError) end
  | LChosen draw w count shuffle =>
    match l_dict w l with
    | Some d =>
      let lst := dvals (od_items d) in
      let lst := if shuffle then np_shuffle draw lst else lst in
      let lst := match count with Some n => slice_to n lst | None => lst end in
      l_open (ItList lst) l
    | None => (l, RKeyError)
    end
  | LNext i =>
    match nth_error (l_its l) i with
    | Some (ItDict w alive cur size state) =>
      match l_dict w l with
      | Some d => let '(it, r) := od_next d w alive cur size state in (LC (l_all l) (l_types l) (set_nth i it (l_its l)), r)
      | None => (l, RNoIter)
      end
    | Some (ItList (a :: t)) => (LC (l_all l) (l_types l) (set_nth i (ItList t) (l_its l)), RAgent a)
    | Some (ItList []) => (l, RStop)
    | None => (l, RNoIter)
    end
  end.
Fixpoint lrun (l : lctx) (ops : list lop) : lctx * list res :=
  match ops with
  | [] => (l, [])
  | o :: t => let '(l, r) := lstep l o in let '(l, rs) := lrun l t in (l, r :: rs)
  end.

(** [for a in iterator: body]: [body k] are the calls that are made while the [k]-th agent is visited.  [Open]: not finished with the
    given number of visits. *)
Inductive outcome := Ended | Raised | Open.
Fixpoint for_loop (fuel : nat) (body : nat -> list lop) (i k : nat) (l : lctx) : lctx * list agent * outcome :=
  match fuel with
  | 0%nat => (l, [], Open)
  | S f =>
    match lstep l (LNext i) with
    | (l, RAgent a) =>
      let '(l, seen, out) := for_loop f body i (S k) (fst (lrun l (body k))) in (l, a :: seen, out)
    | (l, RStop) => (l, [], Ended)
    | (l, _) => (l, [], Raised)
    end
  end.
