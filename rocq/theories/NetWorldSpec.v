(** A single book of the edges between agents of different ranks, and the histories for which the ranks keep to it. *)
From Coq Require Import List Arith ZArith Lia Bool.
From Verif Require Import PyDict AgentModel NetModel NetWorldModel.
Import ListNotations.
Open Scope Z_scope.

(** An edge was created by the rank of one of its agents.  [New]: since the last synchronization; [Gone]: removed since then. *)
Inductive status := New | Done | Gone.
Record entry := Entry { e_by : Z; e_attrs : attrs; e_stat : status }.
(** The agents; the agents that each rank requested; the edges, in the order of agents used when they were created. *)
Record book := Book { b_agents : list uid; b_req : list (Z * uid); b_edges : dict edge entry }.
Definition new_book : book := Book [] [] [].
Definition cross_rank (u v : uid) : bool := negb (lr u =? lr v).
Definition is_new (s : status) : bool := match s with New => true | _ => false end.
Definition is_gone (s : status) : bool := match s with Gone => true | _ => false end.
Definition is_done (s : status) : bool := match s with Done => true | _ => false end.

Section Spec.
Variable dir : bool.
(** The key of an edge. *)
Definition key_of (u v : uid) (b : book) : option edge :=
  if dmem (u, v) (b_edges b) then Some (u, v) else if negb dir && dmem (v, u) (b_edges b) then Some (v, u) else None.
Definition lookup (u v : uid) (b : book) : option entry := match key_of u v b with Some k => dget k (b_edges b) | None => None end.

(** The agent of rank [r] of an edge, and the other one. *)
Definition mine (r : Z) (k : edge) : uid := if lr (fst k) =? r then fst k else snd k.
Definition other (r : Z) (k : edge) : uid := if lr (fst k) =? r then snd k else fst k.
(** Rank [r] has the agent [u] as a ghost: it requested it or there is an edge that the rank of [u] created with an agent of [r] *)
Definition known (r : Z) (u : uid) (b : book) : bool :=
  existsb (keq (r, u)) (b_req b) ||
  existsb (fun e => (e_by (snd e) =? lr u) && negb (is_new (e_stat (snd e))) && keq (mine (lr u) (fst e)) u && (lr (other (lr u) (fst e)) =? r)) (b_edges b).
(** [k] is the only edge that its creator [r] made for its agent with that other rank and synchronized. *)
Definition only (r : Z) (k : edge) (b : book) : bool :=
  forallb (fun e => keq (fst e) k || negb (e_by (snd e) =? r) || is_new (e_stat (snd e)) || negb (keq (mine r (fst e)) (mine r k)) ||
                    negb (lr (other r (fst e)) =? lr (other r k))) (b_edges b).

Definition has_agent (u : uid) (b : book) : bool := existsb (keq u) (b_agents b).
Definition nodup_names (kw : attrs) : bool := forallb (fun e => Nat.eqb (length (filter (fun x => fst x =? fst e) kw)) 1) kw.
(** The calls that a rank may make.
    - Edges between its own agents are free, removals of agents from the network and [clear_edges] are not used.
    - An edge to an agent of another rank may be added if the rank has that agent as a ghost and the other rank has not created the edge; if the
      edge exists then in the same order of agents, and not between its removal and the next synchronization.
    - Only the rank that created an edge updates or removes it, and removes it only after a synchronization, and if it has no other edge from
      that agent to that rank. *)
Definition call_ok (n : nat) (r : Z) (o : nop) (b : book) : bool :=
  (0 <=? r) && (r <? Z.of_nat n) &&
  match o with
  | NAdd u => (lr u =? r) && has_agent u b
  | NRemove _ | NClear => false
  | NAddEdge u v kw =>
    nodup_names kw && has_agent u b && has_agent v b &&
    if cross_rank u v then
      ((lr u =? r) && known r v b || (lr v =? r) && known r u b) &&
      match key_of u v b, lookup u v b with
      | Some k, Some e => keq k (u, v) && (e_by e =? r) && negb (is_gone (e_stat e))
      | _, _ => true
      end
    else lr u =? r
  | NUpdate u v kw =>
    nodup_names kw &&
    if cross_rank u v then match lookup u v b with Some e => (e_by e =? r) && negb (is_gone (e_stat e)) | None => false end else lr u =? r
  | NRemoveEdge u v =>
    if cross_rank u v then
      match key_of u v b, lookup u v b with Some k, Some e => (e_by e =? r) && is_done (e_stat e) && only r k b | _, _ => false end
    else lr u =? r
  end.
Definition wop_ok (n : nat) (o : wop) (b : book) : bool :=
  match o with
  | WAgent u => (0 <=? lr u) && (lr u <? Z.of_nat n)
  | WRemove _ => false
  | WRequest reqs =>
    Nat.eqb (length reqs) n &&
    forallb (fun x => forallb (fun e => (snd e =? lr (fst e)) && negb (lr (fst e) =? Z.of_nat (fst x)) && has_agent (fst e) b) (snd x))
      (combine (seq 0 n) reqs)
  | WCall r o => call_ok n r o b
  | WSynch => true
  end.

(** What the calls mean. *)
Definition edit (k : edge) (f : entry -> entry) (b : book) : book :=
  match dget k (b_edges b) with Some e => Book (b_agents b) (b_req b) (dset k (f e) (b_edges b)) | None => b end.
Definition call_book (r : Z) (o : nop) (b : book) : book :=
  match o with
  | NAddEdge u v kw =>
    if cross_rank u v then
      match key_of u v b with
      | Some k => edit k (fun e => Entry (e_by e) (aupdate kw (e_attrs e)) (e_stat e)) b
      | None => Book (b_agents b) (b_req b) (dset (u, v) (Entry r (aupdate kw []) New) (b_edges b))
      end
    else b
  | NUpdate u v kw =>
    if cross_rank u v then match key_of u v b with Some k => edit k (fun e => Entry (e_by e) (aupdate kw (e_attrs e)) (e_stat e)) b | None => b end
    else b
  | NRemoveEdge u v =>
    if cross_rank u v then match key_of u v b with Some k => edit k (fun e => Entry (e_by e) (e_attrs e) Gone) b | None => b end else b
  | _ => b
  end.
Definition forget (b : book) : book := Book (b_agents b) (b_req b) (filter (fun e => negb (is_gone (e_stat (snd e)))) (b_edges b)).
Definition settle (b : book) : book :=
  Book (b_agents b) (b_req b) (map (fun e => (fst e, Entry (e_by (snd e)) (e_attrs (snd e)) Done)) (b_edges b)).
Definition wop_book (o : wop) (b : book) : book :=
  match o with
  | WAgent u => if has_agent u b then b else Book (u :: b_agents b) (b_req b) (b_edges b)
  | WRequest reqs => Book (b_agents b) (flat_map (fun x => map (fun e => (Z.of_nat (fst x), fst e)) (snd x)) (combine (seq 0 (length reqs)) reqs) ++ b_req b) (b_edges b)
  | WCall r o => call_book r o b
  | WSynch => settle (forget b)
  | WRemove _ => b
  end.
Fixpoint kept_to (n : nat) (ops : list wop) (b : book) : bool :=
  match ops with [] => true | o :: ops => wop_ok n o b && kept_to n ops (wop_book o b) end.
Definition book_of (ops : list wop) : book := fold_left (fun b o => wop_book o b) ops new_book.
End Spec.
