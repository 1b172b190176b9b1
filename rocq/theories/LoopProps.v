(** C74: loops over the agents of a context. *)
From Coq Require Import List Arith ZArith Lia Bool.
From Verif Require Import PyDict AgentModel SpaceModel TopologyModel ContextModel ContextSpec ContextProofs
  LoopModel LoopSpec LoopProofs LoopFacts.
Import ListNotations.
Open Scope nat_scope.

(** Any number of iterators, of all agents or of a type, used in any order between calls that add, remove, move and receive agents: every
    call of [next] returns what the story of LoopSpec.v says. *)
Theorem C74_results : forall ops, snd (lrun l_new ops) = snd (srun start ops).
Proof. intros ops. apply (run_ok ops start l_new inv_new). Qed.

(** The two dictionaries are those of the context of C24. *)
Theorem C74_context : forall r ops, let l := fst (lrun l_new ops) in let c := crun (new_context r) (ctx_calls ops) in
  od_items (l_all l) = am_local (c_man c) /\ forall t, option_map od_items (dget t (l_types l)) = dget t (c_types c).
Proof.
  intros r ops l c. destruct (history ops) as (V & P & K). fold l in V. set (s := fst (srun start ops)) in *.
  pose proof (holds_ops r (ctx_calls ops)) as [N L T H]. fold c in L, T. rewrite <- P in *. pose proof V as [VN VT VD VX VI]. split.
  - destruct (VD None eq_refl) as (d & D1 & D2). cbn in D1. injection D1 as <-. rewrite D2, members_all. now symmetry.
  - intros t. rewrite T, <- K. destruct (known (Some t) (s_types s)) eqn:E.
    + destruct (VD _ E) as (d & D1 & D2). cbn in D1. rewrite D1. cbn. now rewrite D2.
    + specialize (VX _ E). cbn in VX. now rewrite VX.
Qed.

(** A loop over [context.agents()] or [context.agents(t)] visits the agents that are there when it starts, each once, in the order of
    insertion, if the visits of all but the last one do not add or remove such agents; the visited agents are still in the context. *)
Theorem C74_loop : forall ops w, (forall t, w = Some t -> type_known t (ctx_calls ops) = true) ->
  let pop := population (ctx_calls ops) in let ids := map a_uid (members w pop) in
  exists l i, lstep (fst (lrun l_new ops)) (LAgents w) = (l, RIter i) /\
  forall body fuel, (forall k, Forall (other i) (body k)) -> length ids < fuel ->
    (forall k, S k < length ids -> leaves w (pop_at pop body k) (ctx_calls (body k)) = true) ->
    exists l2 seen, for_loop fuel body i 0 l = (l2, seen, Ended) /\ map a_uid seen = ids /\
      forall k a, nth_error seen k = Some a -> In a (pop_at pop body k).
Proof.
  intros ops w KW pop ids. destruct (history ops) as (V & P & K). set (s := fst (srun start ops)) in *.
  assert (KN : known w (s_types s) = true) by (destruct w as [t|]; [rewrite K; now apply KW | reflexivity]).
  destruct (open_watch _ _ _ V KN) as (l1 & E & V1 & P1 & F). exists l1, (length (s_lives s)). split; auto.
  intros body fuel O L Q. rewrite P in F. fold pop ids in F.
  destruct (loop_quiet pop body _ w ids O (length ids) 0 fuel l1 _ V1) as (l2 & seen & A & B & C); auto.
  - now rewrite P1, P.
  - exists l2, seen. rewrite skipn_O in B. auto.
Qed.

(** Otherwise the loop raises a [RuntimeError] after the first visit that added or removed such an agent, unless that was the last one. *)
Theorem C74_broken : forall ops w, (forall t, w = Some t -> type_known t (ctx_calls ops) = true) ->
  let pop := population (ctx_calls ops) in let ids := map a_uid (members w pop) in
  exists l i, lstep (fst (lrun l_new ops)) (LAgents w) = (l, RIter i) /\
  forall body fuel b, (forall k, Forall (other i) (body k)) -> length ids < fuel -> S b < length ids ->
    (forall k, k < b -> leaves w (pop_at pop body k) (ctx_calls (body k)) = true) ->
    leaves w (pop_at pop body b) (ctx_calls (body b)) = false ->
    exists l2 seen, for_loop fuel body i 0 l = (l2, seen, Raised) /\ map a_uid seen = firstn (S b) ids.
Proof.
  intros ops w KW pop ids. destruct (history ops) as (V & P & K). set (s := fst (srun start ops)) in *.
  assert (KN : known w (s_types s) = true) by (destruct w as [t|]; [rewrite K; now apply KW | reflexivity]).
  destruct (open_watch _ _ _ V KN) as (l1 & E & V1 & P1 & F). exists l1, (length (s_lives s)). split; auto.
  intros body fuel b O L B Q NQ. rewrite P in F. fold pop ids in F.
  destruct (loop_broken pop body _ w ids O b 0 fuel l1 _ b V1) as (l2 & seen & A1 & A2 & A3); auto.
  - now rewrite P1, P.
  - lia.
  - exists l2, seen. rewrite skipn_O in A2. auto.
Qed.

(** With [count] or [shuffle] the loop visits the agents that were chosen when it started, whatever is done meanwhile. *)
Theorem C74_chosen : forall ops draw w count (shuffle : bool), (forall t, w = Some t -> type_known t (ctx_calls ops) = true) ->
  let pop := population (ctx_calls ops) in
  let all := if shuffle then np_shuffle draw (members w pop) else members w pop in
  let lst := match count with Some n => slice_to n all | None => all end in
  exists l i, lstep (fst (lrun l_new ops)) (LChosen draw w count shuffle) = (l, RIter i) /\
  forall body fuel, (forall k, Forall (other i) (body k)) -> length lst < fuel ->
    exists l2, for_loop fuel body i 0 l = (l2, lst, Ended).
Proof.
  intros ops draw w count sh KW pop all lst. destruct (history ops) as (V & P & K). set (s := fst (srun start ops)) in *.
  assert (KN : known w (s_types s) = true) by (destruct w as [t|]; [rewrite K; now apply KW | reflexivity]).
  destruct (step_ok s _ (LChosen draw w count sh) V) as [R V1]. destruct (lstep (fst (lrun l_new ops)) _) as [l1 r]. cbn [fst snd] in *.
  cbn [sstep] in *. rewrite KN, P in *. cbn [fst snd] in *. fold pop all lst in R, V1. subst r.
  exists l1, (length (s_lives s)). split; auto. intros body fuel O L. eapply loop_fixed; eauto.
  cbn [s_lives]. rewrite nth_error_app2, Nat.sub_diag by auto. reflexivity.
Qed.

(** * Examples *)
Definition ag (n : Z) (t : Z) (o : nat) : agent := Agent (n, t, 0%Z) o.
Definition three : list lop := map (fun a => LCtx (CAdd a)) [ag 1 0 1; ag 2 0 2; ag 3 0 3].
Definition mixed : list lop := three ++ [LCtx (CAdd (ag 4 1 4)); LCtx (CAdd (ag 5 1 5))].
Definition loop_over (ops : list lop) (w : option Z) (body : nat -> list lop) : list nat * outcome :=
  match lstep (fst (lrun l_new ops)) (LAgents w) with
  | (l, RIter i) => let '(_, seen, out) := for_loop 20 body i 0 l in (map a_obj seen, out)
  | _ => ([], Open)
  end.

(** Nothing is added or removed: agents move, other agents are asked for, a second loop is run. *)
Example C74_loop_ex : loop_over three None (fun k => [LAgents None; LNext (S k); LNext (S k)]) = ([1; 2; 3], Ended).
Proof. reflexivity. Qed.
Example C74_loop_ex_hyp : let pop := population (ctx_calls three) in forall k,
  leaves None (pop_at pop (fun k => [LAgents None; LNext (S k); LNext (S k)]) k) [] = true.
Proof. reflexivity. Qed.
(** A loop that removes the agents it visits ends after the first one. *)
Example C74_remove_ex : loop_over three None (fun k => [LCtx (CRemove (Z.of_nat (S k), 0%Z, 0%Z))]) = ([1], Raised).
Proof. reflexivity. Qed.
(** Removing the last one, or adding agents in the last visit, is not noticed; the new agent is not visited. *)
Example C74_last_ex : loop_over three None (fun k => if Nat.eqb k 2 then [LCtx (CRemove (3, 0, 0)%Z); LCtx (CAdd (ag 9 0 9))] else []) =
  ([1; 2; 3], Ended).
Proof. reflexivity. Qed.
(** One removed and one added: the number of agents is the same, the loop is noticed to be broken nevertheless. *)
Example C74_swap_ex : loop_over three None (fun k => [LCtx (CRemove (3, 0, 0)%Z); LCtx (CAdd (ag 9 0 9))]) = ([1], Raised).
Proof. reflexivity. Qed.
(** Agents of another type may come and go; an agent of the same id takes the place of the old one. *)
Example C74_type_ex : loop_over mixed (Some 1%Z) (fun k => [LCtx (CRemove (Z.of_nat (S k), 0%Z, 0%Z)); LCtx (CAdd (ag 5 1 55))]) = ([4; 55], Ended).
Proof. reflexivity. Qed.
Example C74_type_all_ex : loop_over mixed None (fun k => [LCtx (CRemove (Z.of_nat (S k), 0%Z, 0%Z))]) = ([1], Raised).
Proof. reflexivity. Qed.
(** The list of [agents(shuffle=True)] does not change while its agents are removed. *)
Example C74_chosen_ex :
  match lstep (fst (lrun l_new three)) (LChosen (fun _ => 0) None None true) with
  | (l, RIter i) => let '(l, seen, out) := for_loop 20 (fun k => [LCtx (CRemove (Z.of_nat (S k), 0%Z, 0%Z))]) i 0 l in
                    (map a_obj seen, out, od_items (l_all l))
  | _ => ([], Open, [])
  end = ([2; 3; 1], Ended, []).
Proof. reflexivity. Qed.
(** An iterator that raised is over. *)
Example C74_over_ex : snd (lrun l_new (three ++ [LAgents None; LNext 0; LCtx (CRemove (1, 0, 0)%Z); LNext 0; LNext 0])) =
  [RNone; RNone; RNone; RIter 0; RAgent (ag 1 0 1); RNone; RMutated; RStop].
Proof. reflexivity. Qed.
(** An iterator made before the first agent came has none; a type that never was there is an error. *)
Example C74_empty_ex : snd (lrun l_new [LAgents None; LAgents (Some 0%Z); LCtx (CAdd (ag 1 0 1)); LNext 0; LAgents (Some 0%Z); LNext 1]) =
  [RIter 0; RKeyError; RNone; RStop; RIter 1; RAgent (ag 1 0 1)].
Proof. reflexivity. Qed.

Print Assumptions C74_results.
Print Assumptions C74_context.
Print Assumptions C74_loop.
Print Assumptions C74_broken.
Print Assumptions C74_chosen.
