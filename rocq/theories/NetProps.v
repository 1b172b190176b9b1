(** The property C46 of networks on one process. *)
From Coq Require Import List Arith ZArith Lia Bool.
From Verif Require Import PyDict AgentModel NetModel NetSpec NetProofs NetCount.
Import ListNotations.
Open Scope Z_scope.

Section C46.
Variable dir : bool.
Variable rank : Z.
Variable lrank : uid -> Z.
Notation run := (nrun dir rank lrank new_net).
Lemma contains_has : forall u v n, contains_edge u v n = true <-> has u v (n_g n).
Proof. intros u v n. unfold contains_edge, has_edge, has, edge_ref, dmem. destruct (dget v _); split; congruence. Qed.

(** An edge is in the network iff it was added and not removed since, neither by itself nor with one of its agents nor with all edges. *)
Theorem C46_edges : forall ops u v, Forall named ops -> (contains_edge u v (run ops) = true <-> present dir ops u v).
Proof. intros ops u v W. rewrite contains_has. apply (run_ok dir rank lrank ops W). Qed.
(** An edge has attributes iff it is in the network; they are the last ones written. *)
Theorem C46_attrs : forall ops u v, Forall named ops ->
  (edge_attrs u v (run ops) <> None <-> present dir ops u v) /\
  forall a k x, edge_attrs u v (run ops) = Some a -> (dget k a = Some x <-> last_value dir ops u v k x).
Proof.
  intros ops u v W. destruct (run_ok dir rank lrank ops W) as (_ & P & L & _). unfold edge_attrs. split.
  - rewrite <- P. unfold has. destruct (edge_ref u v _); cbn; split; congruence.
  - intros a k x E. rewrite <- L. destruct (edge_ref u v _) as [r|] eqn:R; [|discriminate]. inversion E; subst. split; [intros H; exists r; auto|]. intros (q & Q & H). congruence.
Qed.
(** The nodes. *)
Theorem C46_nodes : forall ops, Forall named ops ->
  exists l, NoDup l /\ (forall u, In u l <-> is_node ops u) /\ node_count (run ops) = length l.
Proof.
  intros ops W. destruct (run_ok dir rank lrank ops W) as ((G & _) & _ & _ & M). exists (dkeys (g_adj (n_g (run ops)))). split; [apply (go_adj _ _ G)|]. split.
  - intros u. rewrite <- M. symmetry. apply node_key.
  - unfold node_count, dkeys. rewrite map_length. reflexivity.
Qed.
(** In an undirected network the order of the ends does not matter. *)
Theorem C46_symmetric : forall ops u v, Forall named ops -> dir = false ->
  contains_edge u v (run ops) = contains_edge v u (run ops) /\ edge_attrs u v (run ops) = edge_attrs v u (run ops).
Proof.
  intros ops u v W D. destruct (run_ok dir rank lrank ops W) as ((G & _) & _). pose proof (has_same dir u v v u _ G (or_intror (conj D (conj eq_refl eq_refl)))) as E.
  split; [|unfold edge_attrs; rewrite E; reflexivity]. unfold contains_edge, has_edge, dmem. unfold edge_ref in E. rewrite E. reflexivity.
Qed.
(** The list of the edges has each edge once and [edge_count] is its length. *)
Theorem C46_edge_list : forall ops, Forall named ops -> let l := edge_list dir (n_g (run ops)) in
  NoDup l /\ (forall u v, present dir ops u v <-> In (u, v) l \/ (dir = false /\ In (v, u) l)) /\
  (dir = false -> forall u v, In (u, v) l -> In (v, u) l -> u = v) /\ edge_count dir (run ops) = length l.
Proof.
  intros ops W l. destruct (run_ok dir rank lrank ops W) as ((G & _) & P & _). split; [apply edge_list_NoDup; auto|]. split; [intros u v; rewrite <- P; apply edge_list_In; auto|]. split.
  - intros D u v. unfold l. clear l. revert G. destruct dir; [discriminate|]. intros G. apply edge_list_once; auto.
  - apply size_ok. auto.
Qed.
(** [num_edges] of a node counts the edges with that agent; in a directed network it counts those from it and those to it. *)
Theorem C46_num_edges : forall ops u, Forall named ops ->
  (num_edges dir u (run ops) <> None <-> is_node ops u) /\
  forall k, num_edges dir u (run ops) = Some k -> exists out inn,
    NoDup out /\ NoDup inn /\ (forall x, In x out <-> present dir ops u x) /\ (forall x, In x inn <-> present dir ops x u) /\
    k = (if dir then length out + length inn else length out)%nat.
Proof.
  intros ops u W. destruct (run_ok dir rank lrank ops W) as ((G & _) & P & _ & M). pose proof (go_adj _ _ G) as [A1 A2]. pose proof (go_pred _ _ G) as [B1 B2]. pose proof (go_sym _ _ G) as S. unfold num_edges. split.
  - rewrite <- M. destruct (has_node u _); split; congruence.
  - intros k E. destruct (has_node u (n_g (run ops))) eqn:H; [|discriminate]. inversion E; subst k. clear E.
    set (g := n_g (run ops)) in *. exists (dkeys (nbrs u (g_adj g))), (dkeys (nbrs u (if dir then g_pred g else g_adj g))).
    assert (N : forall d, dwf2 d -> NoDup (dkeys (nbrs u d))) by (intros d [_ D]; unfold nbrs; destruct (dget u d) as [m|] eqn:E; [apply (D u); auto|constructor]).
    split; [apply N; split; auto|]. split; [apply N; destruct dir; split; auto|].
    assert (I : forall d x, In x (dkeys (nbrs u d)) <-> eref u x d <> None).
    { intros d x. unfold eref. split; [intros I E; apply dget_None in E; auto|]. intros E. destruct (in_dec keq_dec x (dkeys (nbrs u d))); auto. apply dget_None in n. congruence. }
    split; [intros x; rewrite I, <- P; reflexivity|]. split.
    + intros x. rewrite I, <- P. unfold has, edge_ref. fold (eref x u (g_adj g)). destruct dir; rewrite S; reflexivity.
    + unfold dkeys. rewrite !map_length. destruct dir; lia.
Qed.

(** ** Which calls fail *)
Lemma no_ghosted : forall o n, n_ghosted n = [] -> n_ghosted (fst (nstep dir rank lrank n o)) = [].
Proof.
  intros o n E.
  assert (K : forall u v m, n_ghosted (fst (remove_key dir u v m)) = n_ghosted m) by (intros u v m; unfold remove_key; destruct dir, (dmem (u, v) (n_keys m)), (dmem (v, u) (ddel (u, v) (n_keys m))); auto).
  assert (A : forall u v m, n_ghosted (add_key dir u v m) = n_ghosted m) by (intros u v m; unfold add_key; destruct dir; auto).
  assert (B : forall u v x y kw, n_ghosted (add_ghost_edge dir u v x y kw n) = []).
  { intros u v x y kw. unfold add_ghost_edge. cbn zeta. destruct (edge_ref u v _); cbn [n_ghosted set_rem set_new]; rewrite A; destruct (has_node y (n_g n)); auto. }
  destruct o as [u|u|u v kw|u v kw|u v|]; cbn [nstep fst]; auto.
  - unfold n_remove. destruct (g_remove_node dir u (n_g n)); auto.
  - unfold add_edge. destruct (here rank lrank u), (here rank lrank v); cbn [andb negb]; auto; cbn zeta; cbn [set_g n_ghosted]; rewrite A; auto.
  - unfold update_edge. destruct (get_key dir u v n) as [k|]; auto. destruct kw as [|e kw]; cbn zeta; [|destruct (edge_ref (fst k) (snd k) (n_g n)); [|auto]]; cbn [fst]; destruct (cross rank lrank u v); auto; cbn [n_upd set_g]; match goal with |- context [existsb ?f ?l] => destruct (existsb f l) end; auto.
  - unfold remove_edge. destruct (g_remove_edge dir u v (n_g n)); auto. cbn zeta. destruct (cross rank lrank u v); [|rewrite K; auto]. destruct (get_key dir u v _) as [k|]; auto. cbn [n_ghosted set_rem set_g]. rewrite E. cbn. auto.
  - unfold clear_edges. cbn [n_ghosted set_g]. rewrite E. reflexivity.
Qed.
Lemma run_no_ghosted : forall ops, n_ghosted (run ops) = [].
Proof. induction ops as [|o ops IH] using rev_ind; auto. rewrite nrun_snoc. apply no_ghosted. auto. Qed.
(** Without [synchronize], removing an edge that is not there always fails; removing one that is there removes it (C46_edges), but the call
    raises [KeyError] for an edge between a local agent and a ghost, and for an edge of an undirected network from an agent to itself. *)
Theorem C46_remove_result : forall ops u v, Forall named ops ->
  (snd (remove_edge dir rank lrank u v (run ops)) = true <-> present dir ops u v /\ cross rank lrank u v = false /\ (dir = true \/ u <> v)).
Proof.
  intros ops u v W. destruct (run_ok dir rank lrank ops W) as ((G & Y) & P & _). pose proof (run_no_ghosted ops) as NG. rewrite <- P, <- contains_has. set (n := run ops) in *. clearbody n. clear P. unfold contains_edge, remove_edge, g_remove_edge.
  destruct (has_edge u v (n_g n)) eqn:H; [|cbn; intuition discriminate]. set (g' := if dir then _ else _). cbn zeta.
  destruct (cross rank lrank u v) eqn:C.
  - destruct (get_key dir u v _) as [k|]; [|cbn; intuition discriminate]. cbn [n_ghosted set_rem set_g]. rewrite NG. cbn. intuition discriminate.
  - unfold remove_key. cbn [n_keys set_g]. pose proof (proj1 (contains_has u v n) H) as HU. destruct dir; [cbn; tauto|].
    destruct (Y eq_refl) as [Y1 _]. assert (E1 : dmem (u, v) (n_keys n) = true) by (unfold dmem; destruct (dget (u, v) _) eqn:E; auto; exfalso; apply (Y1 u v); auto).
    rewrite E1. cbn zeta. destruct (keq_dec u v) as [->|D].
    + replace (dmem (v, v) (ddel (v, v) (n_keys n))) with false; [cbn; intuition discriminate|]. unfold dmem. rewrite dget_ddel, keq_refl. auto.
    + replace (dmem (v, u) (ddel (u, v) (n_keys n))) with true; [cbn; tauto|]. unfold dmem. rewrite dget_ddel. replace (keq (v, u) (u, v)) with false by (symmetry; apply keq_neq; congruence).
      destruct (dget (v, u) _) eqn:E; auto. exfalso. apply (Y1 v u); auto. unfold has. rewrite (has_same false v u u v _ G) by (right; auto). auto.
Qed.
(** Updating an edge succeeds if it is there, and fails if it is not and there is something to update. *)
Theorem C46_update_result : forall ops u v kw, Forall named ops -> kw <> [] ->
  (snd (update_edge dir rank lrank u v kw (run ops)) = true <-> present dir ops u v).
Proof.
  intros ops u v kw W K. destruct (run_ok dir rank lrank ops W) as ((G & Y) & P & _). rewrite <- P. unfold update_edge, get_key, has.
  set (n := run ops) in *. clearbody n. clear P.
  assert (B : forall k, edge_ref (fst k) (snd k) (n_g n) = edge_ref u v (n_g n) ->
    (snd (match match kw, edge_ref (fst k) (snd k) (n_g n) with
                | [], _ => Some n
                | _ :: _, Some r => Some (set_g n (write r (aupdate kw (read r (n_g n))) (n_g n)))
                | _ :: _, None => None
                end with
          | None => (n, false)
          | Some n => (if cross rank lrank u v then (if existsb (keq k) (n_upd n) then n else set_upd n (n_upd n ++ [k])) else n, true)
          end) = true <-> edge_ref u v (n_g n) <> None)).
  { intros k E. rewrite E. destruct kw; [congruence|]. destruct (edge_ref u v _); cbn; split; congruence. }
  destruct dir; [apply (B (u, v)); auto|]. destruct (Y eq_refl) as [Y1 Y2]. destruct (dget (u, v) (n_keys n)) as [k|] eqn:E.
  - apply B. destruct (Y2 u v k E); subst k; cbn; auto. apply (has_same false v u u v _ G). right. auto.
  - cbn. split; [discriminate|]. intros H. exfalso. apply (Y1 u v); auto.
Qed.
End C46.
Print Assumptions C46_edges.
Print Assumptions C46_attrs.
Print Assumptions C46_nodes.
Print Assumptions C46_symmetric.
Print Assumptions C46_edge_list.
Print Assumptions C46_num_edges.
Print Assumptions C46_remove_result.
Print Assumptions C46_update_result.

(** Four agents of rank 0, one of rank 1; attributes 1 and 2. *)
Definition nu (i : Z) : uid := ((i, 0), if i <? 4 then 0 else 1).
Definition nlr (u : uid) : Z := snd u.
Definition nhist : list nop :=
  [NAdd (nu 0); NAdd (nu 1); NAddEdge (nu 0) (nu 1) [(1, 5); (2, 6)]; NAddEdge (nu 1) (nu 2) []; NUpdate (nu 1) (nu 0) [(2, 9)];
   NAddEdge (nu 2) (nu 4) [(1, 3)]; NAddEdge (nu 3) (nu 0) []; NRemoveEdge (nu 1) (nu 2); NAddEdge (nu 3) (nu 3) [(1, 1)]; NUpdate (nu 0) (nu 1) [(1, 7)];
   NAddEdge (nu 1) (nu 0) [(3, 4)]; NRemove (nu 2); NAddEdge (nu 2) (nu 1) []].
Example nhist_named : Forall named nhist.
Proof. repeat constructor; cbn; intuition discriminate. Qed.
Definition nend (dir : bool) : net := nrun dir 0 nlr new_net nhist.
Example C46_example_undirected : edge_list false (n_g (nend false)) = [(nu 0, nu 1); (nu 0, nu 3); (nu 1, nu 2); (nu 3, nu 3)] /\
  edge_attrs (nu 1) (nu 0) (nend false) = Some [(1, 7); (2, 9); (3, 4)] /\ num_edges false (nu 3) (nend false) = Some 2%nat /\
  edge_count false (nend false) = 4%nat /\ node_count (nend false) = 5%nat /\ contains_edge (nu 2) (nu 4) (nend false) = false.
Proof. vm_compute. auto 10. Qed.
Example C46_example_directed : edge_list true (n_g (nend true)) = [(nu 0, nu 1); (nu 1, nu 0); (nu 3, nu 0); (nu 3, nu 3); (nu 2, nu 1)] /\
  edge_attrs (nu 1) (nu 0) (nend true) = Some [(3, 4)] /\ edge_attrs (nu 0) (nu 1) (nend true) = Some [(1, 7); (2, 6)] /\
  num_edges true (nu 0) (nend true) = Some 3%nat /\ edge_count true (nend true) = 5%nat.
Proof. vm_compute. auto 10. Qed.
Example C46_present : present false nhist (nu 3) (nu 0) /\ present false nhist (nu 0) (nu 1) /\ last_value false nhist (nu 0) (nu 1) 2 9.
Proof.
  pose proof (fun u v => C46_edges false 0 nlr nhist u v nhist_named) as E. split; [apply E; reflexivity|]. split; [apply E; reflexivity|].
  apply (proj2 (C46_attrs false 0 nlr nhist (nu 0) (nu 1) nhist_named) [(1, 7); (2, 9); (3, 4)]); reflexivity.
Qed.
(** A directed edge from an agent to itself is counted twice by [num_edges] ("the number of edges that contain the specified agent"), an
    undirected one once. *)
Example C46_loop_counted_twice : forall dir, let n := nrun dir 0 nlr new_net [NAddEdge (nu 0) (nu 0) []] in
  edge_list dir (n_g n) = [(nu 0, nu 0)] /\ num_edges dir (nu 0) n = Some (if dir then 2%nat else 1%nat).
Proof. intros [|]; vm_compute; auto. Qed.
(** [remove_edge] fails with [KeyError] after it has removed the edge. *)
Example C46_remove_fails : forall dir, let n := nrun dir 0 nlr new_net [NAddEdge (nu 0) (nu 4) []; NAddEdge (nu 1) (nu 1) []] in
  snd (remove_edge dir 0 nlr (nu 0) (nu 4) n) = false /\ contains_edge (nu 0) (nu 4) (fst (remove_edge dir 0 nlr (nu 0) (nu 4) n)) = false /\
  snd (remove_edge dir 0 nlr (nu 1) (nu 1) n) = dir.
Proof. intros [|]; vm_compute; auto. Qed.
