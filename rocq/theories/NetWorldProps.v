(** The property C47: edges between ranks after a synchronization. *)
From Coq Require Import List Arith ZArith Lia Bool.
From Verif Require Import PyDict AgentModel NetModel NetSpec NetProofs NetProps NetWorldModel NetWorldSpec NetWorldSync.
Import ListNotations.
Open Scope Z_scope.

(** If the calls keep to the rules of [kept_to] then none of the ranks fails and after a synchronization both ranks of an edge between agents of
    different ranks have it iff, in the history of all calls of all ranks, it was added and not removed since; with the last attributes written.
    What is missing: histories that do not keep to these rules.  The theorems below show that the property is false of them. *)
Theorem C47_mirrored_partial : forall dir n ops, kept_to dir n ops new_book = true ->
  exists w, wrun dir (new_nworld n) (ops ++ [WSynch]) = Some w /\
    forall u v r, 0 <= r < Z.of_nat n -> lr u <> lr v -> r = lr u \/ r = lr v ->
      (contains_edge u v (net_of w r) = true <-> present dir (calls ops) u v) /\
      forall a q x, edge_attrs u v (net_of w r) = Some a -> (dget q a = Some x <-> last_value dir (calls ops) u v q x).
Proof.
  intros dir n ops K. destruct (mirrored dir n ops K) as (w & E & H). exists w. split; auto. intros u v r R L Rr. destruct (H u v r R L Rr) as [H1 H2]. split; [rewrite contains_has; auto|].
  intros a q x A. rewrite <- H2. unfold edge_attrs in A. destruct (edge_ref u v (n_g (net_of w r))) as [rf|] eqn:Ef; [|discriminate]. inversion A; subst. split; [intros Q; exists rf; auto|]. intros (rf' & Q1 & Q2). congruence.
Qed.
Print Assumptions C47_mirrored_partial.

Lemma calls_app : forall l1 l2, calls (l1 ++ l2) = calls l1 ++ calls l2.
Proof. intros. unfold calls. apply flat_map_app. Qed.
Lemma calls_In : forall ops o, In o (calls ops) -> exists r, In (WCall r o) ops.
Proof. intros ops o I. apply in_flat_map in I as ([u|u|reqs|r p|] & I & J); try destruct J. subst. exists r. auto. contradiction. Qed.
Lemma present_last : forall dir ops u v k o pre, ops = pre ++ o :: k -> kills dir u v o -> Forall (fun x => ~ adds dir u v x) k -> ~ present dir ops u v.
Proof.
  intros dir ops u v k. revert ops. induction k as [|p k IH] using rev_ind; intros ops o pre -> K F P.
  - apply present_snoc in P as [P|[_ P]]; [|auto]. destruct o; cbn in *; tauto.
  - apply Forall_app in F as [F1 F2]. apply Forall_cons_iff in F2 as [F2 _]. rewrite app_comm_cons, app_assoc in P. apply present_snoc in P as [P|[P _]]; [auto|]. apply (IH (pre ++ o :: k) o pre); auto.
Qed.
(** An added edge is on both ranks. *)
Theorem C47_added_partial : forall dir n pre r u v kw post, kept_to dir n (pre ++ WCall r (NAddEdge u v kw) :: post) new_book = true -> lr u <> lr v ->
  (forall s o, In (WCall s o) post -> ~ kills dir u v o) -> 0 <= lr u < Z.of_nat n -> 0 <= lr v < Z.of_nat n ->
  exists w, wrun dir (new_nworld n) ((pre ++ WCall r (NAddEdge u v kw) :: post) ++ [WSynch]) = Some w /\
    contains_edge u v (net_of w (lr u)) = true /\ contains_edge u v (net_of w (lr v)) = true /\
    forall q x, (forall s o y, In (WCall s o) post -> ~ writes dir u v q y o) -> dget q kw = Some x ->
      forall s a, s = lr u \/ s = lr v -> edge_attrs u v (net_of w s) = Some a -> dget q a = Some x.
Proof.
  intros dir n pre r u v kw post K L N Ru Rv. destruct (C47_mirrored_partial dir n _ K) as (w & E & H). exists w. split; auto.
  assert (C : calls (pre ++ WCall r (NAddEdge u v kw) :: post) = calls pre ++ NAddEdge u v kw :: calls post) by (rewrite calls_app; auto).
  assert (P : present dir (calls (pre ++ WCall r (NAddEdge u v kw) :: post)) u v).
  { rewrite C. exists (calls pre), (NAddEdge u v kw), (calls post). split; auto. split; [left; auto|]. apply Forall_forall. intros o I. apply calls_In in I as (s & I). apply (N s o I). }
  split; [apply (H u v (lr u)); auto|]. split; [apply (H u v (lr v)); auto|]. intros q x Wr Q s a Hs A. apply (H u v s); auto; [destruct Hs; subst; auto|].
  rewrite C. exists (calls pre), (NAddEdge u v kw), (calls post). split; auto. split; [split; [left; auto|auto]|]. split; [exists (calls pre), (NAddEdge u v kw), []; split; auto; split; [left; auto|constructor]|].
  apply Forall_forall. intros o I. apply calls_In in I as (s' & I). split; [apply (N s' o I)|]. intros y. apply (Wr s' o y I).
Qed.
Print Assumptions C47_added_partial.
(** A removed edge is on none. *)
Theorem C47_removed_partial : forall dir n pre r u v post, kept_to dir n (pre ++ WCall r (NRemoveEdge u v) :: post) new_book = true -> lr u <> lr v ->
  (forall s o, In (WCall s o) post -> ~ adds dir u v o) -> 0 <= lr u < Z.of_nat n -> 0 <= lr v < Z.of_nat n ->
  exists w, wrun dir (new_nworld n) ((pre ++ WCall r (NRemoveEdge u v) :: post) ++ [WSynch]) = Some w /\
    contains_edge u v (net_of w (lr u)) = false /\ contains_edge u v (net_of w (lr v)) = false.
Proof.
  intros dir n pre r u v post K L N Ru Rv. destruct (C47_mirrored_partial dir n _ K) as (w & E & H). exists w. split; auto.
  assert (P : ~ present dir (calls (pre ++ WCall r (NRemoveEdge u v) :: post)) u v).
  { apply (present_last dir _ u v (calls post) (NRemoveEdge u v) (calls pre)); [rewrite calls_app; auto|left; auto|]. apply Forall_forall. intros o I. apply calls_In in I as (s & I). apply (N s o I). }
  split; [destruct (contains_edge u v (net_of w (lr u))) eqn:Q|destruct (contains_edge u v (net_of w (lr v))) eqn:Q]; auto; exfalso; apply P; [apply (H u v (lr u))|apply (H u v (lr v))]; auto.
Qed.
Print Assumptions C47_removed_partial.

(** * Examples *)
Definition a : uid := (0, 0, 0). Definition a2 : uid := (1, 0, 0). Definition b : uid := (0, 0, 1). Definition b2 : uid := (1, 0, 1). Definition c : uid := (0, 0, 2).
(** Three ranks.  Rank 0 requests agents of the ranks 1 and 2. *)
Definition start : list wop := [WAgent a; WAgent a2; WAgent b; WAgent b2; WAgent c; WRequest [[(b, 1); (c, 2)]; [(a2, 0)]; []]].
Definition first : list wop := start ++ [WCall 0 (NAddEdge a b [(1, 10)]); WCall 0 (NAddEdge c a2 [(1, 11)]); WCall 1 (NAddEdge b2 a2 [(2, 20)]); WCall 0 (NAddEdge a a2 [])].
(** Rank 1 knows the agent [a] by the edge that rank 0 made. *)
Definition second : list wop := first ++ [WSynch; WCall 0 (NUpdate a b [(1, 12)]); WCall 1 (NAddEdge b2 a [(3, 30)]); WCall 0 (NRemoveEdge c a2); WCall 1 (NUpdate b2 a2 [(4, 40)])].
Definition seen (dir : bool) (ops : list wop) (n : nat) : option (list (list (edge * option attrs))) :=
  option_map (fun w => map (fun r => map (fun e => (e, edge_attrs (fst e) (snd e) (net_of w (Z.of_nat r)))) (edge_list dir (n_g (net_of w (Z.of_nat r))))) (seq 0 n)) (wrun dir (new_nworld n) ops).
Example C47_kept : forallb (fun dir => kept_to dir 3 first new_book && kept_to dir 3 second new_book) [true; false] = true.
Proof. vm_compute. reflexivity. Qed.
Example C47_first : seen true (first ++ [WSynch]) 3 =
  Some [[((a, b), Some [(1, 10)]); ((a, a2), Some []); ((c, a2), Some [(1, 11)]); ((b2, a2), Some [(2, 20)])];
        [((b2, a2), Some [(2, 20)]); ((a, b), Some [(1, 10)])];
        [((c, a2), Some [(1, 11)])]].
Proof. vm_compute. reflexivity. Qed.
Example C47_second : seen true (second ++ [WSynch]) 3 =
  Some [[((a, b), Some [(1, 12)]); ((a, a2), Some []); ((b2, a2), Some [(2, 20); (4, 40)]); ((b2, a), Some [(3, 30)])];
        [((b2, a2), Some [(2, 20); (4, 40)]); ((b2, a), Some [(3, 30)]); ((a, b), Some [(1, 12)])];
        []].
Proof. vm_compute. reflexivity. Qed.
Example C47_added_example : exists w, wrun true (new_nworld 3) (second ++ [WSynch]) = Some w /\ contains_edge b2 a (net_of w 0) = true /\ contains_edge b2 a (net_of w 1) = true.
Proof.
  destruct (C47_added_partial true 3 (first ++ [WSynch; WCall 0 (NUpdate a b [(1, 12)])]) 1 b2 a [(3, 30)] [WCall 0 (NRemoveEdge c a2); WCall 1 (NUpdate b2 a2 [(4, 40)])]) as (w & E & H1 & H2 & _).
  - vm_compute. reflexivity.
  - discriminate.
  - intros s o [E|[E|[]]]; inversion E; subst; cbv; intuition congruence.
  - cbn; lia.
  - cbn; lia.
  - exists w. auto.
Qed.
Example C47_removed_example : exists w, wrun true (new_nworld 3) (second ++ [WSynch]) = Some w /\ contains_edge c a2 (net_of w 2) = false /\ contains_edge c a2 (net_of w 0) = false.
Proof.
  destruct (C47_removed_partial true 3 (first ++ [WSynch; WCall 0 (NUpdate a b [(1, 12)]); WCall 1 (NAddEdge b2 a [(3, 30)])]) 0 c a2 [WCall 1 (NUpdate b2 a2 [(4, 40)])]) as (w & E & H1 & H2).
  - vm_compute. reflexivity.
  - discriminate.
  - intros s o [E|[]]; inversion E; subst; cbv; intuition congruence.
  - cbn; lia.
  - cbn; lia.
  - exists w. auto.
Qed.

(** * Where the property is false *)
(** The same as [wrun] if no call of a network raises an exception. *)
Definition cstep (dir : bool) (w : nworld) (o : wop) : option nworld :=
  match o with WCall r p => if snd (nstep dir r lr (net_of w r) p) then wstep dir w o else None | _ => wstep dir w o end.
Definition crun (dir : bool) (w : nworld) (ops : list wop) : option nworld := fold_left (fun w o => obind w (fun w => cstep dir w o)) ops (Some w).
Definition base : list wop := [WAgent a; WAgent a2; WAgent b; WAgent b2; WRequest [[(b, 1); (b2, 1)]; [(a, 0); (a2, 0)]]; WCall 0 (NAddEdge a b [(1, 10)])].
(** An edge that is on both ranks after a synchronization is updated by the rank that did not create it: the next synchronization fails. *)
Theorem C47_update_refuted : exists ops w, crun true (new_nworld 2) ops = Some w /\ contains_edge a b (net_of w 0) = true /\ contains_edge a b (net_of w 1) = true /\
  exists ops' w', ops' = [WCall 1 (NUpdate a b [(1, 11)])] /\ crun true w ops' = Some w' /\ wstep true w' WSynch = None.
Proof. exists (base ++ [WSynch]). eexists. split; [vm_compute; reflexivity|]. split; [vm_compute; reflexivity|]. split; [vm_compute; reflexivity|]. eexists. eexists. split; [reflexivity|]. split; vm_compute; reflexivity. Qed.
Print Assumptions C47_update_refuted.
(** An edge that was not yet synchronized is removed: [remove_edge] fails, with the edge removed, and so does the next synchronization. *)
Theorem C47_remove_refuted : exists ops w w', crun true (new_nworld 2) ops = Some w /\ contains_edge a b (net_of w 0) = true /\
  snd (nstep true 0 lr (net_of w 0) (NRemoveEdge a b)) = false /\ wstep true w (WCall 0 (NRemoveEdge a b)) = Some w' /\ contains_edge a b (net_of w' 0) = false /\ wstep true w' WSynch = None.
Proof. exists base. eexists. eexists. split; [vm_compute; reflexivity|]. split; [vm_compute; reflexivity|]. split; [vm_compute; reflexivity|]. split; [vm_compute; reflexivity|]. split; vm_compute; reflexivity. Qed.
Print Assumptions C47_remove_refuted.
(** An edge is removed and added again with other attributes between two synchronizations: the other rank keeps the old attributes. *)
Theorem C47_readd_refuted : exists ops w, crun true (new_nworld 2) (ops ++ [WSynch]) = Some w /\ edge_attrs a b (net_of w 0) = Some [(2, 20)] /\ edge_attrs a b (net_of w 1) = Some [(1, 10); (2, 20)].
Proof. exists (base ++ [WSynch; WCall 0 (NRemoveEdge a b); WCall 0 (NAddEdge a b [(2, 20)])]). eexists. split; [vm_compute; reflexivity|]. split; vm_compute; reflexivity. Qed.
Print Assumptions C47_readd_refuted.
(** Both ranks add the edge: each has the attributes of the other after the synchronization. *)
Theorem C47_both_refuted : exists ops w, crun true (new_nworld 2) (ops ++ [WSynch]) = Some w /\ edge_attrs a b (net_of w 0) = Some [(1, 12)] /\ edge_attrs a b (net_of w 1) = Some [(1, 10)].
Proof. exists (base ++ [WCall 1 (NAddEdge a b [(1, 12)])]). eexists. split; [vm_compute; reflexivity|]. split; vm_compute; reflexivity. Qed.
Print Assumptions C47_both_refuted.
(** Two edges of one agent to agents of the same rank, synchronized, are removed: the synchronization fails. *)
Theorem C47_two_edges_refuted : exists ops w, crun true (new_nworld 2) ops = Some w /\ contains_edge a b (net_of w 1) = true /\ contains_edge a b2 (net_of w 1) = true /\
  exists w', crun true w [WCall 0 (NRemoveEdge a b); WCall 0 (NRemoveEdge a b2)] = Some w' /\ wstep true w' WSynch = None.
Proof. exists (base ++ [WCall 0 (NAddEdge a b2 []); WSynch]). eexists. split; [vm_compute; reflexivity|]. split; [vm_compute; reflexivity|]. split; [vm_compute; reflexivity|]. eexists. split; vm_compute; reflexivity. Qed.
Print Assumptions C47_two_edges_refuted.
(** An agent is removed from the network of its rank: the other rank keeps its edges. *)
Theorem C47_agent_refuted : exists ops w, crun true (new_nworld 2) (ops ++ [WCall 0 (NRemove a); WSynch]) = Some w /\ contains_edge a b (net_of w 0) = false /\ contains_edge a b (net_of w 1) = true.
Proof. exists (base ++ [WSynch]). eexists. split; [vm_compute; reflexivity|]. split; vm_compute; reflexivity. Qed.
Print Assumptions C47_agent_refuted.
(** An agent with an edge that was not yet synchronized is removed from the context: the synchronization fails. *)
Theorem C47_remove_agent_refuted : exists ops w, crun true (new_nworld 2) ops = Some w /\ contains_edge a b (net_of w 0) = true /\ exists w', wstep true w (WRemove a) = Some w' /\ wstep true w' WSynch = None.
Proof. exists base. eexists. split; [vm_compute; reflexivity|]. split; [vm_compute; reflexivity|]. eexists. split; vm_compute; reflexivity. Qed.
Print Assumptions C47_remove_agent_refuted.
(** [clear_edges] of the rank that created the edges; before a synchronization, and after it.  An edge that a rank adds to an agent that it did not
    request is mirrored. *)
Example C47_clear_ex : forall dir, seen dir (base ++ [WCall 0 NClear; WSynch]) 2 = Some [[]; []] /\ seen dir (base ++ [WSynch; WCall 0 NClear; WSynch]) 2 = Some [[]; []].
Proof. intros [|]; split; vm_compute; reflexivity. Qed.
(** a removed agent leaves the other ranks once; later synchronizations succeed *)
Example C47_removed_agent_ex : forall dir, seen dir (base ++ [WSynch; WRemove a; WSynch; WSynch]) 2 = seen dir (base ++ [WSynch; WRemove a; WSynch]) 2 /\
  match seen dir (base ++ [WSynch; WRemove a; WSynch; WSynch]) 2 with Some _ => True | None => False end.
Proof. destruct dir; vm_compute; auto. Qed.
Example C47_unrequested_ex : seen true [WAgent a; WAgent a2; WAgent b; WAgent b2; WCall 0 (NAddEdge a b [(1, 10)]); WSynch; WCall 0 (NUpdate a b [(1, 11)]); WCall 1 (NAddEdge b2 a []); WSynch] 2 =
  Some [[((a, b), Some [(1, 11)]); ((b2, a), Some [])]; [((b2, a), Some []); ((a, b), Some [(1, 11)])]].
Proof. vm_compute. reflexivity. Qed.
(** [clear_edges] of the other rank: the rank that created the edge keeps it. *)
Theorem C47_clear_refuted : exists ops w, crun true (new_nworld 2) (ops ++ [WCall 1 NClear; WSynch]) = Some w /\ contains_edge a b (net_of w 0) = true /\ contains_edge a b (net_of w 1) = false.
Proof. exists (base ++ [WSynch]). eexists. split; [vm_compute; reflexivity|]. split; vm_compute; reflexivity. Qed.
Print Assumptions C47_clear_refuted.
(** An edge is added and updated, and all edges are cleared before the next synchronization: the synchronization fails. *)
Theorem C47_clear_updated_refuted : forall dir, exists ops w, crun dir (new_nworld 2) (ops ++ [WCall 0 NClear]) = Some w /\ edge_list dir (n_g (net_of w 0)) = [] /\ wstep dir w WSynch = None.
Proof. intros dir. exists (base ++ [WCall 0 (NUpdate a b [(1, 11)])]). destruct dir; (eexists; split; [vm_compute; reflexivity|]; split; vm_compute; reflexivity). Qed.
Print Assumptions C47_clear_updated_refuted.
(** In an undirected network, an edge is added again in the other order and removed: [remove_edge] fails and the other rank keeps the edge. *)
Theorem C47_order_refuted : exists ops w w', crun false (new_nworld 2) ops = Some w /\ snd (nstep false 0 lr (net_of w 0) (NRemoveEdge a b)) = false /\
  wrun false w [WCall 0 (NRemoveEdge a b); WSynch] = Some w' /\ contains_edge a b (net_of w' 0) = false /\ contains_edge a b (net_of w' 1) = true.
Proof. exists (base ++ [WSynch; WCall 0 (NAddEdge b a [(1, 15)])]). eexists. eexists. split; [vm_compute; reflexivity|]. split; [vm_compute; reflexivity|]. split; [vm_compute; reflexivity|]. split; vm_compute; reflexivity. Qed.
Print Assumptions C47_order_refuted.
