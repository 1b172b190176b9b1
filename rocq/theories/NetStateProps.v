(** The property C65: the copies of agents in a network are kept up to date. *)
From Coq Require Import List Arith ZArith Lia Bool.
From Verif Require Import PyDict AgentModel WorldModel NetModel NetWorldModel NetWorldSpec NetWorldBase NetWorldProps NetState.
Import ListNotations.
Open Scope Z_scope.

(** The rank [s] gets the state of [u] from the rank of [u] in the next synchronization. *)
Definition kept_current (w : nworld) (s : Z) (u : uid) : Prop := exists q, at_rank (lr u) w = Some q /\ In (s, u) (states_sent q).
(** Every copy that a rank has.  What is missing: histories in which an edge between ranks is removed or an agent is removed.  The property is
    false of them, see below. *)
Theorem C65_copies_partial : forall dir n ops w s u p, Forall (fun o => keeps o = true) ops -> wrun dir (new_nworld n) ops = Some w ->
  at_rank s w = Some p -> dmem u (am_ghost (p_man p)) = true -> kept_current w s u.
Proof.
  intros dir n ops w s u p F E A H. destruct (run_inv dir n ops w F E) as (P & -> & I).
  assert (R : rk n s) by (unfold at_rank in A; unfold rk; destruct (Z.leb_spec 0 s); [|discriminate]; split; auto; assert (Z.to_nat s < length (W n P))%nat by (apply nth_error_Some; congruence); rewrite W_length in *; lia).
  rewrite (at_W n P s R) in A. inversion A; subst. destruct (iv_to _ _ I s u R H) as [L T]. exists (P (lr u)). split; [apply at_W; auto|]. apply (to_sent n); auto.
Qed.
Print Assumptions C65_copies_partial.
(** After a synchronization, every agent of another rank in the network of a rank. *)
Theorem C65_nodes_partial : forall dir n ops w s u, Forall (fun o => keeps o = true) ops -> wrun dir (new_nworld n) (ops ++ [WSynch]) = Some w ->
  has_node u (n_g (net_of w s)) = true -> lr u <> s -> kept_current w s u.
Proof.
  intros dir n ops w s u F E H L. unfold wrun in E. rewrite fold_left_app in E. cbn [fold_left] in E. fold (wrun dir (new_nworld n) ops) in E. destruct (wrun dir (new_nworld n) ops) as [w0|] eqn:E0; [|discriminate].
  destruct (run_inv dir n ops w0 F E0) as (P0 & -> & I0). cbn [obind] in E. destruct (synch_inv dir n P0 w I0 E) as (P & -> & I & Rf). unfold net_of in H. destruct (at_rank s (W n P)) as [p|] eqn:A; [|discriminate].
  assert (R : rk n s) by (unfold at_rank in A; unfold rk; destruct (Z.leb_spec 0 s); [|discriminate]; split; auto; assert (Z.to_nat s < length (W n P))%nat by (apply nth_error_Some; congruence); rewrite W_length in *; lia).
  rewrite (at_W n P s R) in A. inversion A; subst. destruct (iv_n _ _ I s R u H) as [B|[B|B]]; [contradiction| |rewrite (Rf s R) in B; destruct B].
  destruct (iv_to _ _ I s u R B) as [Lr T]. exists (P (lr u)). split; [apply at_W; auto|]. apply (to_sent n); auto.
Qed.
Print Assumptions C65_nodes_partial.

(** * Examples *)
(** Rank 0 has the agent [b] by a request and adds an edge to [b2], which it has from elsewhere; rank 1 knows [a2] by a request and [a] by the edge
    of rank 0. *)
Definition agents : list wop := [WAgent a; WAgent a2; WAgent b; WAgent b2].
Definition requests : list wop := agents ++ [WRequest [[(b, 1)]; [(a2, 0)]]].
Definition several : list wop := requests ++ [WCall 0 (NAddEdge a b [(1, 10)]); WCall 0 (NAddEdge a b2 []); WSynch; WCall 1 (NAddEdge b2 a2 []); WCall 1 (NAddEdge b2 b []); WCall 1 (NRemoveEdge b2 b)].
Definition copies (w : nworld) (s : Z) : list uid := match at_rank s w with Some p => map fst (am_ghost (p_man p)) | None => [] end.
Definition sent (w : nworld) (s : Z) : list (Z * uid) := match at_rank s w with Some p => states_sent p | None => [] end.
Example C65_ex : Forall (fun o => keeps o = true) several /\
  exists w, wrun true (new_nworld 2) (several ++ [WSynch]) = Some w /\ copies w 0 = [b; b2] /\ copies w 1 = [a2; a] /\ sent w 0 = [(1, a2); (1, a)] /\ sent w 1 = [(0, b); (0, b2)].
Proof. split; [repeat constructor|]. eexists. split; [vm_compute; reflexivity|]. vm_compute. auto 10. Qed.
Example C65_kept_ex : exists w, wrun true (new_nworld 2) (several ++ [WSynch]) = Some w /\ kept_current w 0 b2 /\ kept_current w 1 a.
Proof.
  eexists. split; [vm_compute; reflexivity|]. split; apply (C65_nodes_partial true 2 several); try (vm_compute; reflexivity); try discriminate; repeat constructor.
Qed.

(** * Where the property is false *)
Lemma not_kept : forall w s u, forallb (fun e => negb (keq e (s, u))) (sent w (lr u)) = true -> ~ kept_current w s u.
Proof. intros w s u F (q & A & H). unfold sent in F. rewrite A in F. rewrite forallb_forall in F. specialize (F _ H). rewrite keq_refl in F. discriminate. Qed.
(** Rank 0 requested the agent [b].  Rank 1 adds an edge between [b] and an agent of rank 0, and removes it after a synchronization.  Rank 0 still has
    [b] as a requested copy, and is no longer sent its state. *)
Theorem C65_requested_refuted : exists ops w p, crun true (new_nworld 2) ops = Some w /\ at_rank 0 w = Some p /\ is_requested b (p_man p) = true /\
  dmem b (am_ghost (p_man p)) = true /\ ~ kept_current w 0 b.
Proof.
  exists (requests ++ [WCall 1 (NAddEdge b a2 []); WSynch; WCall 1 (NRemoveEdge b a2); WSynch]). eexists. eexists. split; [vm_compute; reflexivity|]. split; [vm_compute; reflexivity|].
  split; [vm_compute; reflexivity|]. split; [vm_compute; reflexivity|]. apply not_kept. vm_compute. reflexivity.
Qed.
Print Assumptions C65_requested_refuted.
(** Each of two ranks adds an edge with the agent [a] of rank 0.  Rank 0 removes its edge.  Rank 1 still has its own edge with [a], and is no longer sent
    the state of [a]. *)
Theorem C65_edge_refuted : exists ops w, crun true (new_nworld 2) ops = Some w /\ contains_edge b2 a (net_of w 1) = true /\ contains_edge b2 a (net_of w 0) = true /\ ~ kept_current w 1 a.
Proof.
  exists (requests ++ [WCall 0 (NAddEdge a b []); WSynch; WCall 1 (NAddEdge b2 a []); WSynch; WCall 0 (NRemoveEdge a b); WSynch]). eexists. split; [vm_compute; reflexivity|].
  split; [vm_compute; reflexivity|]. split; [vm_compute; reflexivity|]. apply not_kept. vm_compute. reflexivity.
Qed.
Print Assumptions C65_edge_refuted.
