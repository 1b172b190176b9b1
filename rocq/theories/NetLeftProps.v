(** The property C81: an agent of a network that leaves a rank leaves no copies behind that are not needed. *)
From Coq Require Import List Arith ZArith Lia Bool.
From Verif Require Import PyDict AgentModel WorldModel NetModel NetSpec NetProofs NetWorldModel NetWorldBase NetWorldInv NetMoveModel NetMoveBase NetMoveDemo NetLeaveProps.
Import ListNotations.
Open Scope Z_scope.

Lemma only_one : forall (x : uid) l, NoDup l -> (exists z, In z l /\ z <> x) \/ (length l <= 1)%nat.
Proof.
  intros x [|z [|w l]] N; cbn [length]; auto. left. inversion N as [|? ? A B]; subst. destruct (keq z x) eqn:K.
  - apply keq_ok in K; subst z. exists w. split; [right; left; auto|]. intros ->. apply A. left; auto.
  - exists z. split; [left; auto|]. intros ->. rewrite keq_refl in K. discriminate.
Qed.
Lemma key_edge : forall (z : uid) (d : dict uid nat), In z (map fst d) -> dget z d <> None.
Proof. intros z d I N. apply dget_None in N. apply N. exact I. Qed.
Lemma more_edges : forall dir x y n c, gok dir (n_g n) -> num_edges dir y n = Some c -> c <> 1%nat -> (edge_ref x y (n_g n) <> None \/ edge_ref y x (n_g n) <> None) ->
  (dir = true -> edge_ref x y (n_g n) = None \/ edge_ref y x (n_g n) = None) -> exists z, z <> x /\ (edge_ref y z (n_g n) <> None \/ edge_ref z y (n_g n) <> None).
Proof.
  intros dir x y n c G E C X B. unfold num_edges in E. destruct (has_node y (n_g n)); [|discriminate]. inversion E as [L]; clear E. pose proof (go_sym _ _ G) as S. unfold sym_ref in S.
  assert (NA : NoDup (map fst (nbrs y (g_adj (n_g n))))) by (apply dwf2_nbrs, G). assert (NP : NoDup (map fst (nbrs y (g_pred (n_g n))))) by (apply dwf2_nbrs, G).
  assert (T : forall (d : dict uid nat) a, dget a d <> None -> (1 <= length d)%nat) by (intros d a N; destruct d; [cbn in N; congruence|cbn; lia]).
  assert (OA : forall z, In z (map fst (nbrs y (g_adj (n_g n)))) -> edge_ref y z (n_g n) <> None) by (intros z I; apply (key_edge z (nbrs y (g_adj (n_g n)))); auto).
  destruct (only_one x _ NA) as [(z & I & Nz)|LA]; [exists z; split; auto; left; apply OA; auto|]. rewrite map_length in LA.
  destruct dir.
  - assert (OP : forall z, In z (map fst (nbrs y (g_pred (n_g n)))) -> edge_ref z y (n_g n) <> None) by (intros z I; change (eref z y (g_adj (n_g n)) <> None); rewrite <- S; apply (key_edge z (nbrs y (g_pred (n_g n)))); auto).
    destruct (only_one x _ NP) as [(z & I & Nz)|LP]; [exists z; split; auto; right; apply OP; auto|]. rewrite map_length in LP.
    destruct (nbrs y (g_adj (n_g n))) as [|[s r] l] eqn:DA; [cbn in L; exfalso; destruct X as [X|X]|].
    + assert (1 <= length (nbrs y (g_pred (n_g n))))%nat; [|lia]. apply (T _ x). change (eref y x (g_pred (n_g n)) <> None). rewrite S. auto.
    + apply X. unfold edge_ref, nbrs in *. rewrite DA. auto.
    + destruct (nbrs y (g_pred (n_g n))) as [|[t q] m] eqn:DP; [cbn in *; lia|].
      destruct (keq s x) eqn:K1; [|exists s; split; [intros ->; rewrite keq_refl in K1; discriminate|left; apply OA; left; auto]]. destruct (keq t x) eqn:K2; [|exists t; split; [intros ->; rewrite keq_refl in K2; discriminate|right; apply OP; left; auto]].
      apply keq_ok in K1, K2. subst s t. exfalso. assert (P : edge_ref x y (n_g n) <> None) by (apply OP; left; auto). assert (Q : edge_ref y x (n_g n) <> None) by (apply OA; left; auto). destruct (B eq_refl); auto.
  - exfalso. rewrite Nat.add_0_r in L. assert (Y : edge_ref y x (n_g n) <> None) by (destruct X as [X|X]; auto; change (eref y x (g_adj (n_g n)) <> None); rewrite S; auto).
    pose proof (T (nbrs y (g_adj (n_g n))) x Y). lia.
Qed.

(** After an agent left a rank, each agent that it had an edge with, and that is neither of the rank nor requested, is no longer a node or has another edge; in directed networks if they
    did not have edges in both directions. *)
Theorem C81_leave_partial : forall dir x dest data p p' data', gok dir (n_g (q_net p)) -> (forall s t y r, ends dir x s t y p r -> obj_of y <> obj_of x /\ id_of p y <> id_of p x) ->
  moving_rank dir x dest data p = Some (p', data') ->
  forall s t y r, ends dir x s t y p r -> ~ stays p y -> (dir = true -> edge_ref x y (n_g (q_net p)) = None \/ edge_ref y x (n_g (q_net p)) = None) -> has_node y (n_g (q_net p')) = true ->
  exists z, edge_attrs y z (q_net p') <> None \/ edge_attrs z y (q_net p') <> None.
Proof.
  intros dir x dest data p p' data' G H E s t y r X S B N. pose proof (H s t y r X) as [Ny _]. apply C61_leave_partial in E as (_ & _ & ED & _ & _ & ND & _); auto.
  assert (YX : y <> x) by (intros ->; congruence).
  assert (HE : edge_ref x y (n_g (q_net p)) <> None \/ edge_ref y x (n_g (q_net p)) <> None) by (destruct X as [X [[-> ->]|(_ & -> & ->)]]; rewrite X; [left|right]; discriminate).
  assert (HY : has_node y (n_g (q_net p)) = true).
  { destruct HE as [J|J].
    - destruct (edge_ref x y (n_g (q_net p))) as [q|] eqn:Q; [|congruence]. apply (go_closed _ _ G x y q Q).
    - destruct (edge_ref y x (n_g (q_net p))) as [q|] eqn:Q; [|congruence]. apply (eref_node y x _ q Q). }
  destruct (num_edges dir y (q_net p)) as [c|] eqn:C; [|unfold num_edges in C; rewrite HY in C; discriminate].
  assert (C1 : c <> 1%nat) by (intros ->; assert (has_node y (n_g (q_net p')) = false) by (apply ND; auto; split; auto; split; eauto); congruence).
  destruct (more_edges dir x y (q_net p) c G C C1 HE B) as (z & Nz & J). exists z. rewrite !ED.
  replace (keq y x) with false by (symmetry; destruct (keq y x) eqn:K; auto; apply keq_ok in K; congruence). replace (keq z x) with false by (symmetry; destruct (keq z x) eqn:K; auto; apply keq_ok in K; congruence). cbn [orb].
  unfold edge_attrs. destruct J as [J|J]; [left; destruct (edge_ref y z (n_g (q_net p)))|right; destruct (edge_ref z y (n_g (q_net p)))]; cbn; congruence.
Qed.
Print Assumptions C81_leave_partial.

Lemma at_least : forall (d : dict uid nat) u, dget u d <> None -> (1 <= length d)%nat.
Proof. intros [|e d] u N; [cbn in N; congruence|cbn; lia]. Qed.

(** An agent that has an edge with another one than the agent that left stays, with this edge. *)
Theorem C81_kept : forall dir x dest data p p' data', gok dir (n_g (q_net p)) -> (forall s t y r, ends dir x s t y p r -> obj_of y <> obj_of x /\ id_of p y <> id_of p x) ->
  moving_rank dir x dest data p = Some (p', data') ->
  forall y z at_, y <> x -> z <> x -> edge_attrs y z (q_net p) = Some at_ ->
  has_node y (n_g (q_net p')) = true /\ has_node z (n_g (q_net p')) = true /\ edge_attrs y z (q_net p') = Some at_.
Proof.
  intros dir x dest data p p' data' G H E y z at_ Ny Nz A. apply C61_leave_partial in E as (G' & _ & ED & _); auto.
  assert (E : edge_attrs y z (q_net p') = Some at_).
  { rewrite ED, A. replace (keq y x) with false by (symmetry; destruct (keq y x) eqn:K; auto; apply keq_ok in K; congruence). replace (keq z x) with false by (symmetry; destruct (keq z x) eqn:K; auto; apply keq_ok in K; congruence). auto. }
  split; [|split; auto]; unfold edge_attrs in E; destruct (edge_ref y z (n_g (q_net p'))) as [q|] eqn:Q; try discriminate E.
  - apply (eref_node y z _ q Q).
  - apply (go_closed _ _ G' y z q Q).
Qed.
Print Assumptions C81_kept.

(** In a directed network an agent with edges in both directions always stays as a node, whatever else it has. *)
Theorem C81_both_ways : forall x dest data p p' data', gok true (n_g (q_net p)) -> (forall s t y r, ends true x s t y p r -> obj_of y <> obj_of x /\ id_of p y <> id_of p x) ->
  moving_rank true x dest data p = Some (p', data') ->
  forall y, y <> x -> edge_ref x y (n_g (q_net p)) <> None -> edge_ref y x (n_g (q_net p)) <> None ->
  has_node y (n_g (q_net p')) = true /\ edge_attrs x y (q_net p') = None /\ edge_attrs y x (q_net p') = None.
Proof.
  intros x dest data p p' data' G H E y Ny A B. apply C61_leave_partial in E as (_ & _ & ED & _ & _ & ND & _); auto. split; [|rewrite !ED, keq_refl, orb_true_r; auto].
  assert (HY : has_node y (n_g (q_net p)) = true) by (destruct (edge_ref y x (n_g (q_net p))) as [q|] eqn:Q; [apply (eref_node y x _ q Q)|congruence]).
  destruct (has_node y (n_g (q_net p'))) eqn:N; auto. exfalso. apply (ND y Ny HY) in N as (_ & C & _). unfold num_edges in C. rewrite HY in C. inversion C as [L]; clear C.
  pose proof (at_least (nbrs y (g_adj (n_g (q_net p)))) x B). pose proof (go_sym _ _ G x y) as S.
  assert (P : dget x (nbrs y (g_pred (n_g (q_net p)))) <> None) by (intros Q; apply A; rewrite <- Q; symmetry; apply S).
  pose proof (at_least _ _ P). lia.
Qed.
Print Assumptions C81_both_ways.

(** With edges in both directions the copy stays, as a node without edges and as a ghost, though it was not requested (network.py 508-519). *)
Definition two_way : list vop := [VRequest [[]; [(a, 0)]; []]; VCall 1 (NAddEdge b a [(2, 6)]); VCall 1 (NAddEdge a b [(3, 6)]); VSynch].
Definition no_edges (p : mpeer) (u : uid) : bool :=
  match find_agent p u with Some x => match nbrs x (g_adj (n_g (q_net p))), nbrs x (g_pred (n_g (q_net p))) with [], [] => true | _, _ => false end | None => false end.
Theorem C81_both_ways_refuted : exists ops w w' p', go true fresh ops = Some w /\ node_on w 0 b = true /\ edge_on w 0 b a = Some [(2, 6)] /\ edge_on w 0 a b = Some [(3, 6)] /\
  vrun true fresh w [VMove [[(a, 2)]; []; []]; VSynch] = Some w' /\ local_on w' 2 a = true /\ local_on w' 1 b = true /\
  at_mrank 0 w' = Some p' /\ node_on w' 0 b = true /\ no_edges p' b = true /\ am_req (q_man p') = [] /\ dmem b (am_ghost (q_man p')) = true.
Proof. exists two_way. do 3 eexists. split; [vm_compute; reflexivity|]. do 3 (split; [vm_compute; reflexivity|]). split; [vm_compute; reflexivity|]. do 2 (split; [vm_compute; reflexivity|]). split; [vm_compute; reflexivity|]. vm_compute. auto. Qed.
Print Assumptions C81_both_ways_refuted.
(** With an edge in one direction, or in an undirected network, it is removed. *)
Example C81_ex : forall dir, exists w p', go dir fresh [VRequest [[]; [(a, 0)]; []]; VCall 1 (NAddEdge b a [(2, 6)]); VSynch; VMove [[(a, 2)]; []; []]; VSynch] = Some w /\
  at_mrank 0 w = Some p' /\ node_on w 0 b = false /\ dmem b (am_ghost (q_man p')) = false.
Proof. intros []; do 2 eexists; (split; [vm_compute; reflexivity|]); (split; [vm_compute; reflexivity|]); vm_compute; auto. Qed.
(** It stays if it has an edge with another agent of the rank. *)
Example C81_more_ex : forall dir, exists w w', go dir fresh [VRequest [[]; [(a, 0); (a2, 0)]; []]; VCall 1 (NAddEdge b a [(2, 6)]); VCall 1 (NAddEdge b a2 [(3, 6)]); VSynch] = Some w /\ edge_on w 0 b a = Some [(2, 6)] /\
  vrun dir fresh w [VMove [[(a, 2)]; []; []]] = Some w' /\ node_on w' 0 b = true /\ edge_on w' 0 b a = None /\ edge_on w' 0 b a2 = Some [(3, 6)].
Proof. intros []; do 2 eexists; (split; [vm_compute; reflexivity|]); (split; [vm_compute; reflexivity|]); (split; [vm_compute; reflexivity|]); vm_compute; auto. Qed.
(** The hypotheses of the theorems for the state of [two_way]. *)
Definition two_graph : graph := g_add_edge true (name 0) (name 10) [(3, 6)] (g_add_edge true (name 10) (name 0) [(2, 6)] (add_node (name 1) (add_node (name 0) new_graph))).
Example C81_state_ex : exists p, obind (go true fresh two_way) (at_mrank 0) = Some p /\ gok true (n_g (q_net p)) /\ (forall s t y r, ends true (name 0) s t y p r -> obj_of y <> obj_of (name 0) /\ id_of p y <> id_of p (name 0)) /\
  edge_ref (name 0) (name 10) (n_g (q_net p)) <> None /\ edge_ref (name 10) (name 0) (n_g (q_net p)) <> None /\ ~ stays p (name 10) /\ exists p' data', moving_rank true (name 0) 2 None p = Some (p', data').
Proof.
  destruct (obind (go true fresh two_way) (at_mrank 0)) as [p|] eqn:P; [|vm_compute in P; discriminate P]. exists p. split; auto.
  assert (E : n_g (q_net p) = two_graph) by (vm_compute in P; inversion P; vm_compute; reflexivity).
  split; [rewrite E; repeat first [apply add_node_ok|apply add_edge_ok|apply gok_new]|]. split.
  - intros s t y r [R C]. rewrite E in R.
    assert (X : y = name 10).
    { clear P E. destruct C as [[-> ->]|(D & -> & ->)].
      - assert (I : In y (map fst (nbrs (name 0) (g_adj two_graph)))) by (unfold edge_ref in R; apply dget_In in R; apply (in_map fst _ _ R)). vm_compute in I. intuition.
      - unfold edge_ref, nbrs in R. destruct (dget y (g_adj two_graph)) as [d|] eqn:Dy; [|discriminate R]. apply dget_In in Dy. vm_compute in Dy. destruct Dy as [Q|[Q|[Q|[]]]]; inversion Q; subst; vm_compute in R; try discriminate R. reflexivity. }
    subst y. vm_compute in P. inversion P. split; vm_compute; discriminate.
  - rewrite E. do 2 (split; [vm_compute; discriminate|]). vm_compute in P. inversion P. split; [|do 2 eexists; vm_compute; reflexivity]. intros [Q|Q]; vm_compute in Q; [discriminate Q|contradiction].
Qed.
