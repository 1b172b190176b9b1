(** The edges and nodes after all agents of a call of [move_agents] left a rank (C61). *)
From Coq Require Import List Arith ZArith Lia Bool.
From Verif Require Import PyDict AgentModel WorldModel NetModel NetSpec NetProofs NetWorldModel NetWorldBase NetWorldInv NetMoveModel NetMoveBase NetMoveDemo NetLeaveProps NetLeftProps NetLeaversProps.
Import ListNotations.
Open Scope Z_scope.

Lemma moving_edges_local : forall dir x dest l p data es ns p' data' es' ns', foldo (moving_edge dir x dest) l (p, data, es, ns) = Some (p', data', es', ns') -> am_local (q_man p') = am_local (q_man p).
Proof.
  intros dir x dest. induction l as [|[[u v] r] l IH]; intros p data es ns p' data' es' ns' E; cbn [foldo] in E; [inversion E; auto|].
  destruct (moving_edge dir x dest (u, v, r) (p, data, es, ns)) as [[[[q d1] es1] ns1]|] eqn:S; [|discriminate]. rewrite (IH _ _ _ _ _ _ _ _ E). clear E IH. unfold moving_edge in S.
  destruct (negb _ && negb _) in S; [|inversion S; auto].
  destruct (num_edges dir _ (q_net p)) as [c|] in S; [|discriminate S]. cbn [obind] in S. destruct (Nat.eqb c 1) in S; [|inversion S; auto].
  match type of S with context[remove_ghost ?i ?m] => assert (A : am_local (fst (remove_ghost i m)) = am_local m) by (unfold remove_ghost; destruct (is_requested i m); auto; destruct (dget i (am_ghost m)); auto; destruct (_ =? _); auto); destruct (remove_ghost i m) as [m' [?| | |]] eqn:R end; try discriminate S; inversion S; subst; auto.
Qed.
Lemma drops_man : forall dir es p q, foldo (drop_edge dir) es p = Some q -> q_man q = q_man p.
Proof.
  intros dir. induction es as [|[u v] es IH]; intros p q E; cbn [foldo] in E; [inversion E; auto|]. destruct (drop_edge dir (u, v) p) as [p1|] eqn:S; [|discriminate]. rewrite (IH _ _ E). unfold drop_edge in S.
  destruct (g_remove_edge dir _ _ _); [|discriminate]. cbn [obind] in S. destruct (remove_key dir _ _ _) as [n [|]]; [|discriminate]. inversion S. auto.
Qed.
Lemma removes_man : forall dir ns p q, foldo (net_remove dir) ns p = Some q -> q_man q = q_man p.
Proof.
  intros dir. induction ns as [|u ns IH]; intros p q E; cbn [foldo] in E; [inversion E; auto|]. destruct (net_remove dir u p) as [p1|] eqn:S; [|discriminate]. rewrite (IH _ _ E). unfold net_remove in S. destruct (g_remove_node _ _ _); inversion S. auto.
Qed.
Lemma moving_local : forall dir x dest data p p' data', moving_rank dir x dest data p = Some (p', data') -> am_local (q_man p') = am_local (q_man p).
Proof.
  intros dir x dest data p p' data' E. unfold moving_rank in E. destruct (edges_at dir x (q_net p)) as [l|]; [|discriminate]. cbn [obind] in E.
  destruct (foldo (moving_edge dir x dest) l (p, data, [], [])) as [[[[p1 d1] es] ns]|] eqn:E1; [|discriminate]. cbn [obind] in E.
  destruct (foldo (drop_edge dir) es p1) as [p2|] eqn:E2; [|discriminate]. cbn [obind] in E. destruct (foldo (net_remove dir) ns p2) as [p3|] eqn:E3; [|discriminate]. cbn [obind] in E.
  destruct (net_remove dir x p3) as [p4|] eqn:E4; [|discriminate]. cbn [obind] in E. inversion E; subst p4 d1; clear E. assert (A : q_man p' = q_man p3) by (unfold net_remove in E4; destruct (g_remove_node _ _ _); inversion E4; auto).
  rewrite A, (removes_man _ _ _ _ E3), (drops_man _ _ _ _ E2). apply (moving_edges_local _ _ _ _ _ _ _ _ _ _ _ _ E1).
Qed.

(** Like [simple] of C81, without the condition on directions. *)
Record plain (dir : bool) (p : mpeer) : Prop := {
  pl_ok : gok dir (n_g (q_net p));
  pl_distinct : forall y z, has_node y (n_g (q_net p)) = true -> has_node z (n_g (q_net p)) = true -> y <> z -> obj_of y <> obj_of z /\ id_of p y <> id_of p z;
  pl_loops : forall y, edge_ref y y (n_g (q_net p)) = None }.
Lemma plain_ends : forall dir x p, plain dir p -> forall s t y r, ends dir x s t y p r -> obj_of y <> obj_of x /\ id_of p y <> id_of p x.
Proof.
  intros dir x p S s t y r [A B]. pose proof (eref_node s t _ r A) as N1. pose proof (go_closed _ _ (pl_ok _ _ S) s t r A) as N2.
  assert (st : s <> t) by (intros ->; rewrite (pl_loops _ _ S) in A; discriminate). destruct B as [[-> ->]|(_ & -> & ->)]; apply (pl_distinct _ _ S); auto.
Qed.

(** The agents that leave, as nodes. *)
Definition leaver (p : mpeer) (moves : list (uid * Z)) (x : uid) : Prop := exists u a, In u (map fst moves) /\ dget u (am_local (q_man p)) = Some a /\ x = node a.

(** After all agents of a list left, with one message each: none of them is a node; the edges are those of before without the edges of these agents, with the same attributes; no node is
    new; and each other node that is gone was a copy that was not requested. *)
Theorem C61_leavers_partial : forall dir moves p p' msgs, plain dir p -> foldm (leave_one dir) moves p = Some (p', msgs) ->
  plain dir p' /\ map (fun m => (fst m, fst (snd m))) msgs = map (fun e => (snd e, fst e)) moves /\
  (forall x, leaver p moves x -> has_node x (n_g (q_net p')) = false) /\
  (forall s t, leaver p moves s \/ leaver p moves t -> edge_attrs s t (q_net p') = None) /\
  (forall s t, ~ leaver p moves s -> ~ leaver p moves t -> edge_attrs s t (q_net p') = edge_attrs s t (q_net p)) /\
  (forall y, has_node y (n_g (q_net p')) = true -> has_node y (n_g (q_net p)) = true) /\
  (forall y, has_node y (n_g (q_net p)) = true -> has_node y (n_g (q_net p')) = false -> leaver p moves y \/ ~ stays p y).
Proof.
  intros dir. induction moves as [|[u d] moves IH]; intros p p' msgs S E; cbn [foldm] in E.
  - inversion E; subst; clear E. split; auto. split; auto. split; [intros x (v & a & [] & _)|]. split; [intros s t [(v & a & [] & _)|(v & a & [] & _)]|]. split; auto. split; auto. intros y A B. congruence.
  - destruct (leave_one dir (u, d) p) as [[p1 m1]|] eqn:E1; [|discriminate]. destruct (foldm (leave_one dir) moves p1) as [[p2 m2]|] eqn:E2; [|discriminate]. inversion E; subst; clear E.
    unfold leave_one in E1. cbn [fst snd] in E1. unfold remove_local in E1. destruct (dget u (am_local (q_man p))) as [ag|] eqn:AG; [|discriminate].
    assert (X : exists m data dt, moving_rank dir (node ag) d data (put_man p m) = Some (p1, dt) /\ am_local m = ddel u (am_local (q_man p)) /\ am_rank m = am_rank (q_man p) /\ am_req m = am_req (q_man p) /\ am_lrank m = am_lrank (q_man p) /\ m1 = [(d, (u, dt))]).
    { unfold delete_ghosted in E1. cbn [upd_local am_ghosted] in E1. destruct (dget u (am_ghosted (q_man p))) as [gd|]; (destruct (moving_rank dir (node ag) d _ _) as [[q dt]|] eqn:M; [|discriminate E1]); inversion E1; subst q m1; do 3 eexists; (split; [exact M|]); auto. }
    clear E1. destruct X as (m & data & dt & M & ML & MR & MQ & MLR & ->).
    assert (S0 : plain dir (put_man p m)) by (destruct S; split; auto). pose proof (plain_ends dir (node ag) _ S0) as H. pose proof (pl_ok _ _ S0) as G.
    assert (HX : has_node (node ag) (n_g (q_net p)) = true) by (unfold moving_rank, edges_at in M; cbn [put_man q_net] in M; destruct (has_node (node ag) (n_g (q_net p))); [auto|discriminate M]).
    destruct (leave_view _ _ _ _ _ _ _ G H M) as (I1 & I2 & I3 & I4 & I5). pose proof (moving_local _ _ _ _ _ _ _ M) as LO. apply C61_leave_partial in M as (G' & NX & ED & _ & _ & ND & _); auto. cbn [put_man q_net q_man q_ids] in *.
    assert (ID : forall y, id_of p1 y = id_of p y) by (intros y; unfold id_of; rewrite I1; auto).
    assert (S1 : plain dir p1).
    { split; auto.
      - intros y z A B. rewrite !ID. apply (pl_distinct _ _ S); auto.
      - intros y. apply attrs_ref. rewrite ED. destruct (keq y (node ag) || keq y (node ag)); auto. apply attrs_ref, (pl_loops _ _ S). }
    apply IH in E2; auto. destruct E2 as (R1 & R2 & R3 & R4 & R5 & R6 & R7). 
    assert (LV : forall x, leaver p ((u, d) :: moves) x <-> x = node ag \/ leaver p1 moves x).
    { intros x. split.
      - intros (v & w & I & D & ->). destruct (keq v u) eqn:K; [apply keq_ok in K; subst v; rewrite AG in D; inversion D; auto|]. right. exists v, w. cbn [map fst In] in I. destruct I as [<-|I]; [rewrite keq_refl in K; discriminate|].
        split; auto. split; auto. rewrite LO, ML, dget_ddel, K. auto.
      - intros [->|(v & w & I & D & ->)]; [exists u, ag; cbn; auto|]. exists v, w. split; [right; auto|]. split; auto. rewrite LO, ML, dget_ddel in D. destruct (keq v u); [discriminate|auto]. }
    assert (SS : forall y, stays (put_man p m) y <-> stays p y) by (intros y; unfold stays, rank_of, lr_of, id_of; cbn [put_man q_man q_ids]; rewrite MR, MQ, MLR; tauto).
    split; auto. split; [cbn [app map fst snd]; rewrite R2; auto|]. split; [|split; [|split; [|split]]].
    + intros x L. apply LV in L as [->|L]; [|auto]. destruct (has_node (node ag) (n_g (q_net p'))) eqn:N; auto. apply R6 in N. congruence.
    + assert (GX : forall z, edge_attrs (node ag) z (q_net p') = None /\ edge_attrs z (node ag) (q_net p') = None).
      { intros z. assert (N : has_node (node ag) (n_g (q_net p')) = false) by (destruct (has_node (node ag) (n_g (q_net p'))) eqn:N; auto; apply R6 in N; congruence). rewrite !attrs_ref. split.
        - destruct (edge_ref (node ag) z (n_g (q_net p'))) as [r|] eqn:Q; auto. pose proof (eref_node _ _ _ r Q) as Y. change (has_node (node ag) (n_g (q_net p')) = true) in Y. congruence.
        - destruct (edge_ref z (node ag) (n_g (q_net p'))) as [r|] eqn:Q; auto. pose proof (go_closed _ _ (pl_ok _ _ R1) _ _ r Q). congruence. }
      intros s t [L|L]; apply LV in L as [->|L]; try apply GX; apply R4; auto.
    + intros s t A B. rewrite LV in A, B. rewrite R5 by tauto. rewrite ED, !keq_no' by (intros ->; tauto). auto.
    + auto.
    + intros y A B. rewrite LV. destruct (keq y (node ag)) eqn:K; [apply keq_ok in K; auto|]. assert (Ny : y <> node ag) by (intros ->; rewrite keq_refl in K; discriminate).
      destruct (has_node y (n_g (q_net p1))) eqn:N1.
      * destruct (R7 y N1 B) as [L|L]; auto. right. intros Q. apply L. apply SS in Q. unfold stays, rank_of in *. rewrite I2, I3, I4; [|apply (pl_distinct _ _ S); auto]. rewrite ID. exact Q.
      * right. rewrite <- SS. apply ND; auto.
Qed.
Print Assumptions C61_leavers_partial.

(** The state of [C81_leavers_ex], with one of the two agents leaving and with both. *)
Example C61_leavers_ex : forall dir, exists p, obind (go dir fresh couple) (at_mrank 0) = Some p /\ plain dir p /\
  (exists p' msgs, foldm (leave_one dir) [(a, 2)] p = Some (p', msgs) /\ edge_attrs (name 10) (name 1) (q_net p') = Some [(3, 6)] /\ edge_attrs (name 10) (name 0) (q_net p') = None) /\
  exists p' msgs, foldm (leave_one dir) [(a, 2); (a2, 1)] p = Some (p', msgs) /\ map fst msgs = [2; 1] /\ leaver p [(a, 2); (a2, 1)] (name 1) /\ ~ stays p (name 10) /\ has_node (name 10) (n_g (q_net p')) = false.
Proof.
  intros dir. destruct (C81_leavers_ex dir) as (p & P & [S1 S2 S3 _] & _). exists p. split; auto. split; [split; auto|]. clear S1 S2 S3. split.
  - destruct dir; vm_compute in P; inversion P; do 2 eexists; (split; [vm_compute; reflexivity|]); vm_compute; auto.
  - destruct dir; vm_compute in P; inversion P; do 2 eexists; (split; [vm_compute; reflexivity|]); (split; [vm_compute; reflexivity|]); (split; [exists a2; eexists; split; [cbn; auto|]; split; [vm_compute; reflexivity|vm_compute; reflexivity]|]);
      (split; [intros [Q|Q]; vm_compute in Q; [discriminate Q|contradiction]|vm_compute; reflexivity]).
Qed.
