(** The property C81 for all agents that leave a rank in a call of [move_agents]. *)
From Coq Require Import List Arith ZArith Lia Bool.
From Verif Require Import PyDict AgentModel WorldModel NetModel NetSpec NetProofs NetWorldModel NetWorldBase NetWorldInv NetMoveModel NetMoveBase NetMoveDemo NetLeaveProps NetLeftProps.
Import ListNotations.
Open Scope Z_scope.

Lemma leave_view : forall dir x dest data p p' data', gok dir (n_g (q_net p)) -> (forall s t y r, ends dir x s t y p r -> obj_of y <> obj_of x /\ id_of p y <> id_of p x) ->
  moving_rank dir x dest data p = Some (p', data') ->
  q_ids p' = q_ids p /\ am_rank (q_man p') = am_rank (q_man p) /\ am_req (q_man p') = am_req (q_man p) /\ (forall y, obj_of y <> obj_of x -> lr_of p' y = lr_of p y) /\
  (forall y, has_node y (n_g (q_net p')) = true -> has_node y (n_g (q_net p)) = true).
Proof.
  intros dir x dest data p p' data' G H E. unfold moving_rank in E. destruct (edges_at dir x (q_net p)) as [l|] eqn:El; [|discriminate]. cbn [obind] in E.
  destruct (foldo (moving_edge dir x dest) l (p, data, [], [])) as [[[[p1 d1] es] ns]|] eqn:E1; [|discriminate]. cbn [obind] in E.
  destruct (foldo (drop_edge dir) es p1) as [p2|] eqn:E2; [|discriminate]. cbn [obind] in E. destruct (foldo (net_remove dir) ns p2) as [p3|] eqn:E3; [|discriminate]. cbn [obind] in E.
  destruct (net_remove dir x p3) as [p4|] eqn:E4; [|discriminate]. cbn [obind] in E. inversion E; subst p4 d1; clear E.
  pose proof (edges_at_In _ _ _ _ G El) as HI.
  assert (FE : forall s t r, In (s, t, r) l -> ends dir x s t (far_end x p (s, t, r)) p r).
  { intros s t r I. apply HI in I as [A B]. split; auto. unfold far_end. cbn [fst snd]. destruct B as [->|[D ->]]; [rewrite keq_refl; auto|]. destruct (keq (id_of p s) (id_of p x)) eqn:K; [|auto].
    exfalso. apply keq_ok in K. apply (proj2 (H s x s r (conj A (or_intror (conj D (conj eq_refl eq_refl)))))); auto. }
  apply loop_ok in E1; [|intros [[s t] r] I; apply (H _ _ _ _ (FE s t r I))]. destruct E1 as ((V1 & V2 & V3 & V4 & V5) & _).
  apply drops_ok in E2; [|rewrite V1; auto]. destruct E2 as ((A1 & _ & _ & A4 & A5 & _ & _ & A8) & _). apply nodes_ok in E3; auto. destruct E3 as ((B1 & _ & _ & B4 & _ & _ & _ & B8) & _).
  unfold net_remove in E4. destruct (g_remove_node dir x (n_g (q_net p3))) as [g|] eqn:R; [|discriminate]. inversion E4; subst p'; clear E4. cbn [put_net q_net q_ids q_man set_g n_g].
  split; [congruence|]. split; [congruence|]. split; [congruence|]. split.
  - intros y N. rewrite <- (V5 y N). unfold lr_of, id_of. cbn [put_net q_ids q_man]. rewrite B1, A1, B4, A4. auto.
  - intros y N. rewrite (remove_node_node _ _ _ _ R), B8, A8, V1 in N. repeat (apply andb_true_iff in N as [? N] || apply andb_true_iff in N as [N ?]); auto.
Qed.

(** The nodes of a network are agents with different ids and objects, without edges to themselves; in a directed network there is one edge at most between two agents. *)
Record simple (dir : bool) (p : mpeer) : Prop := {
  si_ok : gok dir (n_g (q_net p));
  si_distinct : forall y z, has_node y (n_g (q_net p)) = true -> has_node z (n_g (q_net p)) = true -> y <> z -> obj_of y <> obj_of z /\ id_of p y <> id_of p z;
  si_loops : forall y, edge_ref y y (n_g (q_net p)) = None;
  si_one : dir = true -> forall y z, edge_ref y z (n_g (q_net p)) = None \/ edge_ref z y (n_g (q_net p)) = None }.
(** Each copy is requested or has an edge. *)
Definition needed (p : mpeer) : Prop := forall y, has_node y (n_g (q_net p)) = true -> ~ stays p y -> exists z, edge_attrs y z (q_net p) <> None \/ edge_attrs z y (q_net p) <> None.

Lemma attrs_ref : forall y z n, edge_attrs y z n = None <-> edge_ref y z (n_g n) = None.
Proof. intros y z n. unfold edge_attrs. destruct (edge_ref y z (n_g n)); cbn; split; congruence. Qed.
Lemma keq_no' : forall (y x : uid), y <> x -> keq y x = false.
Proof. intros y x N. destruct (keq y x) eqn:K; auto. apply keq_ok in K. congruence. Qed.
Lemma simple_ends : forall dir x p, simple dir p -> forall s t y r, ends dir x s t y p r -> obj_of y <> obj_of x /\ id_of p y <> id_of p x.
Proof.
  intros dir x p S s t y r [A B]. pose proof (eref_node s t _ r A) as N1. pose proof (go_closed _ _ (si_ok _ _ S) s t r A) as N2.
  assert (st : s <> t) by (intros ->; rewrite (si_loops _ _ S) in A; discriminate). destruct B as [[-> ->]|(_ & -> & ->)]; apply (si_distinct _ _ S); auto.
Qed.

Lemma leaves_needed : forall dir x dest data p p' data', simple dir p -> needed p -> moving_rank dir x dest data p = Some (p', data') -> simple dir p' /\ needed p'.
Proof.
  intros dir x dest data p p' data' S N E. pose proof (simple_ends dir x p S) as H.
  assert (HX : has_node x (n_g (q_net p)) = true) by (unfold moving_rank, edges_at in E; destruct (has_node x (n_g (q_net p))); [auto|discriminate E]). pose proof (si_ok _ _ S) as G.
  destruct (leave_view _ _ _ _ _ _ _ G H E) as (I1 & I2 & I3 & I4 & I5). pose proof (C81_leave_partial _ _ _ _ _ _ _ G H E) as L. apply C61_leave_partial in E as (G' & NX & ED & _); auto.
  assert (ID : forall y, id_of p' y = id_of p y) by (intros y; unfold id_of; rewrite I1; auto).
  assert (RF : forall s t, edge_ref s t (n_g (q_net p)) = None -> edge_ref s t (n_g (q_net p')) = None) by (intros s t A; apply attrs_ref; rewrite ED; destruct (keq s x || keq t x); auto; apply attrs_ref; auto).
  split.
  - split; auto.
    + intros y z A B. rewrite !ID. apply (si_distinct _ _ S); auto.
    + intros y. apply RF, (si_loops _ _ S).
    + intros D y z. destruct (si_one _ _ S D y z); auto.
  - intros y HY SY. assert (YX : y <> x) by (intros ->; congruence). pose proof (I5 y HY) as HY0.
    assert (SP : ~ stays p y). { intros A. apply SY. unfold stays, rank_of in *. rewrite ID, I2, I3, I4; auto. apply (si_distinct _ _ S); auto. }
    destruct (N y HY0 SP) as (z & A). destruct (keq z x) eqn:K.
    + apply keq_ok in K; subst z. rewrite !attrs_ref in A.
      assert (X : exists s t r, ends dir x s t y p r).
      { destruct dir.
        - destruct A as [A|A]; [destruct (edge_ref y x (n_g (q_net p))) as [r|] eqn:Q; [|congruence]; exists y, x, r|destruct (edge_ref x y (n_g (q_net p))) as [r|] eqn:Q; [|congruence]; exists x, y, r]; split; auto.
        - assert (B : edge_ref x y (n_g (q_net p)) <> None) by (destruct A as [A|A]; auto; intros Q; apply A; rewrite <- Q; apply (go_sym _ _ G y x)).
          destruct (edge_ref x y (n_g (q_net p))) as [r|] eqn:Q; [|congruence]. exists x, y, r. split; auto. }
      destruct X as (s & t & r & X). apply (L s t y r X SP); auto. intros D. apply (si_one _ _ S D).
    + exists z. rewrite !ED, (keq_no' y x YX), K. auto.
Qed.

Lemma put_man_ok : forall dir p m, am_rank m = am_rank (q_man p) -> am_req m = am_req (q_man p) -> am_lrank m = am_lrank (q_man p) -> simple dir p -> needed p -> simple dir (put_man p m) /\ needed (put_man p m).
Proof.
  intros dir p m A B C S N. split.
  - destruct S as [S1 S2 S3 S4]. split; auto.
  - intros y HY SY. apply N; auto. intros X. apply SY. unfold stays, rank_of, lr_of, id_of in *. cbn [put_man q_man q_ids] in *. rewrite A, B, C. auto.
Qed.

(** If each copy on a rank is requested or has an edge, this is still so after all agents of a list left, whatever edges they have with each other, with other agents of the rank and
    with copies; in directed networks if there are not two edges between two agents. *)
Theorem C81_leavers_partial : forall dir moves p p' msgs, simple dir p -> needed p -> foldm (leave_one dir) moves p = Some (p', msgs) -> simple dir p' /\ needed p'.
Proof.
  intros dir. induction moves as [|[u d] moves IH]; intros p p' msgs S N E; cbn [foldm] in E; [inversion E; subst; auto|].
  destruct (leave_one dir (u, d) p) as [[p1 m1]|] eqn:E1; [|discriminate]. destruct (foldm (leave_one dir) moves p1) as [[p2 m2]|] eqn:E2; [|discriminate]. inversion E; subst; clear E.
  assert (X : simple dir p1 /\ needed p1); [|destruct X; apply (IH p1 p' m2); auto]. clear E2 IH.
  unfold leave_one in E1. cbn [fst snd] in E1. unfold remove_local in E1. destruct (dget u (am_local (q_man p))) as [ag|]; [|discriminate]. unfold delete_ghosted in E1. cbn [upd_local am_ghosted] in E1.
  destruct (dget u (am_ghosted (q_man p))) as [gd|].
  - destruct (moving_rank dir (node ag) d _ _) as [[q dt]|] eqn:M; [|discriminate E1]. inversion E1; subst q. apply leaves_needed in M; auto; eapply put_man_ok; eauto.
  - destruct (moving_rank dir (node ag) d _ _) as [[q dt]|] eqn:M; [|discriminate E1]. inversion E1; subst q. apply leaves_needed in M; auto; eapply put_man_ok; eauto.
Qed.
Print Assumptions C81_leavers_partial.

(** Two agents of rank 0 with an edge leave together; an agent of rank 1 with edges to both is a copy on rank 0, and is removed with the second one. *)
Definition couple : list vop := [VCall 0 (NAddEdge a a2 [(1, 5)]); VRequest [[]; [(a, 0); (a2, 0)]; []]; VCall 1 (NAddEdge b a [(2, 6)]); VCall 1 (NAddEdge b a2 [(3, 6)]); VSynch].
Definition couple_graph (dir : bool) : graph :=
  g_add_edge dir (name 10) (name 1) [(3, 6)] (g_add_edge dir (name 10) (name 0) [(2, 6)] (g_add_edge dir (name 0) (name 1) [(1, 5)] (add_node (name 1) (add_node (name 0) new_graph)))).
Definition edge_list (g : graph) : list (uid * uid) := flat_map (fun e => map (fun f => (fst e, fst f)) (snd e)) (g_adj g).
Lemma edge_list_ok : forall g y z, edge_ref y z g <> None -> In (y, z) (edge_list g).
Proof.
  intros g y z N. unfold edge_ref, nbrs in N. destruct (dget y (g_adj g)) as [d|] eqn:D; [|cbn in N; congruence]. destruct (dget z d) as [r|] eqn:Z; [|congruence]. apply dget_In in D, Z.
  unfold edge_list. apply in_flat_map. exists (y, d). split; auto. cbn [fst snd]. apply in_map_iff. exists (z, r). auto.
Qed.
Lemma node_list_ok : forall g y, has_node y g = true -> In y (map fst (g_adj g)).
Proof. intros g y N. unfold has_node, dmem in N. destruct (dget y (g_adj g)) as [d|] eqn:D; [|discriminate]. apply dget_In in D. apply (in_map fst _ _ D). Qed.
Example C81_leavers_ex : forall dir, exists p, obind (go dir fresh couple) (at_mrank 0) = Some p /\ simple dir p /\ needed p /\ has_node (name 10) (n_g (q_net p)) = true /\
  exists p' msgs, foldm (leave_one dir) [(a, 2); (a2, 2)] p = Some (p', msgs) /\ has_node (name 10) (n_g (q_net p')) = false.
Proof.
  intros dir. destruct (obind (go dir fresh couple) (at_mrank 0)) as [p|] eqn:P; [|destruct dir; vm_compute in P; discriminate P]. exists p. split; auto.
  assert (E : n_g (q_net p) = couple_graph dir) by (destruct dir; vm_compute in P; inversion P; vm_compute; reflexivity).
  assert (NL : forall y, has_node y (n_g (q_net p)) = true -> y = name 0 \/ y = name 1 \/ y = name 10).
  { intros y N. rewrite E in N. apply node_list_ok in N. clear P E. destruct dir; vm_compute in N; intuition. }
  split; [|split; [|split; [rewrite E; destruct dir; vm_compute; reflexivity|]]].
  - split.
    + rewrite E. unfold couple_graph. repeat first [apply add_node_ok|apply add_edge_ok|apply gok_new].
    + intros y z A B. apply NL in A, B. destruct dir; vm_compute in P; inversion P; destruct A as [->|[->| ->]], B as [->|[->| ->]]; intros C; try congruence; split; vm_compute; discriminate.
    + intros y. rewrite E. clear P E NL. destruct (edge_ref y y (couple_graph dir)) eqn:Q; auto. exfalso. assert (I : In (y, y) (edge_list (couple_graph dir))) by (apply edge_list_ok; rewrite Q; discriminate).
      clear Q. destruct dir; vm_compute in I; repeat (destruct I as [I|I]; [inversion I; subst; discriminate|]); contradiction.
    + intros -> y z. rewrite E. clear P E NL. destruct (edge_ref y z (couple_graph true)) eqn:Q; auto. right. assert (I : In (y, z) (edge_list (couple_graph true))) by (apply edge_list_ok; rewrite Q; discriminate).
      clear Q. vm_compute in I. repeat (destruct I as [I|I]; [inversion I; subst; vm_compute; reflexivity|]). contradiction.
  - intros y A B. apply NL in A. unfold edge_attrs. rewrite E. destruct dir; vm_compute in P; inversion P; (destruct A as [->|[->| ->]]; [exists (name 10); right; vm_compute; discriminate|exists (name 10); right; vm_compute; discriminate|exists (name 0); left; vm_compute; discriminate]).
  - destruct dir; vm_compute in P; inversion P; do 2 eexists; (split; [vm_compute; reflexivity|]); vm_compute; reflexivity.
Qed.
