(** Moving agents of a network: C61 where all edges are edges of agents of one rank. *)
From Coq Require Import List Arith ZArith Lia Bool.
From Verif Require Import PyDict AgentModel WorldModel NetModel NetSpec NetProofs NetWorldModel NetWorldBase NetWorldInv NetMoveModel NetMoveSpec NetMoveBase NetMoveSteps NetMovePost NetMoveWorld NetMoveHist NetMoveDemo.
Import ListNotations.
Open Scope Z_scope.

Theorem C61_local_partial : forall dir make n ops w moves, local_history ops -> new_objects make ops -> vrun dir make (new_mworld n) ops = Some w -> may_move w moves ->
  exists w', vstep dir make w (VMove moves) = Some w' /\
    (forall s u, is_local w' s u <-> exists r, is_local w r u /\ goes moves r u s) /\
    (forall s u v at', edge_on w' s u v = Some at' <-> exists r, edge_on w r u v = Some at' /\ (goes moves r u s \/ goes moves r v s)).
Proof.
  intros dir make n ops w moves L O E MM. destruct (hist_run dir make n ops [] new_mpeer w) as (P0 & -> & H); auto.
  - intros r R. constructor; [apply new_plain|]. intros o u D. discriminate.
  - rewrite <- E. unfold new_mworld, MW, ranks. rewrite map_map. auto.
  - cbn [app] in H. set (M := moves_of moves).
    assert (LEN : length moves = n) by (rewrite (mm_length _ _ MM); unfold MW; rewrite map_length; apply ranks_length).
    assert (MV : moves = map M (ranks n)).
    { apply (nth_ext _ _ [] []); [rewrite map_length, ranks_length; auto|]. intros i I. rewrite (nth_indep (map M (ranks n)) [] (M 0)) by (rewrite map_length, ranks_length; lia). rewrite map_nth. unfold M, moves_of.
      replace (nth i (ranks n) 0) with (Z.of_nat i) by (symmetry; apply nth_error_nth, nth_ranks; lia). destruct (Z.leb_spec 0 (Z.of_nat i)); [|lia]. rewrite Nat2Z.id. auto. }
    assert (OUT : forall r u d, In (u, d) (M r) -> rk n r).
    { intros r u d I. unfold M, moves_of in I. destruct (Z.leb_spec 0 r); [|destruct I]. destruct (le_lt_dec (length moves) (Z.to_nat r)); [rewrite nth_overflow in I by auto; destruct I|]. unfold rk. lia. }
    assert (LOC : forall r u, is_local (MW n P0) r u <-> rk n r /\ exists a, home P0 r u a).
    { intros r u. unfold is_local, home. split.
      - intros (p & A & D). destruct (Z_le_dec 0 r) as [X|X]; [destruct (Z_lt_dec r (Z.of_nat n)) as [X'|X']|]; [|rewrite at_MW_out in A by (unfold rk; lia); discriminate|rewrite at_MW_out in A by (unfold rk; lia); discriminate].
        assert (R : rk n r) by (unfold rk; lia). rewrite at_MW in A by auto. inversion A; subst p. split; auto. unfold dmem in D. destruct (dget u _); [eauto|discriminate].
      - intros (R & a & A). exists (P0 r). split; [apply at_MW; auto|]. unfold dmem. rewrite A. auto. }
    assert (PL : forall r, rk n r -> plain dir r (P0 r)) by (intros r R; apply (H r R)).
    assert (IDS : forall r u a, rk n r -> home P0 r u a -> In (r, u, a_obj a) (flat_map added ops)) by (intros r u a R A; apply (h_ids _ _ _ _ (H r R)); apply (pl_loc _ _ _ (PL r R) u a A)).
    assert (ED : forall P r u v at', edge_on (MW n P) r u v = Some at' <-> rk n r /\ sees (P r) u v = Some at').
    { intros P r u v at'. unfold edge_on. destruct (Z_le_dec 0 r) as [X|X]; [destruct (Z_lt_dec r (Z.of_nat n)) as [X'|X']|]; [|rewrite at_MW_out by (unfold rk; lia); cbn; unfold rk; split; [discriminate|lia]|rewrite at_MW_out by (unfold rk; lia); cbn; unfold rk; split; [discriminate|lia]].
      rewrite at_MW by (unfold rk; lia). cbn [obind]. unfold rk. tauto. }
    assert (LO : forall P r u, is_local (MW n P) r u <-> rk n r /\ dmem u (am_local (q_man (P r))) = true).
    { intros P r u. unfold is_local. split.
      - intros (p & A & D). destruct (Z_le_dec 0 r) as [X|X]; [destruct (Z_lt_dec r (Z.of_nat n)) as [X'|X']|]; [|rewrite at_MW_out in A by (unfold rk; lia); discriminate|rewrite at_MW_out in A by (unfold rk; lia); discriminate].
        assert (R : rk n r) by (unfold rk; lia). rewrite at_MW in A by auto. inversion A; subst p. auto.
      - intros [R D]. exists (P r). split; auto. apply at_MW; auto. }
    assert (ONCE : forall r, NoDup (map fst (M r))) by (intros r; apply (mm_once _ _ MM r)).
    assert (GO : forall r u d, rk n r -> (goes moves r u d <-> new_home M r u = d)).
    { intros r u d R. unfold new_home. destruct (mem_get n M (fun r _ => ONCE r) r u R) as [[Q1 Q2]|(Q1 & d' & I & Q2)].
      - rewrite Q2. split.
        + intros G. inversion G as [d0 I E0|NI E0]; subst; auto. apply mem_In in I. unfold M in Q1. congruence.
        + intros <-. apply stays. intros I. apply in_map_iff in I as ([u' d'] & F & I). cbn in F. subst u'. apply mem_In in I. unfold M in Q1. congruence.
      - rewrite Q2. split.
        + intros G. inversion G as [d0 I' E0|NI E0]; subst.
          * assert (W : dget u (M r) = Some d) by (apply In_dget; auto; apply ONCE). congruence.
          * elim NI. apply in_map_iff. exists (u, d'). auto.
        + intros <-. apply goes_to. auto. }
    destruct (move_ok dir make n (no_other _ _ O) P0 M PL) as (P' & F & S1 & S2).
    + intros r s u a b R S A B. apply IDS in A; auto. apply IDS in B; auto. pose proof (lh_agents _ L) as N. clear - A B N. induction (flat_map added ops) as [|e l IH]; [destruct A|]. cbn [map] in N. inversion N as [|e' l' N1 N2 Q]; subst. destruct A as [->|A], B as [Bq|B].
      * inversion Bq. auto.
      * elim N1. apply in_map_iff. exists (s, u, a_obj b). auto.
      * subst e. elim N1. apply in_map_iff. exists (r, u, a_obj a). auto.
      * auto.
    + intros r u d R I. pose proof (mm_local _ _ MM _ _ _ I) as LI. apply LOC in LI as [_ LI]. split; auto. destruct (mm_dest _ _ MM _ _ _ I) as [D1 D2]. split; auto. unfold rk. unfold MW in D1. rewrite map_length, ranks_length in D1. auto.
    + intros r R. apply ONCE.
    + intros r u v a b R M1 M2 A B. destruct (mem_ex _ _ M1) as (d & I1). destruct (mem_ex _ _ M2) as (d' & I2). destruct (edge_ref (node a) (node b) (n_g (q_net (P0 r)))) as [q|] eqn:Q; auto.
      assert (X : edge_on (MW n P0) r u v = Some (read q (n_g (q_net (P0 r))))) by (apply ED; split; auto; apply (sees_home dir n P0 PL r u v _ R); exists a, b, q; auto). rewrite (mm_apart _ _ MM r u v d d' I1 I2) in X. discriminate.
    + intros r R k u K. rewrite (pl_rank _ _ _ (PL r R)). destruct (dget (make r k u) (q_ids (P0 r))) as [v|] eqn:D; auto. apply (h_ids _ _ _ _ (H r R)) in D. apply in_flat_map in D as (o & I & J). destruct o as [r' u' o'|? ?|?|? ?| |?]; cbn in J; try tauto. destruct J as [J|[]]. inversion J; subst. elim (no_added _ _ O r k u v (make r k u) I). auto.
    + exists (MW n P'). split; [|split].
      * cbn [vstep]. replace (length (MW n P0)) with (length moves) by (apply MM). rewrite Nat.eqb_refl. rewrite MV at 1. exact F.
      * intros s u. rewrite LO. split.
        { intros [S D]. apply S2 in D as (r & R & D & N); auto. exists r. split; [apply LO; auto|]. apply GO; auto. }
        { intros (r & D & G). apply LO in D as [R D]. apply GO in G; auto. assert (S : rk n s).
          { subst s. unfold new_home. destruct (dget u (M r)) as [d|] eqn:Q; auto. apply dget_In in Q. destruct (mm_dest _ _ MM _ _ _ Q) as [D1 _]. unfold rk. unfold MW in D1. rewrite map_length, ranks_length in D1. auto. }
          split; auto. apply S2; auto. exists r. auto. }
      * intros s u v at'. rewrite ED. split.
        { intros [S D]. apply S1 in D as (r & R & D & N); auto. exists r. split; [apply ED; auto|]. rewrite !GO by auto. destruct N; auto. }
        { intros (r & D & G). apply ED in D as [R D]. rewrite !GO in G by auto. assert (S : rk n s).
          { assert (Y : forall x, rk n (new_home M r x)). { intros x. unfold new_home. destruct (dget x (M r)) as [d|] eqn:Q; auto. apply dget_In in Q. destruct (mm_dest _ _ MM _ _ _ Q) as [D1 _]. unfold rk. unfold MW in D1. rewrite map_length, ranks_length in D1. auto. }
            destruct G as [<-|<-]; apply Y. }
          split; auto. apply S1; auto. exists r. split; auto. split; auto. destruct G; auto. }
Qed.
Print Assumptions C61_local_partial.

(** An example: edges of agents of ranks 0 and 1; one agent of each moves. *)
Definition some_edges : list vop := start ++ [VCall 0 (NAddEdge a a2 [(1, 5)]); VSynch; VCall 1 (NAddEdge b b2 []); VCall 1 (NUpdate b b2 [(2, 6)])].
Definition some_moves : list (list (uid * Z)) := [[(a2, 2)]; [(b, 0)]; []].
Example C61_local_meets : forall dir, local_history some_edges /\ new_objects fresh some_edges /\
  exists w, vrun dir fresh (new_mworld 3) some_edges = Some w /\ may_move w some_moves /\ edge_on w 0 a a2 = Some [(1, 5)] /\ edge_on w 1 b b2 = Some [(2, 6)].
Proof.
  intros dir. split; [|split].
  - constructor.
    + repeat constructor; cbn; auto; intros []; discriminate.
    + cbn. repeat constructor; cbn; intuition discriminate.
    + cbn. repeat constructor; cbn; intuition discriminate.
  - constructor.
    + intros r k k' u u' E. unfold fresh in E. lia.
    + intros r k u v o I. assert (O : (o < 2)%nat) by (cbn in I; repeat destruct I as [I|I]; inversion I; subst; auto with arith). unfold fresh. lia.
  - assert (X : forall r u d, In (u, d) (moves_of some_moves r) -> (r = 0 /\ u = a2 /\ d = 2) \/ (r = 1 /\ u = b /\ d = 0)).
    { intros r u d I. unfold moves_of in I. destruct (Z.leb_spec 0 r) as [L|L]; [|destruct I]. remember (Z.to_nat r) as k eqn:K. destruct k as [|[|[|[|k]]]]; cbn in I; try tauto.
      - destruct I as [I|[]]. inversion I. left. split; [lia|auto].
      - destruct I as [I|[]]. inversion I. right. split; [lia|auto]. }
    destruct dir.
    + eexists. split; [vm_compute; reflexivity|]. split; [|vm_compute; auto]. constructor.
      * reflexivity.
      * intros r u d I. apply X in I as [(-> & -> & ->)|(-> & -> & ->)]; eexists; (split; [vm_compute; reflexivity|]); reflexivity.
      * intros r. destruct (moves_of some_moves r) as [|[u d] l] eqn:Q; [constructor|]. unfold moves_of in Q. destruct (0 <=? r); [|discriminate]. destruct (Z.to_nat r) as [|[|[|[|k]]]]; cbn in Q; inversion Q; repeat constructor; cbn; auto.
      * intros r u d I. apply X in I as [(-> & -> & ->)|(-> & -> & ->)]; cbn; lia.
      * intros r u v d d' I I'. apply X in I as [(-> & -> & ->)|(-> & -> & ->)]; apply X in I' as [(? & -> & ->)|(? & -> & ->)]; try discriminate; reflexivity.
    + eexists. split; [vm_compute; reflexivity|]. split; [|vm_compute; auto]. constructor.
      * reflexivity.
      * intros r u d I. apply X in I as [(-> & -> & ->)|(-> & -> & ->)]; eexists; (split; [vm_compute; reflexivity|]); reflexivity.
      * intros r. destruct (moves_of some_moves r) as [|[u d] l] eqn:Q; [constructor|]. unfold moves_of in Q. destruct (0 <=? r); [|discriminate]. destruct (Z.to_nat r) as [|[|[|[|k]]]]; cbn in Q; inversion Q; repeat constructor; cbn; auto.
      * intros r u d I. apply X in I as [(-> & -> & ->)|(-> & -> & ->)]; cbn; lia.
      * intros r u v d d' I I'. apply X in I as [(-> & -> & ->)|(-> & -> & ->)]; apply X in I' as [(? & -> & ->)|(? & -> & ->)]; try discriminate; reflexivity.
Qed.
Example C61_local_after : forall dir, exists w, vrun dir fresh (new_mworld 3) (some_edges ++ [VMove some_moves]) = Some w /\
  local_on w 2 a2 = true /\ edge_on w 0 a a2 = Some [(1, 5)] /\ edge_on w 2 a a2 = Some [(1, 5)] /\ edge_on w 1 a a2 = None /\
  local_on w 0 b = true /\ edge_on w 0 b b2 = Some [(2, 6)] /\ edge_on w 1 b b2 = Some [(2, 6)] /\ edge_on w 2 b b2 = None.
Proof. intros []; eexists; (split; [vm_compute; reflexivity|]); vm_compute; auto 10. Qed.
