(** One move of agents of a network: the phases on one rank. *)
From Coq Require Import List Arith ZArith Lia Bool.
From Verif Require Import PyDict AgentModel WorldModel NetModel NetSpec NetProofs NetWorldModel NetWorldBase NetWorldInv NetMoveModel NetMoveBase.
Import ListNotations.
Open Scope Z_scope.

Lemma In_dset : forall K V (E : EqK K) (k q : K) (v x : V) d, In (q, x) (dset k v d) -> (q = k /\ x = v) \/ In (q, x) d.
Proof.
  intros K V E k q v x d. induction d as [|[k' v'] d IH]; cbn [dset].
  - intros [I|[]]. inversion I; auto.
  - destruct (keq k k') eqn:Q.
    + apply keq_ok in Q; subst k'. intros [I|I]; [inversion I; auto|]. right; right; auto.
    + intros [I|I]; [right; left; auto|]. destruct (IH I); auto. right; right; auto.
Qed.

Section NetMove.
Variable dir : bool.
Variable make : Z -> nat -> uid -> nat.
Hypothesis make_inj : forall r k k' u u', make r k u = make r k' u' -> k = k'.

(** * Leaving *)
Section Leaves.
Variables (r : Z) (p0 : mpeer).
Hypothesis PL : plain dir r p0.
Lemma leaves_ok : forall E D p, Lft dir r p0 D p -> NoDup (map fst (D ++ E)) -> (forall u d, In (u, d) E -> exists a, dget u (am_local (q_man p0)) = Some a) ->
  (forall u v a b, mem (D ++ E) u = true -> mem (D ++ E) v = true -> dget u (am_local (q_man p0)) = Some a -> dget v (am_local (q_man p0)) = Some b -> edge_ref (node a) (node b) (n_g (q_net p0)) = None) ->
  exists p' ms, foldm (leave_one dir) E p = Some (p', ms) /\ Lft dir r p0 (D ++ E) p' /\ q_made p' = q_made p /\ map (fun e => (fst (snd e), fst e)) ms = E /\
    (forall d u data, In (d, (u, data)) ms -> data = None \/ exists k, data = Some [(r, k)] /\ dmem u (am_ghost (q_man p')) = true) /\
    (forall v, dmem v (am_ghost (q_man p)) = true -> dmem v (am_ghost (q_man p')) = true).
Proof.
  induction E as [|[u d] E IH]; intros D p L N A H.
  - exists p, []. rewrite app_nil_r. cbn [foldm map]. split; auto. split; auto. split; auto. split; auto. split; auto. intros d u data [].
  - destruct (A u d (or_introl eq_refl)) as (a & Ha).
    assert (M : mem D u = false).
    { destruct (mem D u) eqn:M; auto. apply mem_ex in M as (d' & I). rewrite map_app in N. cbn in N. apply NoDup_remove_2 in N. elim N. apply in_or_app. left. apply in_map_iff. exists (u, d'). auto. }
    assert (S : forall v, mem (D ++ [(u, d)]) v = true -> mem (D ++ (u, d) :: E) v = true).
    { intros v. unfold mem. rewrite !existsb_app. cbn. destruct (existsb _ D), (keq v u); cbn; auto; discriminate. }
    assert (Mu : mem (D ++ [(u, d)]) u = true) by (unfold mem; rewrite existsb_app; cbn; rewrite keq_refl; apply orb_true_r).
    destruct (leave_ok dir r p0 PL D p u d a L Ha M) as (p1 & data & E1 & L1 & Q1 & D1 & G1 & O1).
    { intros v b Mv Hb. split; [apply (H u v); auto|apply (H v u); auto]. }
    destruct (IH (D ++ [(u, d)]) p1) as (p2 & ms & E2 & L2 & Q2 & X2 & Y2 & O2); auto.
    + rewrite <- app_assoc. auto.
    + intros u' d' I. apply (A u' d'). right; auto.
    + rewrite <- app_assoc. auto.
    + rewrite <- app_assoc in L2. exists p2, ((d, (u, data)) :: ms). split; [cbn [foldm]; rewrite E1, E2; auto|]. split; auto. split; [congruence|]. split; [cbn; rewrite X2; auto|]. split; auto.
      intros d' u' data' [I|I]; [|eapply Y2; eauto]. inversion I; subst. destruct D1 as [->|[k ->]]; auto. right. exists k. split; auto. apply O2, G1. discriminate.
Qed.
End Leaves.

(** * Objects *)
Definition fresh_from (p : mpeer) : Prop := forall k u, (q_made p <= k)%nat -> dget (make (rank_of p) k u) (q_ids p) = None.
Record known (p : mpeer) : Prop := {
  k_loc : forall u a, dget u (am_local (q_man p)) = Some a -> a_uid a = u /\ dget (a_obj a) (q_ids p) = Some u;
  k_gh : forall u h, dget u (am_ghost (q_man p)) = Some h -> dget (a_obj (g_agent h)) (q_ids p) = Some u }.
Lemma create_spec : forall u p p' a, create make u p = (p', a) -> fresh_from p ->
  a_uid a = u /\ dget (a_obj a) (q_ids p) = None /\ p' = put_made (put_ids p (dset (a_obj a) u (q_ids p))) (S (q_made p)) /\ fresh_from p'.
Proof.
  intros u p p' a E F. unfold create in E. inversion E; subst p' a; clear E. cbn. split; auto. split; [apply F; auto|]. split; auto.
  intros k v L. unfold rank_of. cbn in *. rewrite dget_dset. destruct (keq _ _) eqn:K.
  - apply keq_ok in K. apply make_inj in K. lia.
  - apply F. lia.
Qed.

(** * Arriving *)
Definition uids {X} (l : list (Z * (uid * X))) : list uid := map (fun e => fst (snd e)) l.
Record Arr (p1 : mpeer) (l : list (Z * (uid * option (dict Z Z)))) (p : mpeer) : Prop := {
  a_rank : rank_of p = rank_of p1; a_gh : am_ghost (q_man p) = am_ghost (q_man p1); a_req : am_req (q_man p) = am_req (q_man p1);
  a_gone : q_gone p = q_gone p1; a_moved : q_moved p = q_moved p1; a_no : q_no p = q_no p1;
  a_net : q_net p = set_g (q_net p1) (n_g (q_net p)); a_gok : gok dir (n_g (q_net p)); a_heap : g_heap (n_g (q_net p)) = g_heap (n_g (q_net p1));
  a_ref : forall x y, edge_ref x y (n_g (q_net p)) = edge_ref x y (n_g (q_net p1));
  a_new : forall u, In u (uids l) -> exists a, dget u (am_local (q_man p)) = Some a /\ dget (a_obj a) (am_lrank (q_man p)) = Some (rank_of p1);
  a_old : forall u, ~ In u (uids l) -> dget u (am_local (q_man p)) = dget u (am_local (q_man p1));
  a_keep : forall o, dget o (q_ids p1) <> None -> dget o (q_ids p) = dget o (q_ids p1) /\ dget o (am_lrank (q_man p)) = dget o (am_lrank (q_man p1));
  a_known : known p; a_fresh : fresh_from p;
  a_gd : forall u g, In (u, g) (am_ghosted (q_man p)) -> In (u, g) (am_ghosted (q_man p1)) \/ exists i d, In (i, (u, Some d)) l /\ a_uid (gd_agent g) = u /\ gd_ranks g = ddel (rank_of p1) d }.
Lemma arrives_ok : forall p1, known p1 -> fresh_from p1 -> gok dir (n_g (q_net p1)) -> forall l2 l1 p, Arr p1 l1 p -> (forall u, In u (uids l2) -> dmem u (am_ghost (q_man p1)) = false) ->
  exists p', foldo (arrive_one make) l2 (p, []) = Some (p', []) /\ Arr p1 (l1 ++ l2) p'.
Proof.
  intros p1 K1 F1 G1. induction l2 as [|[i [u data]] l2 IH]; intros l1 p A N.
  - exists p. rewrite app_nil_r. auto.
  - destruct (create make u p) as [q a] eqn:C. pose proof (create_spec _ _ _ _ C (a_fresh _ _ _ A)) as (U & O & Eq & Fq).
    assert (GU : dmem u (am_ghost (q_man p1)) = false) by (apply N; left; auto).
    set (q1 := net_add a (put_man q (add_local a (q_man q)))).
    assert (Rq : rank_of q1 = rank_of p1) by (unfold q1, rank_of; rewrite Eq; cbn; apply (a_rank _ _ _ A)).
    assert (A1 : exists q2, arrive_one make (i, (u, data)) (p, []) = Some (q2, []) /\ Arr p1 (l1 ++ [(i, (u, data))]) q2).
    { unfold arrive_one. cbn [snd]. rewrite C. replace (dmem (a_uid a) (am_ghost (q_man q))) with false by (rewrite Eq; cbn; rewrite (a_gh _ _ _ A), U; auto). fold q1.
      assert (HU : uids (l1 ++ [(i, (u, data))]) = uids l1 ++ [u]) by (unfold uids; rewrite map_app; auto).
      assert (OLD : forall v b, dget v (am_local (q_man p)) = Some b -> a_obj b <> a_obj a) by (intros v b B Q; apply (k_loc _ (a_known _ _ _ A)) in B as [_ B]; congruence).
      assert (QL : forall v, dget v (am_local (q_man q1)) = if keq v u then Some a else dget v (am_local (q_man p))) by (intros v; unfold q1; rewrite Eq; cbn; rewrite dget_dset, U; auto).
      assert (QI : forall o, dget o (q_ids q1) = if keq o (a_obj a) then Some u else dget o (q_ids p)) by (intros o; unfold q1; rewrite Eq; cbn; rewrite dget_dset; auto).
      assert (QR : forall o, dget o (am_lrank (q_man q1)) = if keq o (a_obj a) then Some (rank_of p1) else dget o (am_lrank (q_man p))).
      { intros o; unfold q1; rewrite Eq; cbn. rewrite dget_dset. change (am_rank (q_man p)) with (rank_of p). rewrite (a_rank _ _ _ A). auto. }
      assert (Aq : forall q2, rank_of q2 = rank_of q1 -> am_ghost (q_man q2) = am_ghost (q_man q1) -> am_req (q_man q2) = am_req (q_man q1) -> am_local (q_man q2) = am_local (q_man q1) ->
        am_lrank (q_man q2) = am_lrank (q_man q1) -> q_net q2 = q_net q1 -> q_gone q2 = q_gone q1 -> q_ids q2 = q_ids q1 -> q_made q2 = q_made q1 -> q_moved q2 = q_moved q1 -> q_no q2 = q_no q1 ->
        (forall v g, In (v, g) (am_ghosted (q_man q2)) -> In (v, g) (am_ghosted (q_man p)) \/ (v = u /\ exists d, data = Some d /\ a_uid (gd_agent g) = u /\ gd_ranks g = ddel (rank_of p1) d)) -> Arr p1 (l1 ++ [(i, (u, data))]) q2).
      { intros q2 E1 E2 E3 E4 E5 E6 E7 E8 E9 E10 E11 E12. constructor; rewrite ?E2, ?E3, ?E4, ?E5, ?E6, ?E7, ?E8, ?E9, ?E10, ?E11.
        - congruence.
        - unfold q1. rewrite Eq. cbn. apply (a_gh _ _ _ A).
        - unfold q1. rewrite Eq. cbn. apply (a_req _ _ _ A).
        - unfold q1. rewrite Eq. cbn. apply (a_gone _ _ _ A).
        - unfold q1. rewrite Eq. cbn. apply (a_moved _ _ _ A).
        - unfold q1. rewrite Eq. cbn. apply (a_no _ _ _ A).
        - unfold q1. rewrite Eq. cbn. rewrite (a_net _ _ _ A). reflexivity.
        - unfold q1. rewrite Eq. cbn. apply add_node_ok, (a_gok _ _ _ A).
        - unfold q1. rewrite Eq. cbn. apply (a_heap _ _ _ A).
        - intros x y. unfold q1. rewrite Eq. cbn [q_net net_add put_net n_add n_g set_g]. rewrite add_node_ref. apply (a_ref _ _ _ A).
        - intros v. rewrite HU, in_app_iff. intros I. rewrite QL. destruct (keq v u) eqn:Kv; [exists a; split; auto; rewrite QR, keq_refl; auto|].
          destruct I as [I|[<-|[]]]; [|rewrite keq_refl in Kv; discriminate]. destruct (a_new _ _ _ A v I) as (b & B & R). exists b. split; auto. rewrite QR. destruct (keq (a_obj b) (a_obj a)); auto.
        - intros v I. rewrite HU, in_app_iff in I. rewrite QL. destruct (keq v u) eqn:Kv; [apply keq_ok in Kv; subst; elim I; right; left; auto|]. apply (a_old _ _ _ A). tauto.
        - intros o I. destruct (a_keep _ _ _ A o I) as [I1 I2]. rewrite QI, QR. destruct (keq o (a_obj a)) eqn:Ko; auto. apply keq_ok in Ko; subst o. congruence.
        - constructor.
          + intros v b. rewrite E4, E8, QL, QI. destruct (keq v u) eqn:Kv; intros B.
            * inversion B; subst b. apply keq_ok in Kv; subst v. rewrite keq_refl. auto.
            * pose proof (OLD _ _ B). destruct (keq (a_obj b) (a_obj a)) eqn:Ko; [apply keq_ok in Ko; congruence|]. apply (k_loc _ (a_known _ _ _ A)); auto.
          + intros v h. rewrite E2, E8, QI. unfold q1. rewrite Eq. cbn. intros B. apply (k_gh _ (a_known _ _ _ A)) in B. destruct (keq _ _) eqn:Ko; auto. apply keq_ok in Ko. congruence.
        - intros k v L. rewrite E1, E8. unfold q1. rewrite E9 in L. unfold q1 in L. apply (Fq k v). auto.
        - intros v g I. rewrite HU || idtac. apply E12 in I as [I|(-> & d & -> & I1 & I2)].
          + apply (a_gd _ _ _ A) in I as [I|(i' & d & I & I')]; auto. right. exists i', d. split; auto. apply in_or_app; auto.
          + right. exists i, d. split; auto. apply in_or_app. right; left; auto. }
      destruct data as [d|].
      - unfold set_as_ghosted. rewrite Rq. destruct (ddel (rank_of p1) d) as [|e d'] eqn:Ed.
        + eexists. split; [reflexivity|]. apply Aq; auto. intros v g I. left. unfold q1 in I. rewrite Eq in I. apply I.
        + rewrite U, QL, keq_refl. eexists. split; [reflexivity|]. apply Aq; auto. intros v g I. cbn in I. apply In_dset in I as [[-> ->]|I]; [right|left].
          * split; auto. exists d. split; auto.
          * unfold q1 in I. rewrite Eq in I. apply I.
      - exists q1. split; auto. apply Aq; auto. intros v g I. left. unfold q1 in I. rewrite Eq in I. apply I. }
    destruct A1 as (q2 & E2 & A2). destruct (IH (l1 ++ [(i, (u, data))]) q2 A2) as (p' & E' & A').
    + intros v I. apply N. right; auto.
    + rewrite <- app_assoc in A'. exists p'. split; auto. cbn [foldo]. rewrite E2. auto.
Qed.
Lemma Arr_start : forall p1, known p1 -> fresh_from p1 -> gok dir (n_g (q_net p1)) -> Arr p1 [] p1.
Proof.
  intros p1 K F G. constructor; auto.
  - destruct p1 as [m [] ? ? ? ? ?]; auto.
  - intros u [].
Qed.
End NetMove.
