(** The property C56: checkpoints of networks. *)
From Coq Require Import List Arith ZArith Lia Bool.
From Verif Require Import PyDict AgentModel WorldModel NetModel NetSpec NetProofs NetProps NetWorldModel NetWorldSpec NetWorldBase NetWorldInv NetWorldSync NetWorldProps CkptNetModel CkptNetProofs CkptNetFacts CkptNetWorld.
Import ListNotations.
Open Scope Z_scope.

(** The two networks have the edge or both do not, and the same values for the same names of attributes. *)
Definition alike (u v : uid) (t t' : net) : Prop :=
  contains_edge u v t' = contains_edge u v t /\ forall a a' k, edge_attrs u v t = Some a -> edge_attrs u v t' = Some a' -> dget k a' = dget k a.
(** The agents of the edges that each rank has with its agents are in [L]. *)
Definition ends_in (n : nat) (w : nworld) (L : list uid) : Prop :=
  forall r u v, 0 <= r < Z.of_nat n -> contains_edge u v (net_of w r) = true -> lr u = r \/ lr v = r -> In u L /\ In v L.
Lemma alike_ok : forall u v t t', (has u v (n_g t') <-> has u v (n_g t)) -> (forall k x, val u v k x (n_g t') <-> val u v k x (n_g t)) -> alike u v t t'.
Proof.
  intros u v t t' H V. split.
  - rewrite <- !contains_has in H. destruct (contains_edge u v t'), (contains_edge u v t); intuition congruence.
  - intros a a' k A A'. unfold edge_attrs in *. destruct (edge_ref u v (n_g t)) as [q|] eqn:E; [|discriminate]. destruct (edge_ref u v (n_g t')) as [q'|] eqn:E'; [|discriminate]. inversion A; inversion A'; subst.
    unfold val in V. rewrite E, E' in V. destruct (dget k (read q (n_g t))) as [x|] eqn:F.
    + destruct (proj2 (V k x)) as (z & Z1 & Z2); [exists q; auto|]. congruence.
    + destruct (dget k (read q' (n_g t'))) as [x|] eqn:F'; auto. destruct (proj1 (V k x)) as (z & Z1 & Z2); [exists q'; auto|]. congruence.
Qed.
Lemma net_of_W : forall n P r, rk n r -> net_of (W n P) r = p_net (P r).
Proof. intros n P r R. unfold net_of. rewrite at_W; auto. Qed.
Lemma all_restored : forall dir n ops w L, wrun dir (new_nworld n) ops = Some w -> (forall u, In u L -> 0 <= lr u < Z.of_nat n) -> ends_in n w L ->
  exists d w0, save_all dir w = Some d /\ wrun dir (new_nworld n) (map WAgent L) = Some w0 /\
    ((dir = true /\ exists r u v, 0 <= r < Z.of_nat n /\ contains_edge u v (net_of w r) = true /\ lr v = r /\ lr u <> r) -> restore_network dir d w0 = None) /\
    ((dir = false \/ forall r u v, 0 <= r < Z.of_nat n -> contains_edge u v (net_of w r) = true -> lr v = r -> lr u = r) -> exists w', restore_network dir d w0 = Some w' /\
       forall r, 0 <= r < Z.of_nat n -> nok dir (net_of w' r) /\
         (forall u v, has u v (n_g (net_of w' r)) <-> has u v (n_g (net_of w r)) /\ (lr u = r \/ lr v = r)) /\
         (forall u v k x, val u v k x (n_g (net_of w' r)) <-> val u v k x (n_g (net_of w r)) /\ (lr u = r \/ lr v = r))).
Proof.
  intros dir n ops w L E HL He. destruct (wrun_gwf dir n ops w E) as [Lw Fw]. pose proof (list_W n w Lw) as Ew. set (P := fun r => nth (Z.to_nat r) w (new_peer 0)) in *. clearbody P. subst w.
  destruct (restore_all dir n P L) as (D & w0 & E1 & E2 & E3 & E4); auto.
  - intros r R. apply (Forall_W n (pgwf dir) P Fw r R).
  - intros r u v R Hu Hl. apply (He r u v); auto. rewrite net_of_W by auto. apply contains_has. auto.
  - exists (map D (ranks n)), w0. split; auto. split; auto. split.
    + intros (Dt & r & u & v & R & Hu & Lv & Lu). apply E3. split; auto. exists u, v, r. split; auto. rewrite net_of_W, contains_has in Hu by auto. auto.
    + intros Hd. destruct E4 as (P' & E4 & H4).
      * intros Dt u v r (R & Hu & Lv & Lu). destruct Hd as [Hd|Hd]; [congruence|]. apply Lu. apply (Hd r u v); auto. rewrite net_of_W by auto. apply contains_has. auto.
      * exists (W n P'). split; auto. intros r R. rewrite !net_of_W by auto. apply H4. auto.
Qed.

(** The ranks of a world reached by any calls save their networks, and contexts with the agents of the saved edges restore them.  If the
    network is undirected, or directed and no rank has an edge from an agent of another rank to one of its own, then no rank fails and
    each has the same edges with its agents as before, with the same attributes.
    What is missing: edges between two agents of other ranks; they are not saved.  Directed networks with edges between ranks: the next theorem. *)
Theorem C56_restored_partial : forall dir n ops w L, wrun dir (new_nworld n) ops = Some w -> (forall u, In u L -> 0 <= lr u < Z.of_nat n) -> ends_in n w L ->
  dir = false \/ (forall r u v, 0 <= r < Z.of_nat n -> contains_edge u v (net_of w r) = true -> lr v = r -> lr u = r) ->
  exists d w0 w', save_all dir w = Some d /\ wrun dir (new_nworld n) (map WAgent L) = Some w0 /\ restore_network dir d w0 = Some w' /\
    forall r u v, 0 <= r < Z.of_nat n -> (lr u = r \/ lr v = r -> alike u v (net_of w r) (net_of w' r)) /\ (lr u <> r -> lr v <> r -> contains_edge u v (net_of w' r) = false).
Proof.
  intros dir n ops w L E HL He Hd. destruct (all_restored dir n ops w L E HL He) as (d & w0 & E1 & E2 & _ & E4). destruct (E4 Hd) as (w' & E5 & H). exists d, w0, w'. split; auto. split; auto. split; auto. intros r u v R. destruct (H r R) as (_ & H1 & H2). split.
  - intros Hl. apply alike_ok; [rewrite H1; tauto|intros k x; rewrite H2; tauto].
  - intros Lu Lv. destruct (contains_edge u v (net_of w' r)) eqn:C; auto. apply contains_has, H1 in C. tauto.
Qed.
Print Assumptions C56_restored_partial.
(** A directed network with an edge from an agent of another rank is saved, but restoring it always fails. *)
Theorem C56_directed_fails : forall n ops w L r u v, wrun true (new_nworld n) ops = Some w -> (forall u, In u L -> 0 <= lr u < Z.of_nat n) -> ends_in n w L ->
  0 <= r < Z.of_nat n -> contains_edge u v (net_of w r) = true -> lr v = r -> lr u <> r ->
  exists d w0, save_all true w = Some d /\ wrun true (new_nworld n) (map WAgent L) = Some w0 /\ restore_network true d w0 = None.
Proof. intros n ops w L r u v E HL He R C Lv Lu. destruct (all_restored true n ops w L E HL He) as (d & w0 & E1 & E2 & E3 & _). exists d, w0. split; auto. split; auto. apply E3. split; auto. exists r, u, v. auto. Qed.
Print Assumptions C56_directed_fails.
(** So is any synchronized directed network with an edge between ranks. *)
Theorem C56_synchronized_fails : forall n ops u v L, kept_to true n ops new_book = true -> present true (calls ops) u v -> lr u <> lr v -> 0 <= lr v < Z.of_nat n ->
  exists w, wrun true (new_nworld n) (ops ++ [WSynch]) = Some w /\
    ((forall u, In u L -> 0 <= lr u < Z.of_nat n) -> ends_in n w L ->
     exists d w0, save_all true w = Some d /\ wrun true (new_nworld n) (map WAgent L) = Some w0 /\ restore_network true d w0 = None).
Proof.
  intros n ops u v L K Pr N R. destruct (C47_mirrored_partial true n ops K) as (w & E & H). exists w. split; auto. intros HL He. apply (C56_directed_fails n (ops ++ [WSynch]) w L (lr v) u v); auto. apply (H u v (lr v)); auto.
Qed.
Print Assumptions C56_synchronized_fails.

(** The calls of one rank on its network have the same effect on the restored one: after any of them it has the same edges with its agents, with
    the same attributes, for histories that keep to the rules of C47.  What is missing: exceptions and synchronizations, see below. *)
Theorem C56_future_partial : forall dir n ops L, kept_to dir n ops new_book = true -> (forall u, In u L -> 0 <= lr u < Z.of_nat n) ->
  exists w, wrun dir (new_nworld n) ops = Some w /\
    (ends_in n w L -> dir = false \/ (forall r u v, 0 <= r < Z.of_nat n -> contains_edge u v (net_of w r) = true -> lr v = r -> lr u = r) ->
     exists d w0 w', save_all dir w = Some d /\ wrun dir (new_nworld n) (map WAgent L) = Some w0 /\ restore_network dir d w0 = Some w' /\
       forall r later u v, 0 <= r < Z.of_nat n -> Forall named later -> lr u = r \/ lr v = r ->
         alike u v (nrun dir r lr (net_of w r) later) (nrun dir r lr (net_of w' r) later)).
Proof.
  intros dir n ops L K HL. destruct (run_winv dir n ops K) as (P & E & I). exists (W n P). split; auto. intros He Hd. destruct (all_restored dir n ops _ L E HL He) as (d & w0 & E1 & E2 & _ & E4). destruct (E4 Hd) as (w' & E5 & H). exists d, w0, w'. split; auto. split; auto. split; auto.
  intros r later u v R F Hl. destruct (H r R) as (N' & H1 & H2). assert (N : nok dir (net_of (W n P) r)) by (rewrite net_of_W by auto; apply (wi_e _ _ _ _ I r R)).
  set (t := net_of (W n P) r) in *. set (t' := net_of w' r) in *. clearbody t t'. clear - N N' H1 H2 F Hl.
  assert (B : nok dir (nrun dir r lr t later) /\ nok dir (nrun dir r lr t' later) /\ (has u v (n_g (nrun dir r lr t' later)) <-> has u v (n_g (nrun dir r lr t later))) /\ forall k x, val u v k x (n_g (nrun dir r lr t' later)) <-> val u v k x (n_g (nrun dir r lr t later))).
  { induction later as [|o later IH] using rev_ind.
    - cbn. split; auto. split; auto. split; [rewrite H1; tauto|intros; rewrite H2; tauto].
    - apply Forall_app in F as [F1 F2]. inversion F2; subst. destruct (IH F1) as (A1 & A2 & A3 & A4). rewrite !nrun_snoc. destruct (step_ok dir r lr _ o A1) as [(B1 & B2 & _) B3]; auto. destruct (step_ok dir r lr _ o A2) as [(C1 & C2 & _) C3]; auto. split; auto. split; auto.
      assert (Hs : has u v (n_g (fst (nstep dir r lr (nrun dir r lr t' later) o))) <-> has u v (n_g (fst (nstep dir r lr (nrun dir r lr t later) o)))) by (rewrite B1, C1, A3; tauto).
      split; auto. intros k x. rewrite B2, C2, Hs, A4. tauto. }
  apply alike_ok; apply B.
Qed.
Print Assumptions C56_future_partial.

(** * Examples *)
Definition unordered : list wop := start ++ [WCall 0 (NAddEdge a b [(1, 10)]); WCall 0 (NAddEdge a a2 [(2, 20)]); WCall 1 (NAddEdge b b2 []); WSynch; WCall 0 (NUpdate a b [(3, 30)])].
Definition everyone : list uid := [b2; a; c; b; a2].
Definition saved_seen (dir : bool) (ops : list wop) (L : list uid) (n : nat) : option (list (list (edge * option attrs))) :=
  obind (wrun dir (new_nworld n) ops) (fun w => obind (save_all dir w) (fun d => obind (wrun dir (new_nworld n) (map WAgent L)) (fun w0 =>
  option_map (fun w => map (fun r => map (fun e => (e, edge_attrs (fst e) (snd e) (net_of w (Z.of_nat r)))) (edge_list dir (n_g (net_of w (Z.of_nat r))))) (seq 0 n)) (restore_network dir d w0)))).
Example C56_example : saved_seen false unordered everyone 3 =
  Some [[((a, a2), Some [(2, 20)]); ((a, b), Some [(1, 10); (3, 30)])]; [((b2, b), Some []); ((b, a), Some [(1, 10)])]; []].
Proof. vm_compute. reflexivity. Qed.
Lemma everyone_ok : forall u, In u everyone -> 0 <= lr u < Z.of_nat 3.
Proof. intros u I. cbn in I. repeat destruct I as [<-|I]; cbn; lia. Qed.
Definition run_of (dir : bool) (ops : list wop) (n : nat) : nworld := match wrun dir (new_nworld n) ops with Some w => w | None => [] end.
(** The agents of all edges that are in a network, by computation. *)
Lemma ends_check : forall dir n ops w L, wrun dir (new_nworld n) ops = Some w ->
  forallb (fun p => forallb (fun e => forallb (fun v => existsb (keq (fst e)) L && existsb (keq v) L) (dkeys (snd e))) (g_adj (n_g (p_net p)))) w = true -> ends_in n w L.
Proof.
  intros dir n ops w L E F r u v R C _. destruct (wrun_gwf dir n ops w E) as [Lw Fw]. rewrite (list_W n w Lw) in C, F, Fw. set (P := fun r => nth (Z.to_nat r) w (new_peer 0)) in *. rewrite net_of_W in C by auto. apply contains_has in C.
  rewrite forallb_forall in F. specialize (F (P r) ltac:(unfold W; apply in_map, ranks_In; auto)). rewrite forallb_forall in F. unfold has, edge_ref, nbrs in C. destruct (dget u (g_adj (n_g (p_net (P r))))) as [ns|] eqn:Eu; [|cbn in C; congruence]. apply dget_In in Eu. specialize (F (u, ns) Eu). cbn [fst snd] in F. rewrite forallb_forall in F.
  assert (Iv : In v (dkeys ns)) by (destruct (in_dec keq_dec v (dkeys ns)); auto; apply dget_None in n0; congruence). specialize (F v Iv). apply andb_true_iff in F as [F1 F2]. apply existsb_exists in F1 as (x & X & Kx), F2 as (y & Y & Ky). apply keq_ok in Kx, Ky. subst. auto.
Qed.
Example C56_restored_example : exists d w0 w', save_all false (run_of false unordered 3) = Some d /\ wrun false (new_nworld 3) (map WAgent everyone) = Some w0 /\ restore_network false d w0 = Some w' /\
  alike a b (net_of (run_of false unordered 3) 0) (net_of w' 0).
Proof.
  assert (E : wrun false (new_nworld 3) unordered = Some (run_of false unordered 3)) by (vm_compute; reflexivity).
  destruct (C56_restored_partial false 3 unordered _ everyone E everyone_ok) as (d & w0 & w' & E1 & E2 & E3 & H); [apply (ends_check false 3 unordered); auto; vm_compute; reflexivity|auto|].
  exists d, w0, w'. split; auto. split; auto. split; auto. apply (H 0 a b); [lia|cbn; auto].
Qed.
Theorem C56_directed_refuted : exists n ops w L d w0, crun true (new_nworld n) ops = Some w /\ (forall u, In u L -> 0 <= lr u < Z.of_nat n) /\ ends_in n w L /\
  save_all true w = Some d /\ wrun true (new_nworld n) (map WAgent L) = Some w0 /\ restore_network true d w0 = None.
Proof.
  assert (E : wrun true (new_nworld 3) (first ++ [WSynch]) = Some (run_of true (first ++ [WSynch]) 3)) by (vm_compute; reflexivity).
  assert (He : ends_in 3 (run_of true (first ++ [WSynch]) 3) everyone) by (apply (ends_check true 3 (first ++ [WSynch])); auto; vm_compute; reflexivity).
  destruct (C56_directed_fails 3 (first ++ [WSynch]) _ everyone 1 a b E everyone_ok He) as (d & w0 & E1 & E2 & E3); [lia|vm_compute; reflexivity|auto|cbn; lia|].
  exists 3%nat, (first ++ [WSynch]), (run_of true (first ++ [WSynch]) 3), everyone, d, w0. split; [vm_compute; reflexivity|]. split; [exact everyone_ok|]. auto.
Qed.
Print Assumptions C56_directed_refuted.
(** A directed network with edges in one process only is restored. *)
Definition separate : list wop := start ++ [WCall 0 (NAddEdge a a2 [(2, 20)]); WCall 0 (NAddEdge a2 a []); WCall 1 (NAddEdge b2 b [(5, 50)])].
Example C56_separate : saved_seen true separate everyone 3 = Some [[((a, a2), Some [(2, 20)]); ((a2, a), Some [])]; [((b2, b), Some [(5, 50)])]; []].
Proof. vm_compute. reflexivity. Qed.
Example C56_future_example : kept_to false 3 unordered new_book = true.
Proof. vm_compute. reflexivity. Qed.

(** * Where the property is false *)
(** The checkpoint changes when an attribute is changed after [save_network] and before it is written. *)
Theorem C56_alias_refuted : exists ops later w s, wrun false (new_nworld 1) ops = Some w /\ edge_attrs a a2 (net_of w 0) = Some [(1, 10)] /\ save_network false 0 (net_of w 0) = Some s /\
  exists w0 w', wrun false (new_nworld 1) (map WAgent [a; a2]) = Some w0 /\ restore_network false [dump (nrun false 0 lr (net_of w 0) later) s] w0 = Some w' /\ edge_attrs a a2 (net_of w' 0) = Some [(1, 11)].
Proof.
  exists [WAgent a; WAgent a2; WCall 0 (NAddEdge a a2 [(1, 10)])], [NUpdate a a2 [(1, 11)]]. eexists. eexists. split; [vm_compute; reflexivity|]. split; [vm_compute; reflexivity|]. split; [vm_compute; reflexivity|]. eexists. eexists. split; [vm_compute; reflexivity|]. split; vm_compute; reflexivity.
Qed.
Print Assumptions C56_alias_refuted.
(** An edge between ranks can be removed from the saved networks; from the restored ones it cannot, neither at once nor after a synchronization:
    [remove_edge] raises [KeyError] on both ranks. *)
Theorem C56_remove_refuted : exists ops w d w0 w', crun false (new_nworld 2) ops = Some w /\ save_all false w = Some d /\ wrun false (new_nworld 2) (map WAgent [a; a2; b; b2]) = Some w0 /\ restore_network false d w0 = Some w' /\
  (exists z, crun false w [WCall 0 (NRemoveEdge a b); WSynch] = Some z /\ contains_edge a b (net_of z 1) = false) /\
  snd (nstep false 0 lr (net_of w' 0) (NRemoveEdge a b)) = false /\
  snd (nstep false 1 lr (net_of w' 1) (NRemoveEdge a b)) = false /\
  exists z, wstep false w' WSynch = Some z /\ snd (nstep false 0 lr (net_of z 0) (NRemoveEdge a b)) = false /\ snd (nstep false 1 lr (net_of z 1) (NRemoveEdge a b)) = false.
Proof.
  exists (base ++ [WSynch]). eexists. eexists. eexists. eexists. split; [vm_compute; reflexivity|]. split; [vm_compute; reflexivity|]. split; [vm_compute; reflexivity|]. split; [vm_compute; reflexivity|]. split; [eexists; split; vm_compute; reflexivity|]. split; [vm_compute; reflexivity|]. split; [vm_compute; reflexivity|].
  eexists. split; [vm_compute; reflexivity|]. split; vm_compute; reflexivity.
Qed.
Print Assumptions C56_remove_refuted.
(** An edge between two agents of another rank is lost. *)
Theorem C56_ghosts_refuted : exists ops w d w0 w', crun false (new_nworld 2) ops = Some w /\ contains_edge b b2 (net_of w 0) = true /\ save_all false w = Some d /\ wrun false (new_nworld 2) (map WAgent [a; a2; b; b2]) = Some w0 /\ restore_network false d w0 = Some w' /\
  contains_edge b b2 (net_of w' 0) = false /\ contains_edge b b2 (net_of w' 1) = false.
Proof.
  exists (base ++ [WCall 0 (NAddEdge b b2 []); WSynch]). eexists. eexists. eexists. eexists. split; [vm_compute; reflexivity|]. split; [vm_compute; reflexivity|]. split; [vm_compute; reflexivity|]. split; [vm_compute; reflexivity|]. split; [vm_compute; reflexivity|]. split; vm_compute; reflexivity.
Qed.
Print Assumptions C56_ghosts_refuted.
