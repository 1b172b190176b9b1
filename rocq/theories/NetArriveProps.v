(** What the other ranks do when agents of a network have moved, for C61: the rank that an agent arrives at, and the ranks that have it as a ghost. *)
From Coq Require Import List Arith ZArith Lia Bool.
From Verif Require Import PyDict AgentModel WorldModel NetModel NetSpec NetProofs NetWorldModel NetWorldBase NetWorldInv NetMoveModel NetMoveBase NetMoveDemo NetCount NetArrive.
Import ListNotations.
Open Scope Z_scope.

(** ** The agent arrives at a rank that has it as a ghost *)
(** [p]: the rank after the agent was added to the context: its object [ag] is a node without edges, and the ghost [gh] is another object. *)
Record arrived (dir : bool) (u : uid) (gh ag : agent) (m : manager) (p : mpeer) : Prop := {
  ar_gok : gok dir (n_g (q_net p));
  ar_wf : heap_wf (n_g (q_net p));
  ar_ghost : get_ghost u 1 (q_man p) = (m, Some gh);
  ar_local : get_local u m = Some ag;
  ar_ids : id_of p (node gh) = u /\ a_uid ag = u;
  ar_two : node ag <> node gh;
  ar_nodes : has_node (node gh) (n_g (q_net p)) = true /\ has_node (node ag) (n_g (q_net p)) = true;
  ar_new : forall y, edge_attrs (node ag) y (q_net p) = None /\ edge_attrs y (node ag) (q_net p) = None;
  ar_loop : edge_attrs (node gh) (node gh) (q_net p) = None;
  ar_other : forall y, y <> node gh -> edge_attrs y (node gh) (q_net p) <> None -> id_of p y <> u }.
Definition was (gh ag : agent) (x : uid) : uid := if keq x (node ag) then node gh else x.

(** Every edge of the ghost is now an edge of the agent, with its direction and attributes; the other edges are as before, and the ghost is no longer a node. *)
Theorem C61_arrive_partial : forall dir p u gh ag m, arrived dir u gh ag m p ->
  exists p', moved_one dir (u, rank_of p) p = Some p' /\ q_man p' = m /\ has_node (node gh) (n_g (q_net p')) = false /\
    forall s t, edge_attrs s t (q_net p') = if keq s (node gh) || keq t (node gh) then None else edge_attrs (was gh ag s) (was gh ag t) (q_net p).
Proof.
  intros dir p u gh ag m [G W Gh Lo [I1 I2] Two [Ng Na] New Loop Oth].
  destruct (edges_at dir (node gh) (q_net p)) as [l|] eqn:El; [|unfold edges_at in El; rewrite Ng in El; discriminate].
  pose proof (edges_at_In _ _ _ _ G El) as HI. set (h := n_g (q_net p)) in *. set (F := fun s t => at_of s t h).
  assert (NL : forall s t, at_of s t h <> None -> s <> node ag /\ t <> node ag).
  { intros s t N. split; intros ->; [destruct (New t) as [X _]|destruct (New s) as [_ X]]; apply N; apply X. }
  assert (RF : forall x y r, In (x, y, r) l -> edge_ref x y h = Some r /\ ((x = node gh /\ other ag (node gh) y) \/ (dir = true /\ y = node gh /\ other ag (node gh) x))).
  { intros x y r J. apply HI in J as [E C]. split; auto. assert (A : at_of x y h <> None) by (unfold at_of; rewrite E; discriminate). destruct (NL _ _ A) as [X Y].
    assert (Z : ~ (x = node gh /\ y = node gh)) by (intros [-> ->]; apply A; apply Loop). unfold other. destruct C as [->|[D ->]]; [left|right]; intuition. }
  assert (ND : NoDup (map fst l)).
  { unfold edges_at in El. fold h in El. rewrite Ng in El. inversion El; subst l. rewrite map_app, map_map. cbn [fst]. apply NoDup_app.
    - assert (X : dwf (nbrs (node gh) (g_adj h))) by (apply dwf2_nbrs, G). unfold dwf, dkeys in X. rewrite <- (map_map fst (fun y => (node gh, y))). apply FinFun.Injective_map_NoDup; auto. intros y z Q; congruence.
    - destruct dir; [|constructor]. rewrite map_map. cbn [fst]. assert (X : dwf (nbrs (node gh) (g_pred h))) by (apply dwf2_nbrs, G). unfold dwf, dkeys in X. rewrite <- (map_map fst (fun y => (y, node gh))). apply FinFun.Injective_map_NoDup; auto. intros y z Q; congruence.
    - intros [x y] J1 J2. apply in_map_iff in J1 as (e & Q1 & J1). inversion Q1; subst x y. apply in_map_iff in J2 as ([[x y] r] & Q2 & J2). cbn in Q2. inversion Q2; subst x y.
      destruct (RF (node gh) (fst e) r) as [_ [[_ [X _]]|(_ & _ & X & _)]]; [apply in_or_app; right; auto| |congruence].
      destruct dir; [|destruct J2]. apply in_map_iff in J2 as (e' & Q & J2). inversion Q. congruence. }
  assert (I : inv dir ag (node gh) F l h).
  { constructor; auto.
    - intros y O. unfold outs. destruct (existsb _ l) eqn:E.
      + split; auto. apply New.
      + assert (X : at_of (node gh) y h = None).
        { destruct (at_of (node gh) y h) as [k|] eqn:A; auto. unfold at_of in A. destruct (edge_ref (node gh) y h) as [r|] eqn:R; [|discriminate]. assert (J : In (node gh, y, r) l) by (apply HI; auto).
          exfalso. assert (existsb (fun e => keq (node gh) (fst (fst e)) && keq y (snd (fst e))) l = true); [|congruence]. apply existsb_exists. eexists; split; [exact J|]. cbn [fst snd]. rewrite !keq_refl. auto. }
        unfold F. rewrite X. split; auto. apply New.
    - intros y D O. unfold ins. destruct (existsb _ l) eqn:E.
      + split; auto. apply New.
      + assert (X : at_of y (node gh) h = None).
        { destruct (at_of y (node gh) h) as [k|] eqn:A; auto. unfold at_of in A. destruct (edge_ref y (node gh) h) as [r|] eqn:R; [|discriminate]. assert (J : In (y, node gh, r) l) by (apply HI; auto).
          exfalso. assert (existsb (fun e => keq y (fst (fst e)) && keq (node gh) (snd (fst e))) l = true); [|congruence]. apply existsb_exists. eexists; split; [exact J|]. cbn [fst snd]. rewrite !keq_refl. auto. }
        unfold F. rewrite X. split; auto. apply New.
    - intros s t [->| ->] [->| ->]; auto; apply New. }
  set (q := put_man p m).
  destruct (takes_ok dir q ag (node gh) F) with (l := l) (h := h) as (h' & E & I'); auto.
  - change (id_of q (node gh)) with (id_of p (node gh)). congruence.
  - intros y D O N. change (id_of q y) with (id_of p y). rewrite I2. apply Oth; auto. apply O.
  - replace (with_graph q h) with q in E by (unfold with_graph, q, h; destruct p as [? [] ? ? ? ? ?]; reflexivity).
    destruct (g_remove_node dir (node gh) h') as [h2|] eqn:Er; [|unfold g_remove_node in Er; rewrite (i_g _ _ _ _ _ _ I') in Er; discriminate].
    exists (put_net (with_graph q h') (set_g (q_net (with_graph q h')) h2)). split; [|split; [|split]].
    + unfold moved_one. cbn [fst snd]. rewrite Z.eqb_refl, Gh, Lo, El. cbn [obind]. fold q. rewrite E. cbn [obind]. unfold net_remove. change (n_g (q_net (with_graph q h'))) with h'. rewrite Er. reflexivity.
    + reflexivity.
    + cbn [put_net q_net set_g n_g]. rewrite (remove_node_node _ _ _ _ Er), keq_refl. auto.
    + intros s t. change (edge_attrs s t (q_net (put_net (with_graph q h') (set_g (q_net (with_graph q h')) h2)))) with (at_of s t h2).
      change (edge_attrs (was gh ag s) (was gh ag t) (q_net p)) with (F (was gh ag s) (was gh ag t)).
      unfold at_of at 1. rewrite (remove_node_ref _ _ _ _ (i_gok _ _ _ _ _ _ I') Er). destruct (keq s (node gh) || keq t (node gh)) eqn:K; auto. apply orb_false_iff in K as [K1 K2].
      replace (option_map (fun r => read r h2) (edge_ref s t h')) with (at_of s t h') by (unfold at_of, read; rewrite (remove_node_heap _ _ _ _ Er); auto).
      assert (S1 : s <> node gh) by (intros ->; rewrite keq_refl in K1; discriminate). assert (S2 : t <> node gh) by (intros ->; rewrite keq_refl in K2; discriminate). unfold was.
      destruct (keq s (node ag)) eqn:K3, (keq t (node ag)) eqn:K4; rewrite ?keq_ok in *; subst.
      * rewrite (i_none _ _ _ _ _ _ I') by auto. symmetry. apply Loop.
      * assert (O : other ag (node gh) t) by (split; auto; intros ->; rewrite keq_refl in K4; discriminate). apply (proj2 (i_out _ _ _ _ _ _ I' t O)).
      * assert (O : other ag (node gh) s) by (split; auto; intros ->; rewrite keq_refl in K3; discriminate). destruct dir eqn:D.
        -- apply (proj2 (i_in _ _ _ _ _ _ I' s eq_refl O)).
        -- rewrite (at_sym false) by (auto; apply I'). unfold F. rewrite (at_sym false s) by auto. apply (proj2 (i_out _ _ _ _ _ _ I' s O)).
      * apply (i_rest _ _ _ _ _ _ I'); split; auto; intros ->; [rewrite keq_refl in K3|rewrite keq_refl in K4]; discriminate.
Qed.
Print Assumptions C61_arrive_partial.

(** The hypotheses hold when an agent with two edges, one in each direction if the network is directed, arrives. *)
Definition edges2 : list vop := bridge ++ [VCall 0 (NAddEdge b a2 [(2, 6)]); VSynch].
Definition at_home (dir : bool) : option mpeer := obind (go dir fresh edges2) (fun w => obind (at_mrank 0 w) (fun p => option_map fst (arrive_one fresh (1, (b, None)) (p, [])))).
Definition gh_b : agent := Agent b 10. Definition ag_b : agent := Agent b 11.
Definition man_of (dir : bool) : manager := match at_home dir with Some p => fst (get_ghost b 1 (q_man p)) | None => new_manager 0 end.
Lemma edge_in : forall x y (h : graph) r, edge_ref x y h = Some r -> In x (map fst (g_adj h)) /\ In y (flat_map (fun e => map fst (snd e)) (g_adj h)).
Proof.
  intros x y h r E. unfold edge_ref, nbrs in E. destruct (dget x (g_adj h)) as [d|] eqn:D; [|discriminate]. apply dget_In in D, E. split; [apply (in_map fst _ _ D)|]. apply in_flat_map. exists (x, d). split; auto. apply (in_map fst _ _ E).
Qed.
Definition home_graph (dir : bool) : graph :=
  add_node (node ag_b) (g_add_edge dir (node gh_b) (name 1) [(2, 6)] (g_add_edge dir (name 0) (node gh_b) [(1, 5)] (add_node (node gh_b) (add_node (name 1) (add_node (name 0) new_graph))))).
Lemma home_ok : forall dir, gok dir (home_graph dir) /\ heap_wf (home_graph dir).
Proof.
  intros dir. split.
  - unfold home_graph. repeat first [apply add_node_ok|apply add_edge_ok|apply gok_new].
  - assert (X : heap_wf new_graph) by constructor. unfold home_graph, heap_wf. cbn [g_heap add_node]. apply add_edge_wf; [apply add_edge_ok; repeat apply add_node_ok; apply gok_new|].
    apply add_edge_wf; [repeat apply add_node_ok; apply gok_new|]. exact X.
Qed.
Example C61_arrive_ex : forall dir, exists p, at_home dir = Some p /\ arrived dir b gh_b ag_b (man_of dir) p /\
  edge_attrs (name 0) (node gh_b) (q_net p) = Some [(1, 5)] /\ edge_attrs (node gh_b) (name 1) (q_net p) = Some [(2, 6)] /\
  exists p', moved_one dir (b, 0) p = Some p' /\ edge_attrs (name 0) (node ag_b) (q_net p') = Some [(1, 5)] /\ edge_attrs (node ag_b) (name 1) (q_net p') = Some [(2, 6)] /\
    edge_attrs (node ag_b) (name 0) (q_net p') = (if dir then None else Some [(1, 5)]).
Proof.
  assert (X : forall dir p, at_home dir = Some p -> n_g (q_net p) = home_graph dir -> get_ghost b 1 (q_man p) = (man_of dir, Some gh_b) -> get_local b (man_of dir) = Some ag_b ->
    id_of p (node gh_b) = b -> id_of p (name 0) <> b -> id_of p (name 1) <> b -> arrived dir b gh_b ag_b (man_of dir) p).
  { intros dir p _ E G L I0 I1 I2. pose proof (home_ok dir) as [GO WF]. rewrite <- E in GO, WF.
    assert (IN : forall x y, edge_attrs x y (q_net p) <> None -> In x (map fst (g_adj (home_graph dir))) /\ In y (flat_map (fun e => map fst (snd e)) (g_adj (home_graph dir)))).
    { intros x y N. unfold edge_attrs in N. rewrite E in N. destruct (edge_ref x y (home_graph dir)) as [r|] eqn:R; [|cbn in N; congruence]. apply (edge_in _ _ _ r R). }
    constructor; auto.
    - discriminate.
    - rewrite E. destruct dir; vm_compute; auto.
    - intros y. split.
      + unfold edge_attrs. rewrite E. destruct dir; reflexivity.
      + destruct (edge_attrs y (node ag_b) (q_net p)) eqn:A; auto. exfalso. destruct (IN y (node ag_b)) as [_ J]; [congruence|]. destruct dir; vm_compute in J; intuition discriminate.
    - unfold edge_attrs. rewrite E. destruct dir; reflexivity.
    - intros y N A. destruct (IN _ _ A) as [J _].
      assert (C : y = name 0 \/ y = name 1 \/ y = node gh_b \/ y = node ag_b) by (destruct dir; vm_compute in J; intuition). destruct C as [->|[->|[->| ->]]]; auto.
      exfalso. apply A. unfold edge_attrs. rewrite E. destruct dir; reflexivity. }
  intros dir. destruct (at_home dir) as [p|] eqn:P; [|destruct dir; vm_compute in P; discriminate]. exists p. split; auto. split.
  - apply X; auto; destruct dir; vm_compute in P; inversion P; try (vm_compute; reflexivity); vm_compute; discriminate.
  - destruct dir; vm_compute in P; inversion P; (split; [vm_compute; reflexivity|]); (split; [vm_compute; reflexivity|]); (eexists; split; [vm_compute; reflexivity|]); vm_compute; auto.
Qed.

(** ** The agent moves from another rank to another one, and this rank has it as a ghost *)
(** The edges that this rank added to the ghost will be sent, by the next [synchronize], to the new rank of the agent; the graph does not change. *)
Definition edge_of (dir : bool) (x s t : uid) (n : net) : Prop := edge_ref s t (n_g n) <> None /\ (s = x \/ (dir = true /\ t = x)).
Lemma follow_ok : forall dir d l p, (forall s t r, In (s, t, r) l -> get_key dir s t (q_net p) <> None) ->
  exists p', foldo (follow_edge dir d) l p = Some p' /\ n_g (q_net p') = n_g (q_net p) /\ n_ghosted (q_net p') = n_ghosted (q_net p) /\ n_keys (q_net p') = n_keys (q_net p) /\ q_ids p' = q_ids p /\
    (forall k, dget k (n_new (q_net p')) = dget k (n_new (q_net p)) \/ exists s t r ge, In (s, t, r) l /\ get_key dir s t (q_net p) = Some k /\ dget k (n_ghosted (q_net p)) = Some ge /\ dget k (n_new (q_net p')) = Some ge) /\
    (forall z, lr_of p' z = lr_of p z \/ (lr_of p' z = d /\ exists s t r k ge, In (s, t, r) l /\ get_key dir s t (q_net p) = Some k /\ dget k (n_ghosted (q_net p)) = Some ge /\ obj_of z = obj_of (ge_ghost ge))) /\
    (forall s t r k ge, In (s, t, r) l -> get_key dir s t (q_net p) = Some k -> dget k (n_ghosted (q_net p)) = Some ge -> dget k (n_new (q_net p')) = Some ge /\ lr_of p' (ge_ghost ge) = d) /\
    (forall k ge, dget k (n_ghosted (q_net p)) = Some ge -> dget k (n_new (q_net p)) = Some ge -> dget k (n_new (q_net p')) = Some ge) /\ (forall z, lr_of p z = d -> lr_of p' z = d).
Proof.
  intros dir d l. induction l as [|[[s t] r] l IH]; intros p H; cbn [foldo].
  - exists p. do 5 (split; auto). split; auto. split; auto. split; auto. intros s t r k ge [].
  - unfold follow_edge at 1. cbn [fst snd]. destruct (get_key dir s t (q_net p)) as [k0|] eqn:K; [|exfalso; apply (H s t r); [left|]; auto]. cbn [obind].
    assert (H1 : forall q, n_keys (q_net q) = n_keys (q_net p) -> forall x y r', In (x, y, r') l -> get_key dir x y (q_net q) <> None).
    { intros q Q x y r' I. unfold get_key. rewrite Q. apply (H x y r'). right; auto. }
    destruct (dget k0 (n_ghosted (q_net p))) as [g0|] eqn:D.
    + set (q := put_net (put_man p (set_lrank (ge_ghost g0) d (q_man p))) (set_new (q_net p) (dset k0 g0 (n_new (q_net p))))).
      destruct (IH q (H1 q eq_refl)) as (p' & E & A1 & A2 & A3 & A4 & A5 & A6 & A7 & A8 & A9).
      assert (LQ : forall z, lr_of q z = if keq (obj_of z) (obj_of (ge_ghost g0)) then d else lr_of p z).
      { intros z. unfold lr_of, q. cbn. rewrite dget_dset. destruct (keq (obj_of z) (obj_of (ge_ghost g0))); auto. }
      assert (NQ : forall k, dget k (n_new (q_net q)) = if keq k k0 then Some g0 else dget k (n_new (q_net p))) by (intros k; apply dget_dset).
      assert (HEAD : dget k0 (n_new (q_net p')) = Some g0 /\ lr_of p' (ge_ghost g0) = d).
      { split; [apply A8; auto; rewrite NQ, keq_refl; auto|]. apply A9. rewrite LQ, keq_refl. auto. }
      exists p'. split; auto. do 4 (split; auto). split; [|split; [|split; [|split]]].
      * intros k. destruct (A5 k) as [X|(s' & t' & r' & ge & I & J)]; [|right; exists s', t', r', ge; split; [right; auto|auto]].
        rewrite NQ in X. destruct (keq k k0) eqn:KK; [|left; auto]. apply keq_ok in KK; subst k. right. exists s, t, r, g0. split; [left|]; auto.
      * intros z. destruct (A6 z) as [X|(X & s' & t' & r' & k & ge & I & J)]; [|right; split; auto; exists s', t', r', k, ge; split; [right; auto|auto]].
        rewrite LQ in X. destruct (keq (obj_of z) (obj_of (ge_ghost g0))) eqn:KK; [|left; auto]. right. split; auto. apply keq_ok in KK. exists s, t, r, k0, g0. split; [left|]; auto.
      * intros s' t' r' k ge [I|I] K' D'; [inversion I; subst; rewrite K in K'; inversion K'; subst; rewrite D in D'; inversion D'; subst; auto|]. apply (A7 s' t' r'); auto.
      * intros k ge D' N'. apply A8; auto. rewrite NQ. destruct (keq k k0) eqn:KK; auto. apply keq_ok in KK; subst k. congruence.
      * intros z L. apply A9. rewrite LQ. destruct (keq _ _); auto.
    + destruct (IH p) as (p' & E & A1 & A2 & A3 & A4 & A5 & A6 & A7 & A8 & A9); [apply H1; auto|]. exists p'. split; auto. do 4 (split; auto). split; [|split; [|split; [|split]]]; auto.
      * intros k. destruct (A5 k) as [X|(s' & t' & r' & ge & I & J)]; [auto|right; exists s', t', r', ge; split; [right; auto|auto]].
      * intros z. destruct (A6 z) as [X|(X & s' & t' & r' & k & ge & I & J)]; [auto|right; split; auto; exists s', t', r', k, ge; split; [right; auto|auto]].
      * intros s' t' r' k ge [I|I] K' D'; [inversion I; subst; congruence|]. apply (A7 s' t' r'); auto.
Qed.
Theorem C61_follow_partial : forall dir p u d m gh, d <> rank_of p -> gok dir (n_g (q_net p)) -> get_ghost u 0 (q_man p) = (m, Some gh) -> has_node (node gh) (n_g (q_net p)) = true ->
  (forall s t, edge_of dir (node gh) s t (q_net p) -> get_key dir s t (q_net p) <> None) ->
  exists p', moved_one dir (u, d) p = Some p' /\ (forall s t, edge_attrs s t (q_net p') = edge_attrs s t (q_net p)) /\ n_ghosted (q_net p') = n_ghosted (q_net p) /\
    (forall s t k ge, edge_of dir (node gh) s t (q_net p) -> get_key dir s t (q_net p) = Some k -> dget k (n_ghosted (q_net p)) = Some ge ->
       dget k (n_new (q_net p')) = Some ge /\ lr_of p' (ge_ghost ge) = d) /\
    (forall k, dget k (n_new (q_net p')) <> dget k (n_new (q_net p)) -> exists s t ge, edge_of dir (node gh) s t (q_net p) /\ get_key dir s t (q_net p) = Some k /\ dget k (n_ghosted (q_net p)) = Some ge) /\
    (forall z, lr_of p' z <> lr_of p z -> exists s t k ge, edge_of dir (node gh) s t (q_net p) /\ get_key dir s t (q_net p) = Some k /\ dget k (n_ghosted (q_net p)) = Some ge /\ obj_of z = obj_of (ge_ghost ge)).
Proof.
  intros dir p u d m gh ND G Gh Ng HK. destruct (edges_at dir (node gh) (q_net p)) as [l|] eqn:El; [|unfold edges_at in El; rewrite Ng in El; discriminate].
  pose proof (edges_at_In _ _ _ _ G El) as HI. assert (HE : forall s t r, In (s, t, r) l -> edge_of dir (node gh) s t (q_net p)) by (intros s t r I; apply HI in I as [E C]; split; [congruence|auto]).
  assert (ML : am_lrank m = am_lrank (q_man p)) by (unfold get_ghost in Gh; destruct (dget u (am_ghost (q_man p))); inversion Gh; auto).
  assert (LR : forall z, lr_of (put_man p m) z = lr_of p z) by (intros z; unfold lr_of; cbn; rewrite ML; auto).
  destruct (follow_ok dir d l (put_man p m)) as (p' & E & A1 & A2 & A3 & A4 & A5 & A6 & A7 & _); [intros s t r I; apply HK, (HE s t r I)|]. cbn [q_net put_man] in *.
  exists p'. split; [|split; [|split; [|split; [|split]]]]; auto.
  - unfold moved_one. cbn [fst snd]. destruct (Z.eqb_spec d (rank_of p)); [congruence|]. rewrite Gh, El. exact E.
  - intros s t. unfold edge_attrs. rewrite A1. auto.
  - intros s t k ge X K D. destruct X as [X C]. destruct (edge_ref s t (n_g (q_net p))) as [r|] eqn:R; [|congruence]. apply (A7 s t r); auto. apply HI. auto.
  - intros k N. destruct (A5 k) as [X|(s & t & r & ge & I & K & D & _)]; [congruence|]. exists s, t, ge. split; auto. apply (HE s t r I).
  - intros z N. destruct (A6 z) as [X|(_ & s & t & r & k & ge & I & K & D & O)]; [rewrite LR in X; congruence|]. exists s, t, k, ge. split; auto. apply (HE s t r I).
Qed.
Print Assumptions C61_follow_partial.
(** Rank 0 added an edge to the ghost of an agent of rank 1, which moves to rank 2. *)
Definition far (dir : bool) : option mpeer := obind (go dir fresh bridge) (at_mrank 0).
Example C61_follow_ex : forall dir, exists p gh m, far dir = Some p /\ get_ghost b 0 (q_man p) = (m, Some gh) /\ has_node (node gh) (n_g (q_net p)) = true /\
  edge_ref (name 0) (node gh) (n_g (q_net p)) <> None /\ get_key dir (name 0) (node gh) (q_net p) = Some (name 0, node gh) /\ dmem (name 0, node gh) (n_ghosted (q_net p)) = true /\
  lr_of p (node gh) = 1 /\ n_new (q_net p) = [] /\ exists p', moved_one dir (b, 2) p = Some p' /\ lr_of p' (node gh) = 2 /\ map fst (n_new (q_net p')) = [(name 0, node gh)].
Proof.
  intros []; eexists; eexists; eexists; (split; [vm_compute; reflexivity|]); (split; [vm_compute; reflexivity|]); (split; [vm_compute; reflexivity|]); (split; [vm_compute; discriminate|]);
  (split; [vm_compute; reflexivity|]); (split; [vm_compute; reflexivity|]); (split; [vm_compute; reflexivity|]); (split; [vm_compute; reflexivity|]); (eexists; split; [vm_compute; reflexivity|]); vm_compute; auto.
Qed.
