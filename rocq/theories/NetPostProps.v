(** The last phase of moving agents, for C61: the edges that were kept are added again. *)
From Coq Require Import List Arith ZArith Lia Bool.
From Verif Require Import PyDict AgentModel WorldModel NetModel NetSpec NetProofs NetWorldModel NetWorldBase NetWorldInv NetMoveModel NetMoveBase NetMovePost NetMoveDemo NetLeaveProps.
Import ListNotations.
Open Scope Z_scope.

Lemma new_add_edge : forall dir r lr u v kw n k, gok dir (n_g n) -> (dmem k (n_new n) = true \/ (k = (u, v) /\ xorb (here r lr u) (here r lr v) = true)) -> dmem k (n_new (add_edge dir r lr u v kw n)) = true.
Proof.
  intros dir r lr u v kw n k G H.
  assert (X : forall lo gh, dmem k (n_new n) = true \/ k = (u, v) -> dmem k (n_new (add_ghost_edge dir u v lo gh kw n)) = true).
  { intros lo gh C. unfold add_ghost_edge. set (n1 := if has_node gh (n_g n) then n else set_ref n (n_ref n ++ [gh])). assert (E : n_g n1 = n_g n /\ n_new n1 = n_new n) by (unfold n1; destruct (has_node gh (n_g n)); auto). destruct E as [E F].
    set (n2 := add_key dir u v _). assert (E2 : n_g n2 = g_add_edge dir u v kw (n_g n)) by (unfold n2; rewrite add_key_g; cbn; rewrite E; auto). assert (F2 : n_new n2 = n_new n) by (unfold n2, add_key; destruct dir; cbn; auto).
    rewrite E2, add_edge_ref by auto. replace (sameb dir u v u v) with true by (symmetry; apply sameb_ok; left; auto). cbn [n_new set_rem set_new]. unfold edge in *. rewrite dmem_dset, F2. destruct C as [C|C]; rewrite C; [apply orb_true_r|rewrite keq_refl; auto]. }
  unfold add_edge. destruct (here r lr u), (here r lr v); cbn [negb andb xorb] in *; try (apply X; tauto); cbn; destruct H as [H|[_ H]]; try discriminate; unfold add_key; destruct dir; auto.
Qed.
Lemma known : forall u p x, find_agent p u = Some x -> exists a, known_agent u p = (p, Some a) /\ node a = x.
Proof.
  intros u p x E. unfold find_agent, get_agent, get_ghost_agent in E. unfold known_agent, get_local, get_ghost. destruct (dget u (am_local (q_man p))) as [a|] eqn:L.
  - inversion E. exists a. auto.
  - destruct (dget u (am_ghost (q_man p))) as [g|] eqn:D; [|discriminate]. cbn in E. inversion E. exists (g_agent g). split; auto. rewrite dset_same by (rewrite D; destruct g; cbn; rewrite Z.add_0_r; auto).
    destruct p as [[] ? ? ? ? ? ?]. auto.
Qed.

(** An entry of [_agent_moved_edges]: the nodes of its agents, local or ghosts. *)
Definition kept (p : mpeer) (e : uid * uid * nat) (x y : uid) : Prop := In e (q_moved p) /\ find_agent p (fst (fst e)) = Some x /\ find_agent p (snd (fst e)) = Some y.
(** If the rank has all agents of the kept edges, and no edges between them, then they are added with their attributes, and the other edges are as before; those between an agent of
    the rank and one of another rank will be sent to it. *)
Theorem C61_post_partial : forall dir p, gok dir (n_g (q_net p)) -> heap_wf (n_g (q_net p)) ->
  (forall e, In e (q_moved p) -> (snd e < length (g_heap (n_g (q_net p))))%nat /\ exists x y, kept p e x y /\ edge_attrs x y (q_net p) = None) ->
  (forall e e' x y x' y', kept p e x y -> kept p e' x' y' -> same_edge dir x y x' y' -> read (snd e) (n_g (q_net p)) = read (snd e') (n_g (q_net p))) ->
  exists p', post_moved dir p = Some p' /\ q_moved p' = [] /\ q_man p' = q_man p /\
    (forall e x y s t, kept p e x y -> same_edge dir x y s t -> edge_attrs s t (q_net p') = Some (read (snd e) (n_g (q_net p)))) /\
    (forall s t, (forall e x y, kept p e x y -> ~ same_edge dir x y s t) -> edge_attrs s t (q_net p') = edge_attrs s t (q_net p)) /\
    (forall e x y, kept p e x y -> xorb (here (rank_of p) (lr_of p) x) (here (rank_of p) (lr_of p) y) = true -> dmem (x, y) (n_new (q_net p')) = true).
Proof.
  intros dir p G W H S.
  assert (LOOP : forall l1 l2 E n, q_moved p = l1 ++ l2 -> grown dir (n_g (q_net p)) E (n_g n) ->
    (forall x y kw, In (x, y, kw) E <-> exists e, In e l1 /\ kept p e x y /\ kw = read (snd e) (n_g (q_net p))) ->
    (forall e x y, In e l1 -> kept p e x y -> xorb (here (rank_of p) (lr_of p) x) (here (rank_of p) (lr_of p) y) = true -> dmem (x, y) (n_new n) = true) ->
    exists n' E', foldo (post_edge dir) l2 (put_net p n) = Some (put_net p n') /\ grown dir (n_g (q_net p)) E' (n_g n') /\
      (forall x y kw, In (x, y, kw) E' <-> exists e, kept p e x y /\ kw = read (snd e) (n_g (q_net p))) /\
      (forall e x y, kept p e x y -> xorb (here (rank_of p) (lr_of p) x) (here (rank_of p) (lr_of p) y) = true -> dmem (x, y) (n_new n') = true)).
  { intros l1 l2. revert l1. induction l2 as [|[[u v] q] l2 IH]; intros l1 E n Q R HE HN.
    - rewrite app_nil_r in Q. exists n, E. split; auto. split; auto. split.
      + intros x y kw. rewrite HE. split; intros (e & X); exists e; [tauto|]. destruct X as [K X]. split; auto. rewrite <- Q. apply K.
      + intros e x y K. apply (HN e); auto. rewrite <- Q. apply K.
    - assert (I : In (u, v, q) (q_moved p)) by (rewrite Q; apply in_or_app; right; left; auto). destruct (H _ I) as (Lq & x & y & K & NE). destruct K as (_ & Fu & Fv). cbn [fst snd] in *.
      assert (NE' : edge_ref x y (n_g (q_net p)) = None) by (unfold edge_attrs in NE; destruct (edge_ref x y (n_g (q_net p))); auto; discriminate).
      assert (KK : kept p (u, v, q) x y) by (split; auto).
      destruct (known u (put_net p n) x Fu) as (a & Ka & <-). destruct (known v (put_net p n) y Fv) as (b & Kb & <-).
      assert (RQ : read q (n_g n) = read q (n_g (q_net p))) by (apply (gr_read _ _ _ _ R); auto).
      set (n1 := add_edge dir (rank_of p) (lr_of p) (node a) (node b) (read q (n_g (q_net p))) n).
      assert (ST : post_edge dir (u, v, q) (put_net p n) = Some (put_net p n1)) by (unfold post_edge; rewrite Ka, Kb; cbn [q_net put_net]; rewrite RQ; reflexivity).
      destruct (IH (l1 ++ [(u, v, q)]) (E ++ [(node a, node b, read q (n_g (q_net p)))]) n1) as (n' & E' & F & X).
      + rewrite <- app_assoc. auto.
      + unfold n1. rewrite (proj1 (add_edge_g _ _ _ _ _ _ _)). apply grown_step; auto; [apply read_wf; auto|]. intros x' y' kw' J SE. apply HE in J as (e & J & K & ->). apply (S e (u, v, q) x' y' (node a) (node b)); auto.
      + intros x' y' kw. rewrite in_app_iff. split.
        * intros [J|[J|[]]]; [apply HE in J as (e & J & K); exists e; split; [apply in_or_app; auto|auto]|]. inversion J; subst. exists (u, v, q). split; [apply in_or_app; right; left; auto|auto].
        * intros (e & J & K & ->). apply in_app_or in J as [J|[<-|[]]]; [left; apply HE; eauto|]. right. left. destruct K as (_ & K1 & K2). cbn [fst snd] in *. rewrite Fu in K1. rewrite Fv in K2. inversion K1. inversion K2. auto.
      + intros e x' y' J K C. unfold n1. apply new_add_edge; [apply (gr_gok _ _ _ _ R)|]. apply in_app_or in J as [J|[<-|[]]]; [left; apply (HN e); auto|]. right. destruct K as (_ & K1 & K2). cbn [fst snd] in *. rewrite Fu in K1. rewrite Fv in K2. inversion K1. inversion K2. subst x' y'. auto.
      + exists n', E'. split; auto. cbn [foldo]. rewrite ST. exact F. }
  destruct (LOOP [] (q_moved p) [] (q_net p) eq_refl) as (n' & E' & F & R & HE & HN).
  - apply grown_start; auto.
  - intros x y kw. split; [intros []|intros (e & [] & _)].
  - intros e x y [].
  - replace (put_net p (q_net p)) with p in F by (destruct p; auto). exists (put_moved (put_net p n') []). split; [unfold post_moved; rewrite F; auto|]. split; auto. split; auto. cbn [put_moved put_net q_net]. split; [|split].
    + intros e x y s t K SE. destruct (gr_in _ _ _ _ R x y (read (snd e) (n_g (q_net p))) s t) as (q & Eq & Rq); auto; [apply HE; eauto|]. unfold edge_attrs. rewrite Eq. cbn. rewrite Rq. auto.
    + intros s t N. unfold edge_attrs. rewrite (gr_out _ _ _ _ R); [|intros x y kw J; apply HE in J as (e & K & _); apply (N e); auto]. destruct (edge_ref s t (n_g (q_net p))) as [q|] eqn:Q; auto. cbn. rewrite (gr_read _ _ _ _ R); auto. apply (go_heap _ _ G s t); auto.
    + exact HN.
Qed.
Print Assumptions C61_post_partial.

(** The rank that an agent has left, with an edge to an agent that stays. *)
Example C61_post_ex : forall dir, exists p p1 ms, leaving dir = Some p /\ leave_one dir (a, 2) p = Some (p1, ms) /\ gok dir (n_g (q_net p1)) /\ heap_wf (n_g (q_net p1)) /\
  q_moved p1 = [(a, a2, 0%nat)] /\ kept p1 (a, a2, 0%nat) (name 0) (name 1) /\ edge_attrs (name 0) (name 1) (q_net p1) = None /\ (0 < length (g_heap (n_g (q_net p1))))%nat /\
  exists p2, post_moved dir p1 = Some p2 /\ edge_attrs (name 0) (name 1) (q_net p2) = Some [(1, 5)] /\ map fst (n_new (q_net p2)) = [(name 0, name 1)].
Proof.
  intros dir. destruct (C61_leave_ex dir) as (p & P & G & H & _). destruct (leave_one dir (a, 2) p) as [[p1 ms]|] eqn:L; [|exfalso; destruct dir; vm_compute in P; inversion P; subst p; vm_compute in L; discriminate L].
  exists p, p1, ms. split; auto. split; auto.
  assert (GO : gok dir (n_g (q_net p1))).
  { unfold leave_one in L. cbn [fst snd] in L. destruct (remove_local a (q_man p)) as [m [ag|]] eqn:R; [|discriminate]. destruct (delete_ghosted a m) as [m' r] eqn:D.
    assert (N : node ag = name 0) by (clear - P R; destruct dir; vm_compute in P; inversion P; subst p; vm_compute in R; inversion R; reflexivity).
    assert (ML : forall y, lr_of (put_man p m') y = lr_of p y).
    { intros y. unfold lr_of. cbn. assert (X : am_lrank m' = am_lrank (q_man p)) by (clear - P R D; destruct dir; vm_compute in P; inversion P; subst p; vm_compute in R; inversion R; subst; vm_compute in D; inversion D; reflexivity). rewrite X. auto. }
    destruct (match r with Ok d => (m', Some d) | _ => (m', None) end) as [m2 data] eqn:Q. assert (m2 = m') by (destruct r; inversion Q; auto). subst m2.
    destruct (moving_rank dir (node ag) 2 data (put_man p m')) as [[q d]|] eqn:M; [|discriminate]. cbn [obind] in L. inversion L; subst q ms.
    rewrite N in M. apply C61_leave_partial in M; [apply M|exact G|]. intros s t y r' X. apply (H s t y r'). exact X. }
  split; auto. destruct dir; vm_compute in P; inversion P; subst p; vm_compute in L; inversion L; subst p1; (split; [repeat constructor; cbn; intuition discriminate|]); (split; [vm_compute; reflexivity|]); (split; [split; [left; reflexivity|split; vm_compute; reflexivity]|]);
  (split; [vm_compute; reflexivity|]); (split; [cbn; lia|]); (eexists; split; [vm_compute; reflexivity|]); vm_compute; auto.
Qed.
