(** One move of agents of a network: all ranks. *)
From Coq Require Import List Arith ZArith Lia Bool.
From Verif Require Import PyDict AgentModel WorldModel NetModel NetSpec NetProofs NetWorldModel NetWorldBase NetWorldInv NetMoveModel NetMoveBase NetMoveSteps NetMovePost.
Import ListNotations.
Open Scope Z_scope.

Section Quiet.
Variable dir : bool.
Variable make : Z -> nat -> uid -> nat.
Variable n : nat.
(** * Phases that change nothing *)
Lemma pre_quiet : forall P, (forall r, rk n r -> n_ref (q_net (P r)) = []) -> mpre_synch (MW n P) = Some (MW n P).
Proof.
  intros P H. apply mphase_id. intros r R. unfold mpre_send. rewrite (H r R). cbn [foldm obind fst snd]. f_equal. f_equal. rewrite <- (H r R). destruct (P r) as [? [] ? ? ? ? ?]. auto.
Qed.
Lemma gone_quiet : forall P, (forall r, rk n r -> q_gone (P r) = []) -> mphase mgone_send (foldo (mgone_recv dir)) (MW n P) = Some (MW n P).
Proof. intros P H. apply mphase_id. intros r R. unfold mgone_send. rewrite (H r R). cbn. f_equal. f_equal. rewrite <- (H r R). destruct (P r). auto. Qed.
Lemma rem_quiet : forall P, (forall r, rk n r -> n_rem (q_net (P r)) = []) -> mphase mremoved_send (foldo (mrem_recv dir)) (MW n P) = Some (MW n P).
Proof.
  intros P H. apply mphase_id. intros r R. unfold mremoved_send. rewrite (H r R). cbn [foldm obind fst snd]. f_equal. f_equal. rewrite <- (H r R). destruct (P r) as [? [] ? ? ? ? ?]. auto.
Qed.
Lemma state_quiet : forall P, (forall r u g s c, rk n r -> In (u, g) (am_ghosted (q_man (P r))) -> In (s, c) (gd_ranks g) -> rk n s /\ dmem (a_uid (gd_agent g)) (am_ghost (q_man (P s))) = true) ->
  mphase mstate_send (foldo mstate_recv) (MW n P) = Some (MW n P).
Proof.
  intros P H. assert (Q : forall r d x, rk n r -> In (d, x) (flat_map (fun e => map (fun r => (r, a_uid (gd_agent (snd e)))) (dkeys (gd_ranks (snd e)))) (am_ghosted (q_man (P r)))) -> rk n d /\ dmem x (am_ghost (q_man (P d))) = true).
  { intros r d x R I. apply in_flat_map in I as ([u g] & I & J). apply in_map_iff in J as (s & E & J). inversion E; subst. cbn [snd] in *. unfold dkeys in J. apply in_map_iff in J as ([s' c] & E' & J). cbn in E'. subst s'. eapply H; eauto. }
  apply (mphase_keep _ n mstate_send mstate_recv P (fun r => flat_map (fun e => map (fun r => (r, a_uid (gd_agent (snd e)))) (dkeys (gd_ranks (snd e)))) (am_ghosted (q_man (P r))))).
  - intros r R. reflexivity.
  - intros r d x R I. apply (Q r d x R I).
  - intros r d x R I. unfold mstate_recv. cbn [snd]. destruct (Q r d x R I) as [_ ->]. auto.
Qed.
(** Sending and receiving of edges *)
Lemma vertices_ok : forall P p4 ms P5 P6, (forall r, rk n r -> mvertices_send (P r) = Some (p4 r, ms r)) ->
  (forall r d x, rk n r -> In (d, x) (magents_of (ms r)) -> rk n d) -> (forall r d x, rk n r -> In (d, x) (medges_of (ms r)) -> rk n d) ->
  (forall r, rk n r -> foldo (magent_recv make) (inbox n (fun r => magents_of (ms r)) r) (p4 r) = Some (P5 r)) ->
  (forall r, rk n r -> foldo (medge_recv dir) (inbox n (fun r => medges_of (ms r)) r) (P5 r) = Some (P6 r)) -> msync_vertices dir make (MW n P) = Some (MW n P6).
Proof.
  intros P p4 ms P5 P6 H1 H2 H3 H4 H5. unfold msync_vertices, MW. rewrite (mapo_W _ _ mvertices_send P (fun r => (p4 r, ms r))) by auto. cbn [obind]. rewrite !map_map. cbn [fst snd].
  rewrite (exchange_W _ n (fun r => magents_of (ms r))) by (intros r d x R; apply (H2 r); auto). cbn [obind]. rewrite combine_map.
  rewrite (mapo_W _ _ _ (fun r => (inbox n (fun r => magents_of (ms r)) r, p4 r)) P5) by (intros r R; cbn [fst snd]; auto). cbn [obind].
  rewrite (exchange_W _ n (fun r => medges_of (ms r))) by (intros r d x R; apply (H3 r); auto). cbn [obind]. rewrite combine_map.
  apply mapo_W. intros r R. cbn [fst snd]. auto.
Qed.
Lemma vertices_quiet : forall P, (forall r, rk n r -> n_new (q_net (P r)) = [] /\ n_upd (q_net (P r)) = []) -> msync_vertices dir make (MW n P) = Some (MW n P).
Proof.
  intros P H. apply (vertices_ok P P (fun _ => []) P P); try (intros r d x R []).
  - intros r R. destruct (H r R) as [H1 H2]. destruct (P r) as [? [] ? ? ? ? ?]. cbn in H1, H2. subst. reflexivity.
  - intros r R. unfold inbox. cbn. induction (ranks n); auto.
  - intros r R. unfold inbox. cbn. induction (ranks n); auto.
Qed.
Lemma net_quiet : forall P, (forall r, rk n r -> n_rem (q_net (P r)) = [] /\ n_new (q_net (P r)) = [] /\ n_upd (q_net (P r)) = []) -> mnet_synch dir make (MW n P) = Some (MW n P).
Proof. intros P H. unfold mnet_synch. rewrite rem_quiet by (intros r R; apply (H r R)). cbn [obind]. apply vertices_quiet. intros r R. apply (H r R). Qed.
End Quiet.

Section NetMove.
Variable dir : bool.
Variable make : Z -> nat -> uid -> nat.
Variable n : nat.
Hypothesis make_inj : forall r k k' u u', make r k u = make r k' u' -> k = k'.
Variable P0 : Z -> mpeer.
Variable M : Z -> list (uid * Z).
Definition home (r : Z) (u : uid) (a : agent) : Prop := dget u (am_local (q_man (P0 r))) = Some a.
Definition new_home (r : Z) (u : uid) : Z := match dget u (M r) with Some d => d | None => r end.
Hypothesis PL : forall r, rk n r -> plain dir r (P0 r).
Hypothesis ONE : forall r s u a b, rk n r -> rk n s -> home r u a -> home s u b -> r = s.
Hypothesis MOVES : forall r u d, rk n r -> In (u, d) (M r) -> (exists a, home r u a) /\ rk n d /\ d <> r.
Hypothesis NODUP : forall r, rk n r -> NoDup (map fst (M r)).
Hypothesis APART : forall r u v a b, rk n r -> mem (M r) u = true -> mem (M r) v = true -> home r u a -> home r v b -> edge_ref (node a) (node b) (n_g (q_net (P0 r))) = None.
Hypothesis FRESH : forall r, rk n r -> fresh_from make (P0 r).

Lemma mem_get : forall r u, rk n r -> (mem (M r) u = false /\ dget u (M r) = None) \/ (mem (M r) u = true /\ exists d, In (u, d) (M r) /\ dget u (M r) = Some d).
Proof.
  intros r u R. destruct (mem (M r) u) eqn:E; [right|left]; split; auto.
  - destruct (mem_ex _ _ E) as (d & I). exists d. split; auto. apply In_dget; auto. apply (NODUP r R).
  - apply dget_None. intros I. unfold dkeys in I. apply in_map_iff in I as ([v d] & Q & I). cbn in Q. subst. apply mem_In in I. congruence.
Qed.
Lemma sees_home : forall r u v at', rk n r -> (sees (P0 r) u v = Some at' <-> exists a b q, home r u a /\ home r v b /\ edge_ref (node a) (node b) (n_g (q_net (P0 r))) = Some q /\ at' = read q (n_g (q_net (P0 r)))).
Proof.
  intros r u v at' R. unfold sees, find_agent, get_agent, get_ghost_agent, home. rewrite (pl_gh _ _ _ (PL r R)). cbn [dget option_map]. split.
  - destruct (dget u (am_local (q_man (P0 r)))) as [a|]; cbn [obind]; [|discriminate]. destruct (dget v (am_local (q_man (P0 r)))) as [b|]; cbn [obind]; [|discriminate]. unfold edge_attrs.
    destruct (edge_ref _ _ _) as [q|] eqn:E; [|discriminate]. cbn. intros Q. inversion Q. exists a, b, q. auto.
  - intros (a & b & q & -> & -> & E & ->). cbn [obind]. unfold edge_attrs. rewrite E. auto.
Qed.
Lemma sees_same : forall r u v u' v', rk n r -> same_edge dir u v u' v' -> sees (P0 r) u v = sees (P0 r) u' v'.
Proof.
  intros r u v u' v' R S. assert (X : forall u v u' v' at', same_edge dir u v u' v' -> sees (P0 r) u v = Some at' -> sees (P0 r) u' v' = Some at').
  { clear - PL R. intros u v u' v' at' S H. apply sees_home in H as (a & b & q & A & B & E & ->); auto. apply sees_home; auto. pose proof (proj1 (pl_nok _ _ _ (PL r R))) as G. destruct S as [[-> ->]|(D & -> & ->)].
    - exists a, b, q. auto.
    - exists b, a, q. split; auto. split; auto. split; auto. rewrite <- E. apply (has_same dir); auto. right; auto. }
  destruct (sees (P0 r) u v) as [at1|] eqn:E1; [symmetry; eauto|]. destruct (sees (P0 r) u' v') as [at2|] eqn:E2; auto. apply (X _ _ u v) in E2; [congruence|]. apply same_sym; auto.
Qed.

(** * Leaving and arriving *)
Definition msgs : Type := list (Z * (uid * option (dict Z Z))).
Record left1 (r : Z) (p1 : mpeer) (ms : msgs) : Prop := {
  f_lft : Lft dir r (P0 r) (M r) p1; f_made : q_made p1 = q_made (P0 r); f_ms : map (fun e => (fst (snd e), fst e)) ms = M r;
  f_data : forall d u data, In (d, (u, data)) ms -> data = None \/ exists k, data = Some [(r, k)] /\ dmem u (am_ghost (q_man p1)) = true }.
Lemma leave_all : exists P1 ms, forall r, rk n r -> foldm (leave_one dir) (M r) (P0 r) = Some (P1 r, ms r) /\ left1 r (P1 r) (ms r).
Proof.
  destruct (choice_opt _ n (fun r => foldm (leave_one dir) (M r) (P0 r)) (fun r y => left1 r (fst y) (snd y)) (P0 0, [])) as (h & H).
  - intros r R. destruct (leaves_ok dir r (P0 r) (PL r R) (M r) [] (P0 r)) as (p1 & ms & E & L & Q & X & Y & _).
    + apply Lft_start. auto.
    + apply (NODUP r R).
    + intros u d I. apply (MOVES r u d R I).
    + intros u v a b M1 M2 A B. apply (APART r u v a b); auto.
    + exists (p1, ms). split; auto. constructor; auto.
  - exists (fun r => fst (h r)), (fun r => snd (h r)). intros r R. destruct (H r R) as [E L]. split; auto. rewrite E. destruct (h r); auto.
Qed.
Lemma ms_In : forall r p1 ms, left1 r p1 ms -> forall u d, (exists data, In (d, (u, data)) ms) <-> In (u, d) (M r).
Proof.
  intros r p1 ms L u d. rewrite <- (f_ms _ _ _ L), in_map_iff. split.
  - intros (data & I). exists (d, (u, data)). auto.
  - intros ([d' [u' data]] & E & I). cbn in E. inversion E; subst. eauto.
Qed.

Section Mid.
Variables (P1 P2 : Z -> mpeer) (ms : Z -> msgs).
Hypothesis L1 : forall r, rk n r -> left1 r (P1 r) (ms r).
Lemma arrived : forall s u, In u (uids (inbox n ms s)) <-> exists i, rk n i /\ In (u, s) (M i).
Proof.
  intros s u. unfold uids. rewrite in_map_iff. split.
  - intros ([i [u' data]] & E & I). cbn in E. subst u'. apply inbox_In in I as [R I]. exists i. split; auto. apply (ms_In _ _ _ (L1 i R)). eauto.
  - intros (i & R & I). apply (ms_In _ _ _ (L1 i R)) in I as (data & I). exists (i, (u, data)). split; auto. apply inbox_In. auto.
Qed.
Lemma foreign : forall s i u a, rk n s -> rk n i -> home s u a -> In (u, s) (M i) -> False.
Proof. intros s i u a S R A I. destruct (MOVES i u s R I) as ((b & B) & _ & N). apply N. apply (ONE s i u a b); auto. Qed.
Lemma known1 : forall s, rk n s -> known (P1 s).
Proof.
  intros s S. pose proof (f_lft _ _ _ (L1 s S)) as L. constructor.
  - intros u a A. rewrite (l_loc _ _ _ _ _ L) in A. destruct (mem (M s) u); [discriminate|]. rewrite (l_ids _ _ _ _ _ L). destruct (pl_loc _ _ _ (PL s S) _ _ A) as (A1 & A2 & _). auto.
  - intros u h H. destruct (l_gh _ _ _ _ _ L _ _ H) as (d & a & _ & A & -> & _). rewrite (l_ids _ _ _ _ _ L). apply (pl_loc _ _ _ (PL s S) _ _ A).
Qed.
Lemma fresh1 : forall s, rk n s -> fresh_from make (P1 s).
Proof.
  intros s S k u K. pose proof (f_lft _ _ _ (L1 s S)) as L. rewrite (l_rank _ _ _ _ _ L), (l_ids _ _ _ _ _ L). rewrite (f_made _ _ _ (L1 s S)) in K. pose proof (FRESH s S k u K) as F. rewrite (pl_rank _ _ _ (PL s S)) in F. exact F.
Qed.
Lemma arrive_all : exists P2, forall s, rk n s -> foldo (arrive_one make) (inbox n ms s) (P1 s, []) = Some (P2 s, []) /\ Arr dir make (P1 s) (inbox n ms s) (P2 s).
Proof.
  destruct (choice_opt _ n (fun s => foldo (arrive_one make) (inbox n ms s) (P1 s, [])) (fun s y => snd y = [] /\ Arr dir make (P1 s) (inbox n ms s) (fst y)) (P0 0, [])) as (h & H).
  - intros s S. pose proof (l_gok _ _ _ _ _ (f_lft _ _ _ (L1 s S))) as G. destruct (arrives_ok dir make make_inj (P1 s) (known1 s S) (fresh1 s S) G (inbox n ms s) [] (P1 s)) as (p & E & A).
    + apply Arr_start; auto using known1, fresh1.
    + intros u I. apply arrived in I as (i & R & I). unfold dmem. destruct (dget u (am_ghost (q_man (P1 s)))) as [h|] eqn:D; auto. apply (l_gh _ _ _ _ _ (f_lft _ _ _ (L1 s S))) in D as (d & a & _ & A & _). destruct (foreign s i u a); auto.
    + exists (p, []). auto.
  - exists (fun s => fst (h s)). intros s S. destruct (H s S) as (E & E' & A). split; auto. rewrite E. destruct (h s). cbn in *. congruence.
Qed.
Hypothesis A2 : forall s, rk n s -> Arr dir make (P1 s) (inbox n ms s) (P2 s).
Lemma ids2 : forall s u a, rk n s -> home s u a -> dget (a_obj a) (q_ids (P2 s)) = Some u /\ dget (a_obj a) (am_lrank (q_man (P2 s))) = dget (a_obj a) (am_lrank (q_man (P1 s))).
Proof.
  intros s u a S A. pose proof (f_lft _ _ _ (L1 s S)) as L. destruct (pl_loc _ _ _ (PL s S) _ _ A) as (_ & I & _). assert (J : dget (a_obj a) (q_ids (P1 s)) = Some u) by (rewrite (l_ids _ _ _ _ _ L); auto).
  destruct (a_keep _ _ _ _ _ (A2 s S) (a_obj a)) as [K1 K2]; [congruence|]. rewrite K1, K2. auto.
Qed.
Lemma local2_home : forall s u a, rk n s -> home s u a -> dget u (am_local (q_man (P2 s))) = if mem (M s) u then None else Some a.
Proof.
  intros s u a S A. rewrite (a_old _ _ _ _ _ (A2 s S)).
  - rewrite (l_loc _ _ _ _ _ (f_lft _ _ _ (L1 s S))). rewrite A. auto.
  - intros I. apply arrived in I as (i & R & I). apply (foreign s i u a); auto.
Qed.
Lemma local2_new : forall s i u, rk n s -> rk n i -> In (u, s) (M i) -> exists a, dget u (am_local (q_man (P2 s))) = Some a.
Proof. intros s i u S R I. destruct (a_new _ _ _ _ _ (A2 s S) u) as (a & A & _); [apply arrived; eauto|eauto]. Qed.
Lemma local2_inv : forall s u a, rk n s -> dget u (am_local (q_man (P2 s))) = Some a -> (home s u a /\ mem (M s) u = false) \/ exists i, rk n i /\ In (u, s) (M i).
Proof.
  intros s u a S A. destruct (in_dec keq_dec u (uids (inbox n ms s))) as [I|I]; [right; apply arrived; auto|left]. rewrite (a_old _ _ _ _ _ (A2 s S)) in A by auto. rewrite (l_loc _ _ _ _ _ (f_lft _ _ _ (L1 s S))) in A.
  destruct (mem (M s) u); [discriminate|]. auto.
Qed.
Lemma ghost2 : forall s u h, rk n s -> dget u (am_ghost (q_man (P2 s))) = Some h -> exists d a, In (u, d) (M s) /\ home s u a /\ h = Ghost a 0 /\ dget (a_obj a) (am_lrank (q_man (P2 s))) = Some d.
Proof.
  intros s u h S H. rewrite (a_gh _ _ _ _ _ (A2 s S)) in H. destruct (l_gh _ _ _ _ _ (f_lft _ _ _ (L1 s S)) _ _ H) as (d & a & I & A & E & R). exists d, a. split; auto. split; auto. split; auto. rewrite (proj2 (ids2 s u a S A)). auto.
Qed.
Lemma ref2 : forall s x y, rk n s -> edge_ref x y (n_g (q_net (P2 s))) = if gone_node (P0 s) (M s) x || gone_node (P0 s) (M s) y then None else edge_ref x y (n_g (q_net (P0 s))).
Proof. intros s x y S. rewrite (a_ref _ _ _ _ _ (A2 s S)). apply (l_ref _ _ _ _ _ (f_lft _ _ _ (L1 s S))). Qed.
Lemma heap2 : forall s, rk n s -> g_heap (n_g (q_net (P2 s))) = g_heap (n_g (q_net (P0 s))).
Proof. intros s S. rewrite (a_heap _ _ _ _ _ (A2 s S)). apply (l_heap _ _ _ _ _ (f_lft _ _ _ (L1 s S))). Qed.
Lemma read2 : forall s q, rk n s -> read q (n_g (q_net (P2 s))) = read q (n_g (q_net (P0 s))).
Proof. intros s q S. unfold read. rewrite heap2; auto. Qed.
Lemma rank2 : forall s, rk n s -> rank_of (P2 s) = s.
Proof. intros s S. rewrite (a_rank _ _ _ _ _ (A2 s S)). apply (l_rank _ _ _ _ _ (f_lft _ _ _ (L1 s S))). Qed.
Lemma calm2 : forall s, rk n s -> calm (q_net (P2 s)).
Proof. intros s S. rewrite (a_net _ _ _ _ _ (A2 s S)). apply (l_calm _ _ _ _ _ (f_lft _ _ _ (L1 s S))). Qed.
Lemma gone_home : forall s u a, rk n s -> home s u a -> gone_node (P0 s) (M s) (node a) = mem (M s) u.
Proof. intros s u a S A. apply (gone_local dir s); auto. Qed.
Lemma moved2 : forall s u v q, rk n s -> In (u, v, q) (q_moved (P2 s)) -> exists a b d f, home s u a /\ home s v b /\ edge_ref (node a) (node b) (n_g (q_net (P0 s))) = Some q /\
  back (P2 s) u v q (node a) (node b) d f /\ In (if f then u else v, d) (M s) /\ mem (M s) (if f then v else u) = false.
Proof.
  intros s u v q S I. rewrite (a_moved _ _ _ _ _ (A2 s S)) in I. pose proof (f_lft _ _ _ (L1 s S)) as L. destruct (l_mov _ _ _ _ _ L _ _ _ I) as (a & b & A & B & E & C).
  assert (X : forall u v a b, home s u a -> home s v b -> mem (M s) u = true -> mem (M s) v = false -> dmem u (am_ghost (q_man (P1 s))) = true -> exists d, In (u, d) (M s) /\ d <> s /\
    (exists a', dget u (am_local (q_man (P2 s))) = None /\ dget u (am_ghost (q_man (P2 s))) = Some (Ghost a' 0) /\ node a = node a' /\ dget (a_obj a') (am_lrank (q_man (P2 s))) = Some d) /\
    (exists b', dget v (am_local (q_man (P2 s))) = Some b' /\ node b = node b' /\ dget (a_obj b') (am_lrank (q_man (P2 s))) = Some (rank_of (P2 s)))).
  { clear - S L1 A2 PL MOVES ONE. intros u v a b A B Mu Mv G. unfold dmem in G. destruct (dget u (am_ghost (q_man (P1 s)))) as [h|] eqn:H; [|discriminate]. rewrite <- (a_gh _ _ _ _ _ (A2 s S)) in H.
    destruct (ghost2 s u h S H) as (d & a' & I & A' & -> & R). assert (a' = a) by (unfold home in *; congruence). subst a'. exists d. split; auto. split; [apply (MOVES s u d S I)|]. split.
    - exists a. split; [rewrite (local2_home s u a S A), Mu; auto|]. auto.
    - exists b. split; [rewrite (local2_home s v b S B), Mv; auto|]. split; auto. rewrite (proj2 (ids2 s v b S B)), (rank2 s S). rewrite (l_lr _ _ _ _ _ (f_lft _ _ _ (L1 s S))).
      + apply (pl_loc _ _ _ (PL s S) _ _ B).
      + change (name (a_obj b)) with (node b). rewrite (gone_home s v b); auto. }
  assert (QL : (q < length (g_heap (n_g (q_net (P2 s)))))%nat) by (rewrite heap2; auto; apply (go_heap _ _ (proj1 (pl_nok _ _ _ (PL s S))) _ _ _ E)).
  destruct C as [(Mu & Mv & G)|(Mv & Mu & G)].
  - destruct (X u v a b A B Mu Mv G) as (d & Id & Nd & X1 & X2). exists a, b, d, true. split; auto. split; auto. split; auto. split; auto. constructor; auto.
    + rewrite rank2; auto.
    + rewrite ref2, (gone_home s u a), Mu; auto.
  - destruct (X v u b a B A Mv Mu G) as (d & Id & Nd & X1 & X2). exists a, b, d, false. split; auto. split; auto. split; auto. split; auto. constructor; auto.
    + rewrite rank2; auto.
    + rewrite ref2, (gone_home s v b), Mv, orb_true_r; auto.
Qed.
Lemma moved_all : forall s u v a b q, rk n s -> home s u a -> home s v b -> edge_ref (node a) (node b) (n_g (q_net (P0 s))) = Some q -> mem (M s) u = true \/ mem (M s) v = true ->
  In (u, v, q) (q_moved (P2 s)) \/ (dir = false /\ In (v, u, q) (q_moved (P2 s))).
Proof. intros s u v a b q S A B E H. rewrite (a_moved _ _ _ _ _ (A2 s S)). apply (l_all _ _ _ _ _ (f_lft _ _ _ (L1 s S)) u v a b q); auto. Qed.
Lemma back2 : forall s u v q x y d f, rk n s -> In (u, v, q) (q_moved (P2 s)) -> back (P2 s) u v q x y d f -> exists a b, home s u a /\ home s v b /\ x = node a /\ y = node b /\ edge_ref x y (n_g (q_net (P0 s))) = Some q /\
  In (if f then u else v, d) (M s) /\ mem (M s) (if f then v else u) = false.
Proof.
  intros s u v q x y d f S I B. destruct (moved2 s u v q S I) as (a & b & d' & f' & A & B' & E & BK & J & N). destruct (back_fun _ _ _ _ _ _ _ _ _ _ _ _ BK B) as (<- & <- & <- & <-). exists a, b. repeat (split; [solve [auto]|]). auto.
Qed.

(** * The calls to the other ranks *)
Lemma others_In : forall s e, In e (others_moved (map M (ranks n)) s) -> exists i, rk n i /\ i <> s /\ In e (M i).
Proof.
  intros s e I. unfold others_moved in I. rewrite map_length, ranks_length in I. unfold ranks in I. rewrite map_map in I. rewrite <- (map_id (seq 0 n)) in I at 1. rewrite combine_map in I.
  apply in_flat_map in I as ([k l] & J & I). apply in_map_iff in J as (k' & Q & K). inversion Q; subst k l. cbn [fst snd] in I. apply in_seq in K. destruct (Z.eqb_spec (Z.of_nat k') s); [destruct I|]. exists (Z.of_nat k'). split; [unfold rk; lia|auto].
Qed.
Lemma agents_moved2 : agents_moved dir (map M (ranks n)) (MW n P2) = Some (MW n P2).
Proof.
  unfold agents_moved. destruct (forallb _ _); auto. rewrite mphase_id.
  - cbn [obind]. apply mapo_W. intros s S. rewrite (rank2 s S).
    assert (X : forall l, (forall e, In e l -> exists i, rk n i /\ i <> s /\ In e (M i)) -> foldo (moved_one dir) l (P2 s) = Some (P2 s)).
    { induction l as [|[u d] l IH]; intros H; auto. destruct (H (u, d)) as (i & R & N & I); [left; auto|]. cbn [foldo].
      assert (G : dget u (am_ghost (q_man (P2 s))) = None).
      { destruct (dget u (am_ghost (q_man (P2 s)))) as [h|] eqn:D; auto. apply (ghost2 s u h S) in D as (_ & a & _ & A & _). destruct (MOVES i u d R I) as ((b & B) & _). elim N. apply (ONE i s u b a); auto. }
      replace (moved_one dir (u, d) (P2 s)) with (Some (P2 s)); [cbn [obind]; apply IH; intros e J; apply H; right; auto|].
      unfold moved_one. cbn [fst snd]. unfold get_ghost. rewrite G. replace (put_man (P2 s) (q_man (P2 s))) with (P2 s) by (destruct (P2 s); auto). destruct (d =? rank_of (P2 s)); auto. }
    apply X. apply others_In.
  - intros s S. unfold no_send. assert (Q : q_no (P2 s) = []) by (rewrite (a_no _ _ _ _ _ (A2 s S)); apply (l_no _ _ _ _ _ (f_lft _ _ _ (L1 s S)))). rewrite Q. f_equal. f_equal. rewrite <- Q. destruct (P2 s); auto.
Qed.
Lemma unghost2 : mapo (fun e => foldo unghost (fst e) (snd e)) (combine (map (fun _ => []) (ranks n)) (MW n P2)) = Some (MW n P2).
Proof. unfold MW. rewrite combine_map. apply mapo_W. intros s S. reflexivity. Qed.
Lemma update2 : mupdate dir (MW n P2) = Some (MW n P2).
Proof.
  unfold mupdate. rewrite gone_quiet by (intros s S; rewrite (a_gone _ _ _ _ _ (A2 s S)); apply (l_gone _ _ _ _ _ (f_lft _ _ _ (L1 s S)))). cbn [obind].
  apply state_quiet. intros s u g s' c S I J. destruct (a_gd _ _ _ _ _ (A2 s S) _ _ I) as [I'|(i & d & I' & U & Q)].
  - rewrite (l_gd _ _ _ _ _ (f_lft _ _ _ (L1 s S))) in I'. destruct I'.
  - apply inbox_In in I' as [R I']. rewrite U. destruct (f_data _ _ _ (L1 i R) _ _ _ I') as [?|(k & D & G)]; [discriminate|]. inversion D; subst d. rewrite Q in J. cbn in J. destruct (keq _ _) in J; [destruct J|]. destruct J as [J|[]]. inversion J; subst s' c.
    split; auto. rewrite (a_gh _ _ _ _ _ (A2 i R)). auto.
Qed.
Lemma sync2 : mpre_synch (MW n P2) = Some (MW n P2) /\ mnet_synch dir make (MW n P2) = Some (MW n P2).
Proof.
  split; [apply pre_quiet|apply net_quiet]; intros s S; pose proof (calm2 s S) as C; unfold calm in C; tauto.
Qed.
(** * Adding the edges again *)
Lemma ref_nodes : forall g x y q, gok dir g -> edge_ref x y g = Some q -> has_node x g = true /\ has_node y g = true.
Proof. intros g x y q G E. split; [apply eref_node in E; auto|]. apply (go_closed _ _ G) in E. auto. Qed.
Definition attr_of (x y : uid) (g : graph) : option attrs := option_map (fun q => read q g) (edge_ref x y g).
Lemma ref0 : forall s x y q, rk n s -> edge_ref x y (n_g (q_net (P0 s))) = Some q -> exists u v a b, home s u a /\ home s v b /\ x = node a /\ y = node b.
Proof.
  intros s x y q S E. pose proof (PL s S) as P. destruct (ref_nodes _ _ _ _ (proj1 (pl_nok _ _ _ P)) E) as [N1 N2]. apply (pl_node _ _ _ P) in N1 as (u & a & A & ->). apply (pl_node _ _ _ P) in N2 as (v & b & B & ->). exists u, v, a, b. auto.
Qed.
Lemma not_both : forall s u v a b q, rk n s -> home s u a -> home s v b -> edge_ref (node a) (node b) (n_g (q_net (P0 s))) = Some q -> mem (M s) u && mem (M s) v = false.
Proof. intros s u v a b q S A B E. destruct (mem (M s) u) eqn:U; auto. destruct (mem (M s) v) eqn:V; auto. rewrite (APART s u v a b) in E; auto. discriminate. Qed.
Lemma graph3 : forall s E t x y, rk n s -> Pst dir (P2 s) (q_moved (P2 s)) E t -> attr_of x y (n_g t) = attr_of x y (n_g (q_net (P0 s))).
Proof.
  intros s E t x y S Q. pose proof (a_gok _ _ _ _ _ (A2 s S)) as G2. pose proof (proj1 (pl_nok _ _ _ (PL s S))) as G0. pose proof (ps_grown _ _ _ _ _ Q) as GR.
  assert (C : forall q, edge_ref x y (n_g (q_net (P0 s))) = Some q -> attr_of x y (n_g t) = Some (read q (n_g (q_net (P0 s))))).
  { intros q R. destruct (ref0 s x y q S R) as (u & v & a & b & A & B & -> & ->). pose proof (not_both s u v a b q S A B R) as NB.
    destruct (mem (M s) u || mem (M s) v) eqn:O.
    - assert (O' : mem (M s) u = true \/ mem (M s) v = true) by (apply orb_true_iff; auto). destruct (moved_all s u v a b q S A B R O') as [I|[D I]].
      + destruct (moved2 s u v q S I) as (a' & b' & d & f & A' & B' & _ & BK & _). assert (a' = a) by (unfold home in *; congruence). assert (b' = b) by (unfold home in *; congruence). subst a' b'.
        destruct (gr_in _ _ _ _ GR (node a) (node b) (read q (n_g (q_net (P2 s)))) (node a) (node b)) as (q' & R' & K); [apply (ps_E _ _ _ _ _ Q); exists u, v, q, d, f; auto|left; auto|]. unfold attr_of. rewrite R'. cbn. rewrite K, read2; auto.
      + destruct (moved2 s v u q S I) as (b' & a' & d & f & B' & A' & _ & BK & _). assert (a' = a) by (unfold home in *; congruence). assert (b' = b) by (unfold home in *; congruence). subst a' b'.
        destruct (gr_in _ _ _ _ GR (node b) (node a) (read q (n_g (q_net (P2 s)))) (node a) (node b)) as (q' & R' & K); [apply (ps_E _ _ _ _ _ Q); exists v, u, q, d, f; auto|right; auto|]. unfold attr_of. rewrite R'. cbn. rewrite K, read2; auto.
    - apply orb_false_iff in O as [O1 O2]. assert (R2 : edge_ref (node a) (node b) (n_g (q_net (P2 s))) = Some q) by (rewrite ref2, (gone_home s u a), (gone_home s v b), O1, O2; auto).
      unfold attr_of. rewrite (gr_out _ _ _ _ GR).
      + rewrite R2. cbn. rewrite (gr_read _ _ _ _ GR), read2; auto. apply (go_heap _ _ G2 _ _ _ R2).
      + intros x' y' kw I SM. apply (ps_E _ _ _ _ _ Q) in I as (u' & v' & q' & d & f & _ & BK & _). pose proof (b_none _ _ _ _ _ _ _ _ BK) as N. rewrite (has_same dir x' y' (node a) (node b)) in N; auto. congruence. }
  unfold attr_of at 2. destruct (edge_ref x y (n_g (q_net (P0 s)))) as [q|] eqn:R; [apply C; auto|]. unfold attr_of. destruct (edge_ref x y (n_g t)) as [q|] eqn:R'; auto. exfalso.
  destruct (grown_ref _ _ _ _ _ _ _ G2 GR R') as [(x' & y' & kw & I & SM & _)|[R2 _]].
  - apply (ps_E _ _ _ _ _ Q) in I as (u' & v' & q' & d & f & I & BK & _). apply (back2 s u' v' q' x' y' d f S I) in BK as (a & b & _ & _ & _ & _ & R2 & _). rewrite (has_same dir x' y' x y) in R2; auto. congruence.
  - rewrite ref2 in R2 by auto. destruct (_ || _) in R2; congruence.
Qed.
Lemma post_all : exists P3, forall s, rk n s -> post_moved dir (P2 s) = Some (P3 s) /\ exists t E, P3 s = put_moved (put_net (P2 s) t) [] /\ Pst dir (P2 s) (q_moved (P2 s)) E t.
Proof.
  apply (choice_opt _ n (fun s => post_moved dir (P2 s)) (fun s p => exists t E, p = put_moved (put_net (P2 s) t) [] /\ Pst dir (P2 s) (q_moved (P2 s)) E t)); [exact (P0 0)|]. intros s S. destruct (post_ok dir (P2 s)) as (t & E & F & Q).
  - apply (A2 s S).
  - unfold heap_wf. rewrite heap2 by auto. apply (pl_wf _ _ _ (PL s S)).
  - intros u v q x y d f u' v' q' x' y' d' f' I I' B B' SM. apply (back2 s u v q x y d f S I) in B as (a & b & _ & _ & _ & _ & R & _). apply (back2 s u' v' q' x' y' d' f' S I') in B' as (a' & b' & _ & _ & _ & _ & R' & _).
    rewrite (has_same dir x y x' y') in R; auto; [congruence|apply (PL s S)].
  - pose proof (calm2 s S) as C. unfold calm in C. tauto.
  - intros u v q I. destruct (moved2 s u v q S I) as (a & b & d & f & _ & _ & _ & B & _). eauto.
  - exists (put_moved (put_net (P2 s) t) []). split; auto. exists t, E. auto.
Qed.

(** * Sending and receiving *)
Record sent (s : Z) (p4 : mpeer) (out : list msg) : Prop := {
  t_man : exists X, q_man p4 = upd_ghosted (q_man (P2 s)) X; t_ids : q_ids p4 = q_ids (P2 s); t_made : q_made p4 = q_made (P2 s);
  t_net : exists t E, Pst dir (P2 s) (q_moved (P2 s)) E t /\ n_g (q_net p4) = n_g t;
  t_edge : forall d u v kw, In (d, (u, v, kw)) (medges_of out) <-> exists q x y f, In (u, v, q) (q_moved (P2 s)) /\ back (P2 s) u v q x y d f /\ kw = read q (n_g (q_net (P2 s)));
  t_agent : forall d w, In (d, w) (magents_of out) <-> exists u v q x y f, In (u, v, q) (q_moved (P2 s)) /\ back (P2 s) u v q x y d f /\ w = if f then v else u }.
Lemma no_ghosted : forall s z b, rk n s -> home s z b -> dget z (am_ghosted (q_man (P2 s))) = None.
Proof.
  intros s z b S B. destruct (dget z (am_ghosted (q_man (P2 s)))) as [g|] eqn:D; auto. apply dget_In in D. destruct (a_gd _ _ _ _ _ (A2 s S) _ _ D) as [I|(i & d & I & _)].
  - rewrite (l_gd _ _ _ _ _ (f_lft _ _ _ (L1 s S))) in I. destruct I.
  - apply inbox_In in I as [R I]. exfalso. apply (foreign s i z b S R B). apply (ms_In _ _ _ (L1 i R)). eauto.
Qed.
Variable P3 : Z -> mpeer.
Hypothesis A3 : forall s, rk n s -> exists t E, P3 s = put_moved (put_net (P2 s) t) [] /\ Pst dir (P2 s) (q_moved (P2 s)) E t.
Lemma send_all : exists P4 out, forall s, rk n s -> mvertices_send (P3 s) = Some (P4 s, out s) /\ sent s (P4 s) (out s).
Proof.
  destruct (choice_opt _ n (fun s => mvertices_send (P3 s)) (fun s y => sent s (fst y) (snd y)) (P0 0, [])) as (h & H).
  - intros s S. destruct (A3 s S) as (t & E & Q3 & Q). destruct (send_ok dir make (P2 s) E t Q) as (X & Y & out & F & G & T1 & T2).
    + apply (A2 s S).
    + pose proof (calm2 s S) as C. unfold calm in C. tauto.
    + intros u v q I. destruct (moved2 s u v q S I) as (a & b & d & f & _ & _ & _ & B & _). eauto.
    + intros u v q x y d f I B. apply (back2 s u v q x y d f S I) in B as (a & b & A & B & _). destruct f; eapply no_ghosted; eauto.
    + rewrite <- Q3 in F. eexists. split; [exact F|]. constructor; cbn [fst snd put_net put_man q_man q_ids q_made q_net]; auto; rewrite ?Q3; auto; [exists X; auto|]. exists t, E. auto.
  - exists (fun s => fst (h s)), (fun s => snd (h s)). intros s S. destruct (H s S) as [F T]. split; auto. rewrite F. destruct (h s); auto.
Qed.
Variables (P4 : Z -> mpeer) (out : Z -> list msg).
Hypothesis A4 : forall s, rk n s -> sent s (P4 s) (out s).
(** What a message for [s] says. *)
Record came (i s : Z) (u v : uid) (kw : attrs) (f : bool) : Prop := {
  c_rank : rk n i /\ i <> s; c_sees : sees (P0 i) u v = Some kw;
  c_move : In (if f then u else v, s) (M i); c_stay : mem (M i) (if f then v else u) = false; c_home : exists b, home i (if f then v else u) b;
  c_agent : In (s, if f then v else u) (magents_of (out i)) }.
Lemma edge_came : forall i s u v kw, rk n i -> In (s, (u, v, kw)) (medges_of (out i)) -> exists f, came i s u v kw f.
Proof.
  intros i s u v kw R I. pose proof I as I0. apply (t_edge _ _ _ (A4 i R)) in I as (q & x & y & f & I & B & ->). destruct (back2 i u v q x y s f R I B) as (a & b & A & B' & -> & -> & E & J & N). exists f.
  constructor; auto.
  - split; auto. destruct (MOVES i _ s R J) as (_ & _ & D). auto.
  - apply sees_home; auto. exists a, b, q. split; auto. split; auto. split; auto. apply read2; auto.
  - destruct f; eauto.
  - apply (t_agent _ _ _ (A4 i R)). exists u, v, q, (node a), (node b), f. auto.
Qed.
Lemma agent_came : forall i s w, rk n i -> In (s, w) (magents_of (out i)) -> i <> s /\ rk n s /\ mem (M i) w = false /\ exists b, home i w b.
Proof.
  intros i s w R I. apply (t_agent _ _ _ (A4 i R)) in I as (u & v & q & x & y & f & I & B & ->). destruct (back2 i u v q x y s f R I B) as (a & b & A & B' & _ & _ & _ & J & N). destruct (MOVES i _ s R J) as (_ & Rs & D). split; auto. split; auto. split; auto. destruct f; eauto.
Qed.
Lemma edge_went : forall i u v kw, rk n i -> sees (P0 i) u v = Some kw -> mem (M i) u = true \/ mem (M i) v = true -> exists u' v' f d, same_edge dir u' v' u v /\ In (d, (u', v', kw)) (medges_of (out i)) /\ came i d u' v' kw f.
Proof.
  intros i u v kw R H O. apply sees_home in H as (a & b & q & A & B & E & ->); auto.
  assert (X : forall u' v', same_edge dir u' v' u v -> In (u', v', q) (q_moved (P2 i)) -> exists u' v' f d, same_edge dir u' v' u v /\ In (d, (u', v', read q (n_g (q_net (P0 i))))) (medges_of (out i)) /\ came i d u' v' (read q (n_g (q_net (P0 i)))) f).
  { intros u' v' SM I. destruct (moved2 i u' v' q R I) as (a' & b' & d & f & _ & _ & _ & BK & _). assert (J : In (d, (u', v', read q (n_g (q_net (P0 i))))) (medges_of (out i))).
    { apply (t_edge _ _ _ (A4 i R)). exists q, (node a'), (node b'), f. rewrite read2; auto. }
    destruct (edge_came i d u' v' _ R J) as (f' & C). exists u', v', f', d. auto. }
  destruct (moved_all i u v a b q R A B E O) as [I|[D I]]; [apply (X u v); auto; left; auto|apply (X v u); auto; right; auto].
Qed.
Lemma known4 : forall s, rk n s -> known (P4 s).
Proof.
  intros s S. pose proof (a_known _ _ _ _ _ (A2 s S)) as [K1 K2]. destruct (t_man _ _ _ (A4 s S)) as (X & E). constructor; rewrite (t_ids _ _ _ (A4 s S)), E; auto.
Qed.
Lemma gets_all : exists P5, forall s, rk n s -> foldo (magent_recv make) (inbox n (fun r => magents_of (out r)) s) (P4 s) = Some (P5 s) /\ Rcv dir make (P4 s) (inbox n (fun r => magents_of (out r)) s) (P5 s).
Proof.
  apply (choice_opt _ n (fun s => foldo (magent_recv make) (inbox n (fun r => magents_of (out r)) s) (P4 s)) (fun s p => Rcv dir make (P4 s) (inbox n (fun r => magents_of (out r)) s) p)); [exact (P0 0)|].
  intros s S. apply (agents_ok dir make make_inj (P4 s) _ [] (P4 s)). apply Rcv_start.
  - apply known4; auto.
  - intros k u K. destruct (t_man _ _ _ (A4 s S)) as (X & E). unfold rank_of. rewrite (t_ids _ _ _ (A4 s S)), E. rewrite (t_made _ _ _ (A4 s S)) in K. apply (a_fresh _ _ _ _ _ (A2 s S) k u K).
  - destruct (t_net _ _ _ (A4 s S)) as (t & E & Q & ->). apply (ps_grown _ _ _ _ _ Q).
Qed.
Variable P5 : Z -> mpeer.
Hypothesis A5 : forall s, rk n s -> Rcv dir make (P4 s) (inbox n (fun r => magents_of (out r)) s) (P5 s).
Lemma graph5 : forall s x y, rk n s -> attr_of x y (n_g (q_net (P5 s))) = attr_of x y (n_g (q_net (P0 s))).
Proof.
  intros s x y S. destruct (t_net _ _ _ (A4 s S)) as (t & E & Q & G). rewrite <- (graph3 s E t x y S Q), <- G. unfold attr_of, read. rewrite (v_ref _ _ _ _ _ (A5 s S)), (v_heap _ _ _ _ _ (A5 s S)). auto.
Qed.
Lemma local5 : forall s, rk n s -> am_local (q_man (P5 s)) = am_local (q_man (P2 s)).
Proof. intros s S. rewrite (v_loc _ _ _ _ _ (A5 s S)). destruct (t_man _ _ _ (A4 s S)) as (X & ->). auto. Qed.
Lemma asked : forall s w, In w (map snd (inbox n (fun r => magents_of (out r)) s)) -> exists i, rk n i /\ i <> s /\ mem (M i) w = false /\ exists b, home i w b.
Proof. intros s w I. apply in_map_iff in I as ([i w'] & Q & I). cbn in Q. subst w'. apply inbox_In in I as [R I]. destruct (agent_came i s w R I) as (N & _ & X). eauto. Qed.
Lemma ghost5_old : forall s w b, rk n s -> home s w b -> dget w (am_ghost (q_man (P5 s))) = dget w (am_ghost (q_man (P2 s))).
Proof.
  intros s w b S B. rewrite (v_old _ _ _ _ _ (A5 s S)).
  - destruct (t_man _ _ _ (A4 s S)) as (X & ->). auto.
  - intros I. apply asked in I as (i & R & N & _ & b' & B'). apply N. apply (ONE i s w b' b); auto.
Qed.
Lemma ids5 : forall s u a, rk n s -> home s u a -> dget (a_obj a) (q_ids (P5 s)) = Some u.
Proof.
  intros s u a S A. destruct (ids2 s u a S A) as [I _]. rewrite (v_ids _ _ _ _ _ (A5 s S)); rewrite (t_ids _ _ _ (A4 s S)); congruence.
Qed.
(** The agents that are the ends of an edge that came. *)
Lemma came_ends : forall i s u v kw f, came i s u v kw f -> rk n s -> exists a c, dget (if f then u else v) (am_local (q_man (P5 s))) = Some a /\ dget (if f then u else v) (am_ghost (q_man (P5 s))) = None /\
  dget (if f then v else u) (am_local (q_man (P5 s))) = None /\ dget (if f then v else u) (am_ghost (q_man (P5 s))) = Some (Ghost c 1) /\ dget (a_obj c) (q_ids (P4 s)) = None.
Proof.
  intros i s u v kw f [[R N] _ Mv St (b & B) Ag] S. set (w := if f then u else v) in *. set (z := if f then v else u) in *. destruct (MOVES i w s R Mv) as ((a0 & A0) & _ & _).
  destruct (local2_new s i w S R Mv) as (a & A). assert (Iz : In z (map snd (inbox n (fun r => magents_of (out r)) s))) by (apply in_map_iff; exists (i, z); split; auto; apply inbox_In; auto).
  destruct (v_new _ _ _ _ _ (A5 s S) z Iz) as (c & C1 & C2). exists a, c. rewrite local5 by auto. split; auto. split.
  - rewrite (v_old _ _ _ _ _ (A5 s S)).
    + destruct (t_man _ _ _ (A4 s S)) as (X & ->). cbn. destruct (dget w (am_ghost (q_man (P2 s)))) as [h|] eqn:D; auto. apply (ghost2 s w h S) in D as (_ & a' & _ & A' & _). elim N. apply (ONE i s w a0 a'); auto.
    + intros I. apply asked in I as (i' & R' & N' & St' & b' & B'). assert (i' = i) by (apply (ONE i' i w b' a0); auto). subst i'. apply mem_In in Mv. congruence.
  - split; auto. destruct (dget z (am_local (q_man (P2 s)))) as [a'|] eqn:D; auto. apply (local2_inv s z a' S) in D as [[D _]|(i' & R' & D)].
    + elim N. apply (ONE i s z b a'); auto.
    + destruct (MOVES i' z s R' D) as ((b' & B') & _). assert (i' = i) by (apply (ONE i' i z b' b); auto). subst i'. apply mem_In in D. congruence.
Qed.
Lemma came_find : forall i s u v kw f, came i s u v kw f -> rk n s -> exists x y, ends_of u v (q_man (P5 s)) = Some (x, y, negb f) /\ find_agent (P5 s) u = Some x /\ find_agent (P5 s) v = Some y /\ attr_of x y (n_g (q_net (P0 s))) = None.
Proof.
  intros i s u v kw f C S. destruct (came_ends i s u v kw f C S) as (a & c & L1' & G1 & L2 & G2 & O). assert (NC : forall x y, obj_of x = a_obj c \/ obj_of y = a_obj c -> attr_of x y (n_g (q_net (P0 s))) = None).
  { intros x y D. unfold attr_of. destruct (edge_ref x y _) as [q|] eqn:E; auto. destruct (ref0 s x y q S E) as (u' & v' & a' & b' & A' & B' & -> & ->). rewrite !obj_node in D. rewrite (t_ids _ _ _ (A4 s S)) in O. destruct D as [D|D].
    - destruct (ids2 s u' a' S A'). congruence.
    - destruct (ids2 s v' b' S B'). congruence. }
  unfold ends_of, find_agent, get_agent, get_ghost_agent. destruct f; rewrite L1', G1, L2, G2; cbn [option_map g_agent negb].
  - exists (node a), (node c). repeat (split; auto). apply NC. right. apply obj_node.
  - exists (node c), (node a). repeat (split; auto). apply NC. left. apply obj_node.
Qed.
Lemma find_id : forall s u x, rk n s -> find_agent (P5 s) u = Some x -> dget (obj_of x) (q_ids (P5 s)) = Some u.
Proof.
  intros s u x S F. pose proof (v_known _ _ _ _ _ (A5 s S)) as [K1 K2]. unfold find_agent, get_agent, get_ghost_agent in F. destruct (dget u (am_local (q_man (P5 s)))) as [a|] eqn:A.
  - inversion F; subst. rewrite obj_node. apply K1; auto.
  - destruct (dget u (am_ghost (q_man (P5 s)))) as [h|] eqn:H; [|discriminate]. cbn in F. inversion F; subst. rewrite obj_node. apply K2; auto.
Qed.
Lemma find_same : forall s u v u' v' x y x' y', rk n s -> find_agent (P5 s) u = Some x -> find_agent (P5 s) v = Some y -> find_agent (P5 s) u' = Some x' -> find_agent (P5 s) v' = Some y' -> same_edge dir x y x' y' -> same_edge dir u v u' v'.
Proof.
  intros s u v u' v' x y x' y' S F1 F2 F3 F4 SM. apply find_id in F1; auto. apply find_id in F2; auto. apply find_id in F3; auto. apply find_id in F4; auto. destruct SM as [[-> ->]|(D & -> & ->)]; [left|right; split; auto]; split; congruence.
Qed.
Lemma came_same : forall i s u v kw f i' u' v' kw' f', rk n s -> came i s u v kw f -> came i' s u' v' kw' f' -> same_edge dir u v u' v' -> kw = kw'.
Proof.
  intros i s u v kw f i' u' v' kw' f' S C C' SM. assert (H1 := c_sees _ _ _ _ _ _ C). assert (H2 := c_sees _ _ _ _ _ _ C'). destruct (c_rank _ _ _ _ _ _ C) as [R _]. destruct (c_rank _ _ _ _ _ _ C') as [R' _].
  rewrite (sees_same i u v u' v' R SM) in H1. assert (i = i'); [|subst; congruence]. apply sees_home in H1 as (a & b & q & A & _); auto. apply sees_home in H2 as (a' & b' & q' & A' & _); auto. apply (ONE i i' u' a a'); auto.
Qed.
Record final (s : Z) (p6 : mpeer) : Prop := {
  z_man : q_man p6 = q_man (P5 s);
  z_edge : forall x y at', attr_of x y (n_g (q_net p6)) = Some at' <-> attr_of x y (n_g (q_net (P0 s))) = Some at' \/
    exists i u v f x' y', came i s u v at' f /\ In (s, (u, v, at')) (medges_of (out i)) /\ find_agent (P5 s) u = Some x' /\ find_agent (P5 s) v = Some y' /\ same_edge dir x' y' x y }.
Lemma edges_all : exists P6, forall s, rk n s -> foldo (medge_recv dir) (inbox n (fun r => medges_of (out r)) s) (P5 s) = Some (P6 s) /\ final s (P6 s).
Proof.
  apply (choice_opt _ n (fun s => foldo (medge_recv dir) (inbox n (fun r => medges_of (out r)) s) (P5 s)) final); [exact (P0 0)|].
  intros s S. assert (G5 : gok dir (n_g (q_net (P5 s)))) by apply (A5 s S).
  assert (W5 : heap_wf (n_g (q_net (P5 s)))) by (unfold heap_wf; rewrite (v_heap _ _ _ _ _ (A5 s S)); destruct (t_net _ _ _ (A4 s S)) as (t & E & Q & ->); apply (ps_grown _ _ _ _ _ Q)).
  assert (CM : forall i u v kw, In (i, (u, v, kw)) (inbox n (fun r => medges_of (out r)) s) -> rk n i /\ In (s, (u, v, kw)) (medges_of (out i)) /\ exists f, came i s u v kw f).
  { intros i u v kw I. apply inbox_In in I as [R I]. split; auto. split; auto. apply edge_came; auto. }
  destruct (edges_ok dir (P5 s) G5 (inbox n (fun r => medges_of (out r)) s)) with (l2 := inbox n (fun r => medges_of (out r)) s) (l1 := @nil (Z * (uid * uid * attrs))) (E := @nil (uid * uid * attrs)) (t := q_net (P5 s)) as (t & E & F & GR & EN); auto.
  - intros i u v kw I. destruct (CM _ _ _ _ I) as (R & I' & f & C). split.
    + pose proof (c_sees _ _ _ _ _ _ C) as H. apply sees_home in H as (a & b & q & _ & _ & _ & ->); auto. apply read_wf. apply (pl_wf _ _ _ (PL i R)).
    + destruct (came_find i s u v kw f C S) as (x & y & E1 & _ & _ & E2). exists x, y, (negb f). split; auto. rewrite <- graph5 in E2 by auto. unfold attr_of in E2. destruct (edge_ref x y _); [discriminate|auto].
  - intros i u v kw i' u' v' kw' x y f x' y' f' I I' E1 E2 SM. destruct (CM _ _ _ _ I) as (R & _ & g & C). destruct (CM _ _ _ _ I') as (R' & _ & g' & C').
    destruct (came_find i s u v kw g C S) as (x1 & y1 & E3 & F1 & F2 & _). destruct (came_find i' s u' v' kw' g' C' S) as (x2 & y2 & E4 & F3 & F4 & _).
    assert (x1 = x /\ y1 = y) as [-> ->] by (split; congruence). assert (x2 = x' /\ y2 = y') as [-> ->] by (split; congruence). apply (came_same i s u v kw g i' u' v' kw' g'); auto. apply (find_same s u v u' v' x y x' y'); auto.
  - apply grown_start; auto.
  - intros x y kw. split; [intros []|intros (i & u & v & f & [] & _)].
  - exists (put_net (P5 s) t). split; [rewrite <- F; destruct (P5 s); auto|]. constructor; auto. cbn [put_net q_net]. intros x y at'. split.
    + intros H. unfold attr_of in H. destruct (edge_ref x y (n_g t)) as [q|] eqn:Q; [|discriminate]. cbn in H. inversion H; subst at'; clear H. destruct (grown_ref _ _ _ _ _ _ _ G5 GR Q) as [(x' & y' & kw & I & SM & K)|[Q' K]].
      * right. apply EN in I as (i & u & v & f' & I & E1). destruct (CM _ _ _ _ I) as (R & I' & f & C). destruct (came_find i s u v kw f C S) as (x1 & y1 & E3 & F1 & F2 & _). assert (x1 = x' /\ y1 = y') as [-> ->] by (split; congruence). rewrite K. exists i, u, v, f, x', y'. auto 10.
      * left. rewrite <- graph5 by auto. unfold attr_of. rewrite Q'. cbn. congruence.
    + intros [H|(i & u & v & f & x' & y' & C & I & F1 & F2 & SM)].
      * rewrite <- graph5 in H by auto. unfold attr_of in *. destruct (edge_ref x y (n_g (q_net (P5 s)))) as [q|] eqn:Q; [|discriminate]. rewrite (gr_out _ _ _ _ GR).
        { rewrite Q. cbn in *. rewrite (gr_read _ _ _ _ GR); auto. apply (go_heap _ _ G5 _ _ _ Q). }
        { intros x' y' kw I SM. apply EN in I as (i & u & v & f' & I & E1). destruct (CM _ _ _ _ I) as (R & I' & f & C). destruct (came_find i s u v kw f C S) as (x1 & y1 & E3 & F1 & F2 & N). assert (x1 = x' /\ y1 = y') as [-> ->] by (split; congruence).
          rewrite <- graph5 in N by auto. unfold attr_of in N. rewrite (has_same dir x' y' x y) in N by auto. rewrite Q in N. discriminate. }
      * destruct (came_find i s u v at' f C S) as (x1 & y1 & E3 & F1' & F2' & _). assert (x1 = x' /\ y1 = y') as [-> ->] by (split; congruence).
        destruct (gr_in _ _ _ _ GR x' y' at' x y) as (q & Q & K); auto; [|unfold attr_of; rewrite Q; cbn; congruence]. apply EN. exists i, u, v, (negb f). split; auto. apply inbox_In. split; auto. apply C.
Qed.

Variable P6 : Z -> mpeer.
Hypothesis A6 : forall s, rk n s -> final s (P6 s).
Lemma sees6 : forall s u v at', rk n s -> (sees (P6 s) u v = Some at' <-> exists x y, find_agent (P5 s) u = Some x /\ find_agent (P5 s) v = Some y /\ attr_of x y (n_g (q_net (P6 s))) = Some at').
Proof.
  intros s u v at' S. unfold sees. replace (find_agent (P6 s)) with (find_agent (P5 s)) by (unfold find_agent; rewrite (z_man _ _ (A6 s S)); auto). split.
  - destruct (find_agent (P5 s) u) as [x|]; cbn [obind]; [|discriminate]. destruct (find_agent (P5 s) v) as [y|]; cbn [obind]; [|discriminate]. intros H. exists x, y. auto.
  - intros (x & y & -> & -> & H). exact H.
Qed.
Lemma new_home_mem : forall r u d, rk n r -> In (u, d) (M r) -> new_home r u = d.
Proof. intros r u d R I. unfold new_home. assert (Q : dget u (M r) = Some d) by (apply In_dget; auto; apply (NODUP r R)). rewrite Q. auto. Qed.
Lemma new_home_stay : forall r u, rk n r -> (new_home r u = r <-> mem (M r) u = false).
Proof.
  intros r u R. unfold new_home. destruct (mem_get r u R) as [[-> ->]|(-> & d & I & ->)]; [tauto|]. destruct (MOVES r u d R I) as (_ & _ & N). split; [intros; congruence|discriminate].
Qed.
Lemma find_home : forall s u v a b q, rk n s -> home s u a -> home s v b -> edge_ref (node a) (node b) (n_g (q_net (P0 s))) = Some q -> find_agent (P5 s) u = Some (node a) /\ find_agent (P5 s) v = Some (node b).
Proof.
  intros s u v a b q S A B E. pose proof (not_both s u v a b q S A B E) as NB.
  assert (X : forall u a, home s u a -> mem (M s) u = false -> find_agent (P5 s) u = Some (node a)).
  { intros u' a' A' N. unfold find_agent, get_agent. rewrite local5, (local2_home s u' a' S A'), N by auto. auto. }
  assert (Y : forall u v a b q, home s u a -> home s v b -> edge_ref (node a) (node b) (n_g (q_net (P0 s))) = Some q -> mem (M s) u = true -> mem (M s) v = false -> dget u (am_ghost (q_man (P2 s))) = Some (Ghost a 0)).
  { clear - S L1 A2 PL MOVES ONE. intros u v a b q A B E U V. assert (Z : forall u' v', In (u', v', q) (q_moved (P2 s)) -> (u' = u /\ v' = v) \/ (u' = v /\ v' = u) -> dget u (am_ghost (q_man (P2 s))) = Some (Ghost a 0)).
    { intros u' v' I O. destruct (moved2 s u' v' q S I) as (a' & b' & d & f & A' & B' & _ & BK & J & N). apply mem_In in J. destruct (b_ghost _ _ _ _ _ _ _ _ BK) as (c & _ & C & D & _).
      assert (W : (if f then u' else v') = u) by (destruct O as [[-> ->]|[-> ->]]; destruct f; auto; congruence). rewrite W in C. destruct (ghost2 s u _ S C) as (d' & a2 & _ & A3 & Q & _). inversion Q; subst a2. assert (c = a) by (unfold home in *; congruence). subst c. auto. }
    destruct (moved_all s u v a b q S A B E (or_introl U)) as [I|[_ I]]; [apply (Z u v); auto|apply (Z v u); auto]. }
  assert (F : forall u a, home s u a -> mem (M s) u = true -> dget u (am_ghost (q_man (P2 s))) = Some (Ghost a 0) -> find_agent (P5 s) u = Some (node a)).
  { intros u' a' A' N G. unfold find_agent, get_agent, get_ghost_agent. rewrite local5, (local2_home s u' a' S A'), N, (ghost5_old s u' a' S A'), G by auto. auto. }
  pose proof (proj1 (pl_nok _ _ _ (PL s S))) as G.
  destruct (mem (M s) u) eqn:U; destruct (mem (M s) v) eqn:V; try discriminate; split; auto.
  - apply F; auto. apply (Y u v a b q); auto.
  - apply F; auto. clear F X NB. assert (O : mem (M s) u = true \/ mem (M s) v = true) by auto.
    assert (Z : forall u' v', In (u', v', q) (q_moved (P2 s)) -> (u' = u /\ v' = v) \/ (u' = v /\ v' = u) -> dget v (am_ghost (q_man (P2 s))) = Some (Ghost b 0)).
    { intros u' v' I P. destruct (moved2 s u' v' q S I) as (a' & b' & d & f & A' & B' & _ & BK & J & N). apply mem_In in J. destruct (b_ghost _ _ _ _ _ _ _ _ BK) as (c & _ & C & D & _).
      assert (W : (if f then u' else v') = v) by (destruct P as [[-> ->]|[-> ->]]; destruct f; auto; congruence). rewrite W in C. destruct (ghost2 s v _ S C) as (d' & a2 & _ & A3' & Q & _). inversion Q; subst a2. assert (c = b) by (unfold home in *; congruence). subst c. auto. }
    destruct (moved_all s u v a b q S A B E O) as [I|[_ I]]; [apply (Z u v); auto|apply (Z v u); auto].
Qed.
Lemma sees_final : forall s u v at', rk n s -> (sees (P6 s) u v = Some at' <-> exists r, rk n r /\ sees (P0 r) u v = Some at' /\ (s = new_home r u \/ s = new_home r v)).
Proof.
  intros s u v at' S. rewrite sees6 by auto. split.
  - intros (x & y & F1 & F2 & H). apply (z_edge _ _ (A6 s S)) in H as [H|(i & u' & v' & f & x' & y' & C & I & F3 & F4 & SM)].
    + unfold attr_of in H. destruct (edge_ref x y _) as [q|] eqn:E; [|discriminate]. cbn in H. inversion H; subst at'. destruct (ref0 s x y q S E) as (u0 & v0 & a & b & A & B & -> & ->).
      apply find_id in F1; auto. apply find_id in F2; auto. rewrite obj_node in F1, F2. rewrite (ids5 s u0 a S A) in F1. rewrite (ids5 s v0 b S B) in F2. inversion F1; inversion F2; subst u0 v0. exists s. split; auto. split.
      * apply sees_home; auto. exists a, b, q. auto.
      * pose proof (not_both s u v a b q S A B E) as NB. apply andb_false_iff in NB as [N|N]; apply (new_home_stay s _ S) in N; auto.
    + destruct (c_rank _ _ _ _ _ _ C) as [R N]. assert (SM' : same_edge dir u' v' u v) by (apply (find_same s u' v' u v x' y' x y); auto). exists i. split; auto. split.
      * rewrite <- (sees_same i u' v' u v R SM'). apply C.
      * pose proof (new_home_mem i _ s R (c_move _ _ _ _ _ _ C)) as Q. destruct SM' as [[-> ->]|(_ & -> & ->)]; destruct f; auto.
  - intros (r & R & H & O). pose proof H as H0. apply sees_home in H as (a & b & q & A & B & E & K); auto. destruct (Z.eq_dec r s) as [->|N].
    + destruct (find_home s u v a b q S A B E) as [F1 F2]. exists (node a), (node b). split; auto. split; auto. apply (z_edge _ _ (A6 s S)). left. unfold attr_of. rewrite E. cbn. congruence.
    + assert (O' : mem (M r) u = true \/ mem (M r) v = true).
      { destruct (mem (M r) u) eqn:U; auto. destruct (mem (M r) v) eqn:V; auto. apply (new_home_stay r u R) in U. apply (new_home_stay r v R) in V. destruct O; congruence. }
      destruct (edge_went r u v at' R H0 O') as (u' & v' & f & d & SM & I & C). assert (D : d = s).
      { pose proof (new_home_mem r _ d R (c_move _ _ _ _ _ _ C)) as Q. pose proof (c_stay _ _ _ _ _ _ C) as St. apply (new_home_stay r _ R) in St. destruct SM as [[-> ->]|(_ & -> & ->)]; destruct f; destruct O; congruence. }
      subst d. destruct (came_find r s u' v' at' f C S) as (x' & y' & _ & F1 & F2 & _).
      assert (FF : exists x y, find_agent (P5 s) u = Some x /\ find_agent (P5 s) v = Some y /\ same_edge dir x' y' x y).
      { destruct SM as [[-> ->]|(D & -> & ->)]; [exists x', y'; split; auto; split; auto; left; auto|exists y', x'; split; auto; split; auto; right; auto]. }
      destruct FF as (x & y & F3 & F4 & SX). exists x, y. split; auto. split; auto. apply (z_edge _ _ (A6 s S)). right. exists r, u', v', f, x', y'. auto 10.
Qed.
Lemma local_final : forall s u, rk n s -> (dmem u (am_local (q_man (P6 s))) = true <-> exists r, rk n r /\ dmem u (am_local (q_man (P0 r))) = true /\ new_home r u = s).
Proof.
  intros s u S. rewrite (z_man _ _ (A6 s S)), local5 by auto. unfold dmem. split.
  - destruct (dget u (am_local (q_man (P2 s)))) as [a|] eqn:A; [|discriminate]. intros _. apply (local2_inv s u a S) in A as [[A N]|(i & R & I)].
    + exists s. unfold home in A. rewrite A. split; auto. split; auto. apply new_home_stay; auto.
    + exists i. split; auto. destruct (MOVES i u s R I) as ((b & B) & _). unfold home in B. rewrite B. split; auto. apply new_home_mem; auto.
  - intros (r & R & A & N). destruct (dget u (am_local (q_man (P0 r)))) as [a|] eqn:B; [|discriminate]. destruct (mem_get r u R) as [[Q _]|(_ & d & I & _)].
    + apply (new_home_stay r u R) in Q as Q'. assert (r = s) by congruence. subst r. rewrite (local2_home s u a S B), Q. auto.
    + rewrite (new_home_mem r u d R I) in N. subst d. destruct (local2_new s r u S R I) as (a' & ->). auto.
Qed.
End Mid.
Theorem move_ok : exists P', move_agents dir make (map M (ranks n)) (MW n P0) = Some (MW n P') /\
  (forall s u v at', rk n s -> (sees (P' s) u v = Some at' <-> exists r, rk n r /\ sees (P0 r) u v = Some at' /\ (s = new_home r u \/ s = new_home r v))) /\
  (forall s u, rk n s -> (dmem u (am_local (q_man (P' s))) = true <-> exists r, rk n r /\ dmem u (am_local (q_man (P0 r))) = true /\ new_home r u = s)).
Proof.
  destruct leave_all as (P1 & ms & H1). assert (L1 : forall r, rk n r -> left1 r (P1 r) (ms r)) by (intros r R; apply (H1 r R)).
  destruct (arrive_all P1 ms L1) as (P2 & H2). assert (A2 : forall s, rk n s -> Arr dir make (P1 s) (inbox n ms s) (P2 s)) by (intros s S; apply (H2 s S)).
  destruct (post_all P1 P2 ms L1 A2) as (P3 & H3). assert (A3 : forall s, rk n s -> exists t E, P3 s = put_moved (put_net (P2 s) t) [] /\ Pst dir (P2 s) (q_moved (P2 s)) E t) by (intros s S; apply (H3 s S)).
  destruct (send_all P1 P2 ms L1 A2 P3 A3) as (P4 & out & H4). assert (A4 : forall s, rk n s -> sent P2 s (P4 s) (out s)) by (intros s S; apply (H4 s S)).
  destruct (gets_all P1 P2 ms A2 P4 out A4) as (P5 & H5). assert (A5 : forall s, rk n s -> Rcv dir make (P4 s) (inbox n (fun r => magents_of (out r)) s) (P5 s)) by (intros s S; apply (H5 s S)).
  destruct (edges_all P1 P2 ms L1 A2 P4 out A4 P5 A5) as (P6 & H6). assert (A6 : forall s, rk n s -> final out P5 s (P6 s)) by (intros s S; apply (H6 s S)).
  exists P6. split.
  - unfold move_agents, MW. rewrite combine_map. rewrite (mapo_W _ _ _ (fun x => (M x, P0 x)) (fun r => (P1 r, ms r))) by (intros r R; apply (H1 r R)). cbn [obind]. rewrite !map_map. cbn [fst snd].
    replace (exchange (map _ (ranks n))) with (Some (map (inbox n ms) (ranks n))) by (symmetry; apply (exchange_W _ n ms); intros r d [u data] R I; assert (J : In (u, d) (M r)) by (apply (ms_In _ _ _ (L1 r R)); eauto); apply (MOVES r u d R J)). cbn [obind]. rewrite combine_map.
    rewrite (mapo_W _ _ _ (fun x => (inbox n ms x, P1 x)) (fun r => (P2 r, []))) by (intros r R; apply (H2 r R)). cbn [obind]. rewrite !map_map. cbn [fst snd]. change (map (fun x => P2 x) (ranks n)) with (MW n P2).
    rewrite (agents_moved2 P1 P2 ms L1 A2). cbn [obind]. rewrite (unghost2 P2). cbn [obind]. destruct (sync2 P1 P2 ms L1 A2) as [S1 S2]. rewrite S1. cbn [obind]. rewrite (update2 P1 P2 ms L1 A2). cbn [obind]. rewrite S2. cbn [obind].
    unfold MW at 1. rewrite (mapo_W _ _ (post_moved dir) P2 P3) by (intros r R; apply (H3 r R)). cbn [obind]. fold (MW n P3). unfold mnet_synch. rewrite rem_quiet.
    + cbn [obind]. apply (vertices_ok dir make n P3 P4 out P5 P6).
      * intros r R. apply (H4 r R).
      * intros r d x R I. apply (agent_came P1 P2 ms L1 A2 P4 out A4 r d x R I).
      * intros r d [[u v] kw] R I. destruct (edge_came P1 P2 ms L1 A2 P4 out A4 r d u v kw R I) as (f & C). apply (MOVES r _ d R (c_move _ _ _ _ _ _ _ C)).
      * intros r R. apply (H5 r R).
      * intros r R. apply (H6 r R).
    + intros r R. destruct (A3 r R) as (t & E & -> & Q). cbn. apply Q.
  - split; [apply (sees_final P1 P2 ms L1 A2 P4 out A4 P5 A5 P6 A6)|apply (local_final P1 P2 ms L1 A2 P4 out A4 P5 A5 P6 A6)].
Qed.
End NetMove.
