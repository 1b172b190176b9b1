(** The states of agents that the processes send each other for the copies in a network. *)
From Coq Require Import List Arith ZArith Lia Bool.
From Verif Require Import PyDict AgentModel WorldModel NetModel NetProofs NetWorldModel NetWorldBase.
Import ListNotations.
Open Scope Z_scope.

(** The states that a rank sends in the next synchronization: to which rank, of which agent. *)
Definition states_sent (p : peer) : list (Z * uid) := match state_send p with Some (_, l) => l | None => [] end.
(** Calls that take no edge between ranks and no agent away.  Agents of other ranks come into the network only by edges and requests. *)
Definition keeps (o : wop) : bool :=
  match o with
  | WAgent _ | WRequest _ | WSynch => true
  | WRemove _ => false
  | WCall r (NAdd u) => lr u =? r
  | WCall r (NAddEdge u v _) => (lr u =? r) || (lr v =? r)
  | WCall r (NUpdate _ _ _) | WCall r (NRemove _) => true
  | WCall r (NRemoveEdge u v) => Bool.eqb (lr u =? r) (lr v =? r)
  | WCall r NClear => false
  end.

(** * Worlds as functions *)
Lemma W_of : forall w, w = W (length w) (fun r => nth (Z.to_nat r) w (new_peer 0)).
Proof.
  intros w. unfold W, ranks. rewrite map_map. rewrite (map_ext _ (fun i => nth i w (new_peer 0))) by (intros; rewrite Nat2Z.id; auto).
  induction w as [|p w IH]; cbn [length seq map nth]; auto. f_equal. rewrite <- seq_shift, map_map. cbn [nth]. auto.
Qed.
Lemma mapo_inv : forall A B C (f : B -> option C) (g : A -> B) l l' (d : C), mapo f (map g l) = Some l' -> exists h, l' = map h l /\ forall x, In x l -> f (g x) = Some (h x).
Proof.
  intros A B C f g l l' d E. exists (fun x => match f (g x) with Some y => y | None => d end). revert l' E. induction l as [|x l IH]; intros l' E; cbn [map mapo] in *.
  - inversion E. split; auto. intros x [].
  - destruct (f (g x)) as [y|] eqn:F; [|discriminate]. destruct (mapo f (map g l)) as [r|]; [|discriminate]. inversion E; subst. destruct (IH r eq_refl) as [-> H]. split; auto.
    intros z [->|I]; auto. rewrite F. auto.
Qed.
Lemma exchange_inv : forall X n (ms : Z -> list (Z * X)) rs, exchange (map ms (ranks n)) = Some rs -> rs = map (inbox n ms) (ranks n) /\ forall r d x, rk n r -> In (d, x) (ms r) -> rk n d.
Proof.
  intros X n ms rs E. assert (H : forall r d x, rk n r -> In (d, x) (ms r) -> rk n d).
  { unfold exchange in E. rewrite map_length, ranks_length in E. destruct (forallb _ (map ms (ranks n))) eqn:F; [|discriminate]. intros r d x R I. rewrite forallb_forall in F. specialize (F (ms r)). rewrite forallb_forall in F.
    specialize (F ltac:(apply in_map, ranks_In; auto) (d, x) I). cbn [fst] in F. unfold rk. lia. }
  split; auto. rewrite (exchange_W X n ms H) in E. inversion E. auto.
Qed.
Lemma phase_inv : forall X n (send : peer -> option (peer * list (Z * X))) recv P w, phase send recv (W n P) = Some w -> exists h P', w = W n P' /\
  (forall r, rk n r -> send (P r) = Some (h r)) /\ (forall r d x, rk n r -> In (d, x) (snd (h r)) -> rk n d) /\
  forall j, rk n j -> recv (inbox n (fun r => snd (h r)) j) (fst (h j)) = Some (P' j).
Proof.
  intros X n send recv P w E. unfold phase, W in E. destruct (mapo send (map P (ranks n))) as [l|] eqn:F; [|discriminate]. apply (mapo_inv _ _ _ send P (ranks n) l (new_peer 0, [])) in F as (h & -> & H). rewrite !map_map in E.
  destruct (exchange (map (fun x => snd (h x)) (ranks n))) as [rs|] eqn:G; [|discriminate]. apply (exchange_inv X n (fun r => snd (h r))) in G as [-> D]. rewrite combine_map in E.
  apply (mapo_inv _ _ _ _ _ _ _ (new_peer 0)) in E as (P' & -> & HP). exists h, P'. split; auto. split; [intros r R; apply H, ranks_In; auto|]. split; auto. intros j J. apply HP, ranks_In. auto.
Qed.

(** * Managers *)
Record mi (r : Z) (m : manager) : Prop := {
  mi_local : forall u a, dget u (am_local m) = Some a -> a_uid a = u /\ lr u = r;
  mi_gd : forall u g, dget u (am_ghosted m) = Some g -> a_uid (gd_agent g) = u /\ lr u = r;
  mi_gh : forall u g, dget u (am_ghost m) = Some g -> a_uid (g_agent g) = u }.
Definition to (s : Z) (u : uid) (m : manager) : Prop := is_ghosted_to s u m = true.
(** What a step may do to the registered copies. *)
Definition grows (m m' : manager) : Prop := forall s u, to s u m -> to s u m'.
Lemma grows_refl : forall m, grows m m.
Proof. intros m s u H. auto. Qed.
Lemma grows_trans : forall m1 m2 m3, grows m1 m2 -> grows m2 m3 -> grows m1 m3.
Proof. intros m1 m2 m3 H1 H2 s u H. auto. Qed.
Lemma grows_eq : forall m m', am_ghosted m' = am_ghosted m -> grows m m'.
Proof. intros m m' E s u. unfold to, is_ghosted_to. rewrite E. auto. Qed.
Lemma tag_spec : forall r s u m m' a, mi r m -> tag_as_ghosted s u m = (m', Ok a) -> mi r m' /\ a_uid a = u /\ lr u = r /\ to s u m' /\ grows m m' /\ am_ghost m' = am_ghost m.
Proof.
  intros r s u m m' a M E. unfold tag_as_ghosted in E. destruct (dget u (am_ghosted m)) as [g|] eqn:G.
  - destruct (mi_gd _ _ M u g G) as [I L]. inversion E; subst; clear E. split; [|split; [|split; [|split; [|split]]]]; auto.
    + split; try apply M. cbn [am_ghosted upd_ghosted]. intros x g'. rewrite dget_dset. destruct (keq x (a_uid (gd_agent g))) eqn:K; [|apply M]. apply keq_ok in K; subst. intros X. inversion X; subst. auto.
    + unfold to, is_ghosted_to. cbn [am_ghosted upd_ghosted]. rewrite dget_dset_same. cbn [gd_ranks]. unfold dmem. destruct (dget s (gd_ranks g)); rewrite dget_dset_same; auto.
    + intros y x. unfold to, is_ghosted_to. cbn [am_ghosted upd_ghosted]. rewrite dget_dset. destruct (keq x (a_uid (gd_agent g))) eqn:K; auto. apply keq_ok in K; subst. rewrite G. cbn [gd_ranks]. unfold dmem.
      destruct (dget s (gd_ranks g)); rewrite dget_dset; destruct (keq y s); auto.
  - destruct (dget u (am_local m)) as [b|] eqn:F; [|discriminate]. destruct (mi_local _ _ M u b F) as [I L]. inversion E; subst; clear E. split; [|split; [|split; [|split; [|split]]]]; auto.
    + split; try apply M. cbn [am_ghosted upd_ghosted]. intros x g'. rewrite dget_dset. destruct (keq x (a_uid a)) eqn:K; [|apply M]. apply keq_ok in K; subst. intros X. inversion X; subst. auto.
    + unfold to, is_ghosted_to. cbn [am_ghosted upd_ghosted]. rewrite dget_dset_same. cbn [gd_ranks]. unfold dmem. cbn [dget]. rewrite keq_refl. auto.
    + intros y x. unfold to, is_ghosted_to. cbn [am_ghosted upd_ghosted]. rewrite dget_dset. destruct (keq x (a_uid a)) eqn:K; auto. apply keq_ok in K; subst. rewrite G. discriminate.
Qed.
Lemma add_ghost_spec : forall r q u i m, mi r m -> let m' := add_ghost q (ag u) i m in mi r m' /\ (forall x, gh x m' <-> x = u \/ gh x m) /\ am_ghosted m' = am_ghosted m.
Proof.
  intros r q u i m M m'. split; [|split; auto].
  - split; try apply M. unfold m', add_ghost. cbn. intros x g. rewrite dget_dset. destruct (keq x u) eqn:K; [|apply M]. apply keq_ok in K; subst. intros X. inversion X. auto.
  - intros x. unfold gh, m', add_ghost, dmem. cbn. rewrite dget_dset. destruct (keq x u) eqn:K; [apply keq_ok in K; subst; tauto|]. apply keq_neq in K. split; auto. intros [->|]; congruence || auto.
Qed.
Lemma get_ghost_spec : forall r u i m m' o, mi r m -> get_ghost u i m = (m', o) -> mi r m' /\ (forall x, gh x m' <-> gh x m) /\ am_ghosted m' = am_ghosted m /\
  (forall a, o = Some a -> a_uid a = u /\ gh u m) /\ (o = None -> ~ gh u m).
Proof.
  intros r u i m m' o M E. unfold get_ghost in E. destruct (dget u (am_ghost m)) as [g|] eqn:G; inversion E; subst; clear E.
  - pose proof (mi_gh _ _ M u g G) as I. split; [|split; [|split; [|split]]]; auto; try discriminate.
    + split; try apply M. cbn [am_ghost upd_ghost]. intros x g'. rewrite dget_dset. destruct (keq x u) eqn:K; [|apply M]. apply keq_ok in K; subst. intros X. inversion X; auto.
    + intros x. unfold gh, dmem. cbn [am_ghost upd_ghost]. rewrite dget_dset. destruct (keq x u) eqn:K; [|tauto]. apply keq_ok in K; subst. rewrite G. tauto.
    + intros a X. inversion X; subst. split; auto. unfold gh, dmem. rewrite G. auto.
  - split; auto. split; [tauto|]. split; auto. split; [discriminate|]. intros _ X. unfold gh, dmem in X. rewrite G in X. discriminate.
Qed.
Lemma req_spec : forall r u m, mi r m -> mi r (add_req_ghost u m) /\ am_ghost (add_req_ghost u m) = am_ghost m /\ am_ghosted (add_req_ghost u m) = am_ghosted m.
Proof. intros r u m M. unfold add_req_ghost. destruct (is_requested u m); auto. split; auto. split; apply M. Qed.

(** * Invariant *)
Section Inv.
Variable dir : bool.
Variable n : nat.
(** The network of rank [r]; the ids [l] are still to be noted as copies. *)
Definition ni (r : Z) (m : manager) (t : net) : Prop := forall u, has_node u (n_g t) = true -> lr u = r \/ gh u m \/ In u (n_ref t).
Record inv (P : Z -> peer) : Prop := {
  iv_m : forall r, rk n r -> mi r (p_man (P r));
  iv_n : forall r, rk n r -> ni r (p_man (P r)) (p_net (P r));
  iv_rem : forall r, rk n r -> n_rem (p_net (P r)) = [];
  iv_gone : forall r, rk n r -> p_gone (P r) = [];
  iv_to : forall r u, rk n r -> gh u (p_man (P r)) -> rk n (lr u) /\ to r u (p_man (P (lr u))) }.
Lemma add_edge_nodes : forall u v kw g x, has_node x (g_add_edge dir u v kw g) = keq x u || keq x v || has_node x g.
Proof.
  intros. unfold has_node, g_add_edge. destruct (edge_ref u v (add_node v (add_node u g))) as [rf|]; destruct dir; cbn [write g_adj g_pred]; rewrite !dmem_link; cbn [add_node g_adj]; rewrite !dmem_touch; destruct (keq x u), (keq x v); auto.
Qed.

(** ** Calls *)
Lemma call_ni : forall r m t o, keeps (WCall r o) = true -> n_rem t = [] -> ni r m t -> let t' := fst (nstep dir r lr t o) in ni r m t' /\ n_rem t' = [].
Proof.
  intros r m t o K R N t'. unfold t'. destruct o as [u|u|u v kw|u v kw|u v|]; cbn [keeps] in K; cbn [nstep].
  - split; auto. intros x. cbn. rewrite add_node_node. intros H. apply orb_true_iff in H as [H|H]; [apply keq_ok in H; subst; left; lia|apply N; auto].
  - unfold n_remove. destruct (g_remove_node dir u (n_g t)) as [g|] eqn:E; cbn [fst]; auto. split; auto. intros x. cbn [n_g set_g n_ref]. rewrite (remove_node_node dir u _ g E). intros H. apply andb_true_iff in H as [_ H]. apply N; auto.
  - unfold add_edge, here. cbn [fst].
    assert (A : forall loc gho, lr loc = r -> (u = loc /\ v = gho \/ u = gho /\ v = loc) -> ni r m (add_ghost_edge dir u v loc gho kw t) /\ n_rem (add_ghost_edge dir u v loc gho kw t) = []).
    { intros loc gho L UV. unfold add_ghost_edge. set (t1 := if has_node gho (n_g t) then t else set_ref t (n_ref t ++ [gho])).
      assert (X : n_g t1 = n_g t /\ n_rem t1 = [] /\ (forall x, In x (n_ref t) -> In x (n_ref t1)) /\ (has_node gho (n_g t) = true \/ In gho (n_ref t1))).
      { unfold t1. destruct (has_node gho (n_g t)); auto. cbn. split; auto. split; auto. split; [|right]; intros; apply in_app_iff; cbn; auto. }
      destruct X as (X1 & X2 & X3 & X4). set (t2 := add_key dir u v (set_g t1 (g_add_edge dir u v kw (n_g t1)))).
      assert (Y : n_g t2 = g_add_edge dir u v kw (n_g t) /\ n_rem t2 = [] /\ n_ref t2 = n_ref t1) by (unfold t2, add_key; destruct dir; cbn; rewrite X1; auto).
      destruct Y as (Y1 & Y2 & Y3).
      assert (Z : forall x, has_node x (n_g t2) = true -> lr x = r \/ gh x m \/ In x (n_ref t2)).
      { intros x. rewrite Y1, add_edge_nodes, Y3. intros H. apply orb_true_iff in H as [H|H].
        - assert (B : x = loc \/ x = gho) by (apply orb_true_iff in H as [H|H]; apply keq_ok in H; subst; destruct UV as [[-> ->]|[-> ->]]; auto). destruct B as [->| ->]; auto.
          destruct X4 as [X4|X4]; auto. destruct (N gho X4) as [B|[B|B]]; auto.
        - destruct (N x H) as [B|[B|B]]; auto. }
      destruct (edge_ref u v (n_g t2)) as [rf|]; cbn; auto. split; auto. rewrite Y2. auto. }
    destruct (Z.eqb_spec (lr u) r), (Z.eqb_spec (lr v) r); cbn [andb negb orb] in *; try discriminate; auto.
    unfold add_key. split; [|destruct dir; auto]. intros x. replace (n_g (set_g (if dir then t else _) _)) with (g_add_edge dir u v kw (n_g t)) by (destruct dir; auto). rewrite add_edge_nodes.
    intros H. apply orb_true_iff in H as [H|H]; [apply orb_true_iff in H as [H|H]; apply keq_ok in H; subst; auto|]. destruct (N x H) as [B|[B|B]]; auto. right. right. destruct dir; auto.
  - unfold update_edge. destruct (get_key dir u v t) as [k|]; cbn [fst]; auto.
    set (o := match kw with [] => Some t | _ => _ end).
    assert (X : match o with Some t' => (forall x, has_node x (n_g t') = has_node x (n_g t)) /\ n_ref t' = n_ref t /\ n_rem t' = [] | None => True end).
    { unfold o. destruct kw; auto. destruct (edge_ref (fst k) (snd k) (n_g t)); auto. }
    destruct o as [t1|]; cbn [fst]; auto. destruct X as (X1 & X2 & X3).
    assert (Z : ni r m t1 /\ n_rem t1 = []) by (split; auto; intros x H; rewrite X1 in H; rewrite X2; auto). destruct (cross r lr u v); auto. destruct (existsb (keq k) (n_upd t1)); auto.
  - apply eqb_prop in K. unfold remove_edge, cross, here. rewrite K. destruct (g_remove_edge dir u v (n_g t)) as [g|] eqn:E; cbn [fst]; auto. rewrite xorb_nilpotent.
    assert (X : forall ks, ni r m (set_keys (set_g t g) ks) /\ n_rem (set_keys (set_g t g) ks) = []).
    { intros ks. split; auto. intros x. cbn. rewrite (remove_edge_node dir u v _ g E). apply N. }
    unfold remove_key. destruct dir; cbn [fst]; [apply (X (n_keys t))|]. destruct (dmem (u, v) (n_keys (set_g t g))); [|apply (X (n_keys t))]. destruct (dmem (v, u) _); apply X.
  - discriminate.
Qed.
Lemma inv_put : forall P r p, inv P -> rk n r -> mi r (p_man p) -> ni r (p_man p) (p_net p) -> n_rem (p_net p) = [] -> p_gone p = [] ->
  am_ghost (p_man p) = am_ghost (p_man (P r)) -> am_ghosted (p_man p) = am_ghosted (p_man (P r)) -> inv (put P r p).
Proof.
  intros P r p I R M N Rm G E1 E2. unfold put. split; intros x; [| | | |intros u]; intros Rx; destruct (Z.eqb_spec x r); subst; auto; try apply I; auto.
  - unfold gh. rewrite E1. intros H. destruct (iv_to _ I r u R H) as [A B]. split; auto. destruct (Z.eqb_spec (lr u) r) as [X|]; auto. rewrite X in B. unfold to, is_ghosted_to in *. rewrite E2. auto.
  - intros H. destruct (iv_to _ I x u Rx H) as [A B]. split; auto. destruct (Z.eqb_spec (lr u) r) as [X|]; auto. rewrite X in B. unfold to, is_ghosted_to in *. rewrite E2. auto.
Qed.

(** ** Loops *)
(** What a rank has after it received: every copy is one it had or one of the messages. *)
Lemma ref_send_spec : forall l r m t g p ms, mi r m -> foldm ref_send l (Peer m t g) = Some (p, ms) -> exists m', p = Peer m' t g /\ mi r m' /\ am_ghosted m' = am_ghosted m /\
  (forall x, gh x m' -> gh x m \/ In (lr x, x) ms) /\ (forall x, gh x m -> gh x m') /\ (forall x, In x l -> has_node x (n_g t) = true -> gh x m') /\ (forall d x, In (d, x) ms -> d = lr x).
Proof.
  induction l as [|u l IH]; intros r m t g p ms M E; cbn [foldm] in E.
  - inversion E; subst. exists m. split; auto. split; auto. split; auto. split; auto. split; auto. split; [intros x []|intros d x []].
  - unfold ref_send at 1 in E. cbn [p_man p_net p_gone] in E. destruct (has_node u (n_g t)) eqn:H.
    + set (m1 := match get_ghost u 1 m with (m, Some _) => m | (m, None) => add_ghost (lr u) (ag u) 1 m end) in E.
      assert (X : mi r m1 /\ am_ghosted m1 = am_ghosted m /\ (forall x, gh x m1 <-> x = u \/ gh x m)).
      { unfold m1. destruct (get_ghost u 1 m) as [m0 o] eqn:G. destruct (get_ghost_spec r u 1 m m0 o M G) as (M0 & G0 & D0 & S0 & N0). destruct o as [a|].
        - split; auto. split; auto. destruct (S0 a eq_refl) as [_ Hu]. intros x. rewrite G0. split; auto. intros [->|]; auto.
        - destruct (add_ghost_spec r (lr u) u 1 m0 M0) as (A1 & A2 & A3). split; auto. split; [congruence|]. intros x. rewrite A2, G0. tauto. }
      destruct X as (M1 & D1 & G1). destruct (foldm ref_send l (Peer m1 t g)) as [[p2 ms2]|] eqn:F; [|discriminate]. inversion E; subst; clear E. destruct (IH r m1 t g p ms2 M1 F) as (m' & -> & A1 & A2 & A3 & A4 & A5 & A6).
      exists m'. split; auto. split; auto. split; [congruence|]. split; [|split; [|split]].
      * intros x Hx. apply A3 in Hx as [Hx|Hx]; [|right; right; auto]. apply G1 in Hx as [->|Hx]; [right; left; auto|auto].
      * intros x Hx. apply A4, G1. auto.
      * intros x [<-|Hx] Hn; [apply A4, G1; auto|auto].
      * intros d x [Z|Z]; [inversion Z; auto|apply A6; auto].
    + destruct (foldm ref_send l (Peer m t g)) as [[p2 ms2]|] eqn:F; [|discriminate]. inversion E; subst; clear E. destruct (IH r m t g p ms M F) as (m' & -> & A1 & A2 & A3 & A4 & A5 & A6).
      exists m'. split; auto. split; auto. split; auto. split; auto. split; auto. split; auto. intros x [<-|Hx] Hn; [congruence|auto].
Qed.
Lemma tag_recv_spec : forall l r m t g p, mi r m -> foldo tag_recv l (Peer m t g) = Some p -> exists m', p = Peer m' t g /\ mi r m' /\ am_ghost m' = am_ghost m /\ grows m m' /\ (forall i u, In (i, u) l -> lr u = r /\ to i u m').
Proof.
  induction l as [|[i u] l IH]; intros r m t g p M E; cbn [foldo] in E.
  - inversion E; subst. exists m. split; auto. split; auto. split; auto. split; [apply grows_refl|intros i u []].
  - unfold tag_recv at 1 in E. cbn [fst snd p_man p_net p_gone] in E. destruct (tag_as_ghosted i u m) as [m1 [a| | |]] eqn:T; try discriminate. destruct (tag_spec r i u m m1 a M T) as (M1 & I1 & L1 & T1 & G1 & H1).
    destruct (IH r m1 t g p M1 E) as (m' & -> & A1 & A2 & A3 & A4). exists m'. split; auto. split; auto. split; [congruence|]. split; [apply (grows_trans _ m1); auto|]. intros j x [Z|Z]; [inversion Z; subst; auto|auto].
Qed.
Lemma req_tag_spec : forall l r m t g p ms, mi r m -> foldm req_tag l (Peer m t g) = Some (p, ms) -> exists m', p = Peer m' t g /\ ms = l /\ mi r m' /\ am_ghost m' = am_ghost m /\ grows m m' /\ (forall i u, In (i, u) l -> lr u = r /\ to i u m').
Proof.
  induction l as [|[i u] l IH]; intros r m t g p ms M E; cbn [foldm] in E.
  - inversion E; subst. exists m. split; auto. split; auto. split; auto. split; auto. split; [apply grows_refl|intros i u []].
  - unfold req_tag at 1 in E. cbn [fst snd p_man p_net p_gone] in E. destruct (tag_as_ghosted i u m) as [m1 [a| | |]] eqn:T; try discriminate. destruct (tag_spec r i u m m1 a M T) as (M1 & I1 & L1 & T1 & G1 & H1).
    destruct (foldm req_tag l (Peer m1 t g)) as [[p2 ms2]|] eqn:F; [|discriminate]. inversion E; subst; clear E.
    destruct (IH (lr (a_uid a)) m1 t g p ms2 M1 F) as (m' & -> & -> & A1 & A2 & A3 & A4). exists m'. split; auto. split; auto. split; auto. split; [congruence|]. split; [apply (grows_trans _ m1); auto|]. intros j x [Z|Z]; [inversion Z; subst; auto|auto].
Qed.
Lemma new_send_spec : forall l r m t g p ms, mi r m -> foldm new_send l (Peer m t g) = Some (p, ms) -> exists m' d, p = Peer m' (set_ghosted t d) g /\ mi r m' /\ am_ghost m' = am_ghost m /\ grows m m' /\
  (forall i u, In (i, u) (agents_of ms) -> lr u = r /\ to i u m').
Proof.
  induction l as [|[k ge] l IH]; intros r m t g p ms M E; cbn [foldm] in E.
  - inversion E; subst. exists m, (n_ghosted t). split; [destruct t; auto|]. split; auto. split; auto. split; [apply grows_refl|intros i u []].
  - unfold new_send at 1 in E. cbn [fst snd p_man p_net p_gone] in E. set (t1 := set_ghosted t (dset k ge (n_ghosted t))) in E.
    destruct (is_ghosted_to (lr (ge_ghost ge)) (ge_local ge) m).
    + destruct (foldm new_send l (Peer m t1 g)) as [[p2 ms2]|] eqn:F; [|discriminate]. inversion E; subst; clear E. destruct (IH r m t1 g p ms2 M F) as (m' & d & -> & A1 & A2 & A3 & A4). exists m', d. auto 10.
    + destruct (tag_as_ghosted (lr (ge_ghost ge)) (ge_local ge) m) as [m1 [a| | |]] eqn:T; try discriminate. destruct (tag_spec r _ _ m m1 a M T) as (M1 & I1 & L1 & T1 & G1 & H1).
      destruct (foldm new_send l (Peer m1 t1 g)) as [[p2 ms2]|] eqn:F; [|discriminate]. inversion E; clear E. destruct (IH r m1 t1 g p2 ms2 M1 F) as (m' & d & X & A1 & A2 & A3 & A4).
      exists m', d. split; [subst; auto|]. split; auto. split; [congruence|]. split; [apply (grows_trans _ m1); auto|]. intros i u. subst ms. cbn [app agents_of flat_map]. intros [Z|Z]; [inversion Z; subst i u; auto|apply A4; auto].
Qed.
Lemma upd_send_spec : forall l p p' ms, foldm upd_send l p = Some (p', ms) -> p' = p /\ agents_of ms = [].
Proof.
  induction l as [|k l IH]; intros p p' ms E; cbn [foldm] in E; [inversion E; auto|]. unfold upd_send at 1 in E. destruct (dget k (n_ghosted (p_net p))) as [ge|]; [|discriminate].
  destruct (foldm upd_send l p) as [[p2 ms2]|] eqn:F; [|discriminate]. inversion E; subst. destruct (IH p p' ms2 F). subst. auto.
Qed.
Lemma vertices_send_spec : forall r m t g p ms, mi r m -> vertices_send (Peer m t g) = Some (p, ms) -> exists m' t', p = Peer m' t' g /\ mi r m' /\ am_ghost m' = am_ghost m /\ grows m m' /\
  n_g t' = n_g t /\ n_ref t' = n_ref t /\ n_rem t' = n_rem t /\ (forall i u, In (i, u) (agents_of ms) -> lr u = r /\ to i u m').
Proof.
  intros r m t g p ms M E. unfold vertices_send in E. cbn [p_net] in E. destruct (foldm new_send (n_new t) (Peer m t g)) as [[p1 l1]|] eqn:F; [|discriminate]. destruct (new_send_spec _ r m t g p1 l1 M F) as (m' & d & -> & A1 & A2 & A3 & A4). cbn [p_man p_net p_gone] in E.
  destruct (foldm upd_send _ _) as [[p2 l2]|] eqn:F2; [|discriminate]. apply upd_send_spec in F2 as [-> U]. inversion E; subst; clear E. eexists m', _. split; [reflexivity|]. split; auto. split; auto. split; auto. split; auto. split; auto. split; auto.
  intros i u H. unfold agents_of in H. rewrite flat_map_app in H. fold (agents_of l1) (agents_of l2) in H. rewrite U, app_nil_r in H. auto.
Qed.
Lemma agent_recv_spec : forall l r m t g p, mi r m -> ni r m t -> foldo agent_recv l (Peer m t g) = Some p -> exists m' t', p = Peer m' t' g /\ mi r m' /\ am_ghosted m' = am_ghosted m /\ ni r m' t' /\
  n_ref t' = n_ref t /\ n_rem t' = n_rem t /\ (forall x, gh x m' -> gh x m \/ exists i, In (i, x) l).
Proof.
  induction l as [|[i u] l IH]; intros r m t g p M N E; cbn [foldo] in E.
  - inversion E; subst. exists m, t. auto 10.
  - unfold agent_recv at 1 in E. cbn [fst snd p_man p_net p_gone] in E. destruct (add_ghost_spec r i u 1 m M) as (M1 & G1 & D1). assert (N1 : ni r (add_ghost i (ag u) 1 m) (n_add u t)); [|destruct (IH r _ _ g p M1 N1 E) as (m' & t' & -> & A1 & A2 & A3 & A4 & A5 & A6)].
    + intros x. cbn. rewrite add_node_node. intros H. apply orb_true_iff in H as [H|H]; [apply keq_ok in H; subst; right; left; apply G1; auto|]. destruct (N x H) as [B|[B|B]]; auto. right. left. apply G1. auto.
    + exists m', t'. split; auto. split; auto. split; [congruence|]. split; auto. split; auto. split; auto. intros x Hx. apply A6 in Hx as [Hx|(j & Hx)]; [|right; exists j; right; auto]. apply G1 in Hx as [->|Hx]; auto. right. exists i. left. auto.
Qed.
Lemma edge_recv_spec : forall l r m t g p, mi r m -> ni r m t -> foldo (edge_recv dir) l (Peer m t g) = Some p -> exists t', p = Peer m t' g /\ ni r m t' /\ n_ref t' = n_ref t /\ n_rem t' = n_rem t.
Proof.
  induction l as [|[i [[u v] a]] l IH]; intros r m t g p M N E; cbn [foldo] in E.
  - inversion E; subst. exists t. auto.
  - unfold edge_recv at 1 in E. cbn [fst snd p_man p_net p_gone] in E. destruct (if dmem u (am_ghost m) then _ else _) eqn:C; [|discriminate].
    set (t1 := add_key dir u v _) in E. assert (T : n_g t1 = g_add_edge dir u v a (n_g t) /\ n_ref t1 = n_ref t /\ n_rem t1 = n_rem t) by (unfold t1, add_key; destruct dir; auto). destruct T as (T1 & T2 & T3).
    assert (Lo : forall x, dmem x (am_local m) = true -> lr x = r). { intros x. unfold dmem. destruct (dget x (am_local m)) as [y|] eqn:D; [|discriminate]. intros _. apply (mi_local _ _ M x y D). }
    assert (N1 : ni r m t1).
    { intros x. rewrite T1, T2, add_edge_nodes. intros H. apply orb_true_iff in H as [H|H]; [|apply N; auto].
      assert (UV : (gh u m \/ lr u = r) /\ (gh v m \/ lr v = r)) by (destruct (dmem u (am_ghost m)) eqn:D; [|apply andb_true_iff in C as [C1 C2]]; auto). apply orb_true_iff in H as [H|H]; apply keq_ok in H; subst; tauto. }
    destruct (IH r m t1 g p M N1 E) as (t' & -> & A1 & A2 & A3). exists t'. split; auto. split; auto. split; congruence.
Qed.
Lemma req_one_spec : forall l r m t g p ms, mi r m -> ni r m t -> foldm req_one l (Peer m t g) = Some (p, ms) -> exists m' t', p = Peer m' t' g /\ mi r m' /\ am_ghosted m' = am_ghosted m /\ ni r m' t' /\ n_rem t' = n_rem t /\
  (forall x, gh x m' <-> gh x m).
Proof.
  induction l as [|[u d] l IH]; intros r m t g p ms M N E; cbn [foldm] in E.
  - inversion E; subst. exists m, t. split; auto. split; auto. split; auto. split; auto. split; auto. tauto.
  - unfold req_one at 1 in E. cbn [fst snd p_man p_net p_gone] in E. destruct (get_ghost u 0 m) as [m0 o] eqn:G. destruct (get_ghost_spec r u 0 m m0 o M G) as (M0 & G0 & D0 & S0 & _). destruct o as [a|].
    + destruct (S0 a eq_refl) as [I Hu]. destruct (req_spec r (a_uid a) m0 M0) as (M1 & E1 & E2). set (m1 := add_req_ghost (a_uid a) m0) in *. assert (G1 : forall x, gh x m1 <-> gh x m) by (intros x; rewrite <- G0; unfold gh; rewrite E1; tauto).
      destruct (foldm req_one l _) as [[p2 ms2]|] eqn:F; [|discriminate]. inversion E; clear E. assert (N1 : ni r m1 (n_add (a_uid a) t)); [|destruct (IH r m1 _ g p2 ms2 M1 N1 F) as (m' & t' & X & A1 & A2 & A3 & A4 & A5)].
      * intros x. cbn. rewrite add_node_node. intros H. apply orb_true_iff in H as [H|H]; [apply keq_ok in H; subst x; right; left; apply G1; rewrite I; auto|]. destruct (N x H) as [B|[B|B]]; auto. right. left. apply G1. auto.
      * exists m', t'. split; [subst; auto|]. split; auto. split; [congruence|]. split; auto. split; auto. intros x. rewrite A5, G1. tauto.
    + destruct (foldm req_one l _) as [[p2 ms2]|] eqn:F; [|discriminate]. inversion E; clear E. assert (N1 : ni r m0 t); [|destruct (IH r m0 t g p2 ms2 M0 N1 F) as (m' & t' & X & A1 & A2 & A3 & A4 & A5)].
      * intros x H. destruct (N x H) as [B|[B|B]]; auto. right. left. apply G0. auto.
      * exists m', t'. split; [subst; auto|]. split; auto. split; [congruence|]. split; auto. split; auto. intros x. rewrite A5, G0. tauto.
Qed.
Lemma req_recv_spec : forall l r m t g p, mi r m -> ni r m t -> foldo req_recv l (Peer m t g) = Some p -> exists m' t', p = Peer m' t' g /\ mi r m' /\ am_ghosted m' = am_ghosted m /\ ni r m' t' /\ n_rem t' = n_rem t /\
  (forall x, gh x m' -> gh x m \/ exists i, In (i, x) l).
Proof.
  induction l as [|[i u] l IH]; intros r m t g p M N E; cbn [foldo] in E.
  - inversion E; subst. exists m, t. auto 10.
  - unfold req_recv at 1 in E. cbn [fst snd p_man p_net p_gone] in E. destruct (add_ghost_spec r i u 1 m M) as (M1 & G1 & D1). destruct (req_spec r u _ M1) as (M2 & E1 & E2). set (m2 := add_req_ghost u _) in *.
    assert (G2 : forall x, gh x m2 <-> x = u \/ gh x m) by (intros x; rewrite <- G1; unfold gh; rewrite E1; tauto). assert (N2 : ni r m2 (n_add u t)); [|destruct (IH r m2 _ g p M2 N2 E) as (m' & t' & -> & A1 & A2 & A3 & A4 & A5)].
    + intros x. cbn. rewrite add_node_node. intros H. apply orb_true_iff in H as [H|H]; [apply keq_ok in H; subst; right; left; apply G2; auto|]. destruct (N x H) as [B|[B|B]]; auto. right. left. apply G2. auto.
    + exists m', t'. split; auto. split; auto. split; [congruence|]. split; auto. split; auto. intros x Hx. apply A5 in Hx as [Hx|(j & Hx)]; [|right; exists j; right; auto]. apply G2 in Hx as [->|Hx]; auto. right. exists i. left. auto.
Qed.

(** ** Phases *)
Lemma inbox_nil : forall X (ms : Z -> list (Z * X)) j, (forall r, rk n r -> ms r = []) -> inbox n ms j = [].
Proof. intros X ms j H. destruct (inbox n ms j) as [|[i x] l] eqn:E; auto. assert (I : In (i, x) (inbox n ms j)) by (rewrite E; left; auto). apply inbox_In in I as [R I]. rewrite (H i R) in I. destruct I. Qed.
Lemma pre_inv : forall P w, inv P -> phase pre_send (foldo tag_recv) (W n P) = Some w -> exists P', w = W n P' /\ inv P' /\ forall r, rk n r -> n_ref (p_net (P' r)) = [].
Proof.
  intros P w I E. apply phase_inv in E as (h & P' & -> & H & D & R). exists P'. split; auto.
  assert (X : forall r, rk n r -> exists m1 m2, h r = (Peer m1 (set_ref (p_net (P r)) []) (p_gone (P r)), snd (h r)) /\ mi r m1 /\ am_ghosted m1 = am_ghosted (p_man (P r)) /\
     (forall x, gh x m1 -> gh x (p_man (P r)) \/ In (lr x, x) (snd (h r))) /\ (forall x, has_node x (n_g (p_net (P r))) = true -> lr x = r \/ gh x m1) /\
     P' r = Peer m2 (set_ref (p_net (P r)) []) (p_gone (P r)) /\ mi r m2 /\ am_ghost m2 = am_ghost m1 /\ grows m1 m2 /\ (forall i u, In (i, u) (inbox n (fun r => snd (h r)) r) -> lr u = r /\ to i u m2)).
  { intros r Rr. specialize (H r Rr). specialize (R r Rr). pose proof (iv_m _ I r Rr) as M. pose proof (iv_n _ I r Rr) as N. unfold pre_send in H. destruct (P r) as [m t g] eqn:Ep. cbn [p_man p_net p_gone] in *.
    destruct (foldm ref_send (n_ref t) (Peer m t g)) as [[p ms]|] eqn:F; [|discriminate]. destruct (ref_send_spec _ r m t g p ms M F) as (m1 & -> & A1 & A2 & A3 & A4 & A5 & A6). cbn [p_man p_net p_gone] in H. inversion H as [H']. rewrite <- H' in R. cbn [fst] in R.
    apply (tag_recv_spec _ r) in R as (m2 & B0 & B1 & B2 & B3 & B4); auto. exists m1, m2. cbn [snd]. split; auto. split; auto. split; auto. split; auto. split; [|split; [|split; [|split; [|split]]]]; auto.
    intros x Hx. destruct (N x Hx) as [B|[B|B]]; auto. }
  split; [|intros r Rr; destruct (X r Rr) as (m1 & m2 & _ & _ & _ & _ & _ & -> & _); auto]. split.
  - intros r Rr. destruct (X r Rr) as (m1 & m2 & _ & _ & _ & _ & _ & -> & M & _). auto.
  - intros r Rr. destruct (X r Rr) as (m1 & m2 & _ & _ & _ & _ & N & -> & _ & G & _). intros x Hx. cbn in *. destruct (N x Hx); auto. right. left. unfold gh. rewrite G. auto.
  - intros r Rr. destruct (X r Rr) as (m1 & m2 & _ & _ & _ & _ & _ & -> & _). apply (iv_rem _ I r Rr).
  - intros r Rr. destruct (X r Rr) as (m1 & m2 & _ & _ & _ & _ & _ & -> & _). apply (iv_gone _ I r Rr).
  - intros r u Rr. destruct (X r Rr) as (m1 & m2 & H1 & _ & _ & G1 & _ & -> & _ & G2 & _). cbn [p_man]. intros Hu. unfold gh in Hu. rewrite G2 in Hu. apply G1 in Hu as [Hu|Hu].
    + destruct (iv_to _ I r u Rr Hu) as [L T]. split; auto. destruct (X (lr u) L) as (k1 & k2 & _ & _ & K1 & _ & _ & -> & _ & _ & K2 & _). cbn [p_man]. apply K2. unfold to, is_ghosted_to in *. rewrite K1. auto.
    + pose proof (D r _ _ Rr Hu) as L. split; auto. destruct (X (lr u) L) as (k1 & k2 & _ & _ & _ & _ & _ & -> & _ & _ & _ & K). cbn [p_man]. apply K. apply inbox_In. auto.
Qed.
Lemma gone_inv : forall P w, inv P -> phase gone_send (foldo (gone_recv dir)) (W n P) = Some w -> w = W n P.
Proof.
  intros P w I E. apply phase_inv in E as (h & P' & -> & H & D & R). assert (X : forall r, rk n r -> h r = (P r, [])).
  { intros r Rr. specialize (H r Rr). pose proof (iv_gone _ I r Rr) as G. unfold gone_send in H. rewrite G in H. cbn in H. inversion H. destruct (P r); cbn in *. subst. auto. }
  apply W_ext. intros r Rr. specialize (R r Rr). rewrite inbox_nil in R by (intros i Ri; rewrite (X i Ri); auto). rewrite (X r Rr) in R. cbn in R. inversion R. auto.
Qed.
Lemma state_inv : forall P w, phase state_send (foldo state_recv) (W n P) = Some w -> w = W n P.
Proof.
  intros P w E. apply phase_inv in E as (h & P' & -> & H & D & R). apply W_ext. intros r Rr. specialize (R r Rr). specialize (H r Rr). unfold state_send in H. inversion H as [H']. rewrite <- H' in R. cbn [fst] in R. clear H H'.
  revert R. generalize (inbox n (fun r => snd (h r)) r) as l. induction l as [|e l IH]; cbn [foldo]; intros R; [inversion R; auto|]. unfold state_recv at 1 in R. destruct (dmem (snd e) _); [auto|discriminate].
Qed.
Lemma removed_inv : forall P w, inv P -> phase removed_send (foldo (rem_recv dir)) (W n P) = Some w -> w = W n P.
Proof.
  intros P w I E. apply phase_inv in E as (h & P' & -> & H & D & R). assert (X : forall r, rk n r -> h r = (P r, [])).
  { intros r Rr. specialize (H r Rr). pose proof (iv_rem _ I r Rr) as G. unfold removed_send in H. rewrite G in H. cbn [foldm] in H. inversion H. destruct (P r) as [m t g]; cbn in *. rewrite <- G. destruct t; auto. }
  apply W_ext. intros r Rr. specialize (R r Rr). rewrite inbox_nil in R by (intros i Ri; rewrite (X i Ri); auto). rewrite (X r Rr) in R. cbn in R. inversion R. auto.
Qed.
Lemma vertices_inv : forall P w, inv P -> sync_vertices dir (W n P) = Some w -> exists P', w = W n P' /\ inv P' /\ forall r, rk n r -> n_ref (p_net (P' r)) = n_ref (p_net (P r)).
Proof.
  intros P w I E. unfold sync_vertices in E. destruct (mapo vertices_send (W n P)) as [l|] eqn:F; [|discriminate]. apply (mapo_inv _ _ _ vertices_send P (ranks n) l (new_peer 0, [])) in F as (h & -> & H). rewrite !map_map in E.
  destruct (exchange (map (fun x => agents_of (snd (h x))) (ranks n))) as [rs|] eqn:G; [|discriminate]. apply (exchange_inv _ n (fun r => agents_of (snd (h r)))) in G as [-> D]. rewrite combine_map in E.
  destruct (mapo _ _) as [w1|] eqn:F in E; [|discriminate]. apply (mapo_inv _ _ _ _ _ _ _ (new_peer 0)) in F as (P1 & -> & H1).
  destruct (exchange (map (fun x => edges_of (snd (h x))) (ranks n))) as [rs|] eqn:G; [|discriminate]. apply (exchange_inv _ n (fun r => edges_of (snd (h r)))) in G as [-> D2]. rewrite combine_map in E.
  apply (mapo_inv _ _ _ _ _ _ _ (new_peer 0)) in E as (P2 & -> & H2). exists P2. split; auto. cbn [fst snd] in H1, H2.
  assert (X : forall r, rk n r -> exists m2 m3 t3, P2 r = Peer m3 t3 (p_gone (P r)) /\ mi r m3 /\ am_ghosted m3 = am_ghosted m2 /\ grows (p_man (P r)) m2 /\ ni r m3 t3 /\ n_ref t3 = n_ref (p_net (P r)) /\ n_rem t3 = n_rem (p_net (P r)) /\
    (forall x, gh x m3 -> gh x (p_man (P r)) \/ exists i, In (i, x) (inbox n (fun r => agents_of (snd (h r))) r)) /\ (forall i u, In (i, u) (agents_of (snd (h r))) -> lr u = r /\ to i u m2)).
  { intros r Rr. assert (Ir : In r (ranks n)) by (apply ranks_In; auto). specialize (H r Ir). specialize (H1 r Ir). specialize (H2 r Ir). pose proof (iv_m _ I r Rr) as M. pose proof (iv_n _ I r Rr) as N. destruct (P r) as [m t g] eqn:Ep. cbn [p_man p_net p_gone] in *.
    destruct (h r) as [p ms] eqn:Eh. destruct (vertices_send_spec r m t g p ms M H) as (m2 & t2 & -> & A1 & A2 & A3 & A4 & A5 & A6 & A7). cbn [fst snd] in *.
    assert (N2 : ni r m2 t2) by (intros x Hx; unfold gh; rewrite A2, A5; apply N; rewrite <- A4; auto).
    destruct (agent_recv_spec _ r m2 t2 g _ A1 N2 H1) as (m3 & t3 & Y & B1 & B2 & B3 & B4 & B5 & B6). rewrite Y in H2. destruct (edge_recv_spec _ r m3 t3 g _ B1 B3 H2) as (t4 & Y4 & C1 & C2 & C3).
    exists m2, m3, t4. split; auto. split; auto. split; auto. split; auto. split; auto. split; [congruence|]. split; [congruence|]. split; auto. intros x Hx. apply B6 in Hx as [Hx|Hx]; auto. left. unfold gh in *. rewrite <- A2. auto. }
  split; [|intros r Rr; destruct (X r Rr) as (m2 & m3 & t3 & -> & _ & _ & _ & _ & Y & _); auto]. split.
  - intros r Rr. destruct (X r Rr) as (m2 & m3 & t3 & -> & Y & _). auto.
  - intros r Rr. destruct (X r Rr) as (m2 & m3 & t3 & -> & _ & _ & _ & Y & _). auto.
  - intros r Rr. destruct (X r Rr) as (m2 & m3 & t3 & -> & _ & _ & _ & _ & _ & Y & _). cbn. rewrite Y. apply I; auto.
  - intros r Rr. destruct (X r Rr) as (m2 & m3 & t3 & -> & _). apply I; auto.
  - intros r u Rr. destruct (X r Rr) as (m2 & m3 & t3 & -> & _ & _ & _ & _ & _ & _ & Y & _). cbn [p_man]. intros Hu. apply Y in Hu as [Hu|(i & Hu)].
    + destruct (iv_to _ I r u Rr Hu) as [L T]. split; auto. destruct (X (lr u) L) as (k2 & k3 & kt & -> & _ & K1 & K2 & _). cbn [p_man]. apply K2 in T. unfold to, is_ghosted_to in *. rewrite K1. auto.
    + apply inbox_In in Hu as [Ri Hu]. destruct (X i Ri) as (k2 & k3 & kt & Ei & _ & K1 & _ & _ & _ & _ & _ & K). destruct (K r u Hu) as [L T]. rewrite L. split; auto. rewrite Ei. cbn [p_man]. unfold to, is_ghosted_to in *. rewrite K1. auto.
Qed.
Lemma synch_inv : forall P w, inv P -> wstep dir (W n P) WSynch = Some w -> exists P', w = W n P' /\ inv P' /\ forall r, rk n r -> n_ref (p_net (P' r)) = [].
Proof.
  intros P w I E. cbn [wstep] in E. unfold synchronize in E. destruct (phase pre_send _ _) as [w1|] eqn:E1; [|discriminate]. cbn [obind] in E. destruct (pre_inv P w1 I E1) as (P1 & -> & I1 & R1).
  destruct (phase gone_send _ _) as [w2|] eqn:E2; [|discriminate]. cbn [obind] in E. apply gone_inv in E2; auto. subst w2.
  destruct (phase state_send _ _) as [w2|] eqn:E2; [|discriminate]. cbn [obind] in E. apply state_inv in E2. subst w2.
  destruct (phase removed_send _ _) as [w2|] eqn:E2; [|discriminate]. cbn [obind] in E. apply removed_inv in E2; auto. subst w2.
  destruct (vertices_inv P1 w I1 E) as (P2 & -> & I2 & R2). exists P2. split; auto. split; auto. intros r Rr. rewrite R2; auto.
Qed.
Lemma request_inv : forall P reqs w, inv P -> wstep dir (W n P) (WRequest reqs) = Some w -> exists P', w = W n P' /\ inv P'.
Proof.
  intros P reqs w I E. cbn [wstep] in E. rewrite W_length in E. destruct (Nat.eqb_spec (length reqs) n) as [Ln|]; [|discriminate]. unfold request in E.
  assert (Cb : combine reqs (W n P) = map (fun r => (nth (Z.to_nat r) reqs [], P r)) (ranks n)).
  { rewrite <- combine_map. f_equal. unfold ranks. rewrite map_map, <- Ln. rewrite (map_ext _ (fun i => nth i reqs [])) by (intros; rewrite Nat2Z.id; auto). clear. induction reqs as [|x l IH]; cbn [length seq map nth]; auto. f_equal. rewrite <- seq_shift, map_map. cbn [nth]. auto. }
  rewrite Cb in E. clear Cb. destruct (mapo _ _) as [l|] eqn:F in E; [|discriminate]. apply (mapo_inv _ _ _ _ _ _ _ (new_peer 0, [])) in F as (h & -> & H). cbn [obind fst snd] in E, H. rewrite map_map in E.
  destruct (exchange _) as [rs|] eqn:G in E; [|discriminate]. apply (exchange_inv _ n (fun r => snd (h r))) in G as [-> D]. cbn [obind] in E. rewrite map_map, combine_map in E.
  destruct (mapo _ _) as [l|] eqn:F in E; [|discriminate]. apply (mapo_inv _ _ _ _ _ _ _ (new_peer 0, [])) in F as (h2 & -> & H2). cbn [obind fst snd] in E, H2. rewrite map_map in E.
  destruct (exchange _) as [rs|] eqn:G in E; [|discriminate]. apply (exchange_inv _ n (fun r => snd (h2 r))) in G as [-> D2]. cbn [obind] in E. rewrite map_map, combine_map in E.
  apply (mapo_inv _ _ _ _ _ _ _ (new_peer 0)) in E as (P3 & -> & H3). cbn [fst snd] in H3. exists P3. split; auto.
  assert (X : forall r, rk n r -> exists m2 m3 t3, P3 r = Peer m3 t3 (p_gone (P r)) /\ mi r m3 /\ am_ghosted m3 = am_ghosted m2 /\ grows (p_man (P r)) m2 /\ ni r m3 t3 /\ n_rem t3 = n_rem (p_net (P r)) /\
    (forall x, gh x m3 -> gh x (p_man (P r)) \/ exists i, In (i, x) (inbox n (fun r => snd (h2 r)) r)) /\ (forall i u, In (i, u) (snd (h2 r)) -> lr u = r /\ to i u m2)).
  { intros r Rr. assert (Ir : In r (ranks n)) by (apply ranks_In; auto). specialize (H r Ir). specialize (H2 r Ir). specialize (H3 r Ir). pose proof (iv_m _ I r Rr) as M. pose proof (iv_n _ I r Rr) as N. destruct (P r) as [m t g] eqn:Ep. cbn [p_man p_net p_gone] in *.
    destruct (h r) as [p ms] eqn:Eh. destruct (req_one_spec _ r m t g p ms M N H) as (m1 & t1 & -> & A1 & A2 & A3 & A4 & A5). cbn [fst snd] in *. destruct (h2 r) as [p2 ms2] eqn:Eh2.
    destruct (req_tag_spec _ r m1 t1 g p2 ms2 A1 H2) as (m2 & -> & B0 & B1 & B2 & B3 & B4). cbn [fst snd] in *. assert (N2 : ni r m2 t1) by (intros x Hx; unfold gh; rewrite B2; apply A3; auto).
    destruct (req_recv_spec _ r m2 t1 g _ B1 N2 H3) as (m3 & t3 & Y & C1 & C2 & C3 & C4 & C5). exists m2, m3, t3. split; auto. split; auto. split; auto. split; [|split; auto; split; [congruence|split]].
    - apply (grows_trans _ m1); auto. apply grows_eq; auto.
    - intros x Hx. apply C5 in Hx as [Hx|Hx]; auto. left. apply A5. unfold gh in *. rewrite <- B2. auto.
    - intros i u. rewrite B0. apply B4. }
  split.
  - intros r Rr. destruct (X r Rr) as (m2 & m3 & t3 & -> & Y & _). auto.
  - intros r Rr. destruct (X r Rr) as (m2 & m3 & t3 & -> & _ & _ & _ & Y & _). auto.
  - intros r Rr. destruct (X r Rr) as (m2 & m3 & t3 & -> & _ & _ & _ & _ & Y & _). cbn. rewrite Y. apply I; auto.
  - intros r Rr. destruct (X r Rr) as (m2 & m3 & t3 & -> & _). apply I; auto.
  - intros r u Rr. destruct (X r Rr) as (m2 & m3 & t3 & -> & _ & _ & _ & _ & _ & Y & _). cbn [p_man]. intros Hu. apply Y in Hu as [Hu|(i & Hu)].
    + destruct (iv_to _ I r u Rr Hu) as [L T]. split; auto. destruct (X (lr u) L) as (k2 & k3 & kt & -> & _ & K1 & K2 & _). cbn [p_man]. apply K2 in T. unfold to, is_ghosted_to in *. rewrite K1. auto.
    + apply inbox_In in Hu as [Ri Hu]. destruct (X i Ri) as (k2 & k3 & kt & Ei & _ & K1 & _ & _ & _ & _ & K). destruct (K r u Hu) as [L T]. rewrite L. split; auto. rewrite Ei. cbn [p_man]. unfold to, is_ghosted_to in *. rewrite K1. auto.
Qed.

(** ** Histories *)
Lemma on_inv : forall P r f w, on_rank r f (W n P) = Some w -> rk n r /\ exists p, f (P r) = Some p /\ w = W n (put P r p).
Proof.
  intros P r f w E. assert (R : rk n r).
  { unfold on_rank, at_rank in E. unfold rk. destruct (Z.leb_spec 0 r); [|discriminate]. split; auto. destruct (nth_error (W n P) (Z.to_nat r)) eqn:F; [|discriminate]. assert (Z.to_nat r < length (W n P))%nat by (apply nth_error_Some; congruence). rewrite W_length in *. lia. }
  split; auto. destruct (f (P r)) as [p|] eqn:F; [exists p; rewrite (on_W n P r f p R F) in E; inversion E; auto|]. exfalso. unfold on_rank in E. rewrite (at_W n P r R), F in E. discriminate.
Qed.
Lemma step_inv : forall P o w, inv P -> keeps o = true -> wstep dir (W n P) o = Some w -> exists P', w = W n P' /\ inv P'.
Proof.
  intros P o w I K E. destruct o as [u|u|reqs|r o|].
  - cbn [wstep] in E. apply on_inv in E as (R & p & E & ->). exists (put P (lr u) p). split; auto. unfold ctx_add in E. inversion E; subst; clear E. pose proof (iv_m _ I _ R) as M. pose proof (iv_n _ I _ R) as N. apply inv_put; cbn; auto.
    + split; try apply M. cbn. intros x a. rewrite dget_dset. destruct (keq x u) eqn:Q; [|apply M]. apply keq_ok in Q; subst. intros X. inversion X. auto.
    + intros x. cbn. rewrite add_node_node. intros H. apply orb_true_iff in H as [H|H]; [apply keq_ok in H; subst; auto|]. apply N; auto.
    + apply I; auto.
    + apply I; auto.
  - discriminate.
  - apply (request_inv P reqs); auto.
  - cbn [wstep] in E. apply on_inv in E as (R & p & E & ->). exists (put P r p). split; auto. unfold net_call in E. inversion E; subst; clear E. destruct (call_ni r (p_man (P r)) (p_net (P r)) o K (iv_rem _ I r R) (iv_n _ I r R)) as [X1 X2].
    apply inv_put; cbn [p_man p_net p_gone]; auto; apply I; auto.
  - destruct (synch_inv P w I E) as (P' & -> & I' & _). eauto.
Qed.
Lemma init_inv : inv new_peer.
Proof. split; auto; try (intros r u R H; discriminate H). intros r R. split; intros u a H; discriminate H. Qed.
Lemma run_inv : forall ops w, Forall (fun o => keeps o = true) ops -> wrun dir (new_nworld n) ops = Some w -> exists P, w = W n P /\ inv P.
Proof.
  intros ops. induction ops as [|o ops IH] using rev_ind; intros w F E.
  - exists new_peer. split; [|apply init_inv]. unfold wrun in E. cbn in E. inversion E. unfold new_nworld, W, ranks. rewrite map_map. auto.
  - apply Forall_app in F as [F1 F2]. apply Forall_cons_iff in F2 as [F2 _]. unfold wrun in E. rewrite fold_left_app in E. cbn [fold_left] in E. fold (wrun dir (new_nworld n) ops) in E.
    destruct (wrun dir (new_nworld n) ops) as [w0|] eqn:Ew; [|discriminate]. destruct (IH w0 F1 eq_refl) as (P & -> & I). cbn [obind] in E. apply (step_inv P o); auto.
Qed.
Lemma to_sent : forall P u s, inv P -> rk n (lr u) -> to s u (p_man (P (lr u))) -> In (s, u) (states_sent (P (lr u))).
Proof.
  intros P u s I R T. unfold to, is_ghosted_to in T. destruct (dget u (am_ghosted (p_man (P (lr u))))) as [g|] eqn:E; [|discriminate]. unfold states_sent, state_send. apply in_flat_map. exists (u, g). split; [apply dget_In; auto|]. cbn [snd].
  destruct (mi_gd _ _ (iv_m _ I _ R) u g E) as [-> _]. apply in_map_iff. exists s. split; auto. apply dmem_In. auto.
Qed.
End Inv.
