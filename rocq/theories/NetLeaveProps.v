(** What the rank does that an agent of a network leaves, for C61. *)
From Coq Require Import List Arith ZArith Lia Bool.
From Verif Require Import PyDict AgentModel WorldModel NetModel NetSpec NetProofs NetWorldModel NetWorldBase NetWorldInv NetMoveModel NetMoveBase NetMoveDemo.
Import ListNotations.
Open Scope Z_scope.

Section Leave.
Variables (dir : bool) (x : uid) (dest : Z).

(** The other agent of an edge of [x]; the edges that are removed: those to agents of other ranks that were not requested. *)
Definition far_end (p : mpeer) (e : uid * uid * nat) : uid := if keq (id_of p (fst (fst e))) (id_of p x) then snd (fst e) else fst (fst e).
Definition gone (p : mpeer) (e : uid * uid * nat) : bool := negb (lr_of p (far_end p e) =? rank_of p) && negb (is_requested (id_of p (far_end p e)) (q_man p)).
Definition same_view (p q : mpeer) : Prop :=
  q_net q = q_net p /\ q_ids q = q_ids p /\ am_rank (q_man q) = am_rank (q_man p) /\ am_req (q_man q) = am_req (q_man p) /\ forall y, obj_of y <> obj_of x -> lr_of q y = lr_of p y.
Lemma view_id : forall p q y, same_view p q -> id_of q y = id_of p y.
Proof. intros p q y (_ & E & _). unfold id_of. rewrite E. auto. Qed.
Lemma view_gone : forall p q e, same_view p q -> obj_of (far_end p e) <> obj_of x -> far_end q e = far_end p e /\ gone q e = gone p e.
Proof.
  intros p q e V O. assert (F : far_end q e = far_end p e) by (unfold far_end; rewrite !(view_id p q) by auto; auto). split; auto. unfold gone, rank_of, is_requested. rewrite F, (view_id p q) by auto.
  destruct V as (_ & _ & R & Q & L). rewrite L, R, Q by auto. auto.
Qed.
Lemma remove_ghost_lrank : forall u m, am_lrank (fst (remove_ghost u m)) = am_lrank m /\ am_rank (fst (remove_ghost u m)) = am_rank m /\ am_req (fst (remove_ghost u m)) = am_req m.
Proof. intros u m. unfold remove_ghost. destruct (is_requested u m); auto. destruct (dget u (am_ghost m)) as [g|]; auto. destruct (g_refs g - 1 =? 0); auto. Qed.

Lemma loop_ok : forall l p data es ns p' data' es' ns', (forall e, In e l -> obj_of (far_end p e) <> obj_of x) -> foldo (moving_edge dir x dest) l (p, data, es, ns) = Some (p', data', es', ns') ->
  same_view p p' /\ es' = es ++ map fst (filter (gone p) l) /\
  q_moved p' = q_moved p ++ map (fun e => (id_of p (fst (fst e)), id_of p (snd (fst e)), snd e)) (filter (fun e => negb (gone p e)) l) /\
  ns' = ns ++ map (far_end p) (filter (fun e => gone p e && match num_edges dir (far_end p e) (q_net p) with Some 1%nat => true | _ => false end) l) /\
  q_no p' = q_no p ++ map (fun e => (lr_of p (far_end p e), id_of p (far_end p e))) (filter (fun e => gone p e && match num_edges dir (far_end p e) (q_net p) with Some 1%nat => true | _ => false end) l).
Proof.
  induction l as [|[[u v] r] l IH]; intros p data es ns p' data' es' ns' O E; cbn [foldo] in E.
  - inversion E; subst. cbn. rewrite !app_nil_r. split; [unfold same_view; auto|auto].
  - destruct (moving_edge dir x dest (u, v, r) (p, data, es, ns)) as [[[[q d1] es1] ns1]|] eqn:S; [|discriminate].
    assert (V : same_view p q /\ es1 = es ++ (if gone p (u, v, r) then [(u, v)] else []) /\ q_moved q = q_moved p ++ (if gone p (u, v, r) then [] else [(id_of p u, id_of p v, r)]) /\
      let last := gone p (u, v, r) && match num_edges dir (far_end p (u, v, r)) (q_net p) with Some 1%nat => true | _ => false end in
      ns1 = ns ++ (if last then [far_end p (u, v, r)] else []) /\ q_no q = q_no p ++ (if last then [(lr_of p (far_end p (u, v, r)), id_of p (far_end p (u, v, r)))] else [])).
    { unfold moving_edge in S. fold (far_end p (u, v, r)) in S. change (if keq (id_of p u) (id_of p x) then v else u) with (far_end p (u, v, r)) in S. fold (gone p (u, v, r)) in S. cbn zeta. destruct (gone p (u, v, r)) eqn:GO.
      - destruct (num_edges dir (far_end p (u, v, r)) (q_net p)) as [c|] eqn:NE; [|discriminate]. cbn [obind] in S. destruct (Nat.eqb_spec c 1) as [->|C].
        + cbn [andb]. pose proof (remove_ghost_lrank (id_of p (far_end p (u, v, r))) (q_man p)) as (R1 & R2 & R3).
          destruct (remove_ghost (id_of p (far_end p (u, v, r))) (q_man p)) as [m [t| | |]]; try discriminate. cbn [fst] in *. inversion S; subst. rewrite app_nil_r. cbn. split; [|auto].
          unfold same_view. cbn. split; auto. split; auto. split; auto. split; auto. intros y _. unfold lr_of. cbn. rewrite R1. auto.
        + replace (match c with 1%nat => true | _ => false end) with false by (destruct c as [|[|c]]; auto; congruence). inversion S; subst. cbn [andb]. rewrite !app_nil_r. split; [unfold same_view; auto|auto].
      - inversion S; subst. cbn [andb]. rewrite !app_nil_r. cbn. split; [|auto]. unfold same_view. cbn. split; auto. split; auto. split; auto. split; auto.
        intros y Ny. unfold lr_of. cbn. rewrite dget_dset. destruct (keq (obj_of y) (obj_of x)) eqn:K; auto. apply keq_ok in K. congruence. }
    destruct V as (V & E1 & E2 & E3 & E4). apply IH in E as (V' & F1 & F2 & F3 & F4).
    + assert (GG : forall e, In e l -> far_end q e = far_end p e /\ gone q e = gone p e) by (intros e I; apply view_gone; auto; apply O; right; auto).
      assert (NQ : q_net q = q_net p) by apply V.
      assert (H1 : filter (gone q) l = filter (gone p) l) by (apply filter_ext_in; intros e I; apply GG; auto).
      assert (H2 : filter (fun e => negb (gone q e)) l = filter (fun e => negb (gone p e)) l) by (apply filter_ext_in; intros e I; f_equal; apply GG; auto).
      assert (H3 : filter (fun e => gone q e && match num_edges dir (far_end q e) (q_net q) with Some 1%nat => true | _ => false end) l = filter (fun e => gone p e && match num_edges dir (far_end p e) (q_net p) with Some 1%nat => true | _ => false end) l).
      { apply filter_ext_in. intros e I. destruct (GG e I) as [-> ->]. rewrite NQ. auto. }
      rewrite H1 in F1. rewrite H2 in F2. rewrite H3 in F3, F4. split; [|split; [|split; [|split]]].
      * destruct V as (A1 & A2 & A3 & A4 & A5), V' as (B1 & B2 & B3 & B4 & B5). unfold same_view. rewrite B1, B2, B3, B4. split; auto. split; auto. split; auto. split; auto. intros y N. rewrite B5, A5; auto.
      * rewrite F1, E1. cbn [filter]. destruct (gone p (u, v, r)); rewrite <- app_assoc; auto.
      * rewrite F2, E2. cbn [filter]. rewrite <- app_assoc. f_equal. assert (X : map (fun e : uid * uid * nat => (id_of q (fst (fst e)), id_of q (snd (fst e)), snd e)) (filter (fun e => negb (gone p e)) l) = map (fun e => (id_of p (fst (fst e)), id_of p (snd (fst e)), snd e)) (filter (fun e => negb (gone p e)) l)) by (apply map_ext; intros e; rewrite !(view_id p q) by auto; auto).
        rewrite X. destruct (gone p (u, v, r)); auto.
      * rewrite F3, E3. cbn [filter]. rewrite <- app_assoc. f_equal. rewrite (map_ext_in (far_end q) (far_end p)) by (intros e I; apply filter_In in I as [I _]; apply GG; auto). destruct (gone p (u, v, r) && _); auto.
      * rewrite F4, E4. cbn [filter]. rewrite <- app_assoc. f_equal.
        rewrite (map_ext_in (fun e => (lr_of q (far_end q e), id_of q (far_end q e))) (fun e => (lr_of p (far_end p e), id_of p (far_end p e)))); [destruct (gone p (u, v, r) && _); auto|].
        intros e I. apply filter_In in I as [I _]. destruct (GG e I) as [-> _]. rewrite (view_id p q) by auto. f_equal. apply V. apply O. right; auto.
    + intros e I. assert (F : far_end q e = far_end p e) by (unfold far_end; rewrite !(view_id p q) by auto; auto). rewrite F. apply O. right; auto.
Qed.

(** What is removed from the network. *)
Definition cut (p q : mpeer) (es : list edge) (ns : list uid) : Prop :=
  q_man q = q_man p /\ q_moved q = q_moved p /\ q_no q = q_no p /\ q_ids q = q_ids p /\ gok dir (n_g (q_net q)) /\ g_heap (n_g (q_net q)) = g_heap (n_g (q_net p)) /\
  (forall s t, edge_ref s t (n_g (q_net q)) = if existsb (fun k => sameb dir (fst k) (snd k) s t) es || existsb (keq s) ns || existsb (keq t) ns then None else edge_ref s t (n_g (q_net p))) /\
  (forall s, has_node s (n_g (q_net q)) = negb (existsb (keq s) ns) && has_node s (n_g (q_net p))).
Lemma drops_ok : forall es p q, gok dir (n_g (q_net p)) -> foldo (drop_edge dir) es p = Some q -> cut p q es [] /\
  (forall k, In k es -> dir = false -> get_key dir (fst k) (snd k) (q_net q) = None /\ get_key dir (snd k) (fst k) (q_net q) = None) /\
  (forall s t, get_key dir s t (q_net q) <> get_key dir s t (q_net p) -> exists k, In k es /\ same_edge dir (fst k) (snd k) s t) /\
  (forall s t, get_key dir s t (q_net p) = None -> get_key dir s t (q_net q) = None).
Proof.
  induction es as [|[u v] es IH]; intros p q G E; cbn [foldo] in E.
  - inversion E; subst. split; [|split; [intros k []|split; [congruence|auto]]]. unfold cut. repeat (split; [now auto|]). auto.
  - destruct (drop_edge dir (u, v) p) as [p1|] eqn:S; [|discriminate]. unfold drop_edge in S. cbn [fst snd] in S. destruct (g_remove_edge dir u v (n_g (q_net p))) as [g|] eqn:R; [|discriminate]. cbn [obind] in S.
    destruct (remove_key dir u v (set_g (q_net p) g)) as [n [|]] eqn:K; [|discriminate]. inversion S; subst p1; clear S.
    assert (Gn : n_g n = g) by (pose proof (remove_key_g dir u v (set_g (q_net p) g)) as X; rewrite K in X; exact X).
    assert (G1 : gok dir g) by (apply (remove_edge_ok dir u v (n_g (q_net p))); auto).
    assert (K1 : dir = false -> forall s t, dget (s, t) (n_keys n) = if sameb false u v s t then None else dget (s, t) (n_keys (q_net p))).
    { intros D s t. unfold remove_key in K. rewrite D in K. cbn [n_keys set_g] in K. destruct (dmem (u, v) (n_keys (q_net p))); [|discriminate]. destruct (dmem (v, u) _); [|discriminate]. inversion K; subst n. cbn [n_keys set_keys]. rewrite !dget_ddel, !edge_keq.
      unfold sameb. cbn [negb andb]. destruct (keq s u && keq t v), (keq s v && keq t u); auto. }
    assert (K2 : forall s t, get_key dir s t n = if negb dir && sameb false u v s t then None else get_key dir s t (q_net p)) by (intros s t; unfold get_key; destruct dir eqn:D; cbn [negb andb]; auto).
    apply IH in E; [|cbn [put_net q_net]; rewrite Gn; auto]. cbn [put_net q_net] in E. destruct E as ((C1 & C2 & C3 & C4 & C5 & C6 & C7 & C8) & D1 & D2 & D3).
    split; [|split; [|split]].
    + unfold cut. cbn in *. do 4 (split; auto). split; auto. split; [rewrite C6, Gn; apply (remove_edge_heap _ _ _ _ _ R)|]. split.
      * intros s t. rewrite C7, Gn. rewrite (remove_edge_ref _ _ _ _ _ R). rewrite !orb_false_r. destruct (sameb dir u v s t), (existsb (fun k : uid * uid => sameb dir (fst k) (snd k) s t) es); auto.
      * intros s. rewrite C8, Gn. apply (remove_edge_node _ _ _ _ _ R).
    + intros k [<-|I] D; [|apply D1; auto]. cbn [fst snd]. split; apply D3; rewrite K2, D; unfold sameb; rewrite !keq_refl; cbn [negb andb orb]; rewrite ?orb_true_r; auto.
    + intros s t N. destruct (negb dir && sameb false u v s t) eqn:B.
      * apply andb_true_iff in B as [B1 B2]. exists (u, v). split; [left; auto|]. apply negb_true_iff in B1. rewrite B1. apply sameb_ok. auto.
      * destruct (D2 s t) as (k & I & J); [rewrite K2, B; auto|]. exists k. split; [right|]; auto.
    + intros s t N. apply D3. rewrite K2, N. destruct (negb dir && _); auto.
Qed.
Lemma nodes_ok : forall ns p q, gok dir (n_g (q_net p)) -> foldo (net_remove dir) ns p = Some q -> cut p q [] ns /\ n_keys (q_net q) = n_keys (q_net p).
Proof.
  induction ns as [|y ns IH]; intros p q G E; cbn [foldo] in E.
  - inversion E; subst. split; auto. unfold cut. repeat (split; [now auto|]). auto.
  - unfold net_remove at 1 in E. destruct (g_remove_node dir y (n_g (q_net p))) as [g|] eqn:R; [|discriminate]. cbn [option_map] in E.
    assert (G1 : gok dir g) by (apply (remove_node_ok dir y (n_g (q_net p))); auto). apply IH in E; [|exact G1]. destruct E as ((C1 & C2 & C3 & C4 & C5 & C6 & C7 & C8) & K). cbn in *. split; [|auto].
    unfold cut. do 4 (split; auto). split; auto. split; [rewrite C6; apply (remove_node_heap _ _ _ _ R)|]. split.
    + intros s t. rewrite C7. cbn [existsb orb]. rewrite (remove_node_ref _ _ _ _ G R). destruct (keq s y), (keq t y), (existsb (keq s) ns), (existsb (keq t) ns); auto.
    + intros s. rewrite C8, (remove_node_node _ _ _ _ R). cbn [existsb]. destruct (keq s y), (existsb (keq s) ns); auto.
Qed.
End Leave.

(** An agent [y] at the other end of an edge of [x]; the edges of [x] that stay: those to agents of the rank and to requested agents. *)
Definition ends (dir : bool) (x s t y : uid) (p : mpeer) (r : nat) : Prop := edge_ref s t (n_g (q_net p)) = Some r /\ ((s = x /\ t = y) \/ (dir = true /\ s = y /\ t = x)).
Definition stays (p : mpeer) (y : uid) : Prop := lr_of p y = rank_of p \/ In (id_of p y) (am_req (q_man p)).
Lemma gone_stays : forall x p e, gone x p e = true <-> ~ stays p (far_end x p e).
Proof.
  intros x p e. unfold gone, stays, is_requested. rewrite andb_true_iff, !negb_true_iff, Z.eqb_neq. split.
  - intros [A B] [C|C]; [auto|]. assert (existsb (keq (id_of p (far_end x p e))) (am_req (q_man p)) = true); [|congruence]. apply existsb_exists. eexists; split; [exact C|apply keq_refl].
  - intros N. split; [tauto|]. destruct (existsb _ _) eqn:E; auto. exfalso. apply existsb_exists in E as (z & I & K). apply keq_ok in K. subst z. tauto.
Qed.
Lemma one_edge : forall dir y n, gok dir (n_g n) -> num_edges dir y n = Some 1%nat -> forall x z, (edge_ref x y (n_g n) <> None \/ edge_ref y x (n_g n) <> None) -> (edge_ref z y (n_g n) <> None \/ edge_ref y z (n_g n) <> None) -> z = x.
Proof.
  intros dir y n G E x z Hx Hz. unfold num_edges in E. destruct (has_node y (n_g n)); [|discriminate]. inversion E as [L]; clear E.
  pose proof (go_sym _ _ G) as S. unfold sym_ref in S.
  assert (T : forall (d : dict uid nat) a, dget a d <> None -> In a (map fst d)) by (intros d a N; destruct (dget a d) as [w|] eqn:D; [apply dget_In in D; apply (in_map fst _ _ D)|congruence]).
  assert (ONE : forall a (l : list uid), In a l -> length l = 1%nat -> l = [a]) by (intros a [|b [|c l]] I Le; cbn in Le; try lia; destruct I as [->|[]]; auto).
  destruct dir.
  - assert (A : forall w, edge_ref w y (n_g n) <> None -> In w (map fst (nbrs y (g_pred (n_g n))))) by (intros w N; apply T; change (eref y w (g_pred (n_g n)) <> None); rewrite S; auto).
    assert (B : forall w, edge_ref y w (n_g n) <> None -> In w (map fst (nbrs y (g_adj (n_g n))))) by (intros w N; apply T; auto).
    rewrite <- (map_length fst (nbrs y (g_adj (n_g n)))), <- (map_length fst (nbrs y (g_pred (n_g n)))), <- app_length in L.
    assert (X : In x (map fst (nbrs y (g_adj (n_g n))) ++ map fst (nbrs y (g_pred (n_g n))))) by (apply in_or_app; destruct Hx; auto).
    assert (Z : In z (map fst (nbrs y (g_adj (n_g n))) ++ map fst (nbrs y (g_pred (n_g n))))) by (apply in_or_app; destruct Hz; auto).
    rewrite (ONE _ _ X L) in Z. destruct Z as [->|[]]. auto.
  - rewrite Nat.add_0_r in L. assert (B : forall w, edge_ref w y (n_g n) <> None \/ edge_ref y w (n_g n) <> None -> In w (map fst (nbrs y (g_adj (n_g n))))).
    { intros w [N|N]; apply T; auto. change (eref y w (g_adj (n_g n)) <> None). rewrite S. auto. }
    rewrite <- (map_length fst (nbrs y (g_adj (n_g n)))) in L. pose proof (B _ Hx) as X. pose proof (B _ Hz) as Z. rewrite (ONE _ _ X L) in Z. destruct Z as [->|[]]. auto.
Qed.

(** The agent and its edges leave the network of the rank, and no other edge does. The edges to agents that stay are kept, with their attributes, for the phase after the move.
    A ghost is removed exactly if it was not requested and had no other edge, and its rank is told so. *)
Theorem C61_leave_partial : forall dir x dest data p p' data', gok dir (n_g (q_net p)) -> (forall s t y r, ends dir x s t y p r -> obj_of y <> obj_of x /\ id_of p y <> id_of p x) ->
  moving_rank dir x dest data p = Some (p', data') ->
  gok dir (n_g (q_net p')) /\ has_node x (n_g (q_net p')) = false /\
  (forall s t, edge_attrs s t (q_net p') = if keq s x || keq t x then None else edge_attrs s t (q_net p)) /\
  (exists l, q_moved p' = q_moved p ++ l /\ forall u v r, In (u, v, r) l <-> exists s t y, ends dir x s t y p r /\ stays p y /\ u = id_of p s /\ v = id_of p t) /\
  (forall r, read r (n_g (q_net p')) = read r (n_g (q_net p))) /\
  (forall y, y <> x -> has_node y (n_g (q_net p)) = true ->
     (has_node y (n_g (q_net p')) = false <-> ~ stays p y /\ num_edges dir y (q_net p) = Some 1%nat /\ exists s t r, ends dir x s t y p r)) /\
  (exists l, q_no p' = q_no p ++ l /\ forall e, In e l <-> exists s t y r, ends dir x s t y p r /\ ~ stays p y /\ num_edges dir y (q_net p) = Some 1%nat /\ e = (lr_of p y, id_of p y)) /\
  (forall s t y r, dir = false -> ends dir x s t y p r -> ~ stays p y -> get_key dir s t (q_net p') = None /\ get_key dir t s (q_net p') = None) /\
  (forall s t, get_key dir s t (q_net p') <> get_key dir s t (q_net p) -> exists y r, (ends dir x s t y p r \/ ends dir x t s y p r) /\ ~ stays p y).
Proof.
  intros dir x dest data p p' data' G H E. unfold moving_rank in E. destruct (edges_at dir x (q_net p)) as [l|] eqn:El; [|discriminate]. cbn [obind] in E.
  destruct (foldo (moving_edge dir x dest) l (p, data, [], [])) as [[[[p1 d1] es] ns]|] eqn:E1; [|discriminate]. cbn [obind] in E.
  destruct (foldo (drop_edge dir) es p1) as [p2|] eqn:E2; [|discriminate]. cbn [obind] in E. destruct (foldo (net_remove dir) ns p2) as [p3|] eqn:E3; [|discriminate]. cbn [obind] in E.
  destruct (net_remove dir x p3) as [p4|] eqn:E4; [|discriminate]. cbn [obind] in E. inversion E; subst p4 d1; clear E.
  pose proof (edges_at_In _ _ _ _ G El) as HI.
  assert (FE : forall s t r, In (s, t, r) l -> ends dir x s t (far_end x p (s, t, r)) p r).
  { intros s t r I. apply HI in I as [A B]. split; auto. unfold far_end. cbn [fst snd]. destruct B as [->|[D ->]]; [rewrite keq_refl; auto|]. destruct (keq (id_of p s) (id_of p x)) eqn:K; [|auto].
    exfalso. apply keq_ok in K. apply (proj2 (H s x s r (conj A (or_intror (conj D (conj eq_refl eq_refl)))))); auto. }
  assert (EF : forall s t y r, ends dir x s t y p r -> In (s, t, r) l /\ far_end x p (s, t, r) = y).
  { intros s t y r X. assert (I : In (s, t, r) l) by (apply HI; destruct X as [A [[B C]|(D & B & C)]]; auto). split; auto. pose proof (H s t y r X) as [_ N]. pose proof (H _ _ _ _ (FE s t r I)) as [_ N']. unfold far_end in *. cbn [fst snd] in *.
    destruct X as [A [[-> ->]|(D & -> & ->)]]; [rewrite keq_refl; auto|]. destruct (keq (id_of p y) (id_of p x)) eqn:K; auto. exfalso. apply N. now apply keq_ok. }
  apply loop_ok in E1; [|intros [[s t] r] I; apply (H _ _ _ _ (FE s t r I))]. destruct E1 as (V & -> & M1 & -> & N1). cbn [app] in *. set (last := fun e => gone x p e && match num_edges dir (far_end x p e) (q_net p) with Some 1%nat => true | _ => false end) in *.
  assert (Q1 : q_net p1 = q_net p) by apply V.
  apply drops_ok in E2; [|rewrite Q1; auto]. destruct E2 as ((A1 & A2 & A3 & A4 & A5 & A6 & A7 & A8) & K1 & K2 & K3). rewrite Q1 in *.
  apply nodes_ok in E3; auto. destruct E3 as ((B1 & B2 & B3 & B4 & B5 & B6 & B7 & B8) & K4).
  unfold net_remove in E4. destruct (g_remove_node dir x (n_g (q_net p3))) as [g|] eqn:R; [|discriminate]. inversion E4; subst p'; clear E4. cbn [put_net q_net q_moved q_no q_man set_g n_g n_keys].
  assert (LAST : forall e, last e = true <-> ~ stays p (far_end x p e) /\ num_edges dir (far_end x p e) (q_net p) = Some 1%nat).
  { intros e. unfold last. rewrite andb_true_iff, gone_stays. destruct (num_edges dir (far_end x p e) (q_net p)) as [[|[|c]]|]; split; intros [X Y]; split; auto; discriminate. }
  assert (INS : forall y, existsb (keq y) (map (far_end x p) (filter last l)) = true <-> exists s t r, ends dir x s t y p r /\ ~ stays p y /\ num_edges dir y (q_net p) = Some 1%nat).
  { intros y. rewrite existsb_exists. split.
    - intros (z & I & K). apply keq_ok in K; subst z. apply in_map_iff in I as ([[s t] r] & <- & I). apply filter_In in I as [I L]. apply LAST in L. exists s, t, r. split; auto.
    - intros (s & t & r & X & L). destruct (EF _ _ _ _ X) as [I <-]. exists (far_end x p (s, t, r)). split; [|apply keq_refl]. apply in_map. apply filter_In. split; auto. apply LAST. auto. }
  assert (KY : forall s t, get_key dir s t (q_net p3) = get_key dir s t (q_net p2)) by (intros s t; unfold get_key; rewrite K4; auto).
  assert (HH : g_heap g = g_heap (n_g (q_net p))) by (rewrite (remove_node_heap _ _ _ _ R), B6, A6; auto).
  split; [apply (remove_node_ok dir x (n_g (q_net p3))); auto|]. split; [|split; [|split; [|split; [|split; [|split; [|split]]]]]].
  - rewrite (remove_node_node _ _ _ _ R), keq_refl. auto.
  - intros s t. unfold edge_attrs. cbn [n_g]. rewrite (remove_node_ref _ _ _ _ B5 R). destruct (keq s x || keq t x) eqn:K; auto. apply orb_false_iff in K as [Ks Kt].
    assert (Ns : s <> x) by (intros ->; rewrite keq_refl in Ks; discriminate). assert (Nt : t <> x) by (intros ->; rewrite keq_refl in Kt; discriminate).
    assert (RR : edge_ref s t (n_g (q_net p3)) = edge_ref s t (n_g (q_net p))).
    { rewrite B7. cbn [existsb orb]. rewrite A7. cbn [existsb]. rewrite !orb_false_r.
      assert (LONE : forall y z, existsb (keq y) (map (far_end x p) (filter last l)) = true -> z <> x -> edge_ref y z (n_g (q_net p)) = None /\ edge_ref z y (n_g (q_net p)) = None).
      { intros y z I Nz. apply INS in I as (s' & t' & r & [X Y] & _ & C). assert (J : edge_ref x y (n_g (q_net p)) <> None \/ edge_ref y x (n_g (q_net p)) <> None) by (destruct Y as [[-> ->]|(_ & -> & ->)]; rewrite X; [left|right]; discriminate).
        split; [destruct (edge_ref y z (n_g (q_net p))) eqn:Q|destruct (edge_ref z y (n_g (q_net p))) eqn:Q]; auto; exfalso; apply Nz; apply (one_edge dir y (q_net p) G C x z J); rewrite Q; [right|left]; discriminate. }
      destruct (existsb (keq s) _) eqn:I1; [symmetry; apply (LONE s t); auto|]. destruct (existsb (keq t) _) eqn:I2; [symmetry; apply (LONE t s); auto|]. cbn [orb].
      destruct (existsb _ (map fst (filter (gone x p) l))) eqn:I3; auto. exfalso. apply existsb_exists in I3 as ([u v] & I & S). apply in_map_iff in I as ([[u' v'] r] & Q & I). cbn in Q. inversion Q; subst u' v'. apply filter_In in I as [I _].
      apply HI in I as [_ C]. cbn [fst snd] in S. apply sameb_ok in S. destruct S as [[-> ->]|(D & -> & ->)], C as [C|[C C']]; congruence. }
    rewrite RR. unfold read. change (n_g (set_g (q_net p3) g)) with g. rewrite HH. auto.
  - eexists. split; [rewrite B2, A2; exact M1|]. intros u v r. rewrite in_map_iff. split.
    + intros ([[s t] r'] & Q & I). cbn in Q. inversion Q; subst; clear Q. apply filter_In in I as [I L]. exists s, t, (far_end x p (s, t, r)). split; [auto|]. split; auto.
      apply negb_true_iff in L. unfold gone in L. apply andb_false_iff in L as [L|L]; apply negb_false_iff in L; [left; apply Z.eqb_eq, L|right].
      unfold is_requested in L. apply existsb_exists in L as (z & J & K). apply keq_ok in K. subst z. auto.
    + intros (s & t & y & X & St & -> & ->). destruct (EF _ _ _ _ X) as [I F]. exists (s, t, r). split; auto. apply filter_In. split; auto. apply negb_true_iff. destruct (gone x p (s, t, r)) eqn:L; auto. apply gone_stays in L. rewrite F in L. tauto.
  - intros r. unfold read. change (n_g (set_g (q_net p3) g)) with g. rewrite HH. auto.
  - intros y Ny Hy. rewrite (remove_node_node _ _ _ _ R), B8, A8. cbn [existsb negb]. rewrite Hy. replace (keq y x) with false by (symmetry; destruct (keq y x) eqn:K; auto; apply keq_ok in K; congruence). cbn [negb andb]. rewrite andb_true_r, negb_false_iff, INS. split.
    + intros (s & t & r & X & S & C). eauto 6.
    + intros (S & C & s & t & r & X). eauto 6.
  - eexists. split; [rewrite B3, A3; exact N1|]. intros e. rewrite in_map_iff. split.
    + intros ([[s t] r] & <- & I). apply filter_In in I as [I L]. apply LAST in L as [L1 L2]. exists s, t, (far_end x p (s, t, r)), r. auto.
    + intros (s & t & y & r & X & S & C & ->). destruct (EF _ _ _ _ X) as [I <-]. exists (s, t, r). split; auto. apply filter_In. split; auto. apply LAST. auto.
  - intros s t y r D X S. destruct (EF _ _ _ _ X) as [I F]. change (get_key dir s t (set_g (q_net p3) g)) with (get_key dir s t (q_net p3)). change (get_key dir t s (set_g (q_net p3) g)) with (get_key dir t s (q_net p3)). rewrite !KY.
    apply (K1 (s, t)); auto. apply in_map_iff. exists (s, t, r). split; auto. apply filter_In. split; auto. apply gone_stays. rewrite F. auto.
  - intros s t N. change (get_key dir s t (set_g (q_net p3) g)) with (get_key dir s t (q_net p3)) in N. rewrite KY in N. apply K2 in N as ([u v] & I & S). apply in_map_iff in I as ([[u' v'] r] & Q & I). cbn in Q. inversion Q; subst u' v'. apply filter_In in I as [I L].
    apply gone_stays in L. pose proof (FE _ _ _ I) as X. exists (far_end x p (u, v, r)), r. split; auto. cbn [fst snd] in S. destruct S as [[-> ->]|(D & -> & ->)]; auto.
Qed.
Print Assumptions C61_leave_partial.

(** An agent with an edge to an agent of its rank and an edge that another rank added leaves: the first edge is kept for the next phase, the other one and its ghost are removed. *)
Definition guest : list vop := [VCall 0 (NAddEdge a a2 [(1, 5)]); VRequest [[]; [(a, 0)]; []]; VCall 1 (NAddEdge b a [(2, 6)]); VSynch].
Definition leaving (dir : bool) : option mpeer := obind (go dir fresh guest) (at_mrank 0).
Definition guest_graph (dir : bool) : graph := g_add_edge dir (name 10) (name 0) [(2, 6)] (g_add_edge dir (name 0) (name 1) [(1, 5)] (add_node (name 1) (add_node (name 0) new_graph))).
Example C61_leave_ex : forall dir, exists p, leaving dir = Some p /\ gok dir (n_g (q_net p)) /\ (forall s t y r, ends dir (name 0) s t y p r -> obj_of y <> obj_of (name 0) /\ id_of p y <> id_of p (name 0)) /\
  edge_attrs (name 0) (name 1) (q_net p) = Some [(1, 5)] /\ edge_attrs (name 10) (name 0) (q_net p) = Some [(2, 6)] /\
  exists p' data', moving_rank dir (name 0) 2 None p = Some (p', data') /\ q_moved p' = [(a, a2, 0%nat)] /\ q_no p' = [(1, b)] /\ has_node (name 10) (n_g (q_net p')) = false /\ has_node (name 1) (n_g (q_net p')) = true.
Proof.
  intros dir. destruct (leaving dir) as [p|] eqn:P; [|destruct dir; vm_compute in P; discriminate]. exists p. split; auto.
  assert (E : n_g (q_net p) = guest_graph dir) by (destruct dir; vm_compute in P; inversion P; vm_compute; reflexivity).
  split; [rewrite E; repeat first [apply add_node_ok|apply add_edge_ok|apply gok_new]|]. split.
  - intros s t y r [R C]. rewrite E in R.
    assert (X : y = name 1 \/ y = name 10).
    { clear P E. destruct C as [[-> ->]|(D & -> & ->)].
      - assert (I : In y (map fst (nbrs (name 0) (g_adj (guest_graph dir))))) by (unfold edge_ref in R; apply dget_In in R; apply (in_map fst _ _ R)). destruct dir; vm_compute in I; intuition.
      - subst dir. unfold edge_ref, nbrs in R. destruct (dget y (g_adj (guest_graph true))) as [d|] eqn:Dy; [|discriminate]. apply dget_In in Dy. vm_compute in Dy. destruct Dy as [Q|[Q|[Q|[]]]]; inversion Q; subst; vm_compute in R; try discriminate R. right. reflexivity. }
    destruct dir; vm_compute in P; inversion P; destruct X as [->| ->]; split; vm_compute; discriminate.
  - destruct dir; vm_compute in P; inversion P; (split; [vm_compute; reflexivity|]); (split; [vm_compute; reflexivity|]); eexists; eexists; (split; [vm_compute; reflexivity|]); vm_compute; auto.
Qed.
