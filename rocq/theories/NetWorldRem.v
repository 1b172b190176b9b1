(** Removed edges in a synchronization. *)
From Coq Require Import List Arith ZArith Lia Bool.
From Verif Require Import PyDict AgentModel WorldModel NetModel NetSpec NetProofs NetWorldModel NetWorldSpec NetWorldBase NetWorldInv NetWorldCalls NetWorldEdges NetWorldReq.
Import ListNotations.
Open Scope Z_scope.

Definition ends (r : Z) (k : edge) : uid * Z := (mine r k, lr (other r k)).
Definition with_edges (b : book) (d : dict edge entry) : book := Book (b_agents b) (b_req b) d.
Definition del (k : edge) (b : book) : book := with_edges b (ddel k (b_edges b)).
Lemma del_get : forall b k x, dget x (b_edges (del k b)) = if keq x k then None else dget x (b_edges b).
Proof. intros. apply dget_ddel. Qed.
Lemma mok_edges : forall b d r m, mok b r m <-> mok (with_edges b d) r m.
Proof. intros b d r m. split; intros M; (eapply mok_ext; [exact M| |]); auto; tauto. Qed.

(** ** The sender *)
Lemma rems_send : forall l b r m t g, mok b r m -> NoDup (map (fun e : edge * bool => ends r (fst e)) l) ->
  (forall k f, In (k, f) l -> f = (lr (fst k) =? r) /\ touches r k /\ lr (fst k) <> lr (snd k) /\ 1 <= cnt (mine r k) (lr (other r k)) m) -> exists m',
  foldm rem_send l (Peer m t g) = Some (Peer m' t g, map (fun e => (lr (other r (fst e)), fst e)) l) /\ mok b r m' /\ am_ghost m' = am_ghost m /\ am_req m' = am_req m /\
  forall x y, (In (x, y) (map (fun e => ends r (fst e)) l) -> cnt x y m' = cnt x y m - 1) /\ (~ In (x, y) (map (fun e => ends r (fst e)) l) -> cnt x y m' = cnt x y m).
Proof.
  induction l as [|[k f] l IH]; intros b r m t g M N H.
  - exists m. cbn. split; auto. split; auto. split; auto. split; auto. tauto.
  - destruct (H k f (or_introl eq_refl)) as (Hf & T & L & C). cbn [map fst] in N. inversion N as [|a l' N1 N2]; subst a l'.
    destruct (untag_ok b r m (mine r k) (lr (other r k)) M C) as (m1 & E1 & M1 & S1 & S2 & S3 & C1).
    destruct (IH b r m1 t g M1 N2) as (m' & X1 & X2 & X3 & X4 & X5).
    { intros k2 f2 I2. destruct (H k2 f2 (or_intror I2)) as (A1 & A2 & A3 & A4). split; auto. split; auto. split; auto. rewrite C1. destruct (keq (mine r k2) (mine r k) && keq (lr (other r k2)) (lr (other r k))) eqn:K; auto.
      apply andb_true_iff in K as [K1 K2]. apply keq_ok in K1, K2. exfalso. apply N1. apply in_map_iff. exists (k2, f2). split; auto. unfold ends. cbn [fst]. congruence. }
    exists m'. cbn [foldm map fst]. unfold rem_send at 1. cbn [fst snd p_man p_net p_gone].
    assert (Eg : (if f then snd k else fst k) = other r k /\ (if f then fst k else snd k) = mine r k) by (rewrite Hf; unfold other, mine; destruct (lr (fst k) =? r); auto).
    destruct Eg as [-> ->]. rewrite E1, X1. split; auto. split; auto. split; [congruence|]. split; [congruence|]. intros x y. destruct (X5 x y) as [Y1 Y2]. rewrite C1 in Y1, Y2. unfold ends at 1 3. cbn [In].
    destruct (keq x (mine r k) && keq y (lr (other r k))) eqn:K.
    + apply andb_true_iff in K as [K1 K2]. apply keq_ok in K1, K2. subst x y. split; [|tauto]. intros _. apply Y2. intros Z. apply N1. auto.
    + assert (K' : (mine r k, lr (other r k)) <> (x, y)) by (intros Z; inversion Z; subst; rewrite !keq_refl in K; discriminate). split; [intros [Z|Z]; [congruence|auto]|]. intros Z. apply Y2. tauto.
Qed.

Lemma map_fst_NoDup : forall A B C (f : A * B -> C) l, NoDup (map fst l) -> (forall a b, In a l -> In b l -> f a = f b -> fst a = fst b) -> NoDup (map f l).
Proof.
  intros A B C f l. induction l as [|a l IH]; intros N H; cbn; [constructor|]. inversion N as [|x y N1 N2]; subst. constructor; [|apply IH; auto; intros; apply H; auto; right; auto].
  intros I. apply in_map_iff in I as (b & E & I). apply N1. rewrite <- (H b a); auto; [|right; auto|left; auto]. apply in_map. auto.
Qed.
Lemma flat_NoDup : forall A B X (f : A -> list (B * X)) l, NoDup l -> (forall a, In a l -> NoDup (map snd (f a))) ->
  (forall a b x, In a l -> In b l -> In x (map snd (f a)) -> In x (map snd (f b)) -> a = b) -> NoDup (map snd (flat_map f l)).
Proof.
  intros A B X f l. induction l as [|a l IH]; intros N H1 H2; cbn; [constructor|]. inversion N as [|x y N1 N2]; subst. rewrite map_app.
  assert (App : forall (l1 l2 : list X), NoDup l1 -> NoDup l2 -> (forall x, In x l1 -> ~ In x l2) -> NoDup (l1 ++ l2)).
  { clear. induction l1 as [|x l1 IH]; intros l2 A1 A2 A3; cbn; auto. inversion A1; subst. constructor; [|apply IH; auto; intros; apply A3; right; auto]. rewrite in_app_iff. intros [Z|Z]; [auto|]. apply (A3 x); [left|]; auto. }
  apply App; [apply H1; left; auto|apply IH; auto; [intros; apply H1; right; auto|intros; apply (H2 a0 b x); auto; right; auto]|].
  intros x I I2. apply in_map_iff in I2 as (z & E & I2). apply in_flat_map in I2 as (c & C & Z). assert (a = c) by (apply (H2 a c x); auto; [left; auto|right; auto|apply in_map_iff; exists z; auto]). subst. auto.
Qed.
Lemma inbox_NoDup : forall X n (ms : Z -> list (Z * X)) j, (forall r, rk n r -> NoDup (map snd (ms r))) -> (forall i i' x, rk n i -> rk n i' -> In (j, x) (ms i) -> In (j, x) (ms i') -> i = i') -> NoDup (map snd (inbox n ms j)).
Proof.
  intros X n ms j H1 H2. unfold inbox. apply flat_NoDup; [apply ranks_NoDup| |].
  - intros a A. apply ranks_In in A. rewrite map_map. cbn. specialize (H1 a A). revert H1. generalize (ms a). clear. induction l as [|[d x] l IH]; cbn; intros N; [constructor|]. inversion N; subst. destruct (d =? j); cbn; auto. constructor; auto.
    intros I. apply in_map_iff in I as (z & E & I). apply filter_In in I as [I _]. apply H1. apply in_map_iff. exists z. auto.
  - assert (Z : forall a x, In x (map snd (map (fun e : Z * X => (a, snd e)) (filter (fun e => fst e =? j) (ms a)))) -> In (j, x) (ms a)).
    { intros a x I. rewrite map_map in I. cbn in I. apply in_map_iff in I as ([d y] & E & I). apply filter_In in I as [I D]. cbn in *. apply Z.eqb_eq in D. subst. auto. }
    intros a b x A B I1 I2. apply ranks_In in A, B. apply (H2 a b x); auto.
Qed.
Lemma forget_ent : forall b k e, dwf (b_edges b) -> (ent (forget b) k e <-> ent b k e /\ e_stat e <> Gone).
Proof.
  intros b k e W. unfold ent, forget. cbn [b_edges]. split.
  - intros E. apply dget_In in E. apply filter_In in E as [E1 E2]. split; [apply In_dget; auto|]. cbn [snd] in E2. intros X. rewrite X in E2. discriminate.
  - intros [E X]. apply In_dget; [apply dwf_filter; auto|]. apply filter_In. split; [apply dget_In; auto|]. cbn [snd]. destruct (e_stat e); auto.
Qed.

Section Rem.
Variable dir : bool.
Variable n : nat.
Notation eok := (eok dir). Notation bok := (bok dir n). Notation winv := (winv dir n). Notation nok := (nok dir). Notation framed := (framed dir).
Lemma bok_sub : forall b d, bok b -> dwf d -> (forall k e, dget k d = Some e -> ent b k e) -> bok (with_edges b d).
Proof.
  intros b d [B1 B2 B3 B4 B5 B6] W S. split; [exact W|exact B2|exact B3| | |].
  - intros k e E. apply (B4 k e), S, E.
  - intros D k e e' E E'. apply (B5 D k e e'); apply S; auto.
  - intros k e k' e' E X E'. apply (B6 k e k' e'); auto; apply S; auto.
Qed.
(** Only the edges of the rank matter. *)
Lemma eok_local : forall b b' j m t, bok b -> bok b' -> (forall k, touches j k -> dget k (b_edges b') = dget k (b_edges b)) -> eok b j m t -> eok b' j m t.
Proof.
  intros b b' j m t B B' Q [H1 H2 H3 H4 H5 H6 H7 H8 H9 H10 H11 H12 H13 H14].
  assert (Y : forall k e, ent b k e -> e_by e = j -> touches j k /\ ent b' k e).
  { intros k e E By. destruct (by_touches dir n b k e B E) as (T & _). rewrite By in T. split; auto. unfold ent. rewrite Q; auto. }
  assert (Y' : forall k e, ent b' k e -> e_by e = j -> ent b k e).
  { intros k e E By. destruct (by_touches dir n b' k e B' E) as (T & _). rewrite By in T. unfold ent. rewrite <- Q; auto. }
  split; [exact H1|exact H2|exact H3| | | | | | |exact H10|exact H11| | |].
  - intros k e E By. apply H4; auto.
  - intros k e E By. apply (H5 k e); auto.
  - intros k e E By. apply (H6 k e); auto.
  - intros k ge E. destruct (H7 k ge E) as ((e & E1 & E2 & E3) & E4). split; auto. exists e. split; auto. apply (Y k e E1 E2).
  - intros k ge E. destruct (H8 k ge E) as ((e & E1 & E2 & E3) & E4). split; auto. exists e. split; auto. apply (Y k e E1 E2).
  - intros k E. destruct (H9 k E) as (e & E1 & E2 & E3). exists e. split; auto. apply (Y k e E1 E2).
  - intros k f. rewrite H12. split; intros (e & E1 & E2 & E3); exists e; (split; [|auto]); [apply (Y k e); auto|apply (Y' k e); auto].
  - intros k e E By T. apply (H13 k e); auto. unfold ent. rewrite <- Q; auto.
  - intros u v E L T. destruct (H14 u v E L T) as (k & e & S & E1 & E2). exists k, e. split; auto. split; auto. unfold ent. rewrite Q; auto. apply (proj2 (same_cross dir u v k S L)). auto.
Qed.
(** The own removed edges are forgotten. *)
Lemma eok_own_gone : forall b b' j m t, (forall k e, ent b' k e <-> ent b k e /\ ~ (e_by e = j /\ e_stat e = Gone)) -> eok b j m t -> eok b' j m (set_rem t []).
Proof.
  intros b b' j m t Q [H1 H2 H3 H4 H5 H6 H7 H8 H9 H10 H11 H12 H13 H14]. split; cbn [set_rem n_g n_keys n_upd n_ghosted n_new n_rem n_ref]; [exact H1|exact H2|exact H3| | | | | | | |exact H11| | |].
  - intros k e E. apply Q in E as [E _]. apply H4; auto.
  - intros k e E. apply Q in E as [E _]. apply (H5 k e); auto.
  - intros k e E. apply Q in E as [E _]. apply (H6 k e); auto.
  - intros k ge E. destruct (H7 k ge E) as ((e & E1 & E2 & E3) & E4). split; auto. exists e. split; auto. apply Q. tauto.
  - intros k ge E. destruct (H8 k ge E) as ((e & E1 & E2 & E3) & E4). split; auto. exists e. split; auto. apply Q. tauto.
  - intros k E. destruct (H9 k E) as (e & E1 & E2 & E3). exists e. split; auto. apply Q. tauto.
  - constructor.
  - intros k f. cbn [dget]. split; [discriminate|]. intros (e & E & E1 & E2 & _). apply Q in E as [_ E]. tauto.
  - intros k e E. apply Q in E as [E _]. apply (H13 k e); auto.
  - intros u v E L T. destruct (H14 u v E L T) as (k & e & S & E1 & E2). exists k, e. split; auto. split; auto. apply Q. tauto.
Qed.
(** An edge is forgotten. *)
Lemma eok_del : forall b k0 r m m' t t', alone dir b k0 -> eok b r m t -> framed_off dir k0 t t' -> nok t' -> heap_wf (n_g t') ->
  (forall u, In u (n_ref t') -> is_requested u m' = true) ->
  (forall k, has (fst k) (snd k) (n_g t') -> touches r k -> lr (fst k) <> lr (snd k) -> gh (other r k) m -> gh (other r k) m') ->
  (forall k e, ent b k e -> lr (fst k) <> lr (snd k) /\ (e_by e = r -> touches r k)) ->
  dget k0 (n_new t') = None -> dget k0 (n_ghosted t') = None -> ~ In k0 (n_upd t') -> dget k0 (n_rem t') = None -> dwf (n_rem t') -> dwf (n_new t') ->
  (forall u v, same_edge dir (fst k0) (snd k0) u v -> ~ has u v (n_g t')) -> eok (del k0 b) r m' t'.
Proof.
  intros b k0 r m m' t t' Al H F N Wf R G X N1 G1 U1 R1 D1 D2 H1.
  assert (E' : forall k e, ent (del k0 b) k e <-> k <> k0 /\ ent b k e).
  { intros k e. unfold ent. rewrite del_get. destruct (keq k k0) eqn:K; [apply keq_ok in K; split; [discriminate|tauto]|apply keq_neq in K; tauto]. }
  split; auto.
  - intros k e E Y S. apply E' in E as [K E]. pose proof (Al k e E K) as A. destruct (X k e E) as [X1 X2]. destruct (eo_own _ _ _ _ _ H k e E Y S) as (Z1 & Z2 & Z3). assert (Z4 : tied dir k t') by (apply (tied_off dir k0 t); auto). split; auto. split; [|apply G; auto; apply Z4].
    intros q x. unfold kval. rewrite (fo_val _ _ _ _ F) by auto. apply Z2.
  - intros k e E Y S. apply E' in E as [K E]. unfold dmem. rewrite (fo_new _ _ _ _ F) by auto. apply (eo_own_new _ _ _ _ _ H k e E Y S).
  - intros k e E Y S. apply E' in E as [K E]. unfold dmem. rewrite (fo_gho _ _ _ _ F) by auto. apply (eo_own_done _ _ _ _ _ H k e E Y S).
  - intros k ge E. destruct (keq_dec k k0) as [->|K]; [congruence|]. rewrite (fo_new _ _ _ _ F) in E by auto. destruct (eo_news _ _ _ _ _ H k ge E) as ((e & E1 & E2) & A1 & A2 & A3).
    split; [exists e; split; auto; apply E'; auto|]. split; auto. split; auto. rewrite (fo_ref _ _ _ _ F); auto. apply (Al k e); auto.
  - intros k ge E. destruct (keq_dec k k0) as [->|K]; [congruence|]. rewrite (fo_gho _ _ _ _ F) in E by auto. destruct (eo_ghosted _ _ _ _ _ H k ge E) as ((e & E1 & E2) & A1 & A2 & A3).
    split; [exists e; split; auto; apply E'; auto|]. split; auto. split; auto. rewrite (fo_ref _ _ _ _ F); auto. apply (Al k e); auto.
  - intros k I. destruct (keq_dec k k0) as [->|K]; [tauto|]. apply (fo_upd _ _ _ _ F) in I; auto. destruct (eo_upds _ _ _ _ _ H k I) as (e & E1 & E2). exists e. split; auto. apply E'; auto.
  - intros k f. destruct (keq_dec k k0) as [->|K].
    + rewrite R1. split; [discriminate|]. intros (e & E & _). apply E' in E as [K _]. congruence.
    + rewrite (fo_rem _ _ _ _ F) by auto. rewrite (eo_rems _ _ _ _ _ H). split; intros (e & E & A); exists e; (split; [apply E' || apply E' in E|auto]); tauto.
  - intros k e E Y T S. apply E' in E as [K E]. pose proof (Al k e E K) as A. destruct (X k e E) as [X1 X2]. destruct (eo_theirs _ _ _ _ _ H k e E Y T S) as (Z1 & Z2 & Z3). assert (Z4 : tied dir k t') by (apply (tied_off dir k0 t); auto). split; auto. split; [apply G; auto; apply Z4|].
    intros q x. unfold kval. rewrite (fo_val _ _ _ _ F) by auto. apply Z3.
  - intros u v E L T. destruct (sameb dir (fst k0) (snd k0) u v) eqn:S; [apply sameb_ok in S; exfalso; apply (H1 u v); auto|]. apply sameb_no in S. unfold has in E. rewrite (fo_ref _ _ _ _ F) in E by auto.
    destruct (eo_those _ _ _ _ _ H u v E L T) as (k & e & E1 & E2 & E3). exists k, e. split; auto. split; auto. apply E'. split; auto. intros ->. apply S. apply same_sym. auto.
Qed.

(** ** The receiver *)
Lemma in_edge_no : forall u g, gok dir g -> in_edge dir u g = false -> forall y, edge_ref u y g = None /\ edge_ref y u g = None.
Proof.
  intros u g G H y. unfold in_edge in H. destruct (nbrs u (g_adj g)) eqn:E; [|discriminate]. assert (A : forall y, edge_ref u y g = None) by (intros z; unfold edge_ref; rewrite E; auto). split; auto. pose proof (go_sym _ _ G) as S. unfold sym_ref in S.
  destruct dir; [|rewrite edge_ref_eref, (S y u); apply A]. rewrite edge_ref_eref, <- (S y u). unfold eref. destruct (nbrs u (g_pred g)); [auto|discriminate].
Qed.
Lemma rem_one : forall b j m t g i k e, bok b -> mok b j m -> eok b j m t -> ent b k e -> e_by e <> j -> touches j k -> e_stat e <> New -> exists m' t',
  rem_recv dir (i, k) (Peer m t g) = Some (Peer m' t' g) /\ mok b j m' /\ eok (del k b) j m' t' /\ (forall x, gh x m -> gh x m' \/ (x = other j k /\ is_requested x m = false)) /\
  am_req m' = am_req m /\ am_ghosted m' = am_ghosted m /\ framed_off dir k t t' /\ n_new t' = n_new t /\ n_upd t' = n_upd t.
Proof.
  intros b j m t g i k e B M H E By T S. destruct (by_touches dir n b k e B E) as (_ & L & _). destruct (bo_ent _ _ _ B k e E) as (_ & Au & Av & _).
  destruct (eo_theirs _ _ _ _ _ H k e E By T S) as (Td & Gh & _). destruct (mine_other j k T L) as (Lm & Lo & Mo).
  pose proof (eo_nok _ _ _ _ _ H) as Nt. destruct Nt as [Gk Kk].
  assert (Lc : dmem (mine j k) (am_local m) = true) by (apply (m_local _ _ _ M); split; auto; destruct Mo as [[-> _]|[-> _]]; auto).
  assert (Ng : dmem (mine j k) (am_ghost m) = false) by (destruct (dmem (mine j k) (am_ghost m)) eqn:Z; auto; destruct (gh_lr b j m _ M Z); congruence).
  destruct (g_remove_edge dir (fst k) (snd k) (n_g t)) as [g1|] eqn:Eg; [|exfalso; unfold g_remove_edge, has_edge, dmem in Eg; fold (edge_ref (fst k) (snd k) (n_g t)) in Eg; destruct Td as [Td _]; unfold has in Td; destruct (edge_ref (fst k) (snd k) (n_g t)); [discriminate|auto]].
  pose proof (remove_edge_ok _ _ _ _ _ Gk Eg) as Gk1. pose proof (remove_edge_ref _ _ _ _ _ Eg) as Er1. pose proof (remove_edge_heap _ _ _ _ _ Eg) as Hp1.
  destruct (has_nodes dir _ _ _ Gk (proj1 Td)) as [Nu Nv].
  assert (No : has_node (other j k) g1 = true) by (rewrite (remove_edge_node _ _ _ _ _ Eg); destruct Mo as [[_ ->]|[_ ->]]; auto).
  (* after drop_ghost *)
  assert (Dr : exists m' g2, drop_ghost dir (other j k) (Peer m (set_g t g1) g) = Some (Peer m' (set_g t g2) g) /\ mok b j m' /\ (forall x, gh x m -> gh x m' \/ (x = other j k /\ is_requested x m = false /\ forall y, edge_ref x y g2 = None /\ edge_ref y x g2 = None)) /\
    am_req m' = am_req m /\ am_ghosted m' = am_ghosted m /\ gok dir g2 /\ (forall x y, edge_ref x y g2 = edge_ref x y g1) /\ g_heap g2 = g_heap g1).
  { unfold drop_ghost. cbn [p_net set_g n_g p_man p_gone]. destruct (in_edge dir (other j k) g1) eqn:Ie; [exists m, g1; auto 10|].
    destruct (remove_ghost_ok b j m (other j k) M Gh) as (m' & X1 & X2 & X3 & X4 & X5 & X6 & X7). rewrite X1. destruct (g_remove_node dir (other j k) g1) as [g2|] eqn:E2; [|unfold g_remove_node in E2; rewrite No in E2; discriminate].
    assert (R2 : forall x y, edge_ref x y g2 = edge_ref x y g1).
    { intros x y. rewrite (remove_node_ref _ _ _ _ Gk1 E2). destruct (keq x (other j k)) eqn:K; cbn [orb]; [apply keq_ok in K; subst; symmetry; apply (in_edge_no _ g1 Gk1 Ie)|]. destruct (keq y (other j k)) eqn:K2; auto. apply keq_ok in K2; subst. symmetry. apply (in_edge_no _ g1 Gk1 Ie). }
    exists m', g2. split; auto. split; auto. split; [|split; [auto|split; [auto|split; [apply (remove_node_ok dir (other j k) g1); auto|split; [auto|apply (remove_node_heap dir (other j k) g1 g2 E2)]]]]].
    intros x Gx. destruct (is_requested (other j k) m) eqn:Q; [left; apply X4; auto|]. destruct (keq_dec x (other j k)) as [->|K]; [right|left; apply X4; auto]. split; auto. split; auto. intros y. rewrite !R2. apply in_edge_no; auto. }
  destruct Dr as (m' & g2 & D1 & D2 & D3 & D4 & D5 & D6 & D7 & D8).
  set (t2 := set_g t g2) in *. set (t' := fst (remove_key dir (fst k) (snd k) t2)).
  assert (Rk : remove_key dir (fst k) (snd k) t2 = (t', true)).
  { unfold t', remove_key. destruct Td as [_ Tk]. unfold flip in Tk. destruct k as [u v]. cbn [fst snd] in *. destruct dir; auto. destruct (Tk eq_refl) as [T1 T2]. cbn [t2 set_g n_keys].
    replace (dmem (u, v) (n_keys t)) with true by (symmetry; exact (f_equal (fun o : option edge => match o with Some _ => true | None => false end) T1)).
    rewrite dmem_ddel. destruct (keq (v, u) (u, v)) eqn:K; [apply keq_ok in K; inversion K; subst; congruence|].
    replace (dmem (v, u) (n_keys t)) with true by (symmetry; exact (f_equal (fun o : option edge => match o with Some _ => true | None => false end) T2)). auto. }
  exists m', t'.
  assert (Ev : rem_recv dir (i, k) (Peer m t g) = Some (Peer m' t' g)).
  { unfold rem_recv. cbn [snd p_man p_net p_gone]. destruct k as [u v] eqn:Ek. rewrite <- Ek in *. rewrite Ek in Eg, Rk. cbn [fst snd] in Eg, Rk.
    assert (Gx : (if dmem u (am_ghost m) then if dmem v (am_local m) then Some u else None else if dmem u (am_local m) && dmem v (am_ghost m) then Some v else None) = Some (other j k)).
    { rewrite Ek in Mo at 2 4 6 8. cbn [fst snd] in Mo. unfold gh in Gh. destruct Mo as [[X1 X2]|[X1 X2]]; rewrite X1 in Lc, Ng; rewrite X2 in *; [rewrite Ng, Lc, Gh|rewrite Gh, Lc]; auto. }
    rewrite Gx, Eg, D1. cbn [p_net p_man p_gone]. rewrite Rk. auto. }
  split; auto. split; auto.
  assert (Gt : n_g t' = g2) by (unfold t'; rewrite remove_key_g; auto).
  assert (P1 : n_upd t' = n_upd t /\ n_ghosted t' = n_ghosted t /\ n_new t' = n_new t /\ n_rem t' = n_rem t /\ n_ref t' = n_ref t).
  { unfold t', remove_key. destruct dir; auto. destruct (dmem (fst k, snd k) (n_keys t2)); auto. destruct (dmem (snd k, fst k) _); auto 10. }
  destruct P1 as (Q1 & Q2 & Q3 & Q4 & Q5).
  assert (Er : forall x y, edge_ref x y (n_g t') = if sameb dir (fst k) (snd k) x y then None else edge_ref x y (n_g t)) by (intros x y; rewrite Gt, D7, Er1; auto).
  assert (F : framed_off dir k t t').
  { split; rewrite ?Q1, ?Q2, ?Q3, ?Q4; auto; try tauto.
    - intros x y Z. rewrite Er. apply sameb_no in Z. rewrite Z. auto.
    - intros x y q z Z. unfold val. apply sameb_no in Z. split; intros (rf & Y1 & Y2); exists rf; rewrite Er, Z in *; (split; [auto|]); unfold read in *; rewrite Gt, D8, Hp1 in *; auto.
    - intros D x y Z. unfold t'. rewrite remove_key_keeps; auto. rewrite <- D. auto. }
  assert (Ho : forall u v, has u v (n_g t') -> has u v (n_g t) /\ ~ same_edge dir u v (fst k) (snd k)).
  { intros x y. unfold has. rewrite Er. destruct (sameb dir (fst k) (snd k) x y) eqn:Z; [congruence|]. intros Y. split; auto. apply sameb_no in Z. intros W. apply Z. apply same_sym. auto. }
  assert (Ns : dget k (n_new t) = None /\ dget k (n_ghosted t) = None /\ ~ In k (n_upd t) /\ dget k (n_rem t) = None).
  { split; [|split; [|split]].
    - destruct (dget k (n_new t)) as [ge|] eqn:Z; auto. destruct (eo_news _ _ _ _ _ H k ge Z) as ((e2 & E2 & Y2 & _) & _). unfold ent in *. congruence.
    - destruct (dget k (n_ghosted t)) as [ge|] eqn:Z; auto. destruct (eo_ghosted _ _ _ _ _ H k ge Z) as ((e2 & E2 & Y2 & _) & _). unfold ent in *. congruence.
    - intros Z. destruct (eo_upds _ _ _ _ _ H k Z) as (e2 & E2 & Y2 & _). unfold ent in *. congruence.
    - destruct (dget k (n_rem t)) as [f|] eqn:Z; auto. apply (eo_rems _ _ _ _ _ H) in Z as (e2 & E2 & Y2 & _). unfold ent in *. congruence. }
  destruct Ns as (N1 & N2 & N3 & N4).
  split; [|split; [|split; [auto|split; [auto|split; [auto|auto]]]]].
  - apply (eok_del b k j m m' t t'); rewrite ?Q1, ?Q2, ?Q3, ?Q4, ?Q5; auto; try apply (eo_rem_wf _ _ _ _ _ H); try apply (eo_new_wf _ _ _ _ _ H).
    + apply (alone_key dir n b k e B E).
    + split; [rewrite Gt; auto|]. apply (remove_key_ok dir (fst k) (snd k) t t' t2); auto.
    + unfold heap_wf. rewrite Gt, D8, Hp1. apply H.
    + unfold is_requested. rewrite D4. apply (eo_ref _ _ _ _ _ H).
    + intros k2 Hk T2 L2 G2. destruct (D3 _ G2) as [Y|(Y1 & Y2 & Y3)]; auto. exfalso. unfold has in Hk. rewrite Gt in Hk. destruct (mine_other j k2 T2 L2) as (_ & _ & [[W1 W2]|[W1 W2]]); apply Hk.
      * rewrite <- W2. apply Y3.
      * rewrite <- W2. apply Y3.
    + intros k2 e2 E2. destruct (by_touches dir n b k2 e2 B E2) as (W1 & W2 & _). split; auto. intros <-. auto.
    + intros u v Z Y. apply Ho in Y as [_ Y]. apply Y. apply same_sym. auto.
  - intros x Gx. destruct (D3 x Gx) as [Y|(Y1 & Y2 & _)]; auto.
Qed.
Lemma rems_recv : forall l b j m t g, bok b -> mok b j m -> eok b j m t -> NoDup (map snd l) -> (forall i k, In (i, k) l -> exists e, ent b k e /\ e_by e <> j /\ touches j k /\ e_stat e <> New) -> exists m' t' b',
  foldo (rem_recv dir) l (Peer m t g) = Some (Peer m' t' g) /\ mok b j m' /\ eok b' j m' t' /\ bok b' /\ (forall k e, ent b' k e <-> ent b k e /\ ~ In k (map snd l)) /\
  (forall x, gh x m -> gh x m' \/ (is_requested x m = false /\ exists i k, In (i, k) l /\ x = other j k)) /\ am_req m' = am_req m /\ am_ghosted m' = am_ghosted m /\ n_new t' = n_new t /\ n_upd t' = n_upd t /\
  (forall k e, ent b' k e -> forall q x, kval k q x (n_g t') <-> kval k q x (n_g t)).
Proof.
  induction l as [|[i k] l IH]; intros b j m t g B M H N C.
  - exists m, t, b. cbn [foldo]. split; auto. split; auto. split; auto. split; auto. split; [intros; cbn; tauto|]. split; auto. split; auto. split; auto. split; auto. split; auto. tauto.
  - cbn [map snd] in N. inversion N as [|a l' N1 N2]; subst a l'. destruct (C i k (or_introl eq_refl)) as (e & E & By & T & S).
    destruct (rem_one b j m t g i k e B M H E By T S) as (m1 & t1 & X1 & X2 & X3 & X4 & X5 & X6 & X7 & X8 & X9).
    assert (Ed : forall k2 e2, ent (del k b) k2 e2 <-> ent b k2 e2 /\ k2 <> k).
    { intros k2 e2. unfold ent. rewrite del_get. destruct (keq k2 k) eqn:K; [apply keq_ok in K; split; [discriminate|tauto]|apply keq_neq in K; tauto]. }
    destruct (IH (del k b) j m1 t1 g) as (m' & t' & b' & Y1 & Y2 & Y3 & Y4 & Y5 & Y6 & Y7 & Y8 & Y9 & Y10 & Y11); auto.
    + apply bok_sub; auto; [apply dwf_ddel, B|]. intros k2 e2 Z. apply (Ed k2 e2) in Z. tauto.
    + apply mok_edges. auto.
    + intros i2 k2 I2. destruct (C i2 k2 (or_intror I2)) as (e2 & Z1 & Z2). exists e2. split; auto. apply Ed. split; auto. intros ->. apply N1. apply in_map_iff. exists (i2, k). auto.
    + exists m', t', b'. cbn [foldo]. rewrite X1, Y1. split; auto. split; [apply mok_edges in Y2; auto|]. split; auto. split; auto. split; [|split; [|split; [congruence|split; [congruence|split; [congruence|split; [congruence|]]]]]].
      * intros k2 e2. rewrite Y5, Ed. cbn [map snd In]. split; [intros [[Z1 Z2] Z3]; split; auto; intros [Z|Z]; [congruence|auto]|]. intros [Z1 Z2]. split; [split; auto|]; intros Z; apply Z2; auto.
      * intros x Gx. destruct (X4 x Gx) as [Z|[Z1 Z2]]; [|right; split; auto; exists i, k; split; [left; auto|auto]]. destruct (Y6 x Z) as [Z1|(Z1 & i2 & k2 & Z2 & Z3)]; auto. right. split; [unfold is_requested in *; rewrite <- X5; auto|]. exists i2, k2. split; [right; auto|auto].
      * intros k2 e2 Z q x. rewrite (Y11 k2 e2 Z q x). apply Y5 in Z as [Z _]. apply Ed in Z as [Z1 Z2]. apply (fo_val _ _ _ _ X7). apply (alone_key dir n b k e B E k2 e2); auto.
Qed.

Lemma ent_eq : forall b b' k, (forall e, ent b' k e <-> ent b k e) -> dget k (b_edges b') = dget k (b_edges b).
Proof.
  intros b b' k H. unfold ent in H. destruct (dget k (b_edges b)) as [e|] eqn:E; [apply H; auto|]. destruct (dget k (b_edges b')) as [e|] eqn:E'; auto. symmetry. apply H. auto.
Qed.
Lemma removed_winv : forall b P, winv b P -> exists P', phase removed_send (foldo (rem_recv dir)) (W n P) = Some (W n P') /\ winv (forget b) P'.
Proof.
  intros b P I. pose proof (wi_b _ _ _ _ I) as B. pose proof (bo_wf _ _ _ B) as Wf.
  set (rem := fun r => n_rem (p_net (P r))).
  assert (Rm : forall r k f, rk n r -> In (k, f) (rem r) -> exists e, ent b k e /\ e_by e = r /\ e_stat e = Gone /\ f = (lr (fst k) =? r)).
  { intros r k f R H. pose proof (wi_e _ _ _ _ I r R) as He. apply (eo_rems _ _ _ _ _ He). apply In_dget; auto. apply He. }
  assert (Mr : forall k e, ent b k e -> e_stat e = Gone -> exists f, In (k, f) (rem (e_by e))).
  { intros k e E S. destruct (by_touches dir n b k e B E) as (_ & _ & R & _). pose proof (wi_e _ _ _ _ I _ R) as He. exists (lr (fst k) =? e_by e). apply dget_In. apply (eo_rems _ _ _ _ _ He). exists e. auto. }
  set (S := fun r (y : peer * list (Z * edge)) => exists m', y = (Peer m' (set_rem (p_net (P r)) []) (p_gone (P r)), map (fun e => (lr (other r (fst e)), fst e)) (rem r)) /\ mok b r m' /\ am_ghost m' = am_ghost (p_man (P r)) /\ am_req m' = am_req (p_man (P r)) /\
     forall x y, (In (x, y) (map (fun e => ends r (fst e)) (rem r)) -> cnt x y m' = cnt x y (p_man (P r)) - 1) /\ (~ In (x, y) (map (fun e => ends r (fst e)) (rem r)) -> cnt x y m' = cnt x y (p_man (P r)))).
  set (R := fun j (l : list (Z * edge)) (p p' : peer) => mok b j (p_man p') /\ eok (forget b) j (p_man p') (p_net p') /\
     (forall x, gh x (p_man p) -> gh x (p_man p') \/ (is_requested x (p_man p) = false /\ exists i k, In (i, k) l /\ x = other j k)) /\ am_req (p_man p') = am_req (p_man p) /\ am_ghosted (p_man p') = am_ghosted (p_man p) /\
     n_new (p_net p') = n_new (p_net p) /\ n_upd (p_net p') = n_upd (p_net p) /\ p_gone p' = p_gone p /\ (forall k e, ent (forget b) k e -> touches j k -> forall q x, kval k q x (n_g (p_net p')) <-> kval k q x (n_g (p_net p)))).
  assert (B' : bok (forget b)).
  { apply (bok_sub b); auto; [apply dwf_filter; auto|]. intros k e E. apply (forget_ent b k e Wf). auto. }
  assert (Msg : forall r y d k, S r y -> rk n r -> (In (d, k) (snd y) <-> d = lr (other r k) /\ exists e, ent b k e /\ e_by e = r /\ e_stat e = Gone)).
  { intros r y d k (m' & -> & _) Rr. cbn [snd]. rewrite in_map_iff. split.
    - intros ([k' f] & E & H). cbn [fst] in E. inversion E; subst. split; auto. destruct (Rm r k f Rr H) as (e & X1 & X2 & X3 & _). exists e. auto.
    - intros (-> & e & E & Y & G). destruct (Mr k e E G) as (f & F). rewrite Y in F. exists (k, f). auto. }
  destruct (phase_ok _ n removed_send (foldo (rem_recv dir)) P S R) as (h & P' & E & HS & HR).
  - intros r Rr. pose proof (wi_m _ _ _ _ I r Rr) as M. unfold removed_send.
    destruct (rems_send (rem r) b r (p_man (P r)) (p_net (P r)) (p_gone (P r)) M) as (m' & X1 & X2 & X3 & X4 & X5).
    + apply map_fst_NoDup; [apply (eo_rem_wf _ _ _ _ _ (wi_e _ _ _ _ I r Rr))|]. intros [k1 f1] [k2 f2] I1 I2 Q. cbn [fst] in *. destruct (Rm r k1 f1 Rr I1) as (e1 & E1 & Y1 & G1 & _). destruct (Rm r k2 f2 Rr I2) as (e2 & E2 & Y2 & G2 & _). unfold ends in Q. inversion Q.
      apply (bo_only _ _ _ B k2 e2 k1 e1); auto; try congruence.
    + intros k f H. destruct (Rm r k f Rr H) as (e & E & Y & G & F). destruct (by_touches dir n b k e B E) as (T & L & _). rewrite Y in T. split; auto. split; auto. split; auto. rewrite <- Y. apply (wi_cnt _ _ _ _ I k e E). congruence.
    + assert (Pe : P r = Peer (p_man (P r)) (p_net (P r)) (p_gone (P r))) by (destruct (P r); auto). rewrite <- Pe in X1. fold (rem r). rewrite X1. eexists. split; [reflexivity|]. exists m'. cbn [p_man p_net p_gone]. auto 10.
  - intros r y d k Rr HS Hd. apply (Msg r y d k HS Rr) in Hd as (-> & e & E & Y & _). rewrite <- Y. apply (by_touches dir n b k e B E).
  - intros h HS j J. destruct (HS j J) as (m & Hj & M & Gm & Qm & Cm). rewrite Hj. cbn [fst]. pose proof (wi_e _ _ _ _ I j J) as He.
    set (l := inbox n (fun r => snd (h r)) j).
    assert (Il : forall i k, In (i, k) l <-> rk n i /\ j = lr (other i k) /\ exists e, ent b k e /\ e_by e = i /\ e_stat e = Gone).
    { intros i k. unfold l. rewrite inbox_In. split; intros [Ri H]; (split; auto); apply (Msg i (h i) j k (HS i Ri) Ri); auto. }
    set (b0 := with_edges b (filter (fun e => negb ((e_by (snd e) =? j) && is_gone (e_stat (snd e)))) (b_edges b))).
    assert (E0 : forall k e, ent b0 k e <-> ent b k e /\ ~ (e_by e = j /\ e_stat e = Gone)).
    { intros k e. unfold ent, b0. cbn [with_edges b_edges]. split.
      - intros Z. apply dget_In in Z. apply filter_In in Z as [Z1 Z2]. split; [apply In_dget; auto|]. cbn [snd] in Z2. intros [X1 X2]. rewrite X1, Z.eqb_refl, X2 in Z2. discriminate.
      - intros [Z1 Z2]. apply In_dget; [apply dwf_filter; auto|]. apply filter_In. split; [apply dget_In; auto|]. cbn [snd]. destruct (Z.eqb_spec (e_by e) j); auto. destruct (e_stat e) eqn:Q; cbn; auto. }
    assert (B0 : bok b0) by (apply bok_sub; auto; [apply dwf_filter; auto|]; intros k e Z; apply (E0 k e); auto).
    assert (H0 : eok b0 j m (set_rem (p_net (P j)) [])).
    { apply (eok_own_gone b); auto. apply (eok_frame dir n b j (p_man (P j)) m (p_net (P j))); auto; [apply framed_refl; apply He|unfold is_requested; rewrite Qm; auto|unfold gh; rewrite Gm; auto]. }
    destruct (rems_recv l b0 j m (set_rem (p_net (P j)) []) (p_gone (P j)) B0) as (m' & t' & b1 & X1 & X2 & X3 & X4 & X5 & X6 & X7 & X8 & X9 & X10 & X11).
    + apply mok_edges. auto.
    + exact H0.
    + apply inbox_NoDup.
      * intros r Rr. destruct (HS r Rr) as (m2 & -> & _). cbn [snd]. rewrite map_map. cbn [snd]. apply (eo_rem_wf _ _ _ _ _ (wi_e _ _ _ _ I r Rr)).
      * intros i i' k Ri Ri' Z Z'. apply (Msg i (h i) j k (HS i Ri) Ri) in Z as (_ & e & E & Y & _). apply (Msg i' (h i') j k (HS i' Ri') Ri') in Z' as (_ & e' & E' & Y' & _). unfold ent in *. congruence.
    + intros i k Z. apply Il in Z as (Ri & -> & e & E & Y & G). destruct (by_touches dir n b k e B E) as (T & L & _). rewrite Y in T. destruct (turn i k T L) as (T2 & N2 & _). exists e. split; [apply E0; split; auto; intros [Q _]; congruence|]. split; [congruence|]. split; auto. congruence.
    + assert (Eq : forall k e, touches j k -> (ent (forget b) k e <-> ent b1 k e)).
      { intros k e T. rewrite (forget_ent b k e Wf), X5, E0. split.
        - intros [Z1 Z2]. split; [split; auto; tauto|]. intros Z. apply in_map_iff in Z as ([i k'] & <- & Z). apply Il in Z as (_ & _ & e2 & Z3 & _ & Z4). unfold ent in *. cbn [snd] in *. congruence.
        - intros [[Z1 Z2] Z3]. split; auto. intros G. apply Z3. apply in_map_iff. exists (e_by e, k). split; auto. destruct (by_touches dir n b k e B Z1) as (T2 & L & Rb & _). apply Il. split; auto. split; [|exists e; auto]. destruct (touch_cases (e_by e) j k T2 T L) as [Q|Q]; auto. exfalso. apply Z2. auto. }
      assert (Bd : NetWorldInv.bok dir n b1) by auto.
      exists (Peer m' t' (p_gone (P j))). split; auto. unfold R. cbn [p_man p_net p_gone]. split; [apply mok_edges in X2; auto|]. split; [apply (eok_local b1); auto; intros k T; apply ent_eq; intros e; apply Eq; auto|].
      split; auto. split; auto. split; auto. split; [rewrite X9; auto|]. split; [rewrite X10; auto|]. split; auto. intros k e Z T. apply (X11 k e). apply Eq; auto.
  - exists P'. split; auto.
    assert (Qr : forall r u, rk n r -> is_requested u (p_man (P' r)) = is_requested u (p_man (P r))).
    { intros r u Rr. destruct (HR r Rr) as (_ & _ & _ & Q & _). destruct (HS r Rr) as (m & Hr & _ & _ & Qm & _). rewrite Hr in Q. cbn [fst p_man] in Q. unfold is_requested. congruence. }
    assert (Cr : forall r x y, rk n r -> (In (x, y) (map (fun e => ends r (fst e)) (rem r)) -> cnt x y (p_man (P' r)) = cnt x y (p_man (P r)) - 1) /\ (~ In (x, y) (map (fun e => ends r (fst e)) (rem r)) -> cnt x y (p_man (P' r)) = cnt x y (p_man (P r)))).
    { intros r x y Rr. destruct (HR r Rr) as (_ & _ & _ & _ & D & _). destruct (HS r Rr) as (m & Hr & _ & _ & _ & C). rewrite Hr in D. cbn [fst p_man] in D. specialize (C x y). unfold cnt at 1 3 in C. rewrite <- D in C. exact C. }
    assert (Er : forall r x y, rk n r -> (In (x, y) (map (fun e => ends r (fst e)) (rem r)) <-> exists k e, ent b k e /\ e_by e = r /\ e_stat e = Gone /\ mine r k = x /\ lr (other r k) = y)).
    { intros r x y Rr. rewrite in_map_iff. split.
      - intros ([k f] & Q & H). cbn [fst] in Q. inversion Q. destruct (Rm r k f Rr H) as (e & X1 & X2 & X3 & _). exists k, e. auto 10.
      - intros (k & e & E1 & Y & G & <- & <-). destruct (Mr k e E1 G) as (f & F). rewrite Y in F. exists (k, f). auto. }
    split.
    + exact B'.
    + intros r Rr. destruct (HR r Rr) as (M & _). unfold forget. apply (mok_edges b). auto.
    + intros r Rr. apply (HR r Rr).
    + intros r Rr. destruct (HR r Rr) as (_ & _ & _ & _ & _ & _ & _ & G & _). rewrite G. destruct (HS r Rr) as (m & -> & _). cbn [fst p_gone]. apply (wi_gone _ _ _ _ I r Rr).
    + intros r u s Rr C. destruct (Cr r u s Rr) as [C1 C2].
      assert (Old : 1 <= cnt u s (p_man (P r)) /\ ~ (In (u, s) (map (fun e => ends r (fst e)) (rem r)) /\ cnt u s (p_man (P r)) = 1)).
      { destruct (in_dec (fun a b => keq_dec a b) (u, s) (map (fun e => ends r (fst e)) (rem r))) as [Z|Z]; [rewrite (C1 Z) in C|rewrite (C2 Z) in C]; split; try lia. tauto. }
      destruct Old as [O1 O2]. destruct (wi_tag _ _ _ _ I r u s Rr O1) as [Rs G]. split; auto.
      destruct (HR s Rs) as (_ & _ & Gd & _). destruct (HS s Rs) as (m & Hs & _ & Gm & Qm & _). rewrite Hs in Gd. cbn [fst p_man] in Gd. destruct (Gd u) as [Z|(Z1 & i & k & Z2 & Z3)]; auto; [unfold gh in *; rewrite Gm; auto|]. exfalso. apply O2.
      assert (Q : is_requested u (p_man (P s)) = false) by (unfold is_requested in *; rewrite <- Qm; auto).
      apply inbox_In in Z2 as [Ri Z2]. apply (Msg i (h i) s k (HS i Ri) Ri) in Z2 as (Zs & e & E1 & Y & Gn). destruct (by_touches dir n b k e B E1) as (T & L & _). rewrite Y in T. destruct (turn i k T L) as (_ & _ & _ & M2). rewrite <- Zs in M2.
      rewrite M2 in Z3. destruct (mine_other i k T L) as (Lm & _). destruct (cnt_lr b r _ u s (wi_m _ _ _ _ I r Rr) O1) as [Lu _]. assert (i = r) by congruence. subst i.
      split; [|apply (wi_one _ _ _ _ I r u s Rr Rs Q O1)]. apply Er; auto. exists k, e. split; [auto|]. split; [congruence|]. split; [auto|]. split; congruence.
    + intros k e E1 S1. apply (forget_ent b k e Wf) in E1 as [E1 S2]. destruct (by_touches dir n b k e B E1) as (T & L & Rr & _). destruct (Cr (e_by e) (mine (e_by e) k) (lr (other (e_by e) k)) Rr) as [_ C2]. rewrite C2; [apply (wi_cnt _ _ _ _ I k e E1 S1)|].
      intros Z. apply Er in Z as (k' & e' & E' & Y' & G' & Z1 & Z2); auto. assert (k = k') by (apply (bo_only _ _ _ B k' e' k e); auto; rewrite Y'; auto). subst k'. unfold ent in *. congruence.
    + intros r u s Rr Rs Q C. rewrite (Qr s u Rs) in Q. destruct (Cr r u s Rr) as [C1 C2].
      assert (O1 : 1 <= cnt u s (p_man (P r))) by (destruct (in_dec (fun a b => keq_dec a b) (u, s) (map (fun e => ends r (fst e)) (rem r))) as [Z|Z]; [rewrite (C1 Z) in C|rewrite (C2 Z) in C]; lia).
      destruct (wi_one _ _ _ _ I r u s Rr Rs Q O1) as (C3 & k & e & E1 & Y & S1 & M1 & M2).
      assert (N : ~ In (u, s) (map (fun e => ends r (fst e)) (rem r))) by (intros Z; rewrite (C1 Z), C3 in C; lia).
      rewrite (C2 N). split; auto. exists k, e. split; [|auto]. apply (forget_ent b k e Wf). split; auto. intros G. apply N. apply Er; auto. exists k, e. auto 10.
    + intros k e E1 S1. pose proof E1 as E2. apply (forget_ent b k e Wf) in E2 as [E2 _]. destruct (by_touches dir n b k e B E2) as (T & L & Rr & Rs). destruct (turn (e_by e) k T L) as (T2 & _).
      destruct (HR (e_by e) Rr) as (_ & _ & _ & _ & _ & N1 & N2 & _). destruct (HS (e_by e) Rr) as (m & Hr & _). rewrite Hr in N1, N2. cbn [fst p_net set_rem n_new n_upd] in N1, N2.
      destruct (HR _ Rs) as (_ & _ & _ & _ & _ & _ & _ & _ & V). destruct (HS _ Rs) as (m2 & Hs & _). rewrite Hs in V. cbn [fst p_net set_rem n_g] in V.
      destruct (wi_attrs _ _ _ _ I k e E2 S1) as [D|A]; [left; unfold dirty; rewrite N1, N2; auto|]. right. intros q x. rewrite (V k e E1 T2 q x). apply A.
Qed.
End Rem.
