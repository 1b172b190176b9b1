(** The calls of one rank keep the invariant. *)
From Coq Require Import List Arith ZArith Lia Bool.
From Verif Require Import PyDict AgentModel WorldModel NetModel NetSpec NetProofs NetWorldModel NetWorldSpec NetWorldBase NetWorldInv NetWorldCalls.
Import ListNotations.
Open Scope Z_scope.

Lemma nodup_names_wf : forall kw, nodup_names kw = true -> dwf kw.
Proof.
  intros kw H. unfold nodup_names in H. rewrite forallb_forall in H. unfold dwf.
  assert (G : forall pre, (forall e, In e kw -> length (filter (fun x => fst x =? fst e) (pre ++ kw)) = 1%nat) -> NoDup (dkeys kw)).
  { clear H. induction kw as [|e kw IH]; intros pre H; [constructor|]. cbn. constructor.
    - intros I. apply in_map_iff in I as (e2 & E & I). pose proof (H e (or_introl eq_refl)) as X. rewrite filter_app in X. cbn in X. rewrite Z.eqb_refl in X. rewrite app_length in X. cbn in X.
      apply in_split in I as (l1 & l2 & ->). rewrite filter_app in X. cbn in X. rewrite E, Z.eqb_refl in X. rewrite app_length in X. cbn in X. lia.
    - apply (IH (pre ++ [e])). intros e2 I. rewrite <- app_assoc. apply H. right. auto. }
  apply (G []). intros e I. apply Nat.eqb_eq, H. auto.
Qed.
Lemma same_trans : forall dir a b c d e f, same_edge dir a b c d -> same_edge dir c d e f -> same_edge dir a b e f.
Proof. intros dir a b c d e f [[-> ->]|(D & -> & ->)] [[-> ->]|(D2 & -> & ->)]; unfold same_edge; auto. Qed.
Lemma has_nodes : forall dir u v g, gok dir g -> has u v g -> has_node u g = true /\ has_node v g = true.
Proof.
  intros dir u v g G H. unfold has in H. destruct (edge_ref u v g) as [r|] eqn:E; [|congruence]. split; [apply (eref_node u v _ r E)|apply (go_closed _ _ G u v r E)].
Qed.
Lemma book_eta : forall b, Book (b_agents b) (b_req b) (b_edges b) = b.
Proof. intros []. auto. Qed.

Section Edges.
Variable dir : bool.
Variable n : nat.
Notation eok := (eok dir). Notation bok := (bok dir n). Notation winv := (winv dir n). Notation nok := (nok dir).
Lemma acts_off : forall o u v kw g g', (o = NAddEdge u v kw \/ o = NUpdate u v kw \/ o = NRemoveEdge u v) -> acts dir o g g' ->
  forall x y q z, ~ same_edge dir u v x y -> (val x y q z g' <-> val x y q z g).
Proof.
  intros o u v kw g g' O (A1 & A2 & _) x y q z N. rewrite A2, A1.
  assert (W1 : forall z, ~ writes dir x y q z o) by (intros w W; apply N; destruct O as [->|[->| ->]]; cbn in W; try tauto; destruct W; apply same_sym; auto).
  assert (W2 : ~ kills dir x y o) by (intros W; destruct O as [->|[->| ->]]; cbn in W; try tauto; apply N, same_sym; auto).
  split; [intros [_ [W|[W _]]]; [exfalso; apply (W1 z); auto|auto]|]. intros W. split; auto. right. split; auto. apply (val_has x y q z). auto.
Qed.
Lemma known_ok : forall b r m t w, bok b -> mok b r m -> eok b r m t -> known r w b = true -> lr w <> r -> gh w m /\ (has_node w (n_g t) = true \/ is_requested w m = true).
Proof.
  intros b r m t w B M H K L. unfold known in K. apply orb_true_iff in K as [K|K].
  - apply existsb_exists in K as ([s u] & I & E). apply keq_ok in E. inversion E; subst. apply (m_req _ _ _ M) in I. split; auto. apply (m_rgh _ _ _ M). auto.
  - apply existsb_exists in K as ([k e] & I & E). cbn [fst snd] in E. apply andb_true_iff in E as [E E4]. apply andb_true_iff in E as [E E3]. apply andb_true_iff in E as [E1 E2].
    apply Z.eqb_eq in E1, E4. apply keq_ok in E3. apply negb_true_iff in E2. apply In_dget in I; [|apply B].
    destruct (by_touches dir n b k e B I) as (T & N & _). rewrite E1 in T. destruct (turn (lr w) k T N) as (T2 & _ & M1 & M2). rewrite E4 in T2, M1, M2.
    assert (NN : e_stat e <> New) by (intros X; rewrite X in E2; discriminate).
    destruct (eo_theirs _ _ _ _ _ H k e I) as ((Hh & _) & G & _); auto; [congruence|]. rewrite M2, E3 in G. split; auto. left.
    destruct (has_nodes dir _ _ _ (proj1 (eo_nok _ _ _ _ _ H)) Hh) as [H1 H2]. destruct (mine_other (lr w) k T N) as (_ & _ & [[X _]|[X _]]); rewrite <- E3, X; auto.
Qed.
Lemma add_cross : forall r u v kw t, nok t -> lr u <> lr v -> touches r (u, v) -> let t' := add_edge dir r lr u v kw t in
  n_g t' = g_add_edge dir u v kw (n_g t) /\ n_keys t' = n_keys (add_key dir u v t) /\ n_upd t' = n_upd t /\ n_ghosted t' = n_ghosted t /\
  n_rem t' = ddel (u, v) (n_rem t) /\ n_ref t' = (if has_node (other r (u, v)) (n_g t) then n_ref t else n_ref t ++ [other r (u, v)]) /\
  exists rf, edge_ref u v (n_g t') = Some rf /\ n_new t' = dset (u, v) (GEdge (mine r (u, v)) (other r (u, v)) rf) (n_new t).
Proof.
  intros r u v kw t [G K] L T t'. destruct (add_edge_g dir r lr u v kw t) as [E1 E2]. split; auto. split; auto.
  assert (X : t' = add_ghost_edge dir u v (mine r (u, v)) (other r (u, v)) kw t).
  { unfold t', add_edge, here, mine, other. cbn [fst snd]. unfold touches in T. cbn [fst snd] in T. destruct (Z.eqb_spec (lr u) r), (Z.eqb_spec (lr v) r); cbn; auto; [congruence|destruct T; congruence]. }
  assert (R : exists rf, edge_ref u v (g_add_edge dir u v kw (n_g t)) = Some rf).
  { rewrite add_edge_ref by auto. rewrite (proj2 (sameb_ok dir u v u v)) by (left; auto). eauto. }
  destruct R as (rf & R). assert (E3 : edge_ref u v (n_g t') = Some rf) by (unfold t'; rewrite E1; auto).
  rewrite X in *. unfold add_ghost_edge in *. destruct (has_node (other r (u, v)) (n_g t)); cbn zeta in *; rewrite !add_key_g in *; cbn [set_g set_ref n_g] in *; rewrite R in *;
  unfold add_key; destruct dir; cbn; repeat (split; [reflexivity|]); exists rf; auto.
Qed.

Lemma call_add : forall b P r u v kw, winv b P -> rk n r -> lr u <> lr v -> call_ok dir n r (NAddEdge u v kw) b = true ->
  winv (call_book dir r (NAddEdge u v kw) b) (put P r (Peer (p_man (P r)) (add_edge dir r lr u v kw (p_net (P r))) (p_gone (P r)))).
Proof.
  intros b P r u v kw I R L C. pose proof (wi_b _ _ _ _ I) as B. pose proof (wi_e _ _ _ _ I r R) as H. pose proof (wi_m _ _ _ _ I r R) as M.
  unfold call_ok in C. apply andb_true_iff in C as [_ C]. apply andb_true_iff in C as [C C2]. apply andb_true_iff in C as [C Av]. apply andb_true_iff in C as [Kw Au].
  assert (X : cross_rank u v = true) by (unfold cross_rank; apply negb_true_iff, Z.eqb_neq; auto). rewrite X in C2. apply andb_true_iff in C2 as [Kn C2].
  apply nodup_names_wf in Kw. unfold has_agent in Au, Av. apply existsb_exists in Au as (u2 & Au & U2), Av as (v2 & Av & V2). apply keq_ok in U2, V2. subst u2 v2.
  set (t := p_net (P r)) in *. set (m := p_man (P r)) in *. set (t' := add_edge dir r lr u v kw t).
  assert (T : touches r (u, v)) by (unfold touches; cbn; apply orb_true_iff in Kn as [Kn|Kn]; apply andb_true_iff in Kn as [Kn _]; apply Z.eqb_eq in Kn; auto).
  assert (Ko : known r (other r (u, v)) b = true).
  { unfold other. cbn [fst snd]. destruct (Z.eqb_spec (lr u) r); apply orb_true_iff in Kn as [Kn|Kn]; apply andb_true_iff in Kn as [K1 Kn]; auto; try discriminate; try apply Z.eqb_eq in K1; congruence. }
  destruct (mine_other r (u, v) T L) as (_ & Lo & _). destruct (known_ok b r m t _ B M H Ko Lo) as [Gh Nd].
  destruct (add_cross r u v kw t (eo_nok _ _ _ _ _ H) L T) as (E1 & E2 & E3 & E4 & E5 & E6 & rf & E7 & E8). fold t' in E1, E2, E3, E4, E5, E6, E7, E8.
  destruct (step_ok dir r lr t (NAddEdge u v kw) (eo_nok _ _ _ _ _ H) Kw) as [A N']. cbn [nstep fst] in A, N'. fold t' in A, N'.
  (* the new book *)
  assert (O : exists e', call_book dir r (NAddEdge u v kw) b = edit_book b (u, v) e' /\ e_by e' = r /\ e_stat e' <> Gone /\
     ((key_of dir u v b = None /\ e_stat e' = New /\ e_attrs e' = aupdate kw []) \/
      (exists e, ent b (u, v) e /\ e_by e = r /\ e_stat e' = e_stat e /\ e_attrs e' = aupdate kw (e_attrs e)))).
  { cbn [call_book]. rewrite X. destruct (key_of dir u v b) as [k|] eqn:Ek.
    - destruct (key_some dir u v b k Ek) as ((e & Ee & El) & _ & _). rewrite El in C2. apply andb_true_iff in C2 as [C2 C3]. apply andb_true_iff in C2 as [C1 C2]. apply keq_ok in C1. subst k. apply Z.eqb_eq in C2. apply negb_true_iff in C3.
      unfold edit. unfold ent in Ee. rewrite Ee. eexists. split; [reflexivity|]. cbn. split; auto. split; [intros Q; rewrite Q in C3; discriminate|]. right. exists e. auto.
    - eexists. split; [reflexivity|]. cbn. split; auto. split; [discriminate|]. left. auto. }
  destruct O as (e' & -> & Y & S & O).
  assert (Al : alone dir b (u, v)).
  { intros k e E K S2. destruct O as [(O & _)|(e0 & O & _)].
    - destruct (key_none dir u v b O) as (Q1 & Q2 & _). destruct S2 as [[S1 S2]|(D & S1 & S2)]; [destruct k; cbn in *; congruence|]. assert (k = (v, u)) by (destruct k; cbn in *; congruence). subst k. apply (Q2 D e E).
    - pose proof (key_unique dir n b u v k e B E S2) as Q1. pose proof (key_unique dir n b u v (u, v) e0 B O (or_introl (conj eq_refl eq_refl))) as Q2. congruence. }
  assert (F : framed_off dir (u, v) t t').
  { split; cbn [fst snd]; try rewrite E3; try rewrite E4; try rewrite E5; try rewrite E8; try tauto.
    - intros x y Q. rewrite E1, add_edge_ref by apply H. rewrite (proj2 (sameb_no dir u v x y)); auto.
    - intros x y q z Q. apply (acts_off (NAddEdge u v kw) u v kw); auto.
    - intros D x y Q. rewrite E2, add_key_get by auto. rewrite (proj2 (sameb_no false u v x y)); auto. rewrite <- D. auto.
    - intros k Q. rewrite dget_dset. apply keq_neq in Q. rewrite Q. auto.
    - intros k Q. rewrite dget_ddel. apply keq_neq in Q. rewrite Q. auto. }
  assert (Nx : forall e, ent b (u, v) e -> e_stat e <> Gone -> edge_ref u v (n_g t) <> None).
  { intros e Ee Se. destruct O as [(O & _)|(e0 & O & Oy & _)]; [destruct (key_none dir u v b O) as (Q1 & _); exfalso; apply (Q1 e Ee)|]. assert (e0 = e) by (unfold ent in *; congruence). subst. apply (eo_own _ _ _ _ _ H (u, v) e Ee Oy Se). }
  assert (Rf : forall x, edge_ref u v (n_g t) = Some x -> x = rf).
  { intros x Q. pose proof E7 as Q7. rewrite E1, add_edge_ref in Q7 by apply H. rewrite (proj2 (sameb_ok dir u v u v)) in Q7 by (left; auto). rewrite Q in Q7. congruence. }
  assert (Vl : same_attrs (u, v) (e_attrs e') (n_g t')).
  { intros q x. unfold kval. cbn [fst snd]. destruct A as (A1 & A2 & _). rewrite A2, A1. cbn [adds kills writes].
    assert (Sm : same_edge dir u v u v) by (left; auto). destruct O as [(O & _ & ->)|(e & Oe & Oy & Os & ->)]; rewrite dget_aupdate by auto.
    - assert (Nh : ~ has u v (n_g t)).
      { intros Hh. destruct (eo_those _ _ _ _ _ H u v Hh L T) as (k & e & S1 & S2 & _). pose proof (key_unique dir n b u v k e B S2 S1). congruence. }
      cbn [dget]. split.
      + intros [_ [[_ W]|[W _]]]; [rewrite W; auto|]. exfalso. apply Nh, (val_has u v q x). auto.
      + intros W. split; auto. left. split; auto. destruct (dget q kw); [auto|discriminate].
    - destruct (eo_own _ _ _ _ _ H (u, v) e Oe Oy) as (_ & Va & _); [congruence|]. specialize (Va q x). unfold kval in Va. cbn [fst snd] in Va. rewrite Va. split.
      + intros [_ [[_ W]|[W1 W2]]]; [rewrite W; auto|]. destruct (dget q kw) as [y|] eqn:Q; auto. exfalso. apply (W2 y). auto.
      + intros W. split; auto. destruct (dget q kw) as [y|] eqn:Q; [left; split; auto|]. right. split; auto. intros y [_ Z]. discriminate. }
  assert (Td : tied dir (u, v) t').
  { split; [unfold has; cbn [fst snd]; congruence|]. intros D. unfold flip. cbn [fst snd]. rewrite E2, !add_key_get by auto. rewrite (proj2 (sameb_ok false u v u v)), (proj2 (sameb_ok false u v v u)); auto; [right|left]; auto. }
  apply (winv_edit dir n b P r (u, v) e' t'); auto.
  - destruct O as [(O & O2 & _)|(e & Oe & Oy & Os & Oa)].
    + left. destruct (key_none dir u v b O) as (Q1 & Q2 & _). split; [apply no_ent; auto|]. split; auto. intros D. apply no_ent, Q2. auto.
    + right. exists e. split; auto. split; auto. split; auto. intros q Q. rewrite Oa, dget_aupdate by auto. destruct (dget q kw); auto. discriminate.
  - apply (eok_off dir b _ (u, v) e' r m t t'); auto; try congruence.
    + unfold heap_wf. rewrite E1. apply add_edge_wf; apply H.
    + intros w. rewrite E6. fold m. destruct Nd as [Nd|Nd]; [rewrite Nd; apply (eo_ref _ _ _ _ _ H)|]. destruct (has_node _ _); [apply (eo_ref _ _ _ _ _ H)|]. rewrite in_app_iff. intros [W|[<-|[]]]; auto. apply (eo_ref _ _ _ _ _ H); auto.
    + intros _ Z. unfold dmem. rewrite E8, dget_dset, keq_refl. auto.
    + intros _ Z. unfold dmem. rewrite E4. destruct O as [(O & O2 & _)|(e & Oe & Oy & Os & Oa)]; [congruence|]. apply (eo_own_done _ _ _ _ _ H (u, v) e Oe); congruence.
    + intros ge. rewrite E8, dget_dset, keq_refl. intros Q. inversion Q. split; auto. split; auto. split; auto.
    + intros ge. rewrite E4. intros Q. split; auto. split; auto. destruct (eo_ghosted _ _ _ _ _ H (u, v) ge Q) as (_ & G1 & G2 & G3). split; auto. split; auto. cbn [fst snd] in *. rewrite E7. f_equal. symmetry. apply (Rf _ G3).
    + rewrite E5. apply dwf_ddel, H.
    + rewrite E8. apply dwf_dset, H.
    + intros f. rewrite E5, dget_ddel, keq_refl. split; [discriminate|]. intros (_ & Q & _). congruence.
  - intros Q. left. unfold dmem. rewrite E8, dget_dset, keq_refl. auto.
Qed.

Lemma get_key_tied : forall u v k t, tied dir k t -> same_edge dir u v (fst k) (snd k) -> get_key dir u v t = Some k.
Proof.
  intros u v [x y] t [_ T] S. cbn [fst snd] in *. unfold get_key. destruct S as [[-> ->]|(D & -> & ->)].
  - destruct dir eqn:D; auto. apply T. auto.
  - rewrite D. unfold flip in T. cbn [fst snd] in T. apply T. auto.
Qed.
Lemma cross_eq : forall r u v, lr u <> lr v -> lr u = r \/ lr v = r -> cross r lr u v = true.
Proof. intros r u v L T. unfold cross, here. destruct (Z.eqb_spec (lr u) r), (Z.eqb_spec (lr v) r); auto; [congruence|destruct T; congruence]. Qed.
Lemma same_cross : forall u v k, same_edge dir u v (fst k) (snd k) -> lr u <> lr v -> lr (fst k) <> lr (snd k) /\ forall r, (touches r k <-> lr u = r \/ lr v = r).
Proof. intros u v [x y] [[E1 E2]|(D & E1 & E2)] L; unfold touches; cbn [fst snd] in *; subst; split; auto; intros; tauto. Qed.
Lemma alone_key : forall b k e, bok b -> ent b k e -> alone dir b k.
Proof.
  intros b k e B E k2 e2 E2 N S. pose proof (key_unique dir n b _ _ k2 e2 B E2 S) as Q1. pose proof (key_unique dir n b (fst k) (snd k) k e B E (or_introl (conj eq_refl eq_refl))) as Q2. congruence.
Qed.
Lemma call_update : forall b P r u v kw, winv b P -> rk n r -> lr u <> lr v -> call_ok dir n r (NUpdate u v kw) b = true ->
  winv (call_book dir r (NUpdate u v kw) b) (put P r (Peer (p_man (P r)) (fst (update_edge dir r lr u v kw (p_net (P r)))) (p_gone (P r)))).
Proof.
  intros b P r u v kw I R L C. pose proof (wi_b _ _ _ _ I) as B. pose proof (wi_e _ _ _ _ I r R) as H. pose proof (wi_m _ _ _ _ I r R) as M.
  unfold call_ok in C. apply andb_true_iff in C as [_ C]. apply andb_true_iff in C as [Kw C].
  assert (X : cross_rank u v = true) by (unfold cross_rank; apply negb_true_iff, Z.eqb_neq; auto). rewrite X in C. apply nodup_names_wf in Kw.
  cbn [call_book]. rewrite X. destruct (key_of dir u v b) as [k|] eqn:Ek; [|destruct (key_none dir u v b Ek) as (_ & _ & El); rewrite El in C; discriminate].
  destruct (key_some dir u v b k Ek) as ((e & Ee & El) & Sm & _). rewrite El in C. apply andb_true_iff in C as [C1 C2]. apply Z.eqb_eq in C1. assert (S : e_stat e <> Gone) by (intros Q; rewrite Q in C2; discriminate). clear C2.
  set (t := p_net (P r)) in *. set (m := p_man (P r)) in *. set (t' := fst (update_edge dir r lr u v kw t)).
  destruct (eo_own _ _ _ _ _ H k e Ee C1 S) as (Td & Va & Gh). destruct (same_cross u v k Sm L) as [Lk Tk]. destruct (by_touches dir n b k e B Ee) as (T & _). rewrite C1 in T. pose proof (proj1 (Tk r) T) as Tr.
  destruct (bo_ent _ _ _ B k e Ee) as (_ & Au & Av & _).
  destruct (step_ok dir r lr t (NUpdate u v kw) (eo_nok _ _ _ _ _ H) Kw) as [A N']. cbn [nstep] in A, N'. fold t' in A, N'.
  assert (Parts : (forall x y, edge_ref x y (n_g t') = edge_ref x y (n_g t)) /\ heap_wf (n_g t') /\ n_keys t' = n_keys t /\ n_ghosted t' = n_ghosted t /\ n_new t' = n_new t /\ n_rem t' = n_rem t /\ n_ref t' = n_ref t /\
     forall x, In x (n_upd t') <-> x = k \/ In x (n_upd t)).
  { unfold t', update_edge. rewrite (get_key_tied u v k t Td Sm). destruct Td as [Td _]. unfold has in Td. destruct (edge_ref (fst k) (snd k) (n_g t)) as [rf|] eqn:Er; [|congruence].
    rewrite (cross_eq r u v L Tr).
    assert (Up : forall t2 : net, (forall x, In x (n_upd (if existsb (keq k) (n_upd t2) then t2 else set_upd t2 (n_upd t2 ++ [k]))) <-> x = k \/ In x (n_upd t2)) /\ exists l, (if existsb (keq k) (n_upd t2) then t2 else set_upd t2 (n_upd t2 ++ [k])) = set_upd t2 l).
    { intros t2. destruct (existsb (keq k) (n_upd t2)) eqn:Q.
      - split; [|exists (n_upd t2); destruct t2; auto]. intros x. split; auto. intros [->|Z]; auto. apply existsb_exists in Q as (y & Y & Z). apply keq_ok in Z. subst. auto.
      - split; [|exists (n_upd t2 ++ [k]); auto]. intros x. cbn [set_upd n_upd]. rewrite in_app_iff. cbn. intuition. }
    destruct kw as [|w kw]; cbn [fst].
    - destruct (Up t) as (U1 & l & U2). rewrite U2 in *. cbn [set_upd n_g n_keys n_ghosted n_new n_rem n_ref]. repeat (split; [reflexivity || apply H|]). auto.
    - destruct (Up (set_g t (write rf (aupdate (w :: kw) (read rf (n_g t))) (n_g t)))) as (U1 & l & U2). rewrite U2 in *. cbn [set_upd set_g n_g n_keys n_ghosted n_new n_rem n_ref n_upd] in *. split; [reflexivity|].
      split; [apply write_wf; [apply H|]; apply aupdate_wf, read_wf, H|]. repeat (split; [reflexivity|]). auto. }
  destruct Parts as (E1 & E2 & E3 & E4 & E5 & E6 & E7 & E8).
  unfold edit. unfold ent in Ee. rewrite Ee. fold (ent b k e) in Ee. fold (edit_book b k (Entry (e_by e) (aupdate kw (e_attrs e)) (e_stat e))).
  set (e' := Entry (e_by e) (aupdate kw (e_attrs e)) (e_stat e)).
  assert (F : framed_off dir k t t').
  { split; try rewrite E3; try rewrite E4; try rewrite E5; try rewrite E6; auto.
    - intros x y q z Q. apply (acts_off (NUpdate u v kw) u v kw); auto. intros Z. apply Q. apply (same_trans dir _ _ u v); auto. apply same_sym. auto.
    - intros k2 Q. rewrite E8. split; auto. intros [Z|Z]; auto. congruence. }
  assert (Td' : tied dir k t').
  { destruct Td as [T1 T2]. split; [unfold has; rewrite E1; auto|]. rewrite E3. auto. }
  assert (Vl : same_attrs k (e_attrs e') (n_g t')).
  { intros q x. unfold kval. destruct A as (A1 & A2 & _). rewrite A2. cbn [writes]. assert (Hk : has (fst k) (snd k) (n_g t')) by apply Td'. rewrite (Va q x).
    assert (Sm2 : same_edge dir (fst k) (snd k) u v) by (apply same_sym; auto). cbn [e_attrs e']. rewrite dget_aupdate by auto. split.
    - intros [_ [[_ W]|[W1 W2]]]; [rewrite W; auto|]. destruct (dget q kw) as [y|] eqn:Q; auto. exfalso. apply (W2 y). auto.
    - intros W. split; auto. destruct (dget q kw) as [y|] eqn:Q; [left; split; auto|]. right. split; auto. intros y [_ Z]. discriminate. }
  apply (winv_edit dir n b P r k e' t'); auto.
  - right. exists e. split; auto. split; auto. split; auto. cbn [e' e_attrs]. intros q Q. rewrite dget_aupdate by auto. destruct (dget q kw); auto. discriminate.
  - apply (eok_off dir b _ k e' r m t t'); auto; try rewrite E4; try rewrite E5; try rewrite E6; try rewrite E7; cbn [e' e_by e_stat]; try (intros; congruence); try apply (eo_rem_wf _ _ _ _ _ H); try apply (eo_new_wf _ _ _ _ _ H); try apply (eo_ref _ _ _ _ _ H).
    + apply (alone_key b k e B Ee).
    + intros _ Q. apply (eo_own_new _ _ _ _ _ H k e Ee C1 Q).
    + intros _ Q. apply (eo_own_done _ _ _ _ _ H k e Ee C1 Q).
    + intros ge Q. destruct (eo_news _ _ _ _ _ H k ge Q) as (_ & G1 & G2 & G3). split; auto. split; auto. split; auto. split; auto. rewrite E1. auto.
    + intros ge Q. destruct (eo_ghosted _ _ _ _ _ H k ge Q) as (_ & G1 & G2 & G3). split; auto. split; auto. split; auto. split; auto. rewrite E1. auto.
    + intros f. rewrite (eo_rems _ _ _ _ _ H). split; [intros (e2 & Z1 & Z2 & Z3 & Z4)|intros (_ & Q & _); congruence]. assert (e2 = e) by (unfold ent in *; congruence). subst e2. auto.
  - intros _. right. apply E8. auto.
Qed.
Lemma call_remove : forall b P r u v, winv b P -> rk n r -> lr u <> lr v -> call_ok dir n r (NRemoveEdge u v) b = true ->
  winv (call_book dir r (NRemoveEdge u v) b) (put P r (Peer (p_man (P r)) (fst (remove_edge dir r lr u v (p_net (P r)))) (p_gone (P r)))).
Proof.
  intros b P r u v I R L C. pose proof (wi_b _ _ _ _ I) as B. pose proof (wi_e _ _ _ _ I r R) as H. pose proof (wi_m _ _ _ _ I r R) as M.
  unfold call_ok in C. apply andb_true_iff in C as [_ C].
  assert (X : cross_rank u v = true) by (unfold cross_rank; apply negb_true_iff, Z.eqb_neq; auto). rewrite X in C.
  cbn [call_book]. rewrite X. destruct (key_of dir u v b) as [k|] eqn:Ek; [|discriminate].
  destruct (key_some dir u v b k Ek) as ((e & Ee & El) & Sm & _). rewrite El in C. apply andb_true_iff in C as [C On]. apply andb_true_iff in C as [C1 C2]. apply Z.eqb_eq in C1. assert (S : e_stat e = Done) by (destruct (e_stat e); try discriminate; auto). clear C2.
  set (t := p_net (P r)) in *. set (m := p_man (P r)) in *. set (t' := fst (remove_edge dir r lr u v t)).
  destruct (eo_own _ _ _ _ _ H k e Ee C1) as (Td & Va & Gh); [congruence|]. destruct (same_cross u v k Sm L) as [Lk Tk]. destruct (by_touches dir n b k e B Ee) as (T & _). rewrite C1 in T. pose proof (proj1 (Tk r) T) as Tr.
  destruct (bo_ent _ _ _ B k e Ee) as (_ & Au & Av & _).
  destruct (step_ok dir r lr t (NRemoveEdge u v) (eo_nok _ _ _ _ _ H) Logic.I) as [A N']. cbn [nstep] in A, N'. fold t' in A, N'.
  assert (Hu : edge_ref u v (n_g t) <> None) by (rewrite (has_same dir u v (fst k) (snd k)); auto; [apply Td|apply H]).
  destruct (g_remove_edge dir u v (n_g t)) as [g|] eqn:Eg; [|exfalso; unfold g_remove_edge, has_edge, dmem in Eg; fold (edge_ref u v (n_g t)) in Eg; destruct (edge_ref u v (n_g t)); [discriminate|auto]].
  assert (Parts : n_g t' = g /\ n_upd t' = discard k (n_upd t) /\ n_ghosted t' = ddel k (n_ghosted t) /\ n_new t' = ddel k (n_new t) /\ n_rem t' = dset k (lr (fst k) =? r) (n_rem t) /\ n_ref t' = n_ref t /\
     n_keys t' = n_keys (fst (remove_key dir u v t))).
  { unfold t', remove_edge. rewrite Eg. rewrite (cross_eq r u v L Tr). assert (Gk : get_key dir u v (set_g t g) = Some k) by (rewrite <- (get_key_tied u v k t Td Sm); reflexivity). rewrite Gk.
    cbn [set_rem n_ghosted set_g]. rewrite (eo_own_done _ _ _ _ _ H k e Ee C1 S).
    assert (Hf : negb (here r lr (snd k)) = (lr (fst k) =? r)) by (unfold here; destruct T as [T|T]; destruct (Z.eqb_spec (lr (fst k)) r), (Z.eqb_spec (lr (snd k)) r); auto; congruence). rewrite Hf.
    unfold remove_key. destruct dir; [cbn; auto 10|]. cbn [set_new set_ghosted set_upd set_rem set_g n_keys]. destruct (dmem (u, v) (n_keys t)); [|cbn; auto 10]. destruct (dmem (v, u) (ddel (u, v) (n_keys t))); cbn; auto 10. }
  destruct Parts as (E1 & E2 & E3 & E4 & E5 & E6 & E7).
  unfold edit. unfold ent in Ee. rewrite Ee. fold (ent b k e) in Ee. fold (edit_book b k (Entry (e_by e) (e_attrs e) Gone)).
  set (e' := Entry (e_by e) (e_attrs e) Gone).
  assert (F : framed_off dir k t t').
  { split; try rewrite E2; try rewrite E3; try rewrite E4; try rewrite E5.
    - intros x y Q. rewrite E1, (remove_edge_ref dir u v _ _ Eg). rewrite (proj2 (sameb_no dir u v x y)); auto. intros Z. apply Q. apply (same_trans dir _ _ u v); auto. apply same_sym. auto.
    - intros x y q z Q. apply (acts_off (NRemoveEdge u v) u v []); auto. intros Z. apply Q. apply (same_trans dir _ _ u v); auto. apply same_sym. auto.
    - intros D x y Q. rewrite E7. apply remove_key_keeps; auto. rewrite <- D. intros Z. apply Q. apply (same_trans dir _ _ u v); auto. apply same_sym. auto.
    - intros k2 Q. unfold discard. rewrite filter_In, negb_true_iff, keq_neq. split; [tauto|auto].
    - intros k2 Q. rewrite dget_ddel. apply keq_neq in Q. rewrite Q. auto.
    - intros k2 Q. rewrite dget_ddel. apply keq_neq in Q. rewrite Q. auto.
    - intros k2 Q. rewrite dget_dset. apply keq_neq in Q. rewrite Q. auto. }
  apply (winv_edit dir n b P r k e' t'); auto.
  - right. exists e. split; auto. split; auto. split; auto. right. split; auto. split; auto. intros k2 e2 Q1 Q2 Q3 Q4 Q5. unfold only in On. rewrite forallb_forall in On. specialize (On (k2, e2) (dget_In _ _ _ Q1)). cbn [fst snd] in On.
    rewrite Q2, Z.eqb_refl, Q4, Q5, Z.eqb_refl, keq_refl in On. cbn [negb] in On. rewrite !orb_false_r in On. apply orb_true_iff in On as [On|On]; [apply keq_ok; auto|]. destruct (e_stat e2); [congruence|discriminate|discriminate].
  - apply (eok_off dir b _ k e' r m t t'); auto; try rewrite E6; cbn [e' e_by e_stat]; try congruence; try (intros; congruence).
    + apply (alone_key b k e B Ee).
    + unfold heap_wf. rewrite E1, (remove_edge_heap dir u v _ _ Eg). apply H.
    + apply (eo_ref _ _ _ _ _ H).
    + intros ge. rewrite E4, dget_ddel, keq_refl. discriminate.
    + intros ge. rewrite E3, dget_ddel, keq_refl. discriminate.
    + rewrite E2. unfold discard. rewrite filter_In, keq_refl. intros [_ Q]. discriminate.
    + rewrite E5. apply dwf_dset, H.
    + rewrite E4. apply dwf_ddel, H.
    + intros f. rewrite E5, dget_dset, keq_refl. split; [intros Q; inversion Q; auto|]. intros (_ & _ & ->). auto.
    + intros x y Q Q2. exfalso. destruct A as (A1 & _). apply A1 in Q as [Q|[_ Q]]; [destruct Q|]. apply Q. cbn [kills]. apply same_sym. apply (same_trans dir _ _ (fst k) (snd k)); auto.
  - discriminate.
Qed.

(** The calls that leave the edges between ranks alone. *)
Lemma winv_frame : forall b P r t', winv b P -> rk n r -> framed dir (p_net (P r)) t' -> winv b (put P r (Peer (p_man (P r)) t' (p_gone (P r)))).
Proof.
  intros b P r t' I R F. set (P' := put P r (Peer (p_man (P r)) t' (p_gone (P r)))).
  assert (Pm : forall x, p_man (P' x) = p_man (P x)) by (intros x; unfold P', put; destruct (Z.eqb_spec x r); subst; auto).
  pose proof (wi_b _ _ _ _ I) as B. split.
  - exact B.
  - intros x X. rewrite Pm. apply I. auto.
  - intros x X. rewrite Pm. unfold P', put. destruct (Z.eqb_spec x r) as [->|N]; [|apply I; auto]. cbn [p_net]. apply (eok_frame dir n b r (p_man (P r)) _ (p_net (P r))); auto. apply I. auto.
  - intros x X. unfold P', put. destruct (Z.eqb_spec x r); subst; apply (wi_gone _ _ _ _ I); auto.
  - intros x u s X. rewrite !Pm. apply (wi_tag _ _ _ _ I x u s X).
  - intros k e E S. rewrite Pm. apply (wi_cnt _ _ _ _ I k e E S).
  - intros x u s X S. rewrite !Pm. apply (wi_one _ _ _ _ I x u s X S).
  - intros k e E S. destruct (wi_attrs _ _ _ _ I k e E S) as [D|V].
    + left. unfold P', put. destruct (Z.eqb_spec (e_by e) r) as [N|N]; auto. rewrite N in D. cbn [p_net]. apply (dirty_frame dir _ _ k F). auto.
    + right. unfold P', put. destruct (Z.eqb_spec (lr (other (e_by e) k)) r) as [N|N]; auto. cbn [p_net]. intros q x. unfold kval. destruct (bo_ent _ _ _ B k e E) as (L & _). rewrite (fr_val _ _ _ F) by auto. rewrite <- N. apply V.
Qed.
Lemma call_winv : forall b P r o, winv b P -> call_ok dir n r o b = true -> exists P', wstep dir (W n P) (WCall r o) = Some (W n P') /\ winv (call_book dir r o b) P'.
Proof.
  intros b P r o I C. assert (R : rk n r) by (unfold call_ok in C; apply andb_true_iff in C as [C _]; apply andb_true_iff in C as [C1 C2]; apply Z.leb_le in C1; apply Z.ltb_lt in C2; split; auto).
  exists (put P r (Peer (p_man (P r)) (fst (nstep dir r lr (p_net (P r)) o)) (p_gone (P r)))). split; [apply (on_W n P r (net_call dir r o)); auto|].
  pose proof (wi_e _ _ _ _ I r R) as H.
  assert (Loc : forall u v kw, (o = NAddEdge u v kw \/ o = NUpdate u v kw \/ o = NRemoveEdge u v) -> named o -> lr u = lr v -> lr u = r -> winv b (put P r (Peer (p_man (P r)) (fst (nstep dir r lr (p_net (P r)) o)) (p_gone (P r))))).
  { intros u v kw O M E1 E2. apply winv_frame; auto. apply (local_framed dir r o u v kw); auto; try apply H. congruence. }
  destruct o as [u|u|u v kw|u v kw|u v|]; pose proof C as C0; unfold call_ok in C; apply andb_true_iff in C as [_ C]; try discriminate.
  - apply winv_frame; auto. cbn [nstep fst]. apply n_add_framed; apply H.
  - destruct (Z.eqb_spec (lr u) (lr v)) as [E|E]; [|apply call_add; auto]. assert (X : cross_rank u v = false) by (unfold cross_rank; rewrite E, Z.eqb_refl; auto). cbn [call_book]. rewrite X in *.
    apply andb_true_iff in C as [C C2]. apply andb_true_iff in C as [C _]. apply andb_true_iff in C as [C _]. apply Z.eqb_eq in C2. apply (Loc u v kw); auto. apply nodup_names_wf. auto.
  - destruct (Z.eqb_spec (lr u) (lr v)) as [E|E]; [|apply call_update; auto]. assert (X : cross_rank u v = false) by (unfold cross_rank; rewrite E, Z.eqb_refl; auto). cbn [call_book]. rewrite X in *.
    apply andb_true_iff in C as [C C2]. apply Z.eqb_eq in C2. apply (Loc u v kw); auto. apply nodup_names_wf. auto.
  - destruct (Z.eqb_spec (lr u) (lr v)) as [E|E]; [|apply call_remove; auto]. assert (X : cross_rank u v = false) by (unfold cross_rank; rewrite E, Z.eqb_refl; auto). cbn [call_book]. rewrite X in *.
    apply Z.eqb_eq in C. apply (Loc u v []); auto. exact Logic.I.
Qed.
Lemma eok_edges : forall b b' x m t, b_edges b' = b_edges b -> eok b x m t -> eok b' x m t.
Proof.
  intros b b' x m t E [H1 H2 H3 H4 H5 H6 H7 H8 H9 H10 H11 H12 H13 H14]. assert (En : forall k e, ent b' k e <-> ent b k e) by (intros; unfold ent; rewrite E; tauto). split; auto; intros.
  - apply H4; auto. apply En; auto.
  - apply (H5 k e); auto. apply En; auto.
  - apply (H6 k e); auto. apply En; auto.
  - destruct (H7 k ge) as ((e & E1 & E2) & E3); auto. split; auto. exists e. split; auto. apply En; auto.
  - destruct (H8 k ge) as ((e & E1 & E2) & E3); auto. split; auto. exists e. split; auto. apply En; auto.
  - destruct (H9 k) as (e & E1 & E2); auto. exists e. split; auto. apply En; auto.
  - rewrite H12. split; intros (e & E1 & E2); exists e; (split; [apply En; auto|auto]).
  - apply (H13 k e); auto. apply En; auto.
  - destruct (H14 u v) as (k & e & E1 & E2 & E3); auto. exists k, e. split; auto. split; auto. apply En; auto.
Qed.
(** A new agent. *)
Lemma agent_winv : forall b P u, winv b P -> wop_ok dir n (WAgent u) b = true -> exists P', wstep dir (W n P) (WAgent u) = Some (W n P') /\ winv (wop_book dir (WAgent u) b) P'.
Proof.
  intros b P u I C. cbn [wop_ok] in C. apply andb_true_iff in C as [C1 C2]. apply Z.leb_le in C1. apply Z.ltb_lt in C2. assert (R : rk n (lr u)) by (split; auto). set (r := lr u) in *.
  set (m' := add_local (ag u) (p_man (P r))). set (P' := put P r (Peer m' (n_add u (p_net (P r))) (p_gone (P r)))). exists P'. split; [apply (on_W n P r (ctx_add u)); auto|].
  pose proof (wi_b _ _ _ _ I) as B. pose proof (wi_e _ _ _ _ I r R) as H.
  set (b' := wop_book dir (WAgent u) b). assert (Eb : b_req b' = b_req b /\ b_edges b' = b_edges b /\ forall x, In x (b_agents b') <-> x = u \/ In x (b_agents b)).
  { unfold b', wop_book, has_agent. destruct (existsb (keq u) (b_agents b)) eqn:Q; cbn; [|split; auto; split; auto; intros; intuition]. split; auto. split; auto. intros x. split; auto. intros [->|Z]; auto. apply existsb_exists in Q as (y & Y & Z). apply keq_ok in Z. subst. auto. }
  destruct Eb as (Eq & Ee & Ea). assert (En : forall k e, ent b' k e <-> ent b k e) by (intros; unfold ent; rewrite Ee; tauto).
  assert (Pn : forall x, am_ghosted (p_man (P' x)) = am_ghosted (p_man (P x)) /\ am_ghost (p_man (P' x)) = am_ghost (p_man (P x)) /\ am_req (p_man (P' x)) = am_req (p_man (P x))) by (intros x; unfold P', put; destruct (Z.eqb_spec x r); subst; auto).
  assert (Pc : forall x a s, cnt a s (p_man (P' x)) = cnt a s (p_man (P x))) by (intros x a s; unfold cnt; destruct (Pn x) as (-> & _); auto).
  assert (Pg : forall x a, gh a (p_man (P' x)) <-> gh a (p_man (P x))) by (intros x a; unfold gh; destruct (Pn x) as (_ & -> & _); tauto).
  assert (Pr : forall x a, is_requested a (p_man (P' x)) = is_requested a (p_man (P x))) by (intros x a; unfold is_requested; destruct (Pn x) as (_ & _ & ->); auto).
  assert (Ke : forall x m t, eok b x m t -> eok b' x m t) by (intros x m t; apply eok_edges; auto).
  split.
  - destruct B as [B1 B2 B3 B4 B5 B6]. split.
    + rewrite Ee. auto.
    + intros x. rewrite Ea. intros [->|X]; auto.
    + intros s x. rewrite Eq. intros X. destruct (B3 s x X) as (X1 & X2 & X3). rewrite Ea. auto.
    + intros k e E. apply En in E. rewrite !Ea. destruct (B4 k e E) as (X1 & X2 & X3 & X4). auto.
    + intros D k e e2 E E2. apply En in E, E2. apply (B5 D k e e2 E E2).
    + intros k e k2 e2 E S E2. apply En in E, E2. apply (B6 k e k2 e2 E S E2).
  - intros x X. destruct (wi_m _ _ _ _ I x X) as [M1 Mw M2 M3 M4 M5 M6]. split.
    + intros a. rewrite Ea. unfold P', put. destruct (Z.eqb_spec x r) as [->|N].
      * cbn [p_man]. unfold m', add_local. cbn [am_local upd_local upd_lrank a_uid ag]. rewrite dmem_dset, orb_true_iff, keq_ok, M1. fold r. intuition. subst. auto.
      * rewrite M1. split; [tauto|]. intros [[->|Y] Z]; auto. exfalso. apply N. auto.
    + destruct (Pn x) as (-> & _). auto.
    + intros y a. unfold P', put. destruct (Z.eqb_spec x r) as [->|N]; [|apply M2]. cbn [p_man]. unfold m', add_local. cbn [am_local upd_local upd_lrank a_uid ag]. rewrite dget_dset. destruct (keq y u) eqn:K; [|apply M2]. apply keq_ok in K. intros Q. inversion Q. cbn. auto.
    + intros y g. destruct (Pn x) as (-> & _). intros Q. destruct (M3 y g Q) as (Q1 & Q2 & Q3). rewrite Ea. auto.
    + intros y g. destruct (Pn x) as (_ & -> & _). intros Q. destruct (M4 y g Q) as (Q1 & Q2 & Q3). rewrite Ea. auto.
    + intros y. rewrite Pr, Eq. auto.
    + intros y. rewrite Pr, Pg. auto.
  - intros x X. apply Ke. pose proof (wi_e _ _ _ _ I x X) as Hx. apply (eok_frame dir n b x (p_man (P x)) _ (p_net (P x))); auto.
    + unfold P', put. destruct (Z.eqb_spec x r) as [->|N]; [apply n_add_framed|apply framed_refl]; apply Hx.
    + intros y. rewrite Pr. auto.
    + intros y. rewrite Pg. auto.
  - intros x X. unfold P', put. destruct (Z.eqb_spec x r); subst; apply (wi_gone _ _ _ _ I); auto.
  - intros x a s X. rewrite Pc, Pg. apply (wi_tag _ _ _ _ I x a s X).
  - intros k e E S. rewrite Pc. apply (wi_cnt _ _ _ _ I k e); auto. apply En; auto.
  - intros x a s X S. rewrite Pc, Pr. intros Q1 Q2. destruct (wi_one _ _ _ _ I x a s X S Q1 Q2) as (Q3 & k & e & E & Z). split; auto. exists k, e. split; auto. apply En; auto.
  - intros k e E S. apply En in E. destruct (wi_attrs _ _ _ _ I k e E S) as [D|V].
    + left. unfold P', put. destruct (Z.eqb_spec (e_by e) r) as [N|N]; auto. rewrite N in D. auto.
    + right. unfold P', put. destruct (Z.eqb_spec (lr (other (e_by e) k)) r) as [N|N]; auto. cbn [p_net]. intros q x. rewrite N in V. rewrite <- (V q x). unfold kval. destruct (bo_ent _ _ _ B k e E) as (L & _). apply (fr_val dir (p_net (P r)) (n_add u (p_net (P r)))); auto. apply n_add_framed; apply H.
Qed.
End Edges.
