(** Histories that keep to the book. *)
From Coq Require Import List Arith ZArith Lia Bool.
From Verif Require Import PyDict AgentModel WorldModel NetModel NetSpec NetProofs NetWorldModel NetWorldSpec NetWorldBase NetWorldInv NetWorldCalls NetWorldEdges NetWorldReq NetWorldPre NetWorldRem NetWorldVert.
Import ListNotations.
Open Scope Z_scope.

(** The calls on the network, of all ranks, in their order. *)
Definition calls (ops : list wop) : list nop := flat_map (fun o => match o with WCall _ o => [o] | _ => [] end) ops.

Section Sync.
Variable dir : bool.
Variable n : nat.
Notation eok := (eok dir). Notation bok := (bok dir n). Notation winv := (winv dir n). Notation nok := (nok dir).
Definition clean (P : Z -> peer) : Prop := forall r, rk n r -> n_new (p_net (P r)) = [] /\ n_upd (p_net (P r)) = [].
Lemma synch_winv : forall b P, winv b P -> exists P', wstep dir (W n P) WSynch = Some (W n P') /\ winv (wop_book dir WSynch b) P' /\ clean P'.
Proof.
  intros b P I. cbn [wstep wop_book]. unfold synchronize. destruct (pre_winv dir n b P I) as (P1 & -> & I1 & _). cbn [obind]. rewrite (gone_winv dir n b P1 I1). cbn [obind]. rewrite (state_winv dir n b P1 I1). cbn [obind].
  destruct (removed_winv dir n b P1 I1) as (P2 & -> & I2). cbn [obind]. apply vertices_winv; auto. intros k e E. apply (forget_ent b k e) in E as [_ E]; auto. apply (wi_b _ _ _ _ I).
Qed.
Lemma step_winv : forall b P o, winv b P -> wop_ok dir n o b = true -> exists P', wstep dir (W n P) o = Some (W n P') /\ winv (wop_book dir o b) P'.
Proof.
  intros b P [u|u|reqs|r o|] I C.
  - apply agent_winv; auto.
  - discriminate.
  - apply request_winv; auto.
  - apply call_winv; auto.
  - destruct (synch_winv b P I) as (P' & E & I' & _). exists P'. auto.
Qed.
Lemma init_winv : winv new_book new_peer.
Proof.
  assert (N : forall k e, ~ ent new_book k e) by (intros k e E; discriminate).
  split; try (intros; exfalso; eapply N; eassumption).
  - split; try (intros; exfalso; eapply N; eassumption); cbn; try contradiction. constructor.
  - intros r R. split; cbn; try (intros; discriminate); [intros u; split; [discriminate|tauto]|constructor|intros u; split; [discriminate|tauto]].
  - intros r R. split; cbn; try contradiction; try discriminate; try (intros; exfalso; eapply N; eassumption); try constructor.
    + apply gok_new.
    + intros D. split; cbn; [intros u v H; exfalso; apply H; reflexivity|discriminate].
    + discriminate.
    + intros (e & E & _). exfalso. apply (N k e E).
  - intros r R. reflexivity.
  - intros r u s R C. cbn in C. lia.
  - intros r u s R S Q C. cbn in C. lia.
Qed.
Lemma wrun_snoc : forall ops o w, wrun dir w (ops ++ [o]) = obind (wrun dir w ops) (fun w => wstep dir w o).
Proof. intros. unfold wrun. rewrite fold_left_app. reflexivity. Qed.
Lemma book_snoc : forall ops o, book_of dir (ops ++ [o]) = wop_book dir o (book_of dir ops).
Proof. intros. unfold book_of. rewrite fold_left_app. reflexivity. Qed.
Lemma kept_app : forall ops1 ops2 b, kept_to dir n (ops1 ++ ops2) b = kept_to dir n ops1 b && kept_to dir n ops2 (fold_left (fun b o => wop_book dir o b) ops1 b).
Proof. induction ops1 as [|o ops1 IH]; intros ops2 b; cbn [app kept_to fold_left]; auto. rewrite IH, andb_assoc. auto. Qed.
Lemma run_winv : forall ops, kept_to dir n ops new_book = true -> exists P, wrun dir (new_nworld n) ops = Some (W n P) /\ winv (book_of dir ops) P.
Proof.
  induction ops as [|o ops IH] using rev_ind; intros K.
  - exists new_peer. split; [unfold wrun, new_nworld, W, ranks; cbn; rewrite map_map; auto|apply init_winv].
  - rewrite kept_app in K. apply andb_true_iff in K as [K1 K2]. destruct (IH K1) as (P & E & I). cbn [kept_to] in K2. apply andb_true_iff in K2 as [K2 _]. destruct (step_winv _ P o I K2) as (P' & E' & I'). exists P'. rewrite wrun_snoc, E, book_snoc. auto.
Qed.

(** ** The book and the history *)
Definition at_ (b : book) (u v : uid) (e : entry) : Prop := exists k, ent b k e /\ same_edge dir u v (fst k) (snd k).
Definition told (b : book) (l : list nop) : Prop := forall u v, lr u <> lr v ->
  (present dir l u v <-> exists e, at_ b u v e /\ e_stat e <> Gone) /\
  (forall q x, last_value dir l u v q x <-> exists e, at_ b u v e /\ e_stat e <> Gone /\ dget q (e_attrs e) = Some x).
Lemma at_unique : forall b u v e e', bok b -> at_ b u v e -> at_ b u v e' -> e = e'.
Proof.
  intros b u v e e' B (k & E & S) (k' & E' & S'). pose proof (key_unique dir n b u v k e B E S). pose proof (key_unique dir n b u v k' e' B E' S'). assert (k = k') by congruence. subst k'. unfold ent in *. congruence.
Qed.
Lemma at_edit : forall b k0 e' u v e, alone dir b k0 -> (at_ (edit_book b k0 e') u v e <-> (same_edge dir u v (fst k0) (snd k0) /\ e = e') \/ (~ same_edge dir u v (fst k0) (snd k0) /\ at_ b u v e)).
Proof.
  intros b k0 e' u v e Al. split.
  - intros (k & E & S). destruct (keq_dec k k0) as [->|K]; [apply edit_same in E; auto|]. apply edit_other in E; auto. right. split; [|exists k; auto]. intros S0. apply (Al k e E K). apply (same_trans dir _ _ u v); auto. apply same_sym. auto.
  - intros [[S ->]|[S (k & E & S2)]]; [exists k0; split; auto; apply edit_same; auto|]. exists k. split; auto. apply edit_other; auto. intros ->. auto.
Qed.
Lemma told_other : forall b b' l o u v, (forall e, at_ b' u v e <-> at_ b u v e) -> ~ adds dir u v o -> ~ kills dir u v o -> (forall q x, ~ writes dir u v q x o) ->
  (present dir l u v <-> exists e, at_ b u v e /\ e_stat e <> Gone) /\ (forall q x, last_value dir l u v q x <-> exists e, at_ b u v e /\ e_stat e <> Gone /\ dget q (e_attrs e) = Some x) ->
  (present dir (l ++ [o]) u v <-> exists e, at_ b' u v e /\ e_stat e <> Gone) /\ (forall q x, last_value dir (l ++ [o]) u v q x <-> exists e, at_ b' u v e /\ e_stat e <> Gone /\ dget q (e_attrs e) = Some x).
Proof.
  intros b b' l o u v H A K Wr [T1 T2]. split.
  - rewrite present_snoc, T1. split; [intros [X|[(e & X) _]]; [contradiction|]|intros (e & X & Y)]; [exists e; rewrite H; auto|right; split; auto; exists e; rewrite <- H; auto].
  - intros q x. rewrite last_snoc, T2. split; [intros [[X _]|[(e & X) _]]; [exfalso; apply (Wr q x X)|exists e; rewrite H; auto]|intros (e & X & Y)]. right. split; [exists e; rewrite <- H; auto|]. split; auto.
Qed.
Lemma call_told : forall b l r o, bok b -> told b l -> call_ok dir n r o b = true -> told (call_book dir r o b) (l ++ [o]).
Proof.
  intros b l r o B T C u v L. destruct (T u v L) as [T1 T2].
  assert (Same : forall x y, lr x = lr y -> ~ same_edge dir u v x y) by (intros x y E [[-> ->]|(_ & -> & ->)]; congruence).
  unfold call_ok in C. apply andb_true_iff in C as [_ C].
  (* a call on the edge [x], [y] that changes the entry of the key [k0] *)
  assert (G : forall k0 e' x y, same_edge dir x y (fst k0) (snd k0) -> alone dir b k0 -> call_book dir r o b = edit_book b k0 e' -> (forall u v, adds dir u v o -> same_edge dir u v x y) -> (forall u v, kills dir u v o -> same_edge dir u v x y) -> (forall u v q z, writes dir u v q z o -> same_edge dir u v x y) ->
     (same_edge dir u v x y -> (present dir (l ++ [o]) u v <-> e_stat e' <> Gone) /\ (forall q z, last_value dir (l ++ [o]) u v q z <-> e_stat e' <> Gone /\ dget q (e_attrs e') = Some z)) ->
     (present dir (l ++ [o]) u v <-> exists e, at_ (call_book dir r o b) u v e /\ e_stat e <> Gone) /\ (forall q x, last_value dir (l ++ [o]) u v q x <-> exists e, at_ (call_book dir r o b) u v e /\ e_stat e <> Gone /\ dget q (e_attrs e) = Some x)).
  { intros k0 e' x y Sk Al Eb Ha Hk Hw Hs. rewrite Eb. destruct (sameb dir u v x y) eqn:Sb.
    - apply sameb_ok in Sb. destruct (Hs Sb) as [H1 H2]. assert (At : forall e, at_ (edit_book b k0 e') u v e <-> e = e').
      { intros e. rewrite at_edit by auto. assert (same_edge dir u v (fst k0) (snd k0)) by (apply (same_trans dir _ _ x y); auto). tauto. }
      rewrite H1. split; [split; [intros X; exists e'; rewrite At; auto|intros (e & X & Y); apply At in X; subst; auto]|]. intros q z. rewrite H2. split; [intros X; exists e'; rewrite At; auto|intros (e & X & Y); apply At in X; subst; auto].
    - apply sameb_no in Sb. apply (told_other b); auto; [|intros q z X; apply Sb; apply (Hw u v q z X)]. intros e. rewrite at_edit by auto. assert (~ same_edge dir u v (fst k0) (snd k0)); [|tauto]. intros X. apply Sb. apply (same_trans dir _ _ (fst k0) (snd k0)); auto. apply same_sym. auto. }
  assert (Ak : forall k e, ent b k e -> alone dir b k) by (intros k e; apply (alone_key dir n); auto).
  assert (Cr : forall x y, cross_rank x y = true <-> lr x <> lr y) by (intros x y; unfold cross_rank; rewrite negb_true_iff; apply Z.eqb_neq).
  destruct o as [x|x|x y kw|x y kw|x y|]; try discriminate; cbn [call_book] in *.
  - apply (told_other b); auto. tauto.
  - destruct (cross_rank x y) eqn:X.
    2: { apply (told_other b); auto; [tauto|intros Y|intros q z [Y _]]; apply (Same x y) in Y; auto; unfold cross_rank in X; apply negb_false_iff, Z.eqb_eq in X; auto. }
    apply andb_true_iff in C as [C C2]. apply andb_true_iff in C2 as [_ C2]. apply andb_true_iff in C as [C _]. apply andb_true_iff in C as [C _]. apply nodup_names_wf in C.
    assert (P1 : same_edge dir u v x y -> present dir (l ++ [NAddEdge x y kw]) u v) by (intros S; apply present_snoc; left; auto).
    destruct (key_of dir x y b) as [k|] eqn:Ek.
    + destruct (key_some dir x y b k Ek) as ((e & Ee & El) & Sk & _). rewrite El in C2. apply andb_true_iff in C2 as [C2 C3]. apply negb_true_iff in C3. unfold edit in *. unfold ent in Ee. rewrite Ee in *.
      apply (G k (Entry (e_by e) (aupdate kw (e_attrs e)) (e_stat e)) x y); auto; [apply (Ak k e Ee)|cbn; tauto|cbn; tauto|]. intros S. cbn [e_stat e_attrs].
      assert (Sg : e_stat e <> Gone) by (intros Z; rewrite Z in C3; discriminate). assert (At : at_ b u v e) by (exists k; split; [auto|apply (same_trans dir _ _ x y); auto]).
      split; [split; auto|]. intros q z. rewrite last_snoc, T2. cbn [writes kills]. rewrite dget_aupdate by auto. split.
      * intros [[[_ Y] _]|[(e2 & Y1 & Y2 & Y3) [_ Y4]]]; [rewrite Y; auto|]. assert (e2 = e) by (apply (at_unique b u v); auto). subst. destruct (dget q kw) as [z'|]; [exfalso; apply (Y4 z'); auto|auto].
      * intros [_ Y]. destruct (dget q kw) as [z'|] eqn:Q; [left; split; auto|]. right. split; [exists e; auto|]. split; auto. intros y' [_ Z]. discriminate.
    + destruct (key_none dir x y b Ek) as (K1 & K2 & _). apply (G (x, y) (Entry r (aupdate kw []) New) x y); auto; [left; auto| |cbn; tauto|cbn; tauto|].
      * intros k e E K S. destruct S as [[S1 S2]|(D & S1 & S2)]; [destruct k; cbn in *; congruence|]. assert (k = (y, x)) by (destruct k; cbn in *; congruence). subst k. apply (K2 D e E).
      * intros S. cbn [e_stat e_attrs]. split; [split; [discriminate|auto]|]. intros q z. rewrite last_snoc, T2. cbn [writes kills]. rewrite dget_aupdate by auto. cbn [dget]. split.
        -- intros [[[_ Y] _]|[(e2 & (k & E & S2) & _) _]]; [rewrite Y; split; [discriminate|auto]|]. exfalso. assert (S3 : same_edge dir x y (fst k) (snd k)) by (apply (same_trans dir _ _ u v); auto; apply same_sym; auto). pose proof (key_unique dir n b x y k e2 B E S3). congruence.
        -- intros [_ Y]. destruct (dget q kw) as [z'|] eqn:Q; [left; split; auto|discriminate].
  - apply andb_true_iff in C as [C C2]. apply nodup_names_wf in C. destruct (cross_rank x y) eqn:X.
    2: { apply (told_other b); auto; [tauto|intros q z [Y _]]; apply (Same x y) in Y; auto; unfold cross_rank in X; apply negb_false_iff, Z.eqb_eq in X; auto. }
    destruct (key_of dir x y b) as [k|] eqn:Ek; [|unfold lookup in C2; rewrite Ek in C2; discriminate]. destruct (key_some dir x y b k Ek) as ((e & Ee & El) & Sk & _). rewrite El in C2. apply andb_true_iff in C2 as [C2 C3]. apply negb_true_iff in C3. unfold edit in *. unfold ent in Ee. rewrite Ee in *.
    apply (G k (Entry (e_by e) (aupdate kw (e_attrs e)) (e_stat e)) x y); auto; [apply (Ak k e Ee)|cbn; tauto|cbn; tauto|cbn; tauto|]. intros S. cbn [e_stat e_attrs].
    assert (Sg : e_stat e <> Gone) by (intros Z; rewrite Z in C3; discriminate). assert (At : at_ b u v e) by (exists k; split; [auto|apply (same_trans dir _ _ x y); auto]).
    assert (P1 : present dir (l ++ [NUpdate x y kw]) u v) by (apply present_snoc; right; split; [apply T1; exists e; auto|auto]).
    split; [split; auto|]. intros q z. rewrite last_snoc, T2. cbn [writes kills]. rewrite dget_aupdate by auto. split.
    * intros [[[_ Y] _]|[(e2 & Y1 & Y2 & Y3) [_ Y4]]]; [rewrite Y; auto|]. assert (e2 = e) by (apply (at_unique b u v); auto). subst. destruct (dget q kw) as [z'|]; [exfalso; apply (Y4 z'); auto|auto].
    * intros [_ Y]. destruct (dget q kw) as [z'|] eqn:Q; [left; split; auto|]. right. split; [exists e; auto|]. split; auto. intros y' [_ Z]. discriminate.
  - destruct (cross_rank x y) eqn:X.
    2: { apply (told_other b); auto; [tauto|intros Y]; apply (Same x y) in Y; auto; unfold cross_rank in X; apply negb_false_iff, Z.eqb_eq in X; auto. }
    destruct (key_of dir x y b) as [k|] eqn:Ek; [|discriminate]. destruct (key_some dir x y b k Ek) as ((e & Ee & El) & Sk & _). unfold edit in *. unfold ent in Ee. rewrite Ee in *.
    apply (G k (Entry (e_by e) (e_attrs e) Gone) x y); auto; [apply (Ak k e Ee)|cbn; tauto|cbn; tauto|]. intros S. cbn [e_stat e_attrs]. rewrite present_snoc. cbn [adds kills]. split; [tauto|]. intros q z. rewrite last_snoc. cbn [writes kills]. tauto.
Qed.
Lemma synch_told : forall b l, bok b -> told b l -> told (settle (forget b)) l.
Proof.
  intros b l B T u v L. destruct (T u v L) as [T1 T2].
  assert (At : forall e, at_ (settle (forget b)) u v e <-> exists e0, at_ b u v e0 /\ e_stat e0 <> Gone /\ e = finish e0).
  { intros e. unfold at_. split.
    - intros (k & E & S). rewrite settle_remap in E. apply remap_ent in E as (e0 & E & ->). apply (forget_ent b k e0) in E as [E Sg]; [|apply B]. exists e0. split; [exists k; auto|auto].
    - intros (e0 & (k & E & S) & Sg & ->). exists k. split; auto. rewrite settle_remap. apply remap_ent. exists e0. split; auto. apply forget_ent; [apply B|auto]. }
  split; [rewrite T1|intros q x; rewrite T2]; split.
  - intros (e & X & Y). exists (finish e). split; [apply At; exists e; auto|discriminate].
  - intros (e & X & Y). apply At in X as (e0 & X & Z & ->). exists e0. auto.
  - intros (e & X & Y & Z). exists (finish e). split; [apply At; exists e; auto|]. split; [discriminate|auto].
  - intros (e & X & Y & Z). apply At in X as (e0 & X & X2 & ->). exists e0. auto.
Qed.
Lemma run_told : forall ops, kept_to dir n ops new_book = true -> told (book_of dir ops) (calls ops).
Proof.
  induction ops as [|o ops IH] using rev_ind; intros K.
  - intros u v L. split; [split; [intros (pre & p & post & E & _); destruct pre; discriminate|intros (e & (k & E & _) & _); discriminate]|]. intros q x. split; [intros (pre & p & post & E & _); destruct pre; discriminate|intros (e & (k & E & _) & _); discriminate].
  - rewrite kept_app in K. apply andb_true_iff in K as [K1 K2]. cbn [kept_to] in K2. apply andb_true_iff in K2 as [K2 _]. specialize (IH K1). destruct (run_winv ops K1) as (P & _ & I). pose proof (wi_b _ _ _ _ I) as B. rewrite book_snoc. unfold calls. rewrite flat_map_app. fold (calls ops). fold (book_of dir ops) in K2. cbn [flat_map].
    destruct o as [u|u|reqs|r o|]; cbn [app]; rewrite ?app_nil_r; cbn [wop_book].
    + destruct (has_agent u (book_of dir ops)); auto.
    + auto.
    + auto.
    + apply call_told; auto.
    + apply synch_told; auto.
Qed.

(** ** After a synchronization *)
Lemma synched : forall b P u v r, winv b P -> calm b -> clean P -> (forall k e, ent b k e -> e_stat e = Done) -> rk n r -> lr u <> lr v -> r = lr u \/ r = lr v ->
  (has u v (n_g (p_net (P r))) <-> exists e, at_ b u v e) /\ (forall q x, val u v q x (n_g (p_net (P r))) <-> exists e, at_ b u v e /\ dget q (e_attrs e) = Some x).
Proof.
  intros b P u v r I C Cl Dn R L Rr. pose proof (wi_b _ _ _ _ I) as B. pose proof (wi_e _ _ _ _ I r R) as H. pose proof (proj1 (eo_nok _ _ _ _ _ H)) as G.
  assert (Th : forall u' v', same_edge dir u v u' v' -> edge_ref u v (n_g (p_net (P r))) = edge_ref u' v' (n_g (p_net (P r)))) by (intros u' v' S; apply (has_same dir); auto).
  assert (K : forall k e, ent b k e -> same_edge dir u v (fst k) (snd k) -> has (fst k) (snd k) (n_g (p_net (P r))) /\ same_attrs k (e_attrs e) (n_g (p_net (P r)))).
  { intros k e E S. assert (T : touches r k) by (destruct S as [[S1 S2]|(_ & S1 & S2)]; unfold touches; rewrite S1, S2; destruct Rr; auto). destruct (by_touches dir n b k e B E) as (T2 & L2 & Rb & _). destruct (Z.eq_dec (e_by e) r) as [Y|Y].
    - destruct (eo_own _ _ _ _ _ H k e E Y (C k e E)) as ((X1 & _) & X2 & _). auto.
    - destruct (eo_theirs _ _ _ _ _ H k e E Y T) as ((X1 & _) & _); [rewrite (Dn k e E); discriminate|]. split; auto. assert (Q : r = lr (other (e_by e) k)) by (destruct (touch_cases (e_by e) r k T2 T L2); congruence).
      destruct (wi_attrs _ _ _ _ I k e E (Dn k e E)) as [[D|D]|A]; [| |rewrite <- Q in A; auto]; destruct (Cl _ Rb) as [C1 C2]; [rewrite C1 in D; discriminate|rewrite C2 in D; destruct D]. }
  split.
  - split.
    + intros Hh. destruct (eo_those _ _ _ _ _ H u v Hh L) as (k & e & S & E & _); [destruct Rr; auto|]. exists e, k. auto.
    + intros (e & k & E & S). unfold has. rewrite (Th (fst k) (snd k)) by auto. apply (K k e E S).
  - intros q x. split.
    + intros V. pose proof (val_has _ _ _ _ _ V) as Hh. destruct (eo_those _ _ _ _ _ H u v Hh L) as (k & e & S & E & _); [destruct Rr; auto|]. exists e. split; [exists k; auto|]. destruct (K k e E S) as [_ A]. apply A. unfold kval, val in *. rewrite <- (Th (fst k) (snd k)) by auto. auto.
    + intros (e & (k & E & S) & Q). destruct (K k e E S) as [_ A]. apply A in Q. unfold kval, val in *. rewrite (Th (fst k) (snd k)) by auto. auto.
Qed.
Lemma mirrored : forall ops, kept_to dir n ops new_book = true -> exists w, wrun dir (new_nworld n) (ops ++ [WSynch]) = Some w /\ forall u v r, 0 <= r < Z.of_nat n -> lr u <> lr v -> r = lr u \/ r = lr v ->
  (has u v (n_g (net_of w r)) <-> present dir (calls ops) u v) /\ forall q x, val u v q x (n_g (net_of w r)) <-> last_value dir (calls ops) u v q x.
Proof.
  intros ops K. destruct (run_winv ops K) as (P & E & I). destruct (synch_winv _ P I) as (P' & E' & I' & Cl). exists (W n P'). rewrite wrun_snoc, E. split; auto. intros u v r R L Rr.
  pose proof (synch_told _ _ (wi_b _ _ _ _ I) (run_told ops K)) as T. cbn [wop_book] in I'. unfold net_of. rewrite at_W by auto.
  assert (Dn : forall k e, ent (settle (forget (book_of dir ops))) k e -> e_stat e = Done) by (intros k e X; rewrite settle_remap in X; apply remap_ent in X as (e0 & _ & ->); auto).
  destruct (synched _ P' u v r I') as [S1 S2]; auto; [intros k e X; rewrite (Dn k e X); discriminate|]. destruct (T u v L) as [T1 T2]. rewrite S1, T1. split.
  - split; [intros (e & X); exists e; split; auto; destruct X as (k & X & _); rewrite (Dn k e X); discriminate|intros (e & X & _); exists e; auto].
  - intros q x. rewrite S2, T2. split; [intros (e & X & Y); exists e; split; auto; split; auto; destruct X as (k & X & _); rewrite (Dn k e X); discriminate|intros (e & X & _ & Y); exists e; auto].
Qed.
End Sync.
