(** The population of the world is conserved. *)
From Coq Require Import List Arith ZArith Lia Bool Permutation.
From Verif Require Import PyDict AgentModel SpaceModel TopologyModel ContextModel ContextSpec ContextProofs WorldModel WorldSpec WorldProofs WorldMoves.
Import ListNotations.
Open Scope Z_scope.

Record wgood (w : world) : Prop := WGood {
  w_good : forall i c, nth_error w i = Some c -> good c;
  w_rank : forall i c, nth_error w i = Some c -> c_rank c = Z.of_nat i;
  w_once : forall u i j, lives u i w -> lives u j w -> i = j }.

Definition entry (w : world) (i : nat) (u : uid) (d : Z) : Prop :=
  exists c k p q, nth_error w i = Some c /\ dget k (c_projs c) = Some p /\ In (u, (d, q)) (d_oob (p_ds p)).
Definition wlocal (w : world) : Prop := forall i c, nth_error w i = Some c -> oob_local c.

Lemma forall2_nth : forall A B (R : A -> B -> Prop) l l', Forall2 R l l' -> length l = length l' /\
  forall i b, nth_error l' i = Some b -> exists a, nth_error l i = Some a /\ R a b.
Proof.
  intros A B R l l' H. induction H as [|a b l l' G H [L IH]].
  - split; auto. intros [|i] b; discriminate.
  - split; [cbn; lia|]. intros [|i] c E; cbn in *; [injection E as <-; eauto | auto].
Qed.
Lemma forall2_flip : forall A B (R : A -> B -> Prop) l l', Forall2 R l l' -> forall i a, nth_error l i = Some a -> exists b, nth_error l' i = Some b /\ R a b.
Proof.
  intros A B R l l' H. induction H as [|a b l l' G H IH]; intros [|i] x E; cbn in *; try discriminate; [injection E as <-; eauto | auto].
Qed.

(** If nothing changes but ghosts *)
Lemma lives_gh : forall w w' u i, all_ghostly w w' -> lives u i w' <-> lives u i w.
Proof.
  intros w w' u i H. split; intros (c & C & A).
  - destruct (forall2_nth _ _ _ _ _ H) as [_ N]. destruct (N i c C) as (c0 & C0 & (S & _)). exists c0. split; auto.
    now rewrite <- (sl_agent c0 c u S).
  - destruct (forall2_flip _ _ _ _ _ H i c C) as (c' & C' & (S & _)). exists c'. split; auto. now rewrite (sl_agent c c' u S).
Qed.
Lemma wgood_gh : forall w w', all_ghostly w w' -> wgood w -> wgood w'.
Proof.
  intros w w' H G. destruct (forall2_nth _ _ _ _ _ H) as [_ N]. split.
  - intros i c C. destruct (N i c C) as (c0 & C0 & X). eapply gh_good; eauto. eapply w_good; eauto.
  - intros i c C. destruct (N i c C) as (c0 & C0 & ((_ & _ & R) & _)). rewrite R. eapply w_rank; eauto.
  - intros u i j A B. apply (lives_gh w w' u i H) in A. apply (lives_gh w w' u j H) in B. eapply w_once; eauto.
Qed.

(** Removing the buffers *)
Lemma pre_world : forall w w', wgood w -> mapo pre_synch w = Some w' -> wgood w' /\ wlocal w' /\ (forall u i, lives u i w' <-> lives u i w) /\
  (forall i u d, entry w' i u d <-> outside w i u d).
Proof.
  intros w w' G H. destruct (mapo_nth _ _ _ _ _ H) as [L N]. pose proof (mapo_inv _ _ _ _ _ H) as V.
  assert (LV : forall u i, lives u i w' <-> lives u i w).
  { intros u i. split; intros (c & C & A).
    - destruct (V i c C) as (c0 & C0 & P). exists c0. split; auto. apply pre_synch_spec in P as (S & _). now rewrite <- (sl_agent c0 c u S).
    - destruct (N i c C) as (c' & P & C'). exists c'. split; auto. apply pre_synch_spec in P as (S & _). now rewrite (sl_agent c c' u S). }
  split; [|split; [|split]]; auto.
  - split.
    + intros i c C. destruct (V i c C) as (c0 & C0 & P). eapply pre_synch_good; eauto. eapply w_good; eauto.
    + intros i c C. destruct (V i c C) as (c0 & C0 & P). apply pre_synch_spec in P as ((_ & _ & R) & _). rewrite R. eapply w_rank; eauto.
    + intros u i j A B. apply LV in A, B. eapply w_once; eauto.
  - intros i c C. destruct (V i c C) as (c0 & C0 & P). eapply pre_synch_good; eauto. eapply w_good; eauto.
  - intros i u d. split.
    + intros (c & k & p & q & C & P & I). destruct (V i c C) as (c0 & C0 & S). pose proof (pre_synch_spec c0 c S) as (_ & _ & _ & D).
      specialize (D k). destruct (dget k (c_projs c0)) as [p0|] eqn:P0; [|congruence]. destruct D as (p1 & P1 & (_ & _ & _ & D)).
      assert (p1 = p) by congruence. subst p1. apply D in I as [I1 I2]. cbn in I2. exists c0, k, p0, q. repeat split; auto.
      intros X. apply I2. split; auto. destruct (Z.ltb_spec 0 (p_buf p0)); auto.
      rewrite (g_buf c0 (w_good w G i c0 C0) k p0 P0) in X by lia. destruct X.
    + intros (c0 & k & p0 & q & C0 & P0 & I & NI). destruct (N i c0 C0) as (c & S & C). pose proof (pre_synch_spec c0 c S) as (_ & _ & _ & D).
      specialize (D k). rewrite P0 in D. destruct D as (p & P & (_ & _ & _ & D)). exists c, k, p, q. repeat split; auto.
      apply D. split; auto. cbn. tauto.
Qed.

Section Population.
Variable fobj : Z -> nat -> uid -> nat.

Lemma move_oob_spec : forall w cs any, wgood w -> wlocal w -> (forall i u d d', entry w i u d -> entry w i u d' -> d = d') ->
  move_oob fobj w = Some (cs, any) ->
  wgood (map fst cs) /\ length cs = length w /\
  (forall u j, lives u j (map fst cs) <-> exists i, lives u i w /\ (entry w i u (Z.of_nat j) \/ (j = i /\ forall d, ~ entry w i u d))) /\
  (forall i u d, entry w i u d -> exists j, d = Z.of_nat j).
Proof.
  intros w cs any G LO AG H. unfold move_oob in H. destruct (mapo gather w) as [gs|] eqn:M; [|discriminate].
  destruct (exchange _) as [recv|] eqn:E; [|discriminate].
  destruct (mapo _ (combine _ recv)) as [cs'|] eqn:R; [|discriminate]. injection H as -> _.
  destruct (mapo_nth _ _ _ _ _ M) as [L1 N1]. pose proof (mapo_inv _ _ _ _ _ M) as V1.
  destruct (mapo_nth _ _ _ _ _ R) as [L2 N2]. pose proof (mapo_inv _ _ _ _ _ R) as V2.
  destruct (exchange_nth _ _ _ E) as (L3 & _ & X3). rewrite map_length in L3.
  rewrite combine_length, map_length, L3, Nat.min_id in L2.
  (* what happens at one rank *)
  assert (Q : forall j c2, nth_error (map fst cs) j = Some c2 -> exists c c1 its mvs l g, nth_error w j = Some c /\
     gather c = Some (c1, its, mvs) /\ nth_error recv j = Some l /\ recv_items fobj l c1 = Some (c2, g)).
  { intros j c2 C2. apply nth_map in C2 as ([c2' g] & C2 & ->). destruct (V2 j _ C2) as ([c1 l] & X & Y). cbn in Y.
    apply nth_combine in X as [X1 X2]. cbn in X1, X2. apply nth_map in X1 as ([[c1' its] mvs] & X1 & ->). cbn in *.
    destruct (V1 j _ X1) as (c & C & X). exists c, c1', its, mvs, l, g. auto. }
  assert (Q' : forall j c, nth_error w j = Some c -> exists c1 its mvs l c2 g, nth_error (map fst cs) j = Some c2 /\
     gather c = Some (c1, its, mvs) /\ nth_error recv j = Some l /\ recv_items fobj l c1 = Some (c2, g)).
  { intros j c C. destruct (N1 j c C) as ([[c1 its] mvs] & X & Y).
    assert (J : (j < length recv)%nat). { rewrite L3, L1. apply nth_error_Some. congruence. }
    destruct (nth_error recv j) as [l|] eqn:Z; [|apply nth_error_None in Z; lia].
    assert (K : nth_error (combine (map (fun x => fst (fst x)) gs) recv) j = Some (c1, l)).
    { apply nth_combine. split; auto. apply nth_map. exists (c1, its, mvs). auto. }
    destruct (N2 j _ K) as ([c2 g] & Y2 & W). cbn in Y2. exists c1, its, mvs, l, c2, g. split; auto. apply nth_map. exists (c2, g). auto. }
  (* what is received *)
  assert (RC : forall j l, nth_error recv j = Some l -> forall u, (exists x, In x l /\ u = fst (i_data (snd x))) <->
     exists i, entry w i u (Z.of_nat j)).
  { intros j l Lj u. split.
    - intros ([r it] & I & U). cbn in U. apply (X3 j l Lj) in I as (i & s & -> & S & I).
      apply nth_map in S as ([[c1 its] mvs] & S & ->). cbn in I. destruct (V1 i _ S) as (c & C & GA). exists i.
      apply gather_projs_spec in GA as (_ & _ & _ & _ & B & _); [|apply (w_good w G i c C) | apply (w_good w G i c C)].
      assert (B' : exists x, In x its /\ fst (i_data (snd x)) = u /\ fst x = Z.of_nat j /\ i_pt (snd x) = i_pt it /\ i_pid (snd x) = i_pid it)
        by (exists (Z.of_nat j, it); cbn; auto).
      apply B in B' as (p & _ & P & B'). exists c, (i_pid it), p, (i_pt it). auto.
    - intros (i & c & k & p & q & C & P & I). destruct (N1 i c C) as ([[c1 its] mvs] & GA & S).
      apply gather_projs_spec in GA as (_ & _ & _ & _ & B & _); [|apply (w_good w G i c C) | apply (w_good w G i c C)].
      assert (B' : exists p, In k (dkeys (c_projs c)) /\ dget k (c_projs c) = Some p /\ In (u, (Z.of_nat j, q)) (d_oob (p_ds p)))
        by (exists p; split; [eapply dget_key; eauto | auto]).
      apply B in B' as ([d it] & X & U & D & _). cbn in U, D. subst d. exists (Z.of_nat i, it). split; [|now symmetry].
      apply (X3 j l Lj). exists i, its. split; auto. split; auto. apply nth_map. exists (c1, its, mvs). auto. }
  assert (GONE : forall i c u, nth_error w i = Some c -> gone_in (dkeys (c_projs c)) c u <-> exists d, entry w i u d).
  { intros i c u C. rewrite gone_entry. split.
    - intros ([d q] & k & p & _ & P & I). exists d, c, k, p, q. auto.
    - intros (d & c' & k & p & q & C' & P & I). assert (c' = c) by congruence. subst c'. exists (d, q), k, p. split; [eapply dget_key; eauto | auto]. }
  (* at one rank, the population *)
  assert (POP : forall j c c1 its mvs l c2 g, nth_error w j = Some c -> gather c = Some (c1, its, mvs) -> nth_error recv j = Some l ->
     recv_items fobj l c1 = Some (c2, g) -> forall u, ctx_agent u c2 <> None <->
       (ctx_agent u c <> None /\ forall d, ~ entry w j u d) \/ exists i, entry w i u (Z.of_nat j)).
  { intros j c c1 its mvs l c2 g C GA Lj RE u. pose proof (w_good w G j c C) as GC.
    apply gather_projs_spec in GA as (A1 & A2 & A3 & _); [|apply GC | apply GC].
    apply recv_items_spec in RE as (_ & _ & B & _); auto. rewrite B, (RC j l Lj u).
    split; (intros [X|X]; [left | right; auto]).
    - split.
      + destruct (ctx_agent u c) eqn:Y; [discriminate|]. intros _. apply X. unfold ctx_agent, get_local in *.
        destruct (dget u (am_local (c_man c1))) eqn:W; auto. exfalso.
        assert (NG : ~ gone_in (dkeys (c_projs c)) c u) by (intros W'; rewrite (A2 u W') in W; discriminate). rewrite (A3 u NG) in W. congruence.
      + intros d D. apply X. unfold ctx_agent, get_local. apply A2. apply (GONE j c u C). eauto.
    - destruct X as [X Y]. unfold ctx_agent, get_local. rewrite A3; auto. intros Z. apply (GONE j c u C) in Z as (d & D). eapply Y; eauto. }
  assert (LV : forall u j, lives u j (map fst cs) <-> exists i, lives u i w /\ (entry w i u (Z.of_nat j) \/ (j = i /\ forall d, ~ entry w i u d))).
  { intros u j. split.
    - intros (c2 & C2 & A). destruct (Q j c2 C2) as (c & c1 & its & mvs & l & g & C & GA & Lj & RE).
      destruct (proj1 (POP j c c1 its mvs l c2 g C GA Lj RE u) A) as [[A' B]|(i & EN)].
      + exists j. split; [exists c; auto | auto].
      + exists i. split; auto. destruct EN as (ci & k & p & q & Ci & P & I). exists ci. split; auto.
        apply (LO i ci Ci k p u P). now apply (in_map fst) in I.
    - intros (i & (ci & Ci & A) & X).
      assert (J : exists c, nth_error w j = Some c).
      { destruct X as [X|[-> _]]; eauto. destruct (exchange_nth _ _ _ E) as (_ & Y & _).
        destruct (N1 i ci Ci) as ([[c1 its] mvs] & GA & S). destruct X as (c & k & p & q & C & P & I). assert (c = ci) by congruence. subst c.
        pose proof (w_good w G i ci Ci) as GC. pose proof (gather_projs_spec _ _ _ _ _ (g_cons _ GC) (g_keys _ GC) GA) as (_ & _ & _ & _ & B & _).
        assert (B' : exists p, In k (dkeys (c_projs ci)) /\ dget k (c_projs ci) = Some p /\ In (u, (Z.of_nat j, q)) (d_oob (p_ds p)))
          by (exists p; split; [eapply dget_key; eauto | auto]).
        apply B in B' as ([d it] & B1 & _ & D & _). cbn in D. subst d.
        destruct (Y i its (Z.of_nat j) it) as (j' & Ej & Lj); auto.
        { apply nth_map. exists (c1, its, mvs). auto. }
        apply Nat2Z.inj in Ej. subst j'. rewrite map_length, L1 in Lj. destruct (nth_error w j) eqn:Z; eauto.
        apply nth_error_None in Z. lia. }
      destruct J as (c & C). destruct (Q' j c C) as (c1 & its & mvs & l & c2 & g & C2 & GA & Lj & RE).
      exists c2. split; auto. apply (POP j c c1 its mvs l c2 g C GA Lj RE u).
      destruct X as [X|[-> X]]; [right; eauto | left]. split; auto. congruence. }
  assert (RNG : forall i u d, entry w i u d -> exists j, d = Z.of_nat j).
  { intros i u d (ci & k & p & q & Ci & P & I). destruct (exchange_nth _ _ _ E) as (_ & Y & _).
    destruct (N1 i ci Ci) as ([[c1 its] mvs] & GA & S).
    pose proof (w_good w G i ci Ci) as GC. pose proof (gather_projs_spec _ _ _ _ _ (g_cons _ GC) (g_keys _ GC) GA) as (_ & _ & _ & _ & B & _).
    assert (B' : exists p, In k (dkeys (c_projs ci)) /\ dget k (c_projs ci) = Some p /\ In (u, (d, q)) (d_oob (p_ds p)))
      by (exists p; split; [eapply dget_key; eauto | auto]).
    apply B in B' as ([d' it] & B1 & _ & D & _). cbn in D. subst d'.
    destruct (Y i its d it) as (j & Ej & _); eauto. apply nth_map. exists (c1, its, mvs). auto. }
  split; [|split; [|split]]; auto; [|congruence]. split.
  - intros j c2 C2. destruct (Q j c2 C2) as (c & c1 & its & mvs & l & g & C & GA & Lj & RE). pose proof (w_good w G j c C) as GC.
    pose proof (POP j c c1 its mvs l c2 g C GA Lj RE) as POPj.
    apply gather_projs_spec in GA as (A1 & A2 & A3 & A4 & _ & A5 & _ & A6); [|apply GC | apply GC].
    pose proof (recv_items_spec fobj l c1 c2 g A1 RE) as (B1 & B2 & B3 & B4 & B5).
    pose proof (frame_trans _ _ _ A5 B4) as (F1 & F2 & F3). split; auto.
    + rewrite F1. apply GC.
    + rewrite F1, F2. apply GC.
    + intros k p u P I. left. apply in_map_iff in I as (e & <- & I). destruct (B5 k p e P I) as [X|(p1 & P1 & I1)].
      * apply B3. auto.
      * assert (K : In k (dkeys (c_projs c))) by (destruct A5 as (A5 & _); rewrite <- A5; eapply dget_key; eauto).
        rewrite (A6 k p1 K P1) in I1. destruct I1.
    + intros k p P Lp. destruct (F3 k p P) as (p0 & P0 & X1 & X2 & X3'). rewrite X2. apply (g_buf c GC k p0 P0). lia.
    + intros k p P. destruct (F3 k p P) as (p0 & P0 & X1 & X2 & X3'). apply X3'. apply (g_wf c GC k p0 P0).
  - intros j c2 C2. destruct (Q j c2 C2) as (c & c1 & its & mvs & l & g & C & GA & Lj & RE). pose proof (w_good w G j c C) as GC.
    apply gather_projs_spec in GA as (A1 & A2 & A3 & A4 & _); [|apply GC | apply GC]. apply recv_items_spec in RE as (_ & B2 & _); auto.
    rewrite B2, A4. eapply w_rank; eauto.
  - intros u i j A B. apply LV in A as (i' & A1 & A2). apply LV in B as (j' & B1 & B2). assert (i' = j') by (eapply w_once; eauto). subst j'.
    destruct A2 as [A2|[-> A2]], B2 as [B2|[-> B2]]; auto.
    + apply Nat2Z.inj. eapply AG; eauto.
    + exfalso. eapply B2; eauto.
    + exfalso. eapply A2; eauto.
Qed.

Lemma outside_dec : forall w i u, (exists d, outside w i u d) \/ (forall d, ~ outside w i u d).
Proof.
  intros w i u. destruct (nth_error w i) as [c|] eqn:C; [|right; intros d (c & k & p & q & X & _); congruence].
  set (f := fun k => match dget k (c_projs c) with
                     | Some p => existsb (keq u) (dkeys (d_oob (p_ds p))) && negb (existsb (keq u) (map a_uid (p_ghosts p)))
                     | None => false end).
  assert (EX : forall (l : list uid), existsb (keq u) l = true <-> In u l).
  { intros l. rewrite existsb_exists. split; [intros (v & V & E); apply keq_ok in E; now subst v | intros X; exists u; split; auto; apply keq_refl]. }
  destruct (existsb f (dkeys (c_projs c))) eqn:F.
  - left. apply existsb_exists in F as (k & K & F). unfold f in F. destruct (dget k (c_projs c)) as [p|] eqn:P; [|discriminate].
    apply andb_true_iff in F as [F1 F2]. apply EX in F1. apply in_map_iff in F1 as ([v [d q]] & V & I). cbn in V. subst v.
    exists d, c, k, p, q. split; auto. split; auto. split; auto. intros X. apply EX in X. rewrite X in F2. discriminate.
  - right. intros d (c' & k & p & q & C' & P & I & N). assert (c' = c) by congruence. subst c'.
    assert (X : existsb f (dkeys (c_projs c)) = true); [|congruence]. apply existsb_exists. exists k. split; [eapply dget_key; eauto|].
    unfold f. rewrite P. apply andb_true_iff. split; [apply EX; now apply (in_map fst) in I|]. apply negb_true_iff.
    destruct (existsb (keq u) (map a_uid (p_ghosts p))) eqn:E; auto. exfalso. apply N. now apply EX.
Qed.

(** ** [synchronize] *)
Lemma drop_gone : forall cs w, mapo (fun x : context * list uid => delete_ghosts (snd x) (fst x)) cs = Some w -> all_ghostly (map fst cs) w.
Proof.
  intros cs w H. apply (mapo_forall2 _ _ _ (fun x c => ghostly (fst x) c)) in H.
  - induction H; constructor; auto.
  - intros [c l] c' F. eapply delete_ghosts_gh; eauto.
Qed.
Lemma bound_entry : forall w w' u i j, (forall d, entry w' i u d <-> outside w i u d) ->
  bound_for w u i j <-> entry w' i u (Z.of_nat j) \/ (j = i /\ forall d, ~ entry w' i u d).
Proof.
  intros w w' u i j E. unfold bound_for. split; (intros [X|[X Y]]; [left; now apply E | right; split; auto; intros d D; eapply Y, E; eauto]).
Qed.
Lemma synchronize_spec : forall g w w', wgood w -> agree w -> (g = false -> no_ghost_outside w) -> synchronize fobj g w = Some w' ->
  wgood w' /\ length w' = length w /\ (forall u j, lives u j w' <-> exists i, lives u i w /\ bound_for w u i j) /\
  (forall u i, lives u i w -> exists j, bound_for w u i j).
Proof.
  intros g w w' G AG NG H. unfold synchronize in H.
  destruct (if g then mapo pre_synch w else Some w) as [w1|] eqn:P; [|discriminate].
  assert (X : wgood w1 /\ wlocal w1 /\ length w1 = length w /\ (forall u i, lives u i w1 <-> lives u i w) /\ (forall i u d, entry w1 i u d <-> outside w i u d)).
  { destruct g.
    - pose proof (mapo_nth _ _ _ _ _ P) as [L _]. destruct (pre_world w w1 G P) as (A & B & C & D). auto.
    - injection P as <-. specialize (NG eq_refl). split; [|split; [|split; [|split]]]; auto.
      + intros i c C k p u Pk I. destruct (g_oob c (w_good w G i c C) k p u Pk I) as [|X]; auto. exfalso. eapply NG; eauto.
      + intros u i. tauto.
      + intros i u d. split; intros (c & k & p & q & C & Pk & I); exists c, k, p, q.
        * split; auto. split; auto. split; auto. eapply NG; eauto. now apply (in_map fst) in I.
        * tauto. }
  clear P. destruct X as (G1 & L1 & LEN & LV & EN).
  destruct (move_oob fobj w1) as [[cs any]|] eqn:M; [|discriminate].
  apply move_oob_spec in M as (G2 & L2 & LV2 & RNG); auto.
  2: { intros i u d d' A B. apply EN in A, B. eapply AG; eauto. }
  destruct (if any then _ else _) as [w2|] eqn:D; [|discriminate].
  assert (GH : all_ghostly (map fst cs) w').
  { assert (A : all_ghostly (map fst cs) w2) by (destruct any; [now apply drop_gone | injection D as <-; apply ag_refl]).
    destruct g; [|injection H as <-; exact A]. eapply ag_trans; [exact A | eapply synch_ghosts_gh; eauto]. }
  split; [eapply wgood_gh; eauto|]. split; [|split].
  - destruct (forall2_nth _ _ _ _ _ GH) as [L _]. rewrite map_length in L. lia.
  - intros u j. rewrite (lives_gh _ _ u j GH), LV2. split; intros (i & A & B); exists i.
    + apply LV in A. split; auto. apply (bound_entry w w1 u i j (fun d => EN i u d)). auto.
    + split; [now apply LV|]. apply (bound_entry w w1 u i j (fun d => EN i u d)). auto.
  - intros u i A. destruct (outside_dec w i u) as [(d & OD)|N]; [|exists i; right; auto].
    destruct (RNG i u d) as (j & ->); [now apply EN|]. exists j. now left.
Qed.

(** ** [move_agents] *)
(** Who is out of bounds or in a buffer, by projection. *)
Definition pview (c : context) (k : Z) : option (list (uid * (Z * point)) * list uid) :=
  option_map (fun p => (d_oob (p_ds p), map a_uid (p_ghosts p))) (dget k (c_projs c)).
Lemma outside_view : forall w i u d, outside w i u d <-> exists c k o g q, nth_error w i = Some c /\ pview c k = Some (o, g) /\ In (u, (d, q)) o /\ ~ In u g.
Proof.
  intros w i u d. unfold pview. split.
  - intros (c & k & p & q & C & P & I & N). exists c, k, (d_oob (p_ds p)), (map a_uid (p_ghosts p)), q. rewrite P. auto.
  - intros (c & k & o & g & q & C & P & I & N). destruct (dget k (c_projs c)) as [p|] eqn:E; [|discriminate]. cbn in P. injection P as <- <-.
    exists c, k, p, q. auto.
Qed.
Lemma frame_good : forall c c', good c -> consistent c' -> projs_frame c c' -> oob_known c' -> good c'.
Proof.
  intros c c' G C (F1 & F2 & F3) O. split; auto.
  - rewrite F1. apply G.
  - rewrite F1, F2. apply G.
  - intros k p P L. destruct (F3 k p P) as (p0 & P0 & X1 & X2 & X3). rewrite X2. apply (g_buf c G k p0 P0). lia.
  - intros k p P. destruct (F3 k p P) as (p0 & P0 & X1 & X2 & X3). apply X3. apply (g_wf c G k p0 P0).
Qed.
Lemma leave_spec : forall u d c c' x, good c -> leave (u, d) c = Some (c', x) ->
  good c' /\ c_rank c' = c_rank c /\ fst x = d /\ fst (fst (snd x)) = u /\ ctx_agent u c <> None /\
  (forall v, ctx_agent v c' = if keq v u then None else ctx_agent v c) /\
  (forall k, pview c' k = option_map (fun y => (ddel u (fst y), snd y)) (pview c k)).
Proof.
  intros u d c c' x G H. unfold leave in H. cbn [remove_local] in H. cbn [set_man c_types c_man] in H.
  destruct (type_del u (c_types c)) as [ts|] eqn:T; [|discriminate]. destruct (dget u (am_local (c_man c))) as [a|] eqn:A; [|discriminate].
  cbn [set_types set_man c_man] in H. set (m0 := upd_local (c_man c) (ddel u (am_local (c_man c)))) in *.
  destruct (delete_ghosted u m0) as [m2 r] eqn:D. apply delete_ghosted_local in D as (D1 & D2 & _).
  assert (U : a_uid a = u) by (eapply same_id; [apply (g_cons c G) | exact A]).
  assert (X : c' = map_projs (p_remove u) (set_man (set_types (set_man c m0) ts) m2) /\ fst x = d /\ fst (fst (snd x)) = u).
  { destruct r; cbn [map_projs] in H; injection H as <- <-; cbn; auto. }
  destruct X as (-> & X1 & X2).
  assert (AG : forall v, ctx_agent v (map_projs (p_remove u) (set_man (set_types (set_man c m0) ts) m2)) = if keq v u then None else ctx_agent v c).
  { intros v. unfold ctx_agent, get_local. cbn [map_projs set_projs set_man c_man]. rewrite D1. unfold m0. cbn [am_local upd_local]. apply dget_ddel. }
  split; [|split; [|split; [|split; [|split; [|split]]]]]; auto.
  - apply (frame_good c); auto.
    + apply (remove_consistent c u ts); auto. apply (g_cons c G).
    + apply (frame_map c (p_remove u)). apply p_remove_frame.
    + intros k p' v. rewrite dget_map_projs. cbn [set_man set_types c_projs]. destruct (dget k (c_projs c)) as [p|] eqn:P; [|discriminate].
      cbn. intros E I. injection E as <-. unfold oob_ids in I. rewrite p_remove_oob in I. apply ddel_In_keys in I as [I1 I2].
      destruct (g_oob c G k p v P I2) as [Y|Y]; [left | right; exact Y]. rewrite AG. apply keq_neq in I1. now rewrite I1.
  - unfold ctx_agent, get_local. rewrite A. discriminate.
  - intros k. unfold pview. rewrite dget_map_projs. cbn [set_man set_types c_projs]. destruct (dget k (c_projs c)); [|reflexivity].
    cbn [option_map fst snd]. rewrite p_remove_oob. reflexivity.
Qed.
Lemma leave_all_spec : forall l c c' xs, good c -> leave_all l c = Some (c', xs) ->
  good c' /\ c_rank c' = c_rank c /\ map (fun x => (fst (fst (snd x)), fst x)) xs = l /\ NoDup (map fst l) /\
  (forall u, In u (map fst l) -> ctx_agent u c <> None /\ ctx_agent u c' = None) /\
  (forall u, ~ In u (map fst l) -> ctx_agent u c' = ctx_agent u c) /\
  (forall k, match pview c k with
             | Some (o, g) => exists o', pview c' k = Some (o', g) /\ forall e, In e o' <-> In e o /\ ~ In (fst e) (map fst l)
             | None => pview c' k = None
             end).
Proof.
  intros l. induction l as [|[u d] t IH]; intros c c' xs G H; cbn [leave_all] in H.
  - injection H as <- <-. split; [exact G|]. split; [reflexivity|]. split; [reflexivity|]. split; [constructor|]. split; [intros u []|].
    split; [reflexivity|]. intros k. destruct (pview c k) as [[o g]|]; auto. exists o. split; auto. intros e. cbn. tauto.
  - destruct (leave (u, d) c) as [[c1 x]|] eqn:L; [|discriminate]. destruct (leave_all t c1) as [[c2 xs2]|] eqn:L2; [|discriminate].
    injection H as <- <-. apply leave_spec in L as (A & B & C & D & E & F & P); auto.
    apply IH in L2 as (A2 & B2 & C2 & D2 & E2 & F2 & P2); auto.
    assert (NT : ~ In u (map fst t)). { intros X. apply E2 in X as [X _]. rewrite F, keq_refl in X. congruence. }
    split; [|split; [|split; [|split; [|split; [|split]]]]]; auto.
    + congruence.
    + cbn [map]. f_equal; [f_equal; [exact D | exact C] | exact C2].
    + cbn. constructor; auto.
    + intros v [<-|X].
      * split; auto. cbn [fst]. rewrite F2 by auto. now rewrite F, keq_refl.
      * apply E2 in X as [X Y]. split; auto. intros Z. apply X. rewrite F, Z. now destruct (keq v u).
    + intros v X. cbn in X. rewrite F2 by tauto. rewrite F. replace (keq v u) with false; auto. symmetry. apply keq_neq. intros ->. tauto.
    + intros k. specialize (P2 k). rewrite P in P2. destruct (pview c k) as [[o g]|]; cbn in P2; auto.
      destruct P2 as (o' & P2 & Q). exists o'. split; auto. intros e. rewrite Q. unfold ddel. rewrite filter_In, negb_true_iff, keq_neq. cbn.
      split; [intros [[X Y] Z]; split; auto; intros [W|W]; auto | intros [X Y]; repeat split; auto].
Qed.
Lemma arrive_view : forall d g c c' gone a, arrive fobj d g c = (c', gone, a) -> forall k, pview c' k = pview c k.
Proof.
  intros d g c c' gone a H k. unfold arrive in H. destruct (restore fobj d c) as [c1 a1] eqn:R.
  apply restore_spec in R as (_ & _ & _ & P & _).
  assert (X : c_projs c' = c_projs (map_projs (p_add a1) c1)).
  { destruct g; injection H as <- _ _; reflexivity. }
  unfold pview. rewrite X, dget_map_projs, P. destruct (dget k (c_projs c)); reflexivity.
Qed.
Lemma known_view : forall c, oob_known c <-> forall k o g e, pview c k = Some (o, g) -> In e o -> ctx_agent (fst e) c <> None \/ In (fst e) g.
Proof.
  intros c. unfold pview. split.
  - intros K k o g e P I. destruct (dget k (c_projs c)) as [p|] eqn:E; [|discriminate]. cbn in P. injection P as <- <-.
    apply (K k p (fst e) E). now apply in_map.
  - intros K k p u P I. apply in_map_iff in I as (e & <- & I). apply (K k (d_oob (p_ds p)) (map a_uid (p_ghosts p)) e); auto. now rewrite P.
Qed.
Lemma arrive_all_spec : forall l c c' gone, good c -> arrive_all fobj l c = (c', gone) ->
  good c' /\ c_rank c' = c_rank c /\
  (forall u, ctx_agent u c' <> None <-> ctx_agent u c <> None \/ exists x, In x l /\ u = fst (fst (snd x))) /\
  (forall k, pview c' k = pview c k).
Proof.
  intros l. induction l as [|[r [d g]] t IH]; intros c c' gone G H; cbn [arrive_all] in H.
  - injection H as <- <-. split; [|split; [|split]]; auto. intros u. split; auto. intros [|(x & [] & _)]; auto.
  - destruct (arrive fobj d g c) as [[c1 g1] a] eqn:A. destruct (arrive_all fobj t c1) as [c2 g2] eqn:T. injection H as <- _.
    pose proof (arrive_view _ _ _ _ _ _ A) as V. apply arrive_spec in A as (A1 & A2 & A3 & A4 & A5 & A6); [|apply G].
    assert (AG : forall u, ctx_agent u c1 <> None <-> ctx_agent u c <> None \/ u = fst d).
    { intros u. unfold ctx_agent, get_local. rewrite A4, dget_dset. destruct (keq u (fst d)) eqn:K.
      - apply keq_ok in K. split; [auto | discriminate].
      - apply keq_neq in K. tauto. }
    apply IH in T as (B1 & B2 & B3 & B4).
    + split; [|split; [|split]]; auto.
      * congruence.
      * intros u. rewrite B3, AG. split.
        -- intros [[X|X]|(x & X & Y)]; [auto | right; exists (r, (d, g)); cbn; auto | right; exists x; cbn; auto].
        -- intros [X|(x & [<-|X] & Y)]; auto. right. eauto.
      * intros k. rewrite B4. apply V.
    + apply (frame_good c); auto. apply known_view. intros k o gg e P I. rewrite V in P.
      destruct (proj1 (known_view c) (g_oob c G) k o gg e P I) as [X|X]; auto. left. apply AG. auto.
Qed.
Lemma delete_ghosts_view : forall l c c', delete_ghosts l c = Some c' -> forall k, pview c' k = pview c k.
Proof.
  intros l. induction l as [|u t IH]; intros c c' H k; cbn in H; [injection H as <-; auto|].
  destruct (delete_ghost u (c_man c)) as [m [r| | |]]; try discriminate. rewrite (IH _ _ H k). reflexivity.
Qed.

(** The first part: agents leave and arrive. *)
Lemma move_first : forall moves w cs recv w3, wgood w -> agree w -> length moves = length w ->
  mapo (fun e => leave_all (snd e) (fst e)) (combine w moves) = Some cs -> exchange (map snd cs) = Some recv ->
  mapo (fun e => let '(c, gone) := arrive_all fobj (snd e) (fst e) in delete_ghosts gone c) (combine (map fst cs) recv) = Some w3 ->
  length w3 = length w /\ wgood w3 /\ agree w3 /\
  (forall j c3, nth_error w3 j = Some c3 -> exists c l c1 xs rl c2 gone, nth_error w j = Some c /\ nth_error moves j = Some l /\
     leave_all l c = Some (c1, xs) /\ nth_error recv j = Some rl /\ arrive_all fobj rl c1 = (c2, gone) /\ delete_ghosts gone c2 = Some c3) /\
  (forall j c, nth_error w j = Some c -> exists l, nth_error moves j = Some l) /\
  (forall j rl, nth_error recv j = Some rl -> forall u, (exists x, In x rl /\ u = fst (fst (snd x))) <->
     exists i l, nth_error moves i = Some l /\ (i < length w)%nat /\ In (u, Z.of_nat j) l) /\
  (forall i l u d, nth_error moves i = Some l -> (i < length w)%nat -> In (u, d) l -> lives u i w /\ (forall d', In (u, d') l -> d' = d) /\
     exists j, d = Z.of_nat j /\ (j < length w)%nat) /\
  (forall u j, lives u j w3 <-> (exists l, lives u j w /\ nth_error moves j = Some l /\ ~ In u (map fst l)) \/
     (exists i l, nth_error moves i = Some l /\ (i < length w)%nat /\ In (u, Z.of_nat j) l)) /\
  (forall i u d, outside w3 i u d <-> outside w i u d /\ forall l, nth_error moves i = Some l -> ~ In u (map fst l)).
Proof.
  intros moves w cs recv w3 G AG LM M E R.
  destruct (mapo_nth _ _ _ _ _ M) as [L1 N1]. pose proof (mapo_inv _ _ _ _ _ M) as V1.
  rewrite combine_length, LM, Nat.min_id in L1.
  destruct (exchange_nth _ _ _ E) as (L2 & RG & RC). rewrite map_length in L2, RG.
  destruct (mapo_nth _ _ _ _ _ R) as [L3 N3]. pose proof (mapo_inv _ _ _ _ _ R) as V3.
  rewrite combine_length, map_length, L2, Nat.min_id in L3.
  (* one rank *)
  assert (Q : forall j c3, nth_error w3 j = Some c3 -> exists c l c1 xs rl c2 gone, nth_error w j = Some c /\ nth_error moves j = Some l /\
     leave_all l c = Some (c1, xs) /\ nth_error recv j = Some rl /\ arrive_all fobj rl c1 = (c2, gone) /\ delete_ghosts gone c2 = Some c3).
  { intros j c3 C3. destruct (V3 j c3 C3) as ([c1 rl] & X & Y). apply nth_combine in X as [X1 X2]. cbn in X1, X2, Y.
    apply nth_map in X1 as ([c1' xs] & X1 & ->). cbn in *. destruct (V1 j _ X1) as ([c l] & X & Z). apply nth_combine in X as [X3 X4].
    cbn in X3, X4, Z. destruct (arrive_all fobj rl c1') as [c2 gone] eqn:A. exists c, l, c1', xs, rl, c2, gone. auto 10. }
  assert (Q' : forall j c l, nth_error w j = Some c -> nth_error moves j = Some l -> exists c1 xs rl c2 gone c3, nth_error w3 j = Some c3 /\
     leave_all l c = Some (c1, xs) /\ nth_error cs j = Some (c1, xs) /\ nth_error recv j = Some rl /\ arrive_all fobj rl c1 = (c2, gone) /\ delete_ghosts gone c2 = Some c3).
  { intros j c l C ML. assert (K : nth_error (combine w moves) j = Some (c, l)) by (apply nth_combine; auto).
    destruct (N1 j _ K) as ([c1 xs] & X & Y). cbn in X.
    assert (J : (j < length recv)%nat). { rewrite L2, L1. apply nth_error_Some. congruence. }
    destruct (nth_error recv j) as [rl|] eqn:Z; [|apply nth_error_None in Z; lia].
    assert (K2 : nth_error (combine (map fst cs) recv) j = Some (c1, rl)).
    { apply nth_combine. split; auto. apply nth_map. exists (c1, xs). auto. }
    destruct (N3 j _ K2) as (c3 & Y2 & W). cbn in Y2. destruct (arrive_all fobj rl c1) as [c2 gone] eqn:A.
    exists c1, xs, rl, c2, gone, c3. auto 10. }
  assert (MV : forall j c, nth_error w j = Some c -> exists l, nth_error moves j = Some l).
  { intros j c C. destruct (nth_error moves j) eqn:X; eauto. apply nth_error_None in X. rewrite LM in X. apply nth_error_None in X. congruence. }
  (* what arrives *)
  assert (ARR : forall j rl, nth_error recv j = Some rl -> forall u, (exists x, In x rl /\ u = fst (fst (snd x))) <->
     exists i l, nth_error moves i = Some l /\ (i < length w)%nat /\ In (u, Z.of_nat j) l).
  { intros j rl RL u. split.
    - intros ([r y] & I & U). cbn in U. apply (RC j rl RL) in I as (i & s & -> & S & I). apply nth_map in S as ([c1 xs] & S & ->). cbn in I.
      destruct (V1 i _ S) as ([c l] & X & Y). apply nth_combine in X as [X1 X2]. cbn in X1, X2, Y. exists i, l. split; auto. split.
      + apply nth_error_Some. congruence.
      + apply leave_all_spec in Y as (_ & _ & Y & _); [|apply (w_good w G i c X1)]. rewrite <- Y. apply in_map_iff. exists (Z.of_nat j, y). split; [|exact I]. cbn. now rewrite U.
    - intros (i & l & ML & Li & I). destruct (nth_error w i) as [c|] eqn:C; [|apply nth_error_None in C; lia].
      destruct (Q' i c l C ML) as (c1 & xs & rl' & c2 & gone & c3 & _ & LA & CS & _).
      apply leave_all_spec in LA as (_ & _ & Y & _); [|apply (w_good w G i c C)]. rewrite <- Y in I. apply in_map_iff in I as ([d y] & I1 & I2).
      cbn in I1. injection I1 as I1 ->. exists (Z.of_nat i, y). split; [|now symmetry]. apply (RC j rl RL). exists i, xs. split; auto. split; auto.
      apply nth_map. exists (c1, xs). auto. }
  assert (POP : forall j c l c1 xs rl c2 gone c3, nth_error w j = Some c -> nth_error moves j = Some l -> leave_all l c = Some (c1, xs) ->
     nth_error recv j = Some rl -> arrive_all fobj rl c1 = (c2, gone) -> delete_ghosts gone c2 = Some c3 ->
     good c3 /\ c_rank c3 = c_rank c /\
     (forall u, ctx_agent u c3 <> None <-> (ctx_agent u c <> None /\ ~ In u (map fst l)) \/ exists i li, nth_error moves i = Some li /\ (i < length w)%nat /\ In (u, Z.of_nat j) li) /\
     (forall k, match pview c k with
             | Some (o, g) => exists o', pview c3 k = Some (o', g) /\ forall e, In e o' <-> In e o /\ ~ In (fst e) (map fst l)
             | None => pview c3 k = None
             end)).
  { intros j c l c1 xs rl c2 gone c3 C ML LA RL AA DG. pose proof (w_good w G j c C) as GC.
    apply leave_all_spec in LA as (A1 & A2 & _ & _ & A3 & A4 & A5); auto.
    apply arrive_all_spec in AA as (B1 & B2 & B3 & B4); auto.
    pose proof (delete_ghosts_view _ _ _ DG) as V. apply delete_ghosts_gh in DG as GH. split; [eapply gh_good; eauto|].
    destruct GH as (SL & _). split; [|split].
    - destruct SL as (_ & _ & SL). congruence.
    - intros u. rewrite (sl_agent c2 c3 u SL), B3, (ARR j rl RL u). split; (intros [X|X]; [left | right; auto]).
      + split.
        * destruct (ctx_agent u c) eqn:Y; [discriminate|]. intros _. apply X. destruct (in_dec (fun a b => keq_dec a b) u (map fst l)) as [I|I].
          -- apply A3 in I. tauto.
          -- rewrite A4; auto.
        * intros I. apply A3 in I. tauto.
      + destruct X as [X Y]. rewrite A4; auto.
    - intros k. specialize (A5 k). rewrite V, B4. auto. }
  assert (MOVED : forall i l u d, nth_error moves i = Some l -> (i < length w)%nat -> In (u, d) l -> lives u i w /\ (forall d', In (u, d') l -> d' = d) /\
     exists j, d = Z.of_nat j /\ (j < length w)%nat).
  { intros i l u d ML Li I. destruct (nth_error w i) as [c|] eqn:C; [|apply nth_error_None in C; lia].
    destruct (Q' i c l C ML) as (c1 & xs & rl & c2 & gone & c3 & _ & LA & CS & _).
    apply leave_all_spec in LA as (_ & _ & Y & ND & A3 & _); [|apply (w_good w G i c C)]. split; [|split].
    - exists c. split; auto. apply A3. now apply (in_map fst) in I.
    - intros d' I'. clear -ND I I'. induction l as [|[v x] t IH]; cbn in *; [tauto|]. inversion ND as [|a b N1 N2]; subst.
      destruct I as [I|I], I' as [I'|I']; auto.
      + congruence.
      + exfalso. injection I as -> ->. apply N1. now apply (in_map fst) in I'.
      + exfalso. injection I' as -> ->. apply N1. now apply (in_map fst) in I.
    - rewrite <- Y in I. apply in_map_iff in I as ([d' y] & I1 & I2). cbn in I1. injection I1 as _ <-.
      rewrite <- L1. eapply (RG i xs d'); eauto. apply nth_map. exists (c1, xs). auto. }
  (* the population before the second part *)
  assert (LV : forall u j, lives u j w3 <-> (exists l, lives u j w /\ nth_error moves j = Some l /\ ~ In u (map fst l)) \/
     (exists i l, nth_error moves i = Some l /\ (i < length w)%nat /\ In (u, Z.of_nat j) l)).
  { intros u j. split.
    - intros (c3 & C3 & A). destruct (Q j c3 C3) as (c & l & c1 & xs & rl & c2 & gone & C & ML & LA & RL & AA & DG).
      destruct (POP j c l c1 xs rl c2 gone c3 C ML LA RL AA DG) as (_ & _ & B & _). destruct (proj1 (B u) A) as [[A1 A2]|A']; auto.
      left. exists l. split; auto. exists c. auto.
    - intros X. assert (J : exists c, nth_error w j = Some c).
      { destruct X as [(l & (c & C & _) & _)|(i & l & ML & Li & I)]; eauto. destruct (MOVED i l u _ ML Li I) as (_ & _ & (j' & Ej & Lj)).
        apply Nat2Z.inj in Ej. subst j'. destruct (nth_error w j) eqn:Z; eauto. apply nth_error_None in Z. lia. }
      destruct J as (c & C). destruct (MV j c C) as (l & ML).
      destruct (Q' j c l C ML) as (c1 & xs & rl & c2 & gone & c3 & C3 & LA & _ & RL & AA & DG).
      destruct (POP j c l c1 xs rl c2 gone c3 C ML LA RL AA DG) as (_ & _ & B & _). exists c3. split; auto. apply B.
      destruct X as [(l' & (c' & C' & A) & ML' & NI)|X]; auto. left. assert (c' = c) by congruence. assert (l' = l) by congruence. subst. auto. }
  assert (OUT : forall i u d, outside w3 i u d <-> outside w i u d /\ forall l, nth_error moves i = Some l -> ~ In u (map fst l)).
  { intros i u d. rewrite !outside_view. split.
    - intros (c3 & k & o & g & q & C3 & PV & I & NI). destruct (Q i c3 C3) as (c & l & c1 & xs & rl & c2 & gone & C & ML & LA & RL & AA & DG).
      destruct (POP i c l c1 xs rl c2 gone c3 C ML LA RL AA DG) as (_ & _ & _ & B). specialize (B k). destruct (pview c k) as [[o0 g0]|] eqn:PV0; [|congruence].
      destruct B as (o' & B1 & B2). rewrite PV in B1. injection B1 as <- <-. apply B2 in I as [I1 I2]. cbn in I2. split.
      + exists c, k, o0, g, q. auto.
      + intros l' ML'. assert (l' = l) by congruence. now subst l'.
    - intros [(c & k & o & g & q & C & PV & I & NI) NM]. destruct (MV i c C) as (l & ML).
      destruct (Q' i c l C ML) as (c1 & xs & rl & c2 & gone & c3 & C3 & LA & _ & RL & AA & DG).
      destruct (POP i c l c1 xs rl c2 gone c3 C ML LA RL AA DG) as (_ & _ & _ & B). specialize (B k). rewrite PV in B. destruct B as (o' & B1 & B2).
      exists c3, k, o', g, q. split; auto. split; auto. split; auto. apply B2. cbn. split; auto. }
  assert (G3 : wgood w3).
  { split.
    - intros j c3 C3. destruct (Q j c3 C3) as (c & l & c1 & xs & rl & c2 & gone & C & ML & LA & RL & AA & DG). eapply POP; eauto.
    - intros j c3 C3. destruct (Q j c3 C3) as (c & l & c1 & xs & rl & c2 & gone & C & ML & LA & RL & AA & DG).
      destruct (POP j c l c1 xs rl c2 gone c3 C ML LA RL AA DG) as (_ & B & _). rewrite B. eapply w_rank; eauto.
    - intros u i j A B. apply LV in A, B.
      destruct A as [(l & A1 & A2 & A3)|(i1 & l1 & A1 & A2 & A3)], B as [(l' & B1 & B2 & B3)|(i2 & l2 & B1 & B2 & B3)].
      + eapply w_once; eauto.
      + exfalso. destruct (MOVED _ _ _ _ B1 B2 B3) as (X & _). assert (i2 = i) by (eapply w_once; eauto). subst i2. assert (l2 = l) by congruence. subst l2.
        apply A3. now apply (in_map fst) in B3.
      + exfalso. destruct (MOVED _ _ _ _ A1 A2 A3) as (X & _). assert (i1 = j) by (eapply w_once; eauto). subst i1. assert (l1 = l') by congruence. subst l1.
        apply B3. now apply (in_map fst) in A3.
      + destruct (MOVED _ _ _ _ A1 A2 A3) as (X & X2 & _). destruct (MOVED _ _ _ _ B1 B2 B3) as (Y & _). assert (i1 = i2) by (eapply w_once; eauto).
        subst i2. assert (l1 = l2) by congruence. subst l2. apply Nat2Z.inj. symmetry. apply X2. auto. }
  assert (AG3 : agree w3). { intros i u d d' A B. apply OUT in A as [A _]. apply OUT in B as [B _]. eapply AG; eauto. }
  split; [congruence|]. auto 10.
Qed.

Lemma move_agents_spec : forall moves w w', wgood w -> agree w -> length moves = length w -> move_agents fobj moves w = Some w' ->
  wgood w' /\ length w' = length w /\ (forall u j, lives u j w' <-> exists i, lives u i w /\ sent_to moves w u i j) /\
  (forall u i, lives u i w -> exists j, sent_to moves w u i j).
Proof.
  intros moves w w' G AG LM H. unfold move_agents in H.
  destruct (mapo _ (combine w moves)) as [cs|] eqn:M; [|discriminate].
  destruct (exchange _) as [recv|] eqn:E; [|discriminate].
  destruct (mapo _ (combine (map fst cs) recv)) as [w3|] eqn:R; [|discriminate].
  destruct (mapo pre_synch w3) as [w4|] eqn:P; [|discriminate].
  destruct (move_oob fobj w4) as [[cs5 any]|] eqn:O; [|discriminate].
  destruct (move_first moves w cs recv w3 G AG LM M E R) as (L3 & G3 & AG3 & _ & MV & _ & MOVED & LV & OUT).
  destruct (pre_world w3 w4 G3 P) as (G4 & L4 & LV4 & EN4). pose proof (mapo_nth _ _ _ _ _ P) as [LN4 _].
  apply move_oob_spec in O as (G5 & L5 & LV5 & RNG); auto.
  2: { intros i u d d' A B. apply EN4 in A, B. eapply AG3; eauto. }
  apply synch_ghosts_gh in H. split; [eapply wgood_gh; eauto|]. split.
  { destruct (forall2_nth _ _ _ _ _ H) as [L _]. rewrite map_length in L. lia. }
  assert (FIN : forall u j, lives u j w' <-> exists i, lives u i w3 /\ bound_for w3 u i j).
  { intros u j. rewrite (lives_gh _ _ u j H), LV5. split; intros (i & A & B); exists i.
    - apply LV4 in A. split; auto. apply (bound_entry w3 w4 u i j (fun d => EN4 i u d)). auto.
    - split; [now apply LV4|]. apply (bound_entry w3 w4 u i j (fun d => EN4 i u d)). auto. }
  assert (STAY : forall i u l, nth_error moves i = Some l -> ~ In u (map fst l) -> forall j, bound_for w3 u i j <-> bound_for w u i j).
  { intros i u l ML NI j. assert (X : forall d, outside w3 i u d <-> outside w i u d).
    { intros d. rewrite OUT. split; [tauto|]. intros X. split; auto. intros l' ML'. assert (l' = l) by congruence. now subst l'. }
    unfold bound_for. split; (intros [Y|[Y Z]]; [left; now apply X | right; split; auto; intros d D; eapply Z, X; eauto]). }
  assert (HOME : forall i l u j, nth_error moves i = Some l -> (i < length w)%nat -> In (u, Z.of_nat j) l -> forall d, ~ outside w3 j u d).
  { intros i l u j ML Li I d D. apply OUT in D as [D NM]. destruct (MOVED _ _ _ _ ML Li I) as (X & _).
    destruct D as (c & k & p & q & C & PK & IN & NI). destruct (g_oob c (w_good w G j c C) k p u PK) as [Y|Y]; auto.
    - now apply (in_map fst) in IN.
    - assert (i = j) by (eapply w_once; [exact G | exact X | exists c; auto]). subst j. apply (NM l ML). now apply (in_map fst) in I. }
  split.
  2: { intros u i A. destruct A as (c & C & A). destruct (MV i c C) as (l & ML). assert (Li : (i < length w)%nat) by (apply nth_error_Some; congruence).
    destruct (in_dec (fun a b => keq_dec a b) u (map fst l)) as [I|I].
    - apply in_map_iff in I as ([v d] & V & I). cbn in V. subst v. destruct (MOVED i l u d ML Li I) as (_ & _ & (j & -> & _)).
      exists j, l. auto.
    - destruct (outside_dec w i u) as [(d & D)|N]; [|exists i, l; split; auto; right; split; auto; right; auto].
      destruct (RNG i u d) as (j & ->).
      + apply EN4. apply OUT. split; auto. intros l' ML'. assert (l' = l) by congruence. now subst l'.
      + exists j, l. split; auto. right. split; auto. now left. }
  intros u j. rewrite FIN. split.
  - intros (i3 & A & B). apply LV in A as [(l & A1 & A2 & A3)|(i & l & A1 & A2 & A3)].
    + exists i3. split; auto. exists l. split; auto. right. split; auto. eapply STAY; eauto.
    + exists i. destruct (MOVED _ _ _ _ A1 A2 A3) as (X & _). split; auto. exists l. split; auto. left.
      destruct B as [B|[-> _]]; auto. exfalso. eapply HOME; eauto.
  - intros (i & A & (l & ML & X)). destruct X as [X|[X Y]].
    + assert (Li : (i < length w)%nat). { destruct A as (c & C & _). apply nth_error_Some. congruence. }
      exists j. split; [apply LV; right; eauto|]. right. split; auto. eapply HOME; eauto.
    + exists i. split; [apply LV; left; eauto|]. apply (STAY i u l ML X j). auto.
Qed.

(** ** [request_agents] *)
Lemma add_req_local : forall u m, am_local (add_req_ghost u m) = am_local m /\ am_rank (add_req_ghost u m) = am_rank m.
Proof. intros u m. unfold add_req_ghost. destruct (is_requested u m); auto. Qed.
Lemma ask_gh : forall e c c' x, ask e c = (c', x) -> ghostly c c'.
Proof.
  intros [u r] c c' x H. unfold ask in H. destruct (get_ghost u 0 (c_man c)) as [m [a|]] eqn:Gh; [|injection H as <- _; apply gh_refl].
  apply get_ghost_local in Gh as [A B]. injection H as <- _.
  eapply (gh_map (fun p => if p_contains (a_uid a) p then p else p_add a p)); auto.
  - intros p. destruct (p_contains (a_uid a) p); auto using pframe_refl, p_add_frame.
  - intros p v. destruct (p_contains (a_uid a) p); auto.
  - split; [|split]; auto; unfold c_rank; cbn [map_projs set_projs set_man c_man]; destruct (add_req_local (a_uid a) m); congruence.
Qed.
Lemma ask_all_gh : forall l c c' x, ask_all l c = (c', x) -> ghostly c c'.
Proof.
  intros l. induction l as [|e t IH]; intros c c' x H; cbn in H; [injection H as <- _; apply gh_refl|].
  destruct (ask e c) as [c1 x1] eqn:A. destruct (ask_all t c1) as [c2 x2] eqn:B. injection H as <- _.
  eapply gh_trans; [eapply ask_gh | eapply IH]; eauto.
Qed.
Lemma answer_gh : forall l c c' x, answer l c = Some (c', x) -> ghostly c c'.
Proof.
  intros l. induction l as [|[r u] t IH]; intros c c' x H; cbn in H; [injection H as <- _; apply gh_refl|].
  destruct (tag_as_ghosted r u (c_man c)) as [m [a| | |]] eqn:T; try discriminate.
  destruct (answer t (set_man c m)) as [[c1 xs]|] eqn:B; [|discriminate]. injection H as <- _.
  eapply gh_trans; [|eapply IH; eauto].
  assert (X : am_local m = am_local (c_man c) /\ am_rank m = am_rank (c_man c)).
  { unfold tag_as_ghosted in T. destruct (dget u (am_ghosted (c_man c))); [injection T as <- _; auto|].
    destruct (dget u (am_local (c_man c))); [injection T as <- _; auto | discriminate]. }
  destruct X as [X1 X2]. apply gh_man; auto using sl_man.
Qed.
Lemma add_requested_gh : forall l c, ghostly c (add_requested fobj l c).
Proof.
  intros l. induction l as [|[r d] t IH]; intros c; cbn [add_requested]; [apply gh_refl|].
  destruct (restore fobj d c) as [c1 a] eqn:R. apply restore_spec in R as (_ & M & T & P & N & _).
  eapply gh_trans; [|apply IH].
  apply (gh_trans c c1).
  - apply gh_man; auto. split; [|split]; auto; [congruence|]. unfold c_rank. congruence.
  - apply (gh_map (p_add a)); auto.
    + apply p_add_frame.
    + split; [|split]; auto; unfold c_rank; cbn [ctx_add_ghost map_projs set_projs set_man c_man];
        match goal with |- context [add_req_ghost ?u ?m] => destruct (add_req_local u m) as [X1 X2]; rewrite ?X1, ?X2; reflexivity end.
Qed.
Lemma request_gh : forall reqs w w', length reqs = length w -> request_agents fobj reqs w = Some w' -> all_ghostly w w'.
Proof.
  intros reqs w w' L H. unfold request_agents in H.
  destruct (exchange _) as [recv|] eqn:E; [|discriminate].
  destruct (mapo _ _) as [cs|] eqn:M; [|discriminate].
  destruct (exchange (map snd cs)) as [recv2|] eqn:E2; [|discriminate]. injection H as <-.
  apply exchange_length in E. rewrite !map_length, combine_length, L, Nat.min_id in E.
  apply exchange_length in E2. rewrite map_length in E2. pose proof (mapo_nth _ _ _ _ _ M) as [LM _].
  rewrite combine_length, !map_length, combine_length, L, E, !Nat.min_id in LM.
  assert (A1 : all_ghostly w (map fst (map (fun e => ask_all (snd e) (fst e)) (combine w reqs)))).
  { clear -L. revert reqs L. induction w as [|c t IH]; intros [|r reqs] L; cbn; try discriminate L; constructor.
    - destruct (ask_all r c) eqn:A. eapply ask_all_gh; eauto.
    - apply IH. cbn in L. lia. }
  assert (A2 : all_ghostly (map fst (map (fun e => ask_all (snd e) (fst e)) (combine w reqs))) (map fst cs)).
  { set (w1 := map fst _) in *. assert (L1 : length w1 = length recv). { unfold w1. rewrite !map_length, combine_length, L, Nat.min_id. lia. }
    clearbody w1. clear -M L1. revert recv L1 cs M. induction w1 as [|c t IH]; intros [|r recv] L1 cs M; cbn in *; try discriminate L1.
    - injection M as <-. constructor.
    - destruct (answer r c) as [[c' x]|] eqn:A; [|discriminate]. destruct (mapo _ (combine t recv)) as [cs'|] eqn:B; [|discriminate].
      injection M as <-. cbn. constructor; [eapply answer_gh; eauto|]. eapply IH; [|eauto]. lia. }
  eapply ag_trans; [exact A1|]. eapply ag_trans; [exact A2|].
  assert (L2 : length (map fst cs) = length recv2) by (rewrite map_length; lia).
  clear -L2. revert recv2 L2. induction (map fst cs) as [|c t IH]; intros [|r recv] L2; cbn in *; try discriminate L2; constructor.
  - apply add_requested_gh.
  - apply IH. lia.
Qed.
End Population.
