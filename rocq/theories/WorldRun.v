(** Runs of a distributed model. *)
From Coq Require Import List Arith ZArith Lia Bool Permutation.
From Verif Require Import PyDict AgentModel SpaceModel TopologyModel ContextModel ContextSpec ContextProofs WorldModel WorldSpec WorldProofs WorldMoves WorldPopulation.
Import ListNotations.
Open Scope Z_scope.

Lemma on_rank_spec : forall r f w w', on_rank r f w = Some w' -> exists c c', nth_error w r = Some c /\ f c = Some c' /\ length w' = length w /\
  forall i, nth_error w' i = if Nat.eqb i r then Some c' else nth_error w i.
Proof.
  intros r f w w' H. unfold on_rank in H. destruct (nth_error w r) as [c|] eqn:C; [|discriminate].
  destruct (f c) as [c'|] eqn:F; [|discriminate]. injection H as <-. exists c, c'. split; auto. split; auto. split; [apply set_nth_length|].
  intros i. rewrite set_nth_nth, C. reflexivity.
Qed.

Lemma nth_new : forall n i c, nth_error (new_world n) i = Some c -> c = new_context (Z.of_nat i).
Proof.
  intros n i c H. unfold new_world in H. apply nth_map in H as (x & X & ->). f_equal. f_equal.
  assert (L : (i < length (seq 0 n))%nat) by (apply nth_error_Some; congruence). rewrite seq_length in L.
  apply (nth_error_nth _ _ 0%nat) in X. rewrite seq_nth in X; auto.
Qed.
Lemma wgood_new : forall n, wgood (new_world n).
Proof.
  intros n. split.
  - intros i c C. apply nth_new in C. subst c. apply Good.
    + eexists _, _. apply holds_new.
    + constructor.
    + constructor.
    + intros k p u P. discriminate.
    + intros k p P. discriminate.
    + intros k p P. discriminate.
  - intros i c C. apply nth_new in C. now subst c.
  - intros u i j (c & C & A). apply nth_new in C. subst c. exfalso. now apply A.
Qed.
Lemma nobody_new : forall n u i, ~ lives u i (new_world n).
Proof. intros n u i (c & C & A). apply nth_new in C. subst c. now apply A. Qed.

(** One rank *)
Lemma good_state : forall c s, good c -> good (set_state c s).
Proof. intros c s G. apply (gh_good c); auto. apply gh_man; auto. repeat split; auto. Qed.
Lemma add_agent : forall u a c, ctx_agent u (ctx_add a c) = if keq u (a_uid a) then Some a else ctx_agent u c.
Proof. intros u a c. unfold ctx_agent, get_local. cbn. apply dget_dset. Qed.
Lemma good_add : forall a c, good c -> good (ctx_add a c).
Proof.
  intros a c G. apply (frame_good c); auto.
  - destruct (g_cons c G) as (l & k & H). eexists _, _. eapply holds_add; eauto.
  - apply (frame_map c (p_add a)). apply p_add_frame.
  - intros k p' v. unfold ctx_add. rewrite dget_map_projs. cbn [set_man set_types c_projs]. destruct (dget k (c_projs c)) as [p|] eqn:P; [|discriminate].
    cbn [option_map]. intros E I. injection E as <-. change (oob_ids (p_add a p)) with (oob_ids p) in I.
    destruct (g_oob c G k p v P I) as [X|X]; [left | right; exact X]. fold (ctx_add a c). rewrite add_agent. destruct (keq v (a_uid a)); [discriminate | auto].
Qed.
Lemma remove_agent : forall u c c' r, good c -> ctx_remove u c = (c', Ok r) -> good c' /\ c_rank c' = c_rank c /\ ctx_agent u c <> None /\
  forall v, ctx_agent v c' = if keq v u then None else ctx_agent v c.
Proof.
  intros u c c' r G H. unfold ctx_remove in H. destruct (delete_local u (c_man c)) as [[m gone] x] eqn:DL.
  assert (ML : am_local m = ddel u (am_local (c_man c)) /\ am_rank m = am_rank (c_man c)).
  { injection DL as <- _ _. auto. }
  destruct ML as [ML MR]. cbn [set_man set_removed c_types] in H.
  destruct (type_del u (c_types c)) as [ts|] eqn:T; [|discriminate]. injection H as <- _.
  set (c1 := map_projs _ _).
  assert (AG : forall v, ctx_agent v c1 = if keq v u then None else ctx_agent v c).
  { intros v. unfold ctx_agent, get_local. rewrite <- dget_ddel, <- ML. reflexivity. }
  split; [|split; [|split]]; auto.
  - apply (frame_good c); auto.
    + apply (remove_consistent c u ts); auto. apply (g_cons c G).
    + apply (frame_map c (p_remove u)). apply p_remove_frame.
    + intros k p' v. unfold c1. rewrite dget_map_projs. cbn [set_man set_types set_removed c_projs].
      destruct (dget k (c_projs c)) as [p|] eqn:P; [|discriminate].
      cbn [option_map]. intros E I. injection E as <-. unfold oob_ids in I. rewrite p_remove_oob in I. apply ddel_In_keys in I as [I1 I2].
      destruct (g_oob c G k p v P I2) as [Y|Y]; [left | right; exact Y]. fold c1. rewrite AG. apply keq_neq in I1. now rewrite I1.
  - destruct (g_cons c G) as (l & k & H). destruct (existsb (has_id u) l) eqn:X.
    + unfold ctx_agent, get_local. rewrite (h_local _ _ _ H), ents_get. apply existsb_exists in X as (b & B & B2).
      destruct (find (has_id u) l) eqn:F; [discriminate|]. apply (find_none _ _ F) in B. congruence.
    + rewrite (type_del_absent l k c u H X) in T. discriminate.
Qed.
Lemma good_move : forall c pid p p' a q r, good c -> ctx_agent (a_uid a) c <> None -> dget pid (c_projs c) = Some p -> p_move a q p = (p', r) ->
  good (set_projs c (dset pid p' (c_projs c))).
Proof.
  intros c pid p p' a q r G A P M. apply (frame_good c); auto.
  - destruct (g_cons c G) as (l & k & H). exists l, k. eapply holds_same; eauto.
  - apply (frame_dset c _ pid p p' P (p_move_frame _ _ _ _ _ M) eq_refl); reflexivity.
  - intros k p2 v. cbn [set_projs c_projs]. rewrite dget_dset, keq_Z. destruct (Z.eqb_spec k pid) as [->|N]; intros E I.
    + injection E as <-. destruct (p_move_frame _ _ _ _ _ M) as (_ & F & _). rewrite F.
      destruct (p_move_oob _ _ _ _ _ v M I) as [->|X]; [left; exact A | eapply (g_oob c G); eauto].
    + eapply (g_oob c G); eauto.
Qed.
Lemma fold_add_view : forall l p, d_oob (p_ds (fold_left (fun p a => p_add a p) l p)) = d_oob (p_ds p) /\ p_ghosts (fold_left (fun p a => p_add a p) l p) = p_ghosts p.
Proof. intros l. induction l as [|a t IH]; intros p; cbn; auto. destruct (IH (p_add a p)) as [A B]. rewrite A, B. auto. Qed.
Lemma good_projection : forall p c c' r, good c -> fresh_proj p -> add_projection p c = (c', r) -> good c' /\ same_local c c'.
Proof.
  intros p c c' r G [F1 F2] H. unfold add_projection in H. destruct (existsb _ _); [injection H as <- _; split; auto using sl_refl|].
  cbn [add_ghosts_to_projection] in H.
  match type of H with (set_next (set_projs _ (dset _ ?q _)) _, _) = _ => set (p2 := q) in * end.
  injection H as <- _.
  assert (V : d_oob (p_ds p2) = [] /\ p_ghosts p2 = []).
  { unfold p2. destruct (fold_add_view (map (fun e => g_agent (snd e)) (am_ghost (c_man c)))
      (fold_left (fun p a => p_add a p) (dvals (am_local (c_man c))) p)) as [A B]. rewrite A, B.
    destruct (fold_add_view (dvals (am_local (c_man c))) p) as [A' B']. rewrite A', B'. auto. }
  assert (SL : same_local c (set_next (set_projs (set_man c (upd_ghost (c_man c) (map (fun e => (fst e, Ghost (g_agent (snd e)) (g_refs (snd e) + 1))) (am_ghost (c_man c)))))
     (dset (c_next c) p2 (c_projs c))) (c_next c + 1))) by (repeat split; auto).
  split; [|exact SL]. pose proof (new_id c (g_next c G)) as NI. split.
  - eapply sl_consistent; [exact SL | apply G].
  - cbn [set_next set_projs c_projs set_man]. rewrite dset_new by auto. unfold dkeys. rewrite map_app. apply nodup_snoc; auto. apply G.
  - cbn [set_next set_projs c_projs set_man c_next]. rewrite dset_new by auto. unfold dkeys. rewrite map_app. apply Forall_app. split.
    + eapply Forall_impl; [|apply (g_next c G)]. cbn. intros a A. lia.
    + repeat constructor. cbn. lia.
  - intros k q u. cbn [set_next set_projs c_projs set_man]. rewrite dget_dset, keq_Z. destruct (Z.eqb_spec k (c_next c)) as [->|N]; intros E I.
    + injection E as <-. unfold oob_ids in I. destruct V as [V _]. rewrite V in I. destruct I.
    + exact (g_oob c G k q u E I).
  - intros k q. cbn [set_next set_projs c_projs set_man]. rewrite dget_dset, keq_Z. destruct (Z.eqb_spec k (c_next c)) as [->|N]; intros E I.
    + injection E as <-. apply V.
    + exact (g_buf c G k q E I).
  - intros k q. cbn [set_next set_projs c_projs set_man]. rewrite dget_dset, keq_Z. destruct (Z.eqb_spec k (c_next c)) as [->|N]; intros E.
    + injection E as <-. unfold oob_wf. destruct V as [V _]. rewrite V. apply dwf_nil.
    + exact (g_wf c G k q E).
Qed.

Section Run.
Variable fobj : Z -> nat -> uid -> nat.

(** Where agents are after the operation. *)
Definition residence (w : world) (o : wop) (u : uid) (j : nat) : Prop :=
  match o with
  | WAdd r a _ => (u = a_uid a /\ j = r) \/ lives u j w
  | WRemove r v => u <> v /\ lives u j w
  | WSync _ => exists i, lives u i w /\ bound_for w u i j
  | WMoveAgents moves => exists i, lives u i w /\ sent_to moves w u i j
  | _ => lives u j w
  end.

Lemma on_rank_good : forall w w' r f, wgood w -> on_rank r f w = Some w' ->
  (forall c c', nth_error w r = Some c -> f c = Some c' -> good c' /\ c_rank c' = c_rank c) ->
  (forall u i j, lives u i w' -> lives u j w' -> i = j) -> wgood w'.
Proof.
  intros w w' r f G H F U. apply on_rank_spec in H as (c & c' & C & FC & _ & N). destruct (F c c' C FC) as [F1 F2]. split; auto.
  - intros i x X. rewrite N in X. destruct (Nat.eqb_spec i r) as [->|]; [injection X as <-; auto | eapply w_good; eauto].
  - intros i x X. rewrite N in X. destruct (Nat.eqb_spec i r) as [->|]; [injection X as <-; rewrite F2 |]; eapply w_rank; eauto.
Qed.
Lemma on_rank_lives : forall w w' r f u j, on_rank r f w = Some w' -> exists c c', nth_error w r = Some c /\ f c = Some c' /\
  (lives u j w' <-> if Nat.eqb j r then ctx_agent u c' <> None else lives u j w).
Proof.
  intros w w' r f u j H. apply on_rank_spec in H as (c & c' & C & FC & _ & N). exists c, c'. split; auto. split; auto.
  unfold lives at 1. split.
  - intros (x & X & A). rewrite N in X. destruct (Nat.eqb_spec j r) as [->|]; [congruence | exists x; auto].
  - destruct (Nat.eqb_spec j r) as [->|E]; intros A.
    + exists c'. rewrite N, Nat.eqb_refl. auto.
    + destruct A as (x & X & A). exists x. rewrite N. apply Nat.eqb_neq in E. rewrite E. auto.
Qed.
Lemma lives_at : forall u r c w, nth_error w r = Some c -> lives u r w <-> ctx_agent u c <> None.
Proof. intros u r c w C. split; [intros (x & X & A); congruence | intros A; exists c; auto]. Qed.

Lemma on_rank_same : forall w w' r f, wgood w -> on_rank r f w = Some w' ->
  (forall c c', nth_error w r = Some c -> f c = Some c' -> good c' /\ c_rank c' = c_rank c /\ am_local (c_man c') = am_local (c_man c)) ->
  wgood w' /\ forall u j, lives u j w' <-> lives u j w.
Proof.
  intros w w' r f G H F.
  assert (LV : forall u j, lives u j w' <-> lives u j w).
  { intros u j. destruct (on_rank_lives w w' r f u j H) as (c & c' & C & FC & X). rewrite X.
    destruct (F c c' C FC) as (_ & _ & E). destruct (Nat.eqb_spec j r) as [->|]; [|tauto].
    rewrite (lives_at u r c w C). unfold ctx_agent, get_local. now rewrite E. }
  split; auto. eapply on_rank_good; eauto.
  - intros c c' C FC. cbv beta in FC. destruct (F c c' C FC) as (A & B & _). auto.
  - intros u i j A B. apply LV in A, B. eapply w_once; eauto.
Qed.

Lemma step_population : forall w o w', wgood w -> ok_op w o -> wstep fobj w o = Some w' ->
  wgood w' /\ (forall u j, lives u j w' <-> residence w o u j) /\
  match o with
  | WSync _ => forall u i, lives u i w -> exists j, bound_for w u i j
  | WMoveAgents moves => forall u i, lives u i w -> exists j, sent_to moves w u i j
  | _ => True
  end.
Proof.
  intros w o w' G OK H. destruct o as [r a s|r v|r pid v q|r v s|p|g|moves|reqs]; cbn [wstep ok_op residence] in *.
  - assert (LV : forall u j, lives u j w' <-> (u = a_uid a /\ j = r) \/ lives u j w).
    { intros u j. destruct (on_rank_lives w w' r _ u j H) as (c & c' & C & FC & X). rewrite X. injection FC as <-. rewrite add_agent.
      destruct (Nat.eqb_spec j r) as [->|N]; [|tauto]. rewrite (lives_at u r c w C). destruct (keq u (a_uid a)) eqn:K.
      - apply keq_ok in K. split; [auto | discriminate].
      - apply keq_neq in K. split; [auto|]. intros [[E _]|E]; [tauto | exact E]. }
    split; [|split]; auto. eapply on_rank_good; eauto.
    + intros c c' C FC. injection FC as <-. split; [|reflexivity]. apply good_add. apply good_state. eapply w_good; eauto.
    + intros u i j A B. apply LV in A, B. destruct A as [[-> ->]|A], B as [[E ->]|B]; auto.
      * exfalso. eapply OK; eauto.
      * exfalso. subst u. eapply OK; eauto.
      * eapply w_once; eauto.
  - assert (LV : forall u j, lives u j w' <-> u <> v /\ lives u j w).
    { intros u j. destruct (on_rank_lives w w' r _ u j H) as (c & c' & C & FC & X). rewrite X.
      destruct (ctx_remove v c) as [c1 [x| | |]] eqn:R; try discriminate. injection FC as <-.
      destruct (remove_agent v c c1 x (w_good w G r c C) R) as (_ & _ & L & AG). destruct (Nat.eqb_spec j r) as [->|N].
      - rewrite (lives_at u r c w C), AG. destruct (keq u v) eqn:K; [apply keq_ok in K | apply keq_neq in K]; tauto.
      - split; [|tauto]. intros Y. split; auto. intros ->. apply N. eapply w_once; eauto. exists c. auto. }
    split; [|split]; auto. eapply on_rank_good; eauto.
    + intros c c' C FC. cbv beta in FC. destruct (ctx_remove v c) as [c1 [x| | |]] eqn:R; try discriminate. injection FC as <-.
      destruct (remove_agent v c c1 x (w_good w G r c C) R) as (A & B & _). auto.
    + intros u i j A B. apply LV in A as [_ A]. apply LV in B as [_ B]. eapply w_once; eauto.
  - apply on_rank_same in H as [A B]; auto. intros c c' C FC. cbv beta in FC. destruct (get_local v (c_man c)) as [a|] eqn:L; [|discriminate].
    destruct (dget pid (c_projs c)) as [p|] eqn:P; [|discriminate]. destruct (p_move a q p) as [p' [x| | |]] eqn:M; try discriminate.
    injection FC as <-. split; [|auto]. eapply good_move; eauto; [eapply w_good; eauto|].
    assert (E : a_uid a = v) by (eapply same_id; [apply (g_cons c (w_good w G r c C)) | exact L]). rewrite E. unfold ctx_agent. rewrite L. discriminate.
  - apply on_rank_same in H as [A B]; auto. intros c c' C FC. cbv beta in FC. destruct (get_local v (c_man c)) as [a|]; [|discriminate]. injection FC as <-.
    split; [|auto]. apply good_state. eapply w_good; eauto.
  - assert (LV : forall u j, lives u j w' <-> lives u j w).
    { intros u j. destruct (mapo_nth _ _ _ _ _ H) as [_ N]. pose proof (mapo_inv _ _ _ _ _ H) as V. split; intros (c & C & A).
      - destruct (V j c C) as (c0 & C0 & X). destruct (add_projection (p (c_rank c0)) c0) as [c1 [x| | |]] eqn:AP; try discriminate. injection X as <-.
        destruct (good_projection _ _ _ _ (w_good w G j c0 C0) (OK _) AP) as [_ S]. exists c0. split; auto. now rewrite <- (sl_agent c0 c1 u S).
      - destruct (N j c C) as (c' & X & C'). destruct (add_projection (p (c_rank c)) c) as [c1 [x| | |]] eqn:AP; try discriminate. injection X as <-.
        destruct (good_projection _ _ _ _ (w_good w G j c C) (OK _) AP) as [_ S]. exists c1. split; auto. now rewrite (sl_agent c c1 u S). }
    split; [|split]; auto. pose proof (mapo_inv _ _ _ _ _ H) as V. split.
    + intros i c C. destruct (V i c C) as (c0 & C0 & X). destruct (add_projection (p (c_rank c0)) c0) as [c1 [x| | |]] eqn:AP; try discriminate.
      injection X as <-. apply (good_projection _ _ _ _ (w_good w G i c0 C0) (OK _) AP).
    + intros i c C. destruct (V i c C) as (c0 & C0 & X). destruct (add_projection (p (c_rank c0)) c0) as [c1 [x| | |]] eqn:AP; try discriminate.
      injection X as <-. destruct (good_projection _ _ _ _ (w_good w G i c0 C0) (OK _) AP) as [_ (_ & _ & S)]. rewrite S. eapply w_rank; eauto.
    + intros u i j A B. apply LV in A, B. eapply w_once; eauto.
  - destruct OK as [OK1 OK2]. apply synchronize_spec in H as (A & B & C & D); auto.
  - destruct OK as [OK1 OK2]. apply move_agents_spec in H as (A & B & C & D); auto.
  - apply request_gh in H; auto. split; [eapply wgood_gh; eauto|]. split; auto. intros u j. apply lives_gh; auto.
Qed.

Lemma alive_step_ok : forall w o w' l, wgood w -> ok_op w o -> wstep fobj w o = Some w' ->
  (forall u, In u l <-> exists i, lives u i w) -> forall u, In u (alive_step l o) <-> exists i, lives u i w'.
Proof.
  intros w o w' l G OK H L u. destruct (step_population w o w' G OK H) as (_ & LV & EX).
  assert (SAME : (forall j, lives u j w' <-> lives u j w) -> In u l <-> exists i, lives u i w').
  { intros S. rewrite L. split; intros (i & A); exists i; now apply S. }
  destruct o as [r a s|r v|r pid v q|r v s|p|g|moves|reqs]; cbn [alive_step residence] in *; try (apply SAME; intros j; apply LV).
  - cbn. split.
    + intros [<-|X]; [exists r | apply L in X as (i & X); exists i]; apply LV; auto.
    + intros (i & X). apply LV in X as [[-> _]|X]; auto. right. apply L. eauto.
  - rewrite filter_In, negb_true_iff, keq_neq, L. split.
    + intros [(i & A) N]. exists i. apply LV. split; auto.
    + intros (i & A). apply LV in A as [A B]. split; eauto.
  - rewrite L. split; intros (i & A).
    + destruct (EX u i A) as (j & B). exists j. apply LV. eauto.
    + apply LV in A as (i0 & A & _). eauto.
  - rewrite L. split; intros (i & A).
    + destruct (EX u i A) as (j & B). exists j. apply LV. eauto.
    + apply LV in A as (i0 & A & _). eauto.
Qed.
Lemma run_population : forall ops w w' l, wgood w -> proper fobj w ops -> wrun fobj w ops = Some w' ->
  (forall u, In u l <-> exists i, lives u i w) ->
  wgood w' /\ forall u, In u (fold_left alive_step ops l) <-> exists i, lives u i w'.
Proof.
  intros ops. induction ops as [|o t IH]; intros w w' l G P H L; cbn in H.
  - injection H as <-. auto.
  - destruct (wstep fobj w o) as [w1|] eqn:S; [|discriminate]. destruct P as [OK P].
    cbn [fold_left]. apply (IH w1); auto.
    + eapply step_population; eauto.
    + eapply alive_step_ok; eauto.
Qed.
Lemma run_split : forall a b w w', wrun fobj w (a ++ b) = Some w' <-> exists w1, wrun fobj w a = Some w1 /\ wrun fobj w1 b = Some w'.
Proof.
  intros a. induction a as [|o t IH]; intros b w w'; cbn.
  - split; [intros H; eauto | intros (w1 & E & H); congruence].
  - destruct (wstep fobj w o); [apply IH|]. split; [discriminate | intros (w1 & E & _); discriminate].
Qed.
Lemma proper_split : forall a b w w1, proper fobj w (a ++ b) -> wrun fobj w a = Some w1 -> proper fobj w a /\ proper fobj w1 b.
Proof.
  intros a. induction a as [|o t IH]; intros b w w1 P H; cbn in *.
  - injection H as <-. auto.
  - destruct P as [OK P]. destruct (wstep fobj w o) as [w2|] eqn:S; [|discriminate]. destruct (IH b w2 w1 (P w2 eq_refl) H) as [A B].
    split; auto. split; auto. intros w3 E. injection E as <-. auto.
Qed.

(** ** Models with at most one space *)
Definition one_proj (w : world) : Prop := forall i c, nth_error w i = Some c -> (length (c_projs c) <= 1)%nat.
Lemma one_agree : forall w, wgood w -> one_proj w -> agree w.
Proof.
  intros w G O i u d d' (c & k & p & q & C & P & I & _) (c' & k' & p' & q' & C' & P' & I' & _).
  assert (c' = c) by congruence. subst c'. specialize (O i c C).
  assert (p' = p).
  { apply dget_In in P, P'. destruct (c_projs c) as [|x [|y t]]; cbn in O; [destruct P | | lia]. destruct P as [P|[]], P' as [P'|[]]. congruence. }
  subst p'. pose proof (g_wf c (w_good w G i c C) k p P) as W. apply (In_dget _ _ _ W) in I, I'. congruence.
Qed.
Definition is_projection (o : wop) : bool := match o with WProjection _ => true | _ => false end.
Definition no_buffers (w : world) : Prop := forall i c k p, nth_error w i = Some c -> dget k (c_projs c) = Some p -> p_buf p <= 0.
Lemma no_buffers_ok : forall w, wgood w -> no_buffers w -> no_ghost_outside w.
Proof. intros w G N i c k p u C P _. rewrite (g_buf c (w_good w G i c C) k p P); auto. eapply N; eauto. Qed.
End Run.
