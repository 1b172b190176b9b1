(** What a restored schedule contains, and what it does later. *)
From Coq Require Import List Arith ZArith Bool Lia Sorting.Sorted Sorting.Permutation.
From Verif Require Import PySort ScheduleModel ScheduleSpec ScheduleProofs ScheduleExec ScheduleOrder SchedulePreserve RunnerModel RunnerProofs CheckpointModel CheckpointSim CheckpointSpec CheckpointProofs.
Import ListNotations.
Open Scope Z_scope.

(** ** Sorted lists are determined by their members *)
Section Sorted.
Context {A : Type} (lt : A -> A -> Prop).
Hypothesis asym : forall x y, lt x y -> lt y x -> False.

Lemma sorted_ext l : StronglySorted lt l -> forall l', StronglySorted lt l' -> (forall x, In x l <-> In x l') -> l = l'.
Proof.
  induction 1 as [|x l Hl IH Hx]; intros l' Hl' E.
  - destruct l' as [|y l']; auto. destruct (proj2 (E y) (or_introl eq_refl)).
  - destruct Hl' as [|y l' Hl' Hy]; [destruct (proj1 (E x) (or_introl eq_refl))|].
    rewrite Forall_forall in Hx, Hy.
    assert (x = y) as <-.
    { destruct (proj1 (E x) (or_introl eq_refl)) as [<-|H1]; auto. destruct (proj2 (E y) (or_introl eq_refl)) as [->|H2]; auto.
      destruct (asym x y); auto. }
    f_equal. apply IH; auto. intros z. split; intros Hz.
    + destruct (proj1 (E z) (or_intror Hz)) as [<-|H1]; auto. destruct (asym x x); auto.
    + destruct (proj2 (E z) (or_intror Hz)) as [<-|H1]; auto. destruct (asym x x); auto.
Qed.

Lemma sorted_filter f l : StronglySorted lt l -> StronglySorted lt (filter f l).
Proof.
  induction 1 as [|x l Hl IH Hx]; cbn; [constructor|]. destruct (f x); auto. constructor; auto.
  rewrite Forall_forall in *. intros y Hy. apply filter_In in Hy as [Hy _]. auto.
Qed.
End Sorted.

Definition klt (x y : Z * Z * event) : Prop := fst (fst x) < fst (fst y) \/ (fst (fst x) = fst (fst y) /\ snd (fst x) < snd (fst y)).

Lemma klt_asym x y : klt x y -> klt y x -> False.
Proof. unfold klt. intros [H|[H H']] [H1|[H1 H1']]; lia. Qed.

Lemma pend_sorted s : StronglySorted qlt (queue s) -> StronglySorted klt (pend s).
Proof.
  unfold pend. induction 1 as [|[[a o] h] l Hl IH Hx]; cbn; constructor; auto. rewrite Forall_forall in *.
  intros y Hy. apply in_map_iff in Hy as ([[a' o'] h'] & <- & Hi). exact (Hx _ Hi).
Qed.

Lemma pend_in s a o e : In (a, o, e) (pend s) <-> exists h, In (a, o, h) (queue s) /\ e = ev s h.
Proof.
  unfold pend. rewrite in_map_iff. split.
  - intros ([[a' o'] h] & E & Hi). injection E as <- <- <-. eauto.
  - intros (h & Hi & ->). exists (a, o, h). auto.
Qed.

Lemma nil_in {A} (l : list A) : (forall x, ~ In x l) -> l = [].
Proof. destruct l as [|x l]; auto. intros H. destruct (H x). now left. Qed.

Section Content.
Variable s : st.
Variable q : list (Z * Z * nat).
Hypothesis Hs : saved s q.
Variable creator : nat -> option nat.
Variable stop_at : bool.
Hypothesis Hcr : faithful s creator.

Lemma faithful_pending h cb : pending_event s h -> e_call (ev s h) = User cb -> creator (e_meta (ev s h)) = Some cb \/ creator (e_meta (ev s h)) = None.
Proof.
  intros [Hv Hp] Hc. apply (Hcr h cb); auto. destruct Hp as [Hp|(a & o & Hp)]; auto. right. apply in_map_iff. exists (a, o, h). auto.
Qed.

Lemma done_in ts h : In h (flat_map (fun t => filter (sel s creator t) (live s q)) ts) <-> pending_event s h /\ keep creator ts (ev s h) = true.
Proof.
  rewrite in_flat_map. unfold keep. split.
  - intros (t & Ht & Hi). apply filter_In in Hi as [Hi Hse]. apply (live_pending s q Hs) in Hi. split; auto.
    destruct Hi as [Hv _]. unfold not_void in Hv. unfold sel in Hse. apply andb_true_iff in Hse as [H1 H2]. apply Nat.eqb_eq in H1.
    unfold wanted in H2. unfold is_void, tagged, tag_of, wants in *. rewrite H2, andb_true_r. apply andb_true_iff. split.
    + destruct (e_type (ev s h)); auto; discriminate.
    + apply existsb_exists. exists t. split; auto. now apply Nat.eqb_eq.
  - intros [Hp Hk]. apply andb_true_iff in Hk as [Hk H3]. apply andb_true_iff in Hk as [H1 H2]. unfold tagged in H2. apply existsb_exists in H2 as (t & Ht & E).
    exists t. split; auto. apply filter_In. split; [now apply (live_pending s q Hs)|]. unfold sel, tag_of, wanted. unfold wants in H3. now rewrite E.
Qed.

Lemma restored_pend ts r : NoDup ts -> ts <> [] ->
  pend (rs (restore_tags s q creator stop_at ts r)) = filter (fun x => keep creator ts (snd x)) (pend s).
Proof.
  intros Hn Hne. pose proof (restore_tags_RInv s q Hs creator stop_at faithful_pending ts r Hn Hne) as HR.
  set (r' := rs (restore_tags s q creator stop_at ts r)) in *. set (done := flat_map _ ts) in *.
  apply (sorted_ext klt klt_asym).
  - apply pend_sorted. exact (r_sorted _ _ _ _ HR).
  - apply sorted_filter, pend_sorted, (sv_sorted _ _ Hs).
  - intros [[a o] e]. rewrite filter_In, !pend_in. cbn [snd]. split.
    + intros (i & Hi & ->). apply (r_queue _ _ _ _ HR) in Hi as (h & Hd & Hi). rewrite (r_ev _ _ _ _ HR _ _ Hd). split; [eauto|].
      apply nth_error_In in Hd. apply (done_in ts h) in Hd. tauto.
    + intros [(h & Hi & ->) Hk].
      assert (Hd : In h done).
      { apply done_in. split; auto. split; [|eauto]. unfold keep in Hk. apply andb_true_iff in Hk as [Hk _]. apply andb_true_iff in Hk as [Hk _].
        unfold is_void in Hk. unfold not_void. destruct (e_type (ev s h)); auto. }
      apply In_nth_error in Hd as [i Hd]. exists i. split; [apply (r_queue _ _ _ _ HR); eauto|]. symmetry. now apply (r_ev _ _ _ _ HR).
Qed.

Lemma ends_events k done r : RInv s k done r -> map (ev r) (ends r) = map (ev s) (filter (is_end s) done).
Proof.
  intros HR. pose proof (r_ends _ _ _ _ HR) as H. pose proof (r_ev _ _ _ _ HR) as He. revert H. generalize (filter (is_end s) done) (ends r).
  induction 1 as [|h i l l' Hi H IH]; cbn; auto. now rewrite IH, (He _ _ Hi).
Qed.

Lemma keep_not_void ts e : keep creator ts e = true -> is_void e = false.
Proof. unfold keep. intros H. apply andb_true_iff in H as [H _]. apply andb_true_iff in H as [H _]. now apply negb_true_iff. Qed.

Lemma map_filter {A B} (f : A -> B) p l : map f (filter (fun x => p (f x)) l) = filter p (map f l).
Proof. induction l as [|x l IH]; cbn; auto. destruct (p (f x)); cbn; now rewrite IH. Qed.

Lemma perm_filter {A} (p : A -> bool) l l' : Permutation l l' -> Permutation (filter p l) (filter p l').
Proof.
  induction 1; cbn; auto.
  - destruct (p x); auto.
  - destruct (p x), (p y); auto. apply perm_swap.
  - eauto using Permutation_trans.
Qed.

Lemma restored_ends ts r : NoDup ts -> ts <> [] ->
  let r' := rs (restore_tags s q creator stop_at ts r) in
  Permutation (map (ev r') (ends r')) (filter (keep creator ts) (map (ev s) (ends s))).
Proof.
  intros Hn Hne r'. pose proof (restore_tags_RInv s q Hs creator stop_at faithful_pending ts r Hn Hne) as HR. fold r' in HR.
  rewrite (ends_events _ _ _ HR). rewrite <- map_filter. apply Permutation_map. apply NoDup_Permutation.
  - apply NoDup_filter, (NoDup_tags s q Hs creator ts Hn).
  - apply NoDup_filter, (sv_ends _ _ Hs).
  - intros h. rewrite !filter_In, (done_in ts h). split.
    + intros [[Hp Hk] He]. split; auto. unfold is_end in He. destruct (e_type (ev s h)) eqn:E; try discriminate. now apply (t_nend _ (sv_T _ _ Hs)).
    + intros [Hi Hk]. pose proof (keep_not_void _ _ Hk) as Hv. unfold is_void in Hv. destruct (t_end _ (sv_T _ _ Hs) h Hi) as [_ [E|E]]; rewrite E in Hv; try discriminate.
      unfold is_end, pending_event, not_void. rewrite E. auto.
Qed.

Lemma filter_and {A} (p p' : A -> bool) l : filter p (filter p' l) = filter (fun x => p' x && p x) l.
Proof. induction l as [|x l IH]; cbn; auto. destruct (p' x); cbn; auto. destruct (p x); cbn; now rewrite IH. Qed.

Lemma restored_ends_one t r :
  let r' := rs (restore_tags s q creator stop_at [t] r) in
  map (ev r') (ends r') = filter (keep creator [t]) (map (ev s) (ends s)).
Proof.
  intros r'. pose proof (restore_tags_RInv s q Hs creator stop_at faithful_pending [t] r (NoDup_cons t (@in_nil _ t) (NoDup_nil _)) ltac:(discriminate)) as HR. fold r' in HR.
  rewrite (ends_events _ _ _ HR). rewrite <- map_filter. f_equal. cbn [flat_map]. rewrite app_nil_r. unfold live.
  rewrite !filter_app, !filter_and.
  assert (E2 : filter (fun x => not_void s x && (sel s creator t x && is_end s x)) (map snd q) = []).
  { apply nil_in. intros h Hi. apply filter_In in Hi as [Hi Hb]. apply in_map_iff in Hi as ([[a o] k] & E & Hi). cbn in E. subst k.
    apply andb_true_iff in Hb as [_ Hb]. apply andb_true_iff in Hb as [_ Hb]. unfold is_end in Hb. destruct (e_type (ev s h)) eqn:Et; try discriminate.
    apply (sv_disj _ _ Hs a o h); [|now apply (t_nend _ (sv_T _ _ Hs))]. eapply Permutation_in; [apply (sv_perm _ _ Hs)|auto]. }
  rewrite E2, app_nil_r. apply filter_ext_in. intros h Hi. destruct (t_end _ (sv_T _ _ Hs) h Hi) as [_ [E|E]].
  - unfold not_void, sel, is_end, keep, is_void, tagged, tag_of, wanted, wants. rewrite E. cbn. now rewrite orb_false_r, andb_true_r.
  - unfold not_void, keep, is_void. now rewrite E.
Qed.

Lemma restored_rest ts r : NoDup ts -> ts <> [] ->
  let r' := rs (restore_tags s q creator stop_at ts r) in
  tick r' = tick s /\ rngk r' = rngk (rs r) /\ go r' = true /\ (forall a o e, In (a, o, e) (pend r') -> o < ctr r').
Proof.
  intros Hn Hne r'. pose proof (restore_tags_RInv s q Hs creator stop_at faithful_pending ts r Hn Hne) as HR. fold r' in HR.
  split; [|split; [|split]].
  - exact (r_tick _ _ _ _ HR).
  - exact (r_rngk _ _ _ _ HR).
  - exact (r_go _ _ _ _ HR).
  - intros a o e Hi. unfold r' in *. rewrite restored_pend in Hi by auto. apply filter_In in Hi as [Hi _]. apply pend_in in Hi as (h & Hi & _).
    destruct (restore_tags_ctr s q creator stop_at ts r Hne) as [-> _]. pose proof (sv_max _ _ Hs _ _ _ Hi). lia.
Qed.
End Content.

(** ** The future of a restored schedule *)
Lemma index_nth l : NoDup l -> forall h i, index h l = Some i <-> nth_error l i = Some h.
Proof.
  induction 1 as [|x l Hn Hd IH]; intros h i; cbn [index].
  - destruct i; split; discriminate.
  - destruct (Nat.eqb_spec x h) as [->|Ne].
    + split.
      * intros E. injection E as <-. reflexivity.
      * destruct i as [|i]; cbn; auto. intros E. apply nth_error_In in E. contradiction.
    + destruct i as [|i]; cbn [nth_error].
      * split; [|congruence]. destruct (index h l); discriminate.
      * rewrite <- (IH h i). destruct (index h l); cbn; split; intros E; congruence.
Qed.

Section Future.
Variable s : st.
Variable q : list (Z * Z * nat).
Hypothesis Hs : saved s q.
Variable creator : nat -> option nat.
Variable stop_at : bool.
Hypothesis Hcr : faithful s creator.
Variable t : nat.
Hypothesis Hall : forall h, In h (ends s) \/ In h (map snd (queue s)) -> keep creator [t] (ev s h) = true.
Hypothesis Hgo : go s = true.
Hypothesis Hexec : g_exec (g s) = false.
Hypothesis Hne : queue s <> [].
Variable r : rank.
Hypothesis Hrng : rngk (rs r) = rngk s.

Let done := ends s ++ map snd q.
Let rho := new_name s q.

Lemma all_pending h : In h done -> pending_event s h /\ keep creator [t] (ev s h) = true.
Proof.
  intros Hi. assert (Hk : keep creator [t] (ev s h) = true /\ (In h (ends s) \/ exists a o, In (a, o, h) (queue s))).
  { unfold done in Hi. apply in_app_iff in Hi as [Hi|Hi]; [auto|].
    eapply Permutation_in in Hi; [|apply Permutation_map, (sv_perm _ _ Hs)]. split; auto. right.
    apply in_map_iff in Hi as ([[a o] k] & E & Hi). cbn in E. subst k. eauto. }
  destruct Hk as [Hk Hp]. split; auto. split; auto. apply keep_not_void in Hk. unfold is_void in Hk. unfold not_void. destruct (e_type (ev s h)); auto.
Qed.

Lemma filter_all {A} (p : A -> bool) l : (forall x, In x l -> p x = true) -> filter p l = l.
Proof. induction l as [|x l IH]; intros H; cbn; auto. rewrite (H x (or_introl eq_refl)), IH; auto. intros y Hy. apply H. now right. Qed.

Lemma done_eq : flat_map (fun t => filter (sel s creator t) (live s q)) [t] = done.
Proof.
  cbn [flat_map]. rewrite app_nil_r. unfold live, done. rewrite <- filter_app. rewrite !filter_all; auto.
  - intros h Hi. apply all_pending in Hi as [[Hv _] _]. exact Hv.
  - intros h Hi. apply filter_In in Hi as [Hi _]. apply all_pending in Hi as [Hp Hk].
    assert (Hd : In h (flat_map (fun t => filter (sel s creator t) (live s q)) [t])) by (apply (done_in s q Hs); auto).
    cbn [flat_map] in Hd. rewrite app_nil_r in Hd. apply filter_In in Hd. tauto.
Qed.

Lemma NoDup_done : NoDup done.
Proof. rewrite <- done_eq. apply (NoDup_tags s q Hs). constructor; [intros []|constructor]. Qed.

Lemma done_alloc h : In h done -> (h < nexth s)%nat.
Proof.
  intros Hi. apply all_pending in Hi as [[_ [Hp|(a & o & Hp)]] _].
  - apply (t_end _ (sv_T _ _ Hs) h Hp).
  - apply (sv_queue _ _ Hs _ _ _ Hp).
Qed.

Lemma rho_done h i : nth_error done i = Some h -> rho h = Some i.
Proof.
  intros H. unfold rho, new_name. fold done. pose proof (done_alloc h (nth_error_In _ _ H)) as L.
  destruct (Nat.ltb_spec h (nexth s)); [|lia]. now apply (index_nth _ NoDup_done).
Qed.

Lemma new_old h k : (h < nexth s)%nat -> rho h = Some k -> nth_error done k = Some h.
Proof.
  intros L. unfold rho, new_name. fold done. destruct (Nat.ltb_spec h (nexth s)); [|lia]. apply (index_nth _ NoDup_done).
Qed.

Lemma new_old_lt h k : (h < nexth s)%nat -> rho h = Some k -> (k < length done)%nat.
Proof. intros L H. apply nth_error_Some. now rewrite (new_old h k L H). Qed.

Lemma new_new i : rho (nexth s + i) = Some (length done + i)%nat.
Proof.
  unfold rho, new_name. fold done. destruct (Nat.ltb_spec (nexth s + i) (nexth s)); [lia|]. f_equal. lia.
Qed.

Lemma new_inj h h' k : rho h = Some k -> rho h' = Some k -> h = h'.
Proof.
  intros H H'. destruct (Nat.lt_ge_cases h (nexth s)) as [L|L], (Nat.lt_ge_cases h' (nexth s)) as [L'|L'].
  - pose proof (new_old _ _ L H). pose proof (new_old _ _ L' H'). congruence.
  - pose proof (new_old_lt _ _ L H). replace h' with (nexth s + (h' - nexth s))%nat in H' by lia. rewrite new_new in H'. injection H' as <-. lia.
  - pose proof (new_old_lt _ _ L' H'). replace h with (nexth s + (h - nexth s))%nat in H by lia. rewrite new_new in H. injection H as <-. lia.
  - replace h' with (nexth s + (h' - nexth s))%nat in H' by lia. rewrite new_new in H'.
    replace h with (nexth s + (h - nexth s))%nat in H by lia. rewrite new_new in H. injection H as <-. injection H' as E. lia.
Qed.

Let r' := rs (restore_tags s q creator stop_at [t] r).

Lemma restored_sim : Sim rho (nexth s) (length done) (tr s) (tr r') true s r'.
Proof.
  assert (Hn : NoDup [t]) by (constructor; [intros []|constructor]).
  pose proof (restore_tags_RInv s q Hs creator stop_at (faithful_pending s creator Hcr) [t] r Hn ltac:(discriminate)) as HR.
  fold r' in HR. rewrite done_eq in HR.
  constructor.
  - assert (E : queue r' = map (fun x => (fst x, match rho (snd x) with Some k => k | None => O end)) (queue s)).
    { apply (sorted_ext qlt).
      - unfold qlt. intros x y H1 H2. lia.
      - exact (r_sorted _ _ _ _ HR).
      - pose proof (sv_sorted _ _ Hs) as Hso. clear -Hso. induction Hso as [|x l Hl IH Hx]; cbn [map]; constructor; auto.
        rewrite Forall_forall in *. intros y Hy. apply in_map_iff in Hy as (z & <- & Hz). exact (Hx _ Hz).
      - intros [[a o] i]. rewrite (r_queue _ _ _ _ HR), in_map_iff. split.
        + intros (h & Hd & Hi). exists (a, o, h). cbn [fst snd]. now rewrite (rho_done _ _ Hd).
        + intros ([[a' o'] h] & E & Hi). cbn [fst snd] in E.
          assert (Hd : In h done).
          { unfold done. apply in_or_app. right. eapply Permutation_in; [apply Permutation_map, Permutation_sym, (sv_perm _ _ Hs)|]. apply in_map_iff. exists (a', o', h). auto. }
          apply In_nth_error in Hd as [j Hd]. rewrite (rho_done _ _ Hd) in E. injection E as <- <- <-. eauto. }
    rewrite E. clear E.
    assert (Hin : forall x, In x (queue s) -> In (snd x) done).
    { intros x Hx. unfold done. apply in_or_app. right. eapply Permutation_in; [apply Permutation_map, Permutation_sym, (sv_perm _ _ Hs)|]. now apply in_map. }
    revert Hin. generalize (queue s). induction l as [|x l IH]; cbn [map]; intros Hin; constructor.
    + split; [reflexivity|]. cbn [snd]. destruct (In_nth_error _ _ (Hin x (or_introl eq_refl))) as [i Hi]. unfold hrel. now rewrite (rho_done _ _ Hi).
    + apply IH. intros y Hy. apply Hin. now right.
  - exact (r_tick _ _ _ _ HR).
  - destruct (restore_tags_ctr s q creator stop_at [t] r ltac:(discriminate)) as [Ec _]. fold r' in Ec. rewrite Ec.
    destruct (t_ctr _ (sv_T _ _ Hs)) as [[E1 E2]|[E1 E2]]; [|lia]. exfalso.
    destruct (queue s) as [|[[a o] h] l] eqn:Eq; [now apply Hne|].
    assert (Hi : In (a, o, h) (queue s)) by (rewrite Eq; now left).
    pose proof (sv_max _ _ Hs _ _ _ Hi). pose proof (sv_pos _ _ Hs _ _ _ Hi). lia.
  - split; [exact Hexec|exact (r_exec _ _ _ _ HR)].
  - intros h k Hk. destruct (Nat.lt_ge_cases h (nexth s)) as [L|L].
    + apply (r_ev _ _ _ _ HR). now apply new_old.
    + rewrite (t_def _ (sv_T _ _ Hs) h L). apply (r_def _ _ _ _ HR).
      replace h with (nexth s + (h - nexth s))%nat in Hk by lia. rewrite new_new in Hk. injection Hk as <-. lia.
  - exists O. rewrite (r_n _ _ _ _ HR). lia.
  - rewrite (r_rngk _ _ _ _ HR). exact Hrng.
  - rewrite Hgo. exact (r_go _ _ _ _ HR).
  - pose proof (r_ends _ _ _ _ HR) as He.
    assert (E : filter (is_end s) done = ends s).
    { unfold done. rewrite filter_app. rewrite (filter_all _ (ends s)).
      - rewrite (nil_in (filter _ (map snd q))); [apply app_nil_r|]. intros h Hi. apply filter_In in Hi as [Hi Hb].
        unfold is_end in Hb. destruct (e_type (ev s h)) eqn:Et; try discriminate. apply (t_nend _ (sv_T _ _ Hs)) in Et.
        eapply Permutation_in in Hi; [|apply Permutation_map, (sv_perm _ _ Hs)]. apply in_map_iff in Hi as ([[a o] k] & E & Hi). cbn in E. subst k.
        exact (sv_disj _ _ Hs _ _ _ Hi Et).
      - intros h Hi. unfold is_end. assert (Hd : In h done) by (unfold done; apply in_or_app; auto). apply all_pending in Hd as [[Hv _] _].
        unfold not_void in Hv. destruct (t_end _ (sv_T _ _ Hs) h Hi) as [_ [E|E]]; rewrite E in *; auto. }
    rewrite E in He.
    assert (Hm : forall l l', Forall2 (fun h i => nth_error done i = Some h) l l' -> Forall2 (hrel rho) l l').
    { induction 1 as [|h i l l' Hi H IH]; constructor; auto. exact (rho_done _ _ Hi). }
    exact (Hm _ _ He).
  - exists []. auto.
Qed.
End Future.

(** ** Running on *)
Lemma run_ops_app fadd act rng l1 : forall s l2, run_ops fadd act rng s (l1 ++ l2) = match run_ops fadd act rng s l1 with Some s' => run_ops fadd act rng s' l2 | None => None end.
Proof. induction l1 as [|[c|fuel] l1 IH]; intros s l2; cbn; auto. destruct (execute fadd act rng fuel s); auto. Qed.

Lemma run_ops_cmds fadd act rng l : forall s, run_ops fadd act rng s (map OpCall l) = Some (do_cmds s l).
Proof. induction l as [|c l IH]; intros s; [reflexivity|]. cbn [map run_ops]. rewrite IH. reflexivity. Qed.

Lemma run_ops_reach fadd act rng l : forall s s', run_ops fadd act rng s l = Some s' -> reachable fadd act rng s -> reachable fadd act rng s' /\ exists x, tr s' = x ++ tr s.
Proof.
  induction l as [|[c|fuel] l IH]; cbn; intros s s' H Hr.
  - inversion H; subst. split; auto. now exists [].
  - destruct (IH _ _ H) as [H1 [x Hx]]; [eapply reach_step; [exact Hr|constructor]|]. split; auto.
    destruct (step_later fadd act rng _ _ (step_api fadd act rng s c)) as [[y Hy] _]. exists (x ++ y). now rewrite Hx, Hy, app_assoc.
  - destruct (execute fadd act rng fuel s) as [s1|] eqn:E; [|discriminate].
    destruct (IH _ _ H) as [H1 [x Hx]]; [eapply reach_step; [exact Hr|econstructor; exact E]|]. split; auto.
    destruct (step_later fadd act rng _ _ (step_exec fadd act rng s fuel _ E)) as [[y Hy] _]. exists (x ++ y). now rewrite Hx, Hy, app_assoc.
Qed.

Definition ren_op (rho : nat -> option nat) (o : op) : list op := match o with OpCall c => map OpCall (ren_cmd rho c) | OpTick f => [OpTick f] end.
Definition ren_ops (rho : nat -> option nat) (l : list op) : list op := flat_map (ren_op rho) l.

Lemma behaviour_ren rho x : forallb (named rho) x = true -> behaviour (ren rho x) = behaviour x.
Proof.
  induction x as [|o x IH]; auto. cbn [forallb]. intros H. apply andb_true_iff in H as [Ho Hx]. unfold ren in *. cbn [flat_map].
  unfold behaviour in *. rewrite flat_map_app, (IH Hx). cbn [flat_map]. f_equal.
  destruct o; cbn in *; auto; destruct (rho h); cbn; auto; discriminate.
Qed.

Section Run.
Variable rho : nat -> option nat.
Variables n0 n1 : nat.
Hypothesis rho_inj : forall h h' k, rho h = Some k -> rho h' = Some k -> h = h'.
Hypothesis rho_old : forall h k, (h < n0)%nat -> rho h = Some k -> (k < n1)%nat.
Hypothesis rho_new : forall i, rho (n0 + i) = Some (n1 + i)%nat.
Variable fadd : Z -> Z -> Z.
Variables act act' : list obs -> nat -> list cmd.
Variable rng : nat -> nat.
Variables tr0 tr1 : list obs.
Hypothesis act_same : forall x c, act' (ren rho x ++ tr1) c = ren_cmds rho (act (x ++ tr0) c).
Notation SIM := (Sim rho n0 n1 tr0 tr1).

Lemma sim_execute fuel s s' : SIM true s s' ->
  match execute fadd act rng fuel s, execute fadd act' rng fuel s' with
  | Some a, Some b => g_exec (g a) = false -> SIM true a b
  | None, None => True
  | _, _ => False
  end.
Proof.
  intros H. unfold execute. pose proof (sm_queue _ _ _ _ _ _ _ _ H) as Hq.
  destruct (queue s) as [|[[t o] h] l] eqn:E, (queue s') as [|[[t' o'] h'] l'] eqn:E'; inversion Hq; subst; auto.
  match goal with X : qrel _ _ _ |- _ => destruct X as [Eq _] end. cbn in Eq. injection Eq as <- <-.
  pose proof (sim_fill rho n0 n1 rng tr0 tr1 s s' t H) as HF.
  pose proof (sim_loop rho n0 n1 rho_inj rho_old rho_new fadd act act' rng tr0 tr1 act_same fuel _ _ HF) as HL.
  unfold opt_rel in HL. destruct (group_loop fadd act rng fuel _) as [a|], (group_loop fadd act' rng fuel _) as [b|]; auto.
  intros Hx. destruct HL as [L1 L2 L3 L4 L5 L6 L7 L8 L9 L10]. constructor; auto. split; auto. rewrite <- (gr_exec _ _ _ L4). auto.
Qed.

Lemma sim_run_ops l : forall s s' s1, SIM true s s' -> reachable fadd act rng s -> run_ops fadd act rng s l = Some s1 -> forward false (tr s1) ->
  exists s1', run_ops fadd act' rng s' (ren_ops rho l) = Some s1' /\ SIM true s1 s1'.
Proof.
  induction l as [|[c|fuel] l IH]; cbn [run_ops ren_ops flat_map ren_op]; intros s s' s1 H Hr Hrun Hf.
  - inversion Hrun; subst. eauto.
  - rewrite run_ops_app, run_ops_cmds. apply (IH (do_cmd s c)); auto.
    + apply (sim_cmd rho n0 n1 rho_inj rho_old rho_new tr0 tr1); auto.
    + eapply reach_step; [exact Hr|constructor].
  - pose proof (sim_execute fuel s s' H) as HE. destruct (execute fadd act rng fuel s) as [a|] eqn:E; [|discriminate].
    assert (Hra : reachable fadd act rng a) by (eapply reach_step; [exact Hr|econstructor; exact E]).
    destruct (run_ops_reach _ _ _ _ _ _ Hrun Hra) as [_ [x Hx]].
    assert (Hfa : forward false (tr a)) by (rewrite Hx in Hf; now apply forward_app in Hf).
    destruct (reachable_Inv fadd act rng false a Hra Hfa) as [_ Hg]. cbn [app run_ops].
    destruct (execute fadd act' rng fuel s') as [b|]; [|destruct HE]. apply (IH a b); auto.
Qed.

(** The restored run does not end either, if the original one does not. *)
Lemma sim_run_ops_none l : forall s s', SIM true s s' -> reachable fadd act rng s ->
  (forall l1 s1, (exists l2, l = l1 ++ l2) -> run_ops fadd act rng s l1 = Some s1 -> forward false (tr s1)) ->
  run_ops fadd act rng s l = None -> run_ops fadd act' rng s' (ren_ops rho l) = None.
Proof.
  induction l as [|[c|fuel] l IH]; cbn [run_ops ren_ops flat_map ren_op]; intros s s' H Hr Hf Hrun.
  - discriminate.
  - rewrite run_ops_app, run_ops_cmds. apply (IH (do_cmd s c)); auto.
    + apply (sim_cmd rho n0 n1 rho_inj rho_old rho_new tr0 tr1); auto.
    + eapply reach_step; [exact Hr|constructor].
    + intros l1 s1 [l2 E] H1. apply (Hf (OpCall c :: l1)); auto. exists l2. cbn. now rewrite E.
  - pose proof (sim_execute fuel s s' H) as HE. cbn [app run_ops]. destruct (execute fadd act rng fuel s) as [a|] eqn:E.
    + assert (Hra : reachable fadd act rng a) by (eapply reach_step; [exact Hr|econstructor; exact E]).
      assert (Hfa : forward false (tr a)).
      { apply (Hf [OpTick fuel]). - now exists l. - cbn. now rewrite E. }
      destruct (reachable_Inv fadd act rng false a Hra Hfa) as [_ Hg].
      destruct (execute fadd act' rng fuel s') as [b|]; [|destruct HE]. apply (IH a b); auto.
      intros l1 s1 [l2 El] H1. apply (Hf (OpTick fuel :: l1)). * exists l2. cbn. now rewrite El. * cbn. now rewrite E.
    + destruct (execute fadd act' rng fuel s') as [b|]; [destruct HE|auto].
Qed.

Lemma sim_run_ends fuel : forall i s s', SIM true s s' ->
  match run_ends act fuel i s, run_ends act' fuel i s' with Some a, Some b => SIM true a b | None, None => True | _, _ => False end.
Proof.
  induction fuel as [|f IH]; intros i s s' H; cbn [run_ends]; pose proof (F2_nth _ _ _ (sm_ends _ _ _ _ _ _ _ _ H) i) as Hn;
    destruct (nth_error (ends s) i) as [h|], (nth_error (ends s') i) as [k|]; try contradiction; auto.
  apply IH. apply (sim_call rho n0 n1 rho_inj rho_old rho_new act act' tr0 tr1 act_same); auto.
Qed.
End Run.

(** ** Order numbers after a restore *)
Record OInv (c0 : Z) (q0 : list (Z * Z * nat)) (s : st) : Prop := mkO {
  o_ctr : c0 <= ctr s;
  o_lt : forall a o h, In (a, o, h) (queue s) -> o < ctr s;
  o_nd : NoDup (map (fun x => snd (fst x)) (queue s));
  o_new : forall a o h, In (a, o, h) (queue s) -> In (a, o, h) q0 \/ c0 <= o }.

Lemma OInv_alloc c0 q0 s e : OInv c0 q0 s -> OInv c0 q0 (alloc_push s e).
Proof.
  intros [O1 O2 O3 O4]. unfold alloc_push, push_event. cbn [tick observe set_nexth set_ev].
  destruct (tick s <=? e_at e); [|constructor; auto]. destruct (e_at e =? tick s).
  - constructor; cbn; auto; [lia|]. intros a o h Hi. specialize (O2 _ _ _ Hi). lia.
  - constructor; cbn [queue ctr set_queue set_ev set_ctr observe set_nexth]; [lia|..].
    + intros a o h Hi. apply qinsert_in_iff in Hi as [E|Hi]; [injection E as <- <- <-; lia|]. specialize (O2 _ _ _ Hi). lia.
    + eapply Permutation_NoDup; [apply Permutation_map, Permutation_sym, qinsert_perm|]. cbn. constructor; auto.
      intros Hi. apply in_map_iff in Hi as ([[a o] h] & E & Hi). cbn in E. specialize (O2 _ _ _ Hi). lia.
    + intros a o h Hi. apply qinsert_in_iff in Hi as [E|Hi]; [injection E as <- <- <-; auto|]. eauto.
Qed.

Lemma OInv_cmds c0 q0 l : forall s, OInv c0 q0 s -> OInv c0 q0 (do_cmds s l).
Proof.
  induction l as [|c l IH]; intros s H; auto. apply IH. destruct c; cbn [do_cmd]; try (now apply OInv_alloc).
  - destruct H as [O1 O2 O3 O4]. constructor; auto.
  - destruct (h <? nexth s)%nat; auto. destruct H as [O1 O2 O3 O4]. constructor; auto.
  - destruct H as [O1 O2 O3 O4]. constructor; auto.
Qed.

Lemma sorted_qlt_keys s q : saved s q -> NoDup (map (fun x => snd (fst x)) (queue s)).
Proof.
  intros Hs. pose proof (sv_nodup _ _ Hs) as Hn. pose proof (sv_ord _ _ Hs) as Ho. revert Hn Ho. generalize (queue s).
  induction l as [|[[a o] h] l IH]; cbn; intros Hn Ho; constructor; inversion Hn; subst.
  - intros Hi. apply in_map_iff in Hi as ([[a' o'] h'] & E & Hi). cbn in E. subst. apply H1.
    rewrite (Ho a o h a' o h'); auto. apply in_map_iff. exists (a', o, h'). auto.
  - apply IH; auto. intros; eauto.
Qed.

Lemma pend_orders s : map (fun x => snd (fst x)) (pend s) = map (fun x => snd (fst x)) (queue s).
Proof. unfold pend. rewrite map_map. reflexivity. Qed.

Lemma NoDup_map_filter {A B} (f : A -> B) p l : NoDup (map f l) -> NoDup (map f (filter p l)).
Proof.
  induction l as [|x l IH]; cbn; auto. intros H. inversion H; subst. destruct (p x); auto. cbn. constructor; auto.
  intros Hi. apply H2. apply in_map_iff in Hi as (y & E & Hi). apply filter_In in Hi as [Hi _]. apply in_map_iff. eauto.
Qed.

Lemma restored_orders s q creator stop_at ts r l : saved s q -> faithful s creator -> NoDup ts -> ts <> [] ->
  let r0 := rs (restore_tags s q creator stop_at ts r) in
  let r1 := do_cmds r0 l in
  NoDup (map (fun x => snd (fst x)) (pend r1)) /\
  forall a o e, In (a, o, e) (pend r1) -> (exists e', In (a, o, e') (pend r0)) \/ (forall a' o' e', In (a', o', e') (pend r0) -> o' < o).
Proof.
  intros Hs Hcr Hn Hne r0 r1.
  destruct (restored_rest s q Hs creator stop_at Hcr ts r Hn Hne) as (_ & _ & _ & Hlt). fold r0 in Hlt.
  pose proof (restored_pend s q Hs creator stop_at Hcr ts r Hn Hne) as Hp. fold r0 in Hp.
  assert (H0 : OInv (ctr r0) (queue r0) r0).
  { constructor; [lia|..].
    - intros a o h Hi. apply (Hlt a o (ev r0 h)). apply pend_in. eauto.
    - rewrite <- pend_orders, Hp. apply NoDup_map_filter. rewrite pend_orders. eapply sorted_qlt_keys; eauto.
    - auto. }
  pose proof (OInv_cmds _ _ l _ H0) as [O1 O2 O3 O4]. fold r1 in O1, O2, O3, O4. split.
  - now rewrite pend_orders.
  - intros a o e Hi. apply pend_in in Hi as (h & Hi & ->). destruct (O4 _ _ _ Hi) as [H|H].
    + left. exists (ev r0 h). apply pend_in. eauto.
    + right. intros a' o' e' Hi'. apply Hlt in Hi'. lia.
Qed.

Lemma stop_at_ignored creator t init ck r : restore_schedule creator t init false ck r = restore_schedule creator t init true ck r.
Proof.
  unfold restore_schedule.
  assert (H : forall l r0, fold_left (restore_evt creator t false) l r0 = fold_left (restore_evt creator t true) l r0).
  { induction l as [|d l IH]; intros r0; cbn [fold_left]; [reflexivity|]. apply IH. }
  now rewrite H.
Qed.

(** The statement of C17 about later runs. *)
Lemma restored_future fadd act act' rng s q creator stop_at t r l s1 fuel s2 :
  reachable fadd act rng s -> forward true (tr s) -> Permutation q (queue s) -> faithful s creator ->
  (forall h, In h (ends s) \/ In h (map snd (queue s)) -> keep creator [t] (ev s h) = true) ->
  go s = true -> queue s <> [] -> rngk (rs r) = rngk s ->
  let r0 := rs (restore_tags s q creator stop_at [t] r) in
  (forall x c, act' (ren (new_name s q) x ++ tr r0) c = ren_cmds (new_name s q) (act (x ++ tr s) c)) ->
  run_ops fadd act rng s l = Some s1 -> forward false (tr s1) -> run_ends act fuel 0 s1 = Some s2 ->
  exists s1' s2' x y, run_ops fadd act' rng r0 (ren_ops (new_name s q) l) = Some s1' /\ run_ends act' fuel 0 s1' = Some s2' /\
    tick s1' = tick s1 /\ next_tick s1' = next_tick s1 /\ go s1' = go s1 /\ pend s1' = pend s1 /\
    tr s2 = x ++ tr s /\ tr s2' = y ++ tr r0 /\ behaviour y = behaviour x.
Proof.
  intros Hr Hf Hq Hcr Hall Hgo Hne Hk r0 Hact Hrun Hf1 Hend.
  pose proof (reachable_saved _ _ _ _ _ Hr Hf Hq) as Hs.
  destruct (reachable_Inv fadd act rng true s Hr Hf) as [_ Hex].
  pose proof (restored_sim s q Hs creator stop_at Hcr t Hall Hgo Hex Hne r Hk) as HS. fold r0 in HS.
  pose proof (new_inj s q Hs creator t Hall r Hk) as Hi. pose proof (new_old_lt s q Hs creator t Hall r Hk) as Ho. pose proof (new_new s q r Hk) as Hw.
  destruct (sim_run_ops _ _ _ Hi Ho Hw fadd act act' rng _ _ Hact l s r0 s1 HS Hr Hrun Hf1) as (s1' & R1 & S1).
  pose proof (sim_run_ends _ _ _ Hi Ho Hw act act' _ _ Hact fuel O s1 s1' S1) as HE. rewrite Hend in HE.
  destruct (run_ends act' fuel 0 s1') as [s2'|] eqn:E2; [|destruct HE].
  destruct (sm_tr _ _ _ _ _ _ _ _ HE) as (x & X1 & X2 & X3).
  exists s1', s2', x, (ren (new_name s q) x). split; [exact R1|]. split; [exact E2|].
  split; [apply (sm_tick _ _ _ _ _ _ _ _ S1)|].
  pose proof (sm_queue _ _ _ _ _ _ _ _ S1) as Sq. pose proof (sm_ev _ _ _ _ _ _ _ _ S1) as Se.
  split. { unfold next_tick. destruct Sq as [|[[a o] h] [[a' o'] h'] l1 l2 [E _] _]; auto. cbn in E. congruence. }
  split; [apply (sm_go _ _ _ _ _ _ _ _ S1)|]. split.
  { unfold pend. clear -Sq Se. induction Sq as [|x y l1 l2 Hxy H IH]; cbn; auto. destruct Hxy as [E Hh]. rewrite IH, E, (Se _ _ Hh). reflexivity. }
  split; [exact X1|]. split; [exact X2|]. now apply behaviour_ren.
Qed.
