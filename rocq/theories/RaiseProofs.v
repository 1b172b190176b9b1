(** Exceptions of events. *)
From Coq Require Import List Arith ZArith Bool Lia.
From Verif Require Import PySort ScheduleModel ScheduleSpec ScheduleProofs RunnerModel RaiseModel.
Import ListNotations.
Open Scope Z_scope.

(** * Without an exception nothing is different *)
Section Same.
Variable fadd : Z -> Z -> Z.
Variable act : list obs -> nat -> list cmd.
Variable rng : nat -> nat.
Variable raises : list obs -> nat -> bool.
Notation run_list_r := (run_list_r fadd act raises).
Notation run_list := (run_list fadd act).
Notation execute_evts_r := (execute_evts_r fadd act rng raises).
Notation execute_evts := (execute_evts fadd act rng).
Notation group_execute_r := (group_execute_r fadd act rng raises).
Notation group_execute := (group_execute fadd act rng).
Notation group_loop_r := (group_loop_r fadd act rng raises).
Notation group_loop := (group_loop fadd act rng).
Notation execute_r := (execute_r fadd act rng raises).
Notation execute := (execute fadd act rng).
Notation running := (running fadd act).
Notation inside := (inside fadd act rng).

Lemma run_list_same : forall l s s' rest i, run_list_r s l = (s', Some (rest, i)) -> run_list s l = (s', rest, i).
Proof.
  induction l as [|h t IH]; intros s s' rest i E; [injection E as <- <- <-; reflexivity|]. cbn [RaiseModel.run_list_r ScheduleModel.run_list] in *.
  destruct (raises_now _ _ _); [discriminate|]. destruct (g_intr _); [congruence|]. now apply IH.
Qed.
Lemma evts_same : forall s w s' i, execute_evts_r s w = (s', Some i) -> execute_evts s w = (s', i).
Proof.
  intros s w s' i. unfold RaiseModel.execute_evts_r, ScheduleModel.execute_evts. destruct (run_list_r _ _) as [s1 [[rest b]|]] eqn:E; [|discriminate].
  rewrite (run_list_same _ _ _ _ _ E). destruct b; congruence.
Qed.
Lemma group_same : forall s s', group_execute_r s = (s', false) -> group_execute s = s'.
Proof.
  intros s s'. unfold RaiseModel.group_execute_r, ScheduleModel.group_execute.
  destruct (execute_evts_r _ WFirst) as [s1 [[|]|]] eqn:E1; try discriminate; rewrite (evts_same _ _ _ _ E1); try congruence.
  destruct (execute_evts_r s1 WPrio) as [s2 [[|]|]] eqn:E2; try discriminate; rewrite (evts_same _ _ _ _ E2); try congruence.
  destruct (execute_evts_r s2 WLast) as [s3 [[|]|]] eqn:E3; try discriminate; rewrite (evts_same _ _ _ _ E3); congruence.
Qed.
Lemma loop_same : forall fuel s s', group_loop_r fuel s = Some (s', false) -> group_loop fuel s = Some s'.
Proof.
  induction fuel as [|f IH]; intros s s'; cbn [RaiseModel.group_loop_r ScheduleModel.group_loop]; destruct (0 <? g_size (g s)); try congruence.
  destruct (group_execute_r s) as [s1 [|]] eqn:E; [congruence|]. rewrite (group_same _ _ E). apply IH.
Qed.
Lemma execute_same : forall fuel s s', execute_r fuel s = Some (s', false) -> execute fuel s = Some s'.
Proof. intros fuel s s'. unfold RaiseModel.execute_r, ScheduleModel.execute. destruct (queue s) as [|[[t o] h] q]; [congruence|]. apply loop_same. Qed.

(** * Up to the exception nothing is different *)
Lemma exec_cmds : forall l s, g_exec (g (do_cmds s l)) = g_exec (g s).
Proof.
  unfold do_cmds. induction l as [|c t IH]; intros s; cbn [fold_left]; auto. rewrite IH. clear IH.
  assert (P : forall s e, g_exec (g (alloc_push s e)) = g_exec (g s)).
  { intros s0 e. unfold alloc_push, push_event. cbn. destruct (tick s0 <=? e_at e); [|reflexivity]. destruct (e_at e =? tick s0); [|reflexivity].
    cbn. unfold group_add. destruct (g_exec (g s0)) eqn:G; cbn; [exact G|]. unfold group_add1.
    match goal with |- context [match ?x with PFirst => _ | _ => _ end] => destruct x end; cbn; exact G. }
  destruct c; cbn [do_cmd]; auto. destruct (Nat.ltb h (nexth s)); reflexivity.
Qed.
Lemma exec_call : forall s h, g_exec (g (call_event act s h)) = g_exec (g s).
Proof. intros s h. unfold call_event. destruct (e_call (ev s h)); [|reflexivity..]. rewrite exec_cmds. reflexivity. Qed.
Lemma exec_resched : forall s h, g_exec (g (reschedule fadd s h)) = g_exec (g s).
Proof. intros s h. unfold reschedule. now destruct (e_iv (ev s h)), (e_type (ev s h)). Qed.
Lemma exec_put : forall w gr l, g_exec (put_list w gr l) = g_exec gr.
Proof. now intros []. Qed.
Lemma exec_run : forall l s s' x, run_list_r s l = (s', x) -> g_exec (g s') = g_exec (g s).
Proof.
  induction l as [|h t IH]; intros s s' x E; [injection E as <- <-; reflexivity|]. cbn [RaiseModel.run_list_r] in E.
  destruct (raises_now _ _ _).
  - injection E as <- <-. now rewrite exec_call.
  - destruct (g_intr _).
    + injection E as <- <-. now rewrite exec_resched, exec_call.
    + rewrite (IH _ _ _ E), exec_resched, exec_call. reflexivity.
Qed.
Lemma exec_evts : forall s w s' x, execute_evts_r s w = (s', x) -> x <> Some true -> g_exec (g s') = g_exec (g s).
Proof.
  intros s w s' x E N. unfold RaiseModel.execute_evts_r in E. destruct (run_list_r _ _) as [s1 [[rest [|]]|]] eqn:R.
  all: injection E as <- <-; try congruence; cbn [set_g g]; rewrite exec_put, (exec_run _ _ _ _ R); cbn [set_g g]; now rewrite exec_put.
Qed.

(** The loop raises in the call of [h]. *)
Lemma run_list_raised : forall l s s', run_list_r s l = (s', None) -> exists h rest x cb, running s l s' h [] rest /\
  tr s' = x ++ OCall (tick s') h (User cb) :: tl (skipn (length x) (tr s')) /\ (forall t k c, ~ In (OCall t k c) x) /\
  raises (skipn (length x) (tr s')) cb = true.
Proof.
  induction l as [|h t IH]; intros s s' E; [discriminate|]. cbn [RaiseModel.run_list_r] in E.
  set (s1 := set_g s _) in *. destruct (raises_now raises s1 h) eqn:R.
  - injection E as <-. unfold raises_now in R. destruct (e_call (ev s1 h)) as [cb| |] eqn:C; try discriminate.
    set (s2 := observe s1 (OCall (tick s1) h (User cb))) in *.
    assert (Q : call_event act s1 h = do_cmds s2 (act (tr s2) cb)) by (unfold call_event; rewrite C; reflexivity).
    assert (X : forall l s, exists x, tr (do_cmds s l) = x ++ tr s /\ tick (do_cmds s l) = tick s /\ forall t k c, ~ In (OCall t k c) x).
    { clear. unfold do_cmds. induction l as [|c l IH]; intros s; [exists []; cbn; auto|]. cbn [fold_left].
      destruct (IH (do_cmd s c)) as (x & H1 & H2 & H3).
      assert (P : forall e, exists x, tr (alloc_push s e) = x ++ tr s /\ tick (alloc_push s e) = tick s /\ forall t k c, ~ In (OCall t k c) x).
      { intros e. unfold alloc_push, push_event. cbn. eexists [_]. destruct (tick s <=? e_at e); [destruct (e_at e =? tick s)|]; cbn.
        all: split; [reflexivity|]; split; [reflexivity|]; intros t k d [H|H]; congruence || auto. }
      assert (P2 : exists x, tr (do_cmd s c) = x ++ tr s /\ tick (do_cmd s c) = tick s /\ forall t k c, ~ In (OCall t k c) x).
      { destruct c; cbn [do_cmd]; auto.
        - exists []. cbn. auto.
        - destruct (Nat.ltb h (nexth s)); [exists [OVoid h] | exists []]; cbn; repeat split; auto. intros t k c [H|H]; congruence || auto.
        - exists [OStop]. cbn; repeat split; auto. intros t k c [H|H]; congruence || auto. }
      destruct P2 as (y & G1 & G2 & G3). exists (x ++ y). rewrite H1, G1, H2, G2, app_assoc. do 2 (split; [reflexivity|]).
      intros t k d H. apply in_app_or in H as [H|H]; [apply (H3 _ _ _ H) | apply (G3 _ _ _ H)]. }
    destruct (X (act (tr s2) cb) s2) as (x & H1 & H2 & H3). exists h, t, x, cb. rewrite Q. split.
    + pose proof (run_here fadd act s h t cb s2 (length (act (tr s2) cb)) C eq_refl) as RH. now rewrite firstn_all, skipn_all in RH.
    + rewrite H1, H2, skipn_app, skipn_all, Nat.sub_diag. cbn [skipn app]. repeat split; auto.
  - destruct (g_intr _) eqn:GI; [discriminate|]. destruct (IH _ _ E) as (k & rest & x & cb & H1 & H2). exists k, rest, x, cb. split; auto.
    eapply run_next; eauto.
Qed.
Lemma evts_raised : forall s w s', execute_evts_r s w = (s', None) -> exists s1 h rest x cb,
  running (set_g s (put_list w (g s) [])) (get_list w (g s)) s1 h [] rest /\ s' = set_g s1 (g s') /\
  tr s' = x ++ OCall (tick s') h (User cb) :: tl (skipn (length x) (tr s')) /\ (forall t k c, ~ In (OCall t k c) x) /\
  raises (skipn (length x) (tr s')) cb = true.
Proof.
  intros s w s' E. unfold RaiseModel.execute_evts_r in E. destruct (run_list_r _ _) as [s1 [[rest [|]]|]] eqn:R; try discriminate.
  injection E as <-. destruct (run_list_raised _ _ _ R) as (h & rest & x & cb & H1 & H2). exists s1, h, rest, x, cb. auto.
Qed.
Lemma group_raised : forall s s', group_execute_r s = (s', true) -> g_exec (g s') = true /\ exists s0 w s1 h rest x cb,
  ScheduleModel.round fadd act rng s s0 w /\ running (set_g s0 (put_list w (g s0) [])) (get_list w (g s0)) s1 h [] rest /\ s' = set_g s1 (g s') /\
  tr s' = x ++ OCall (tick s') h (User cb) :: tl (skipn (length x) (tr s')) /\ (forall t k c, ~ In (OCall t k c) x) /\
  raises (skipn (length x) (tr s')) cb = true.
Proof.
  intros s s'. unfold RaiseModel.group_execute_r.
  destruct (execute_evts_r _ WFirst) as [s1 [[|]|]] eqn:E1; try discriminate.
  2: { intros E. injection E as <-. split; [now rewrite (exec_evts _ _ _ _ E1)|].
       destruct (evts_raised _ _ _ E1) as (s2 & h & rest & x & cb & H). eexists _, WFirst, s2, h, rest, x, cb. split; [constructor | exact H]. }
  destruct (execute_evts_r s1 WPrio) as [s2 [[|]|]] eqn:E2; try discriminate.
  2: { intros E. injection E as <-. split; [now rewrite (exec_evts _ _ _ _ E2), (exec_evts _ _ _ _ E1)|].
       destruct (evts_raised _ _ _ E2) as (s3 & h & rest & x & cb & H). eexists _, WPrio, s3, h, rest, x, cb. split; [|exact H].
       constructor. now apply evts_same. }
  destruct (execute_evts_r s2 WLast) as [s3 [[|]|]] eqn:E3; try discriminate.
  intros E. injection E as <-. split; [now rewrite (exec_evts _ _ _ _ E3), (exec_evts _ _ _ _ E2), (exec_evts _ _ _ _ E1)|].
  destruct (evts_raised _ _ _ E3) as (s4 & h & rest & x & cb & H). eexists _, WLast, s4, h, rest, x, cb. split; [|exact H].
  eapply round_last; apply evts_same; eauto.
Qed.
Lemma loop_raised : forall fuel s s', group_loop_r fuel s = Some (s', true) -> g_exec (g s') = true /\ exists s1, loops fadd act rng s s1 /\ 0 < g_size (g s1) /\
  group_execute_r s1 = (s', true).
Proof.
  induction fuel as [|f IH]; intros s s'; cbn [RaiseModel.group_loop_r]; destruct (0 <? g_size (g s)) eqn:G; try congruence.
  apply Z.ltb_lt in G. destruct (group_execute_r s) as [s1 [|]] eqn:E.
  - intros H. injection H as <-. split; [apply (proj1 (group_raised _ _ E))|]. exists s. repeat split; auto. constructor.
  - intros H. destruct (IH _ _ H) as (H1 & s2 & H2 & H3). split; auto. exists s2. split; auto. apply loops_step; auto. now rewrite (group_same _ _ E).
Qed.
Lemma execute_raised : forall fuel s0 s', reachable fadd act rng s0 -> execute_r fuel s0 = Some (s', true) ->
  g_exec (g s') = true /\ exists s h r x cb, inside s0 s h [] r /\ s' = set_g s (g s') /\
    tr s' = x ++ OCall (tick s') h (User cb) :: tl (skipn (length x) (tr s')) /\ (forall t k c, ~ In (OCall t k c) x) /\
    raises (skipn (length x) (tr s')) cb = true.
Proof.
  intros fuel s0 s' RE E. unfold RaiseModel.execute_r in E. destruct (queue s0) as [|[[t o] k] q] eqn:Q; [discriminate|].
  destruct (loop_raised _ _ _ E) as (H1 & s1 & H2 & H3 & H4). split; auto.
  destruct (group_raised _ _ H4) as (_ & s2 & w & s & h & rest & x & cb & G1 & G2 & G3). eexists s, h, _, x, cb. split; [|exact G3].
  eapply in_call; eauto.
Qed.

(** * After the exception *)
Lemma added_all : forall f hs gr, g_exec gr = true -> let gr' := fold_left (fun gr h => group_add gr (e_pt (f h)) h) hs gr in
  g_exec gr' = true /\ g_size gr' = g_size gr.
Proof.
  intros f. induction hs as [|h t IH]; intros gr G; cbn [fold_left]; auto. destruct (IH (group_add gr (e_pt (f h)) h)) as [H1 H2].
  - unfold group_add. now rewrite G.
  - split; auto. etransitivity; [exact H2|]. unfold group_add. now rewrite G.
Qed.
Lemma dead_fill : forall s t, g_exec (g s) = true -> let s' := fill_group rng s t in
  g_exec (g s') = true /\ g_size (g s') = 0 /\ tr s' = OTick t :: tr s /\ go s' = go s /\ ends s' = ends s /\ ev s' = ev s /\ tick s' = t /\
  queue s' = snd (pop_tick t (queue s)).
Proof.
  intros s t G. unfold fill_group. destruct (pop_tick t (queue s)) as [hs q]. cbn zeta.
  destruct (added_all (ev s) hs (group_reset (g s)) G) as [A1 A2]. unfold group_sort. cbn [observe set_tick set_queue set_g g ev rngk tr].
  destruct (match _ with [] => _ | _ => _ end) as [pr k]. cbn. repeat split; auto.
Qed.
Lemma dead_execute : forall fuel s, g_exec (g s) = true -> execute_r fuel s =
  Some (match queue s with [] => s | (t, _, _) :: _ => fill_group rng s t end, false).
Proof.
  intros fuel s G. unfold RaiseModel.execute_r. destruct (queue s) as [|[[t o] h] q]; auto. destruct (dead_fill s t G) as (_ & H & _).
  destruct fuel; cbn [RaiseModel.group_loop_r]; now rewrite H.
Qed.
Definition calls_nothing (x : list obs) : Prop := forall t h c, ~ In (OCall t h c) x.
Lemma dead_step : forall s s', g_exec (g s) = true -> step_r fadd act rng raises s s' ->
  g_exec (g s') = true /\ exists x, tr s' = x ++ tr s /\ calls_nothing x.
Proof.
  intros s s' G H. destruct H as [s c|s fuel s' b E].
  - split; [rewrite <- G; apply (exec_cmds [c] s)|].
    assert (P : forall e, exists x, tr (alloc_push s e) = x ++ tr s /\ calls_nothing x).
    { intros e. unfold alloc_push, push_event. cbn. eexists [_]. destruct (tick s <=? e_at e); [destruct (e_at e =? tick s)|]; cbn.
      all: split; [reflexivity|]; intros t k d [H|H]; congruence || auto. }
    destruct c; cbn [do_cmd]; auto.
    + exists []. split; auto. intros t h c H; auto.
    + destruct (Nat.ltb h (nexth s)); [exists [OVoid h] | exists []]; cbn; (split; [reflexivity|]); intros t k c H; [destruct H; [congruence|auto] | auto].
    + exists [OStop]. cbn. split; auto. intros t k c H; destruct H; [congruence|auto].
  - rewrite dead_execute in E by auto. injection E as <- <-. destruct (queue s) as [|[[t o] h] q].
    + split; auto. exists []. split; auto. intros t h c H; auto.
    + destruct (dead_fill s t G) as (H1 & _ & H2 & _). split; auto. exists [OTick t]. rewrite H2. split; auto. intros t' k c H; destruct H; [congruence|auto].
Qed.
Lemma dead_steps : forall s s', g_exec (g s) = true -> steps_r fadd act rng raises s s' ->
  g_exec (g s') = true /\ exists x, tr s' = x ++ tr s /\ calls_nothing x.
Proof.
  intros s s' G H. induction H as [s|s s' s'' H IH ST].
  - split; auto. exists []. split; auto. intros t h c F; auto.
  - destruct (IH G) as (G1 & x & H1 & H2). destruct (dead_step _ _ G1 ST) as (G2 & y & H3 & H4). split; auto.
    exists (y ++ x). rewrite H3, H1, app_assoc. split; auto. intros t h c F. apply in_app_or in F as [F|F]; [apply (H4 _ _ _ F) | apply (H2 _ _ _ F)].
Qed.
Lemma dead_runner : forall fuel env r, g_exec (g (rs r)) = true -> go (rs r) = true -> rank_loop_r fadd act rng raises fuel env r = None.
Proof.
  intros fuel. induction env as [|[m nt] env IH]; intros r G GO; cbn [rank_loop_r]; rewrite GO; auto. unfold rank_round_r.
  destruct (rnt r =? m); [|apply IH; auto]. rewrite dead_execute by auto. destruct (queue (rs r)) as [|[[t o] h] q]; [apply IH; auto|].
  destruct (dead_fill (rs r) t G) as (H1 & _ & _ & H2 & _). apply IH; cbn [rs]; auto. congruence.
Qed.
End Same.
