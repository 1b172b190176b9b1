(** A principle for simple invariants of the schedule: what the elementary state changes preserve, every step preserves. *)
From Coq Require Import List Arith ZArith Bool Lia Relations.Relation_Operators.
From Verif Require Import PySort ScheduleModel.
Import ListNotations.
Open Scope Z_scope.

Section Preserve.
Variable fadd : Z -> Z -> Z.
Variable act : list obs -> nat -> list cmd.
Variable rng : nat -> nat.
Variable P : st -> Prop.
Hypothesis P_g : forall s gr, P s -> P (set_g s gr).
Hypothesis P_rngk : forall s k, P s -> P (set_rngk s k).
Hypothesis P_fill : forall s q t, P s -> P (observe (set_tick (set_queue s q) t) (OTick t)).
Hypothesis P_cmd : forall s c, P s -> P (do_cmd s c).
Hypothesis P_call : forall s h, P s -> e_call (ev s h) <> StopRunner -> P (observe s (OCall (tick s) h (e_call (ev s h)))).
Hypothesis P_stop : forall s h, P s -> e_call (ev s h) = StopRunner ->
  P (set_go (observe (observe s (OCall (tick s) h StopRunner)) OStop) false).
Hypothesis P_resched : forall s h iv, P s -> e_iv (ev s h) = Some iv -> e_type (ev s h) <> TVoid ->
  P (set_queue (observe (set_ev s (upd (ev s) h (set_at (ev s h) (fadd (e_at (ev s h)) iv)))) (OResched h (e_at (ev s h)) (fadd (e_at (ev s h)) iv)))
       (qinsert (fadd (e_at (ev s h)) iv, e_order (ev s h), h) (queue s))).

Lemma pres_cmds l : forall s, P s -> P (do_cmds s l).
Proof. induction l as [|c l IH]; cbn; auto. intros s H. apply IH. now apply P_cmd. Qed.

Lemma pres_call s h : P s -> P (call_event act s h).
Proof.
  intros H. unfold call_event. destruct (e_call (ev s h)) eqn:E.
  - apply pres_cmds. rewrite <- E. apply P_call; auto. congruence.
  - auto.
  - rewrite <- E. apply P_call; auto. congruence.
Qed.

Lemma pres_reschedule s h : P s -> P (reschedule fadd s h).
Proof.
  intros H. unfold reschedule. destruct (e_iv (ev s h)) as [iv|] eqn:E; destruct (e_type (ev s h)) eqn:Et; auto;
    (apply (P_resched s h iv); auto; congruence).
Qed.

Lemma pres_run_list l : forall s s' rest i, run_list fadd act s l = (s', rest, i) -> P s -> P s'.
Proof.
  induction l as [|h l IH]; cbn [run_list]; intros s s' rest i H HP.
  - inversion H; subst; auto.
  - assert (P1 : P (reschedule fadd (call_event act (set_g s (set_size (g s) (g_size (g s) - 1))) h) h))
      by (apply pres_reschedule, pres_call; auto).
    destruct (g_intr _); [inversion H; subst; auto|eauto].
Qed.

Lemma pres_sort s : P s -> P (group_sort rng s).
Proof.
  intros H. unfold group_sort. destruct (match py_sort _ (g_prio (g s)) with [] => _ | _ => _ end) as [pr k]. auto.
Qed.

Lemma pres_execute_evts s w s' i : execute_evts fadd act rng s w = (s', i) -> P s -> P s'.
Proof.
  unfold execute_evts. intros H HP.
  destruct (run_list fadd act _ _) as [[s1 rest] b] eqn:E.
  assert (P1 : P s1) by (eapply pres_run_list; [exact E|auto]).
  destruct b; inversion H; subst; auto. apply P_g. unfold add_during_ex. apply P_g, pres_sort. auto.
Qed.

Lemma pres_group_execute s : P s -> P (group_execute fadd act rng s).
Proof.
  intros H. unfold group_execute.
  destruct (execute_evts _ _ _ _ WFirst) as [s1 i1] eqn:E1. apply pres_execute_evts in E1; auto. destruct i1; auto.
  destruct (execute_evts _ _ _ _ WPrio) as [s2 i2] eqn:E2. apply pres_execute_evts in E2; auto. destruct i2; auto.
  destruct (execute_evts _ _ _ _ WLast) as [s3 i3] eqn:E3. apply pres_execute_evts in E3; auto. destruct i3; auto.
Qed.

Lemma pres_iter k : forall s, P s -> P (Nat.iter k (group_execute fadd act rng) s).
Proof. induction k as [|k IH]; intros s H; [exact H|]. cbn. apply pres_group_execute. apply IH. exact H. Qed.

Lemma pres_loop fuel : forall s s', group_loop fadd act rng fuel s = Some s' -> P s -> P s'.
Proof.
  induction fuel as [|f IH]; intros s s' H HP; cbn [group_loop] in H; destruct (0 <? g_size (g s)); try discriminate;
    try (inversion H; subst; auto; fail).
  eapply IH; [exact H|]. now apply pres_group_execute.
Qed.

Lemma pres_fill s t : P s -> P (fill_group rng s t).
Proof.
  intros H. unfold fill_group. destruct (pop_tick t (queue s)) as [hs q]. apply pres_sort. apply (P_fill (set_g s _)). auto.
Qed.

Lemma pres_execute fuel s s' : execute fadd act rng fuel s = Some s' -> P s -> P s'.
Proof.
  unfold execute. destruct (queue s) as [|[[t o] h] q]; intros H HP; [inversion H; subst; auto|].
  eapply pres_loop; [exact H|]. now apply pres_fill.
Qed.

Lemma pres_step s s' : step fadd act rng s s' -> P s -> P s'.
Proof. intros [s0 c|s0 fuel s1 H] HP; [auto|eapply pres_execute; eauto]. Qed.

Lemma pres_reachable s : P init -> reachable fadd act rng s -> P s.
Proof. intros H0 Hr. induction Hr as [|s s' _ IH Hst]; auto. eapply pres_step; eauto. Qed.

Lemma pres_running s l s' h todo rest : running fadd act s l s' h todo rest -> P s -> P s'.
Proof.
  induction 1 as [s h t cb s1 i Hc ->|s h t s2 s' k todo rest -> Hi _ IH]; intros HP.
  - apply pres_cmds. set (s1 := set_g s _). change (OCall (tick s) h (User cb)) with (OCall (tick s1) h (User cb)). replace (User cb) with (e_call (ev s1 h)) by exact Hc.
    apply P_call; [unfold s1; auto|]. change (e_call (ev s h) <> StopRunner). congruence.
  - apply IH. apply pres_reschedule, pres_call. auto.
Qed.
Lemma pres_loops s s' : loops fadd act rng s s' -> P s -> P s'.
Proof. induction 1 as [|s s' _ _ IH]; auto. intros HP. apply IH. now apply pres_group_execute. Qed.
Lemma pres_round s s' w : round fadd act rng s s' w -> P s -> P s'.
Proof.
  intros [|s1 E1|s1 s2 E1 E2] HP; [auto|eapply pres_execute_evts; [exact E1|auto]|].
  eapply pres_execute_evts; [exact E2|]. eapply pres_execute_evts; [exact E1|auto].
Qed.
Lemma pres_inside s0 s h todo r : P init -> inside fadd act rng s0 s h todo r -> P s.
Proof.
  intros H0 [t o k q s1 s2 w s' h' todo' rest Hr Hq Hl Hz Hw Hu]. eapply pres_running; [exact Hu|]. apply P_g. eapply pres_round; [exact Hw|].
  eapply pres_loops; [exact Hl|]. apply pres_fill. now apply pres_reachable.
Qed.

Lemma pres_visible s : P init -> visible fadd act rng s -> P s.
Proof. intros H0 [s0 Hr|s0 t o h q k Hr _]; [now apply pres_reachable|]. apply pres_iter, pres_fill. now apply pres_reachable. Qed.
End Preserve.

(** The callable of event [h]: [c], or nothing once the event was voided. *)
Definition callee_inv (h : nat) (c : callee) (s : st) : Prop :=
  (h < nexth s)%nat /\ (e_call (ev s h) = c \/ (e_call (ev s h) = Noop /\ In (OVoid h) (tr s))) /\
  forall post t c' pre, tr s = post ++ OCall t h c' :: pre -> c' = c \/ (c' = Noop /\ In (OVoid h) pre).

Lemma callee_obs h c s s' x : (nexth s <= nexth s')%nat -> e_call (ev s' h) = e_call (ev s h) -> tr s' = x ++ tr s ->
  (forall t c', ~ In (OCall t h c') x) -> callee_inv h c s -> callee_inv h c s'.
Proof.
  intros Hn He Hx Hno (H1 & H2 & H3). split; [lia|]. split.
  - rewrite He, Hx. destruct H2 as [H2|[H2 H2']]; auto. right. split; auto. apply in_or_app. auto.
  - intros post t c' pre Hs. rewrite Hx in Hs.
    assert (Hsp : exists post', tr s = post' ++ OCall t h c' :: pre).
    { clear -Hs Hno. revert post Hs. induction x as [|o x IH]; intros post Hs; [now exists post|].
      destruct post as [|o' post]; cbn in Hs; inversion Hs; subst.
      - destruct (Hno t c'). now left.
      - apply (IH (fun t c Hi => Hno t c (or_intror Hi)) post). auto. }
    destruct Hsp as [post' Hs']. eauto.
Qed.

Lemma callee_alloc h c s e : callee_inv h c s -> callee_inv h c (alloc_push s e).
Proof.
  intros H. pose proof H as (Hh & _). eapply (callee_obs h c s _ [_]); [..|exact H]; unfold alloc_push, push_event; cbn;
    destruct (tick s <=? e_at e); cbn; try (destruct (e_at e =? tick s); cbn); auto;
    unfold upd; cbn; try (destruct (Nat.eqb_spec h (nexth s)); [lia|auto]); intros t c' [Hc|[]]; discriminate.
Qed.

Lemma callee_preserved fadd act rng h c s s' : step fadd act rng s s' -> callee_inv h c s -> callee_inv h c s'.
Proof.
  apply pres_step.
  - intros s0 gr H. eapply (callee_obs h c s0 _ []); [..|exact H]; cbn; auto.
  - intros s0 k H. eapply (callee_obs h c s0 _ []); [..|exact H]; cbn; auto.
  - intros s0 q t H. eapply (callee_obs h c s0 _ [_]); [..|exact H]; cbn; auto. intros ? ? [Hc|[]]; discriminate.
  - intros s0 cm H. pose proof H as (Hh & H2 & H3). destruct cm; cbn [do_cmd]; try (now apply callee_alloc).
    + eapply (callee_obs h c s0 _ []); [..|exact H]; cbn; auto. unfold upd. destruct (Nat.eqb_spec h (nexth s0)); [lia|auto].
    + destruct (Nat.ltb_spec h0 (nexth s0)); auto. split; [exact Hh|]. split.
      * cbn. unfold upd. destruct (Nat.eqb_spec h h0) as [<-|Hne]; cbn; auto.
        destruct H2 as [H2|[H2 H2']]; auto.
      * intros post t c' pre Hs. cbn in Hs. destruct post as [|o post]; cbn in Hs; inversion Hs; subst. eauto.
    + eapply (callee_obs h c s0 _ [_]); [..|exact H]; cbn; auto. intros ? ? [Hc|[]]; discriminate.
  - intros s0 k H _. pose proof H as (Hh & H2 & H3). split; [exact Hh|]. split.
    + cbn. destruct H2 as [H2|[H2 H2']]; auto.
    + intros post t c' pre Hs. cbn in Hs. destruct post as [|o post]; cbn in Hs; inversion Hs; subst; eauto.
  - intros s0 k H Ek. pose proof H as (Hh & H2 & H3). split; [exact Hh|]. split.
    + cbn. destruct H2 as [H2|[H2 H2']]; auto.
    + intros post t c' pre Hs. cbn in Hs. destruct post as [|o post]; cbn in Hs; inversion Hs as [[Ho Hr]]; subst.
      destruct post as [|o post]; cbn in Hr; inversion Hr; subst; eauto.
      rewrite Ek in H2. destruct H2 as [H2|[H2 _]]; auto. discriminate.
  - intros s0 k iv H _ _. eapply (callee_obs h c s0 _ [_]); [..|exact H]; cbn; auto.
    + unfold upd. destruct (Nat.eqb_spec h k); subst; auto.
    + intros ? ? [Hc|[]]; discriminate.
Qed.

(** What a schedule call does besides: the event gets the given interval, priority type, priority and callable. *)
Lemma cmd_event s c a iv pt pr cb :
  (exists tag meta, c = CEvent a pt pr cb tag meta /\ iv = None) \/ (exists tag meta i, c = CRepeat a i pt pr cb tag meta /\ iv = Some i) ->
  let s' := do_cmd s c in
  nexth s' = S (nexth s) /\ e_at (ev s' (nexth s)) = a /\ e_iv (ev s' (nexth s)) = iv /\ e_call (ev s' (nexth s)) = User cb /\
  e_pt (ev s' (nexth s)) = pt /\ e_prio (ev s' (nexth s)) = pr /\
  tr s' = OSched (tick s) a (g_exec (g s)) (nexth s) :: tr s.
Proof.
  intros [(tag & meta & -> & ->)|(tag & meta & i & -> & ->)]; cbn [do_cmd]; unfold alloc_push, push_event; cbn;
    destruct (tick s <=? a); cbn; try (destruct (a =? tick s); cbn); unfold upd; rewrite ?Nat.eqb_refl; cbn; rewrite ?Nat.eqb_refl; cbn; auto 10.
Qed.

Lemma callee_star fadd act rng s c a iv pt pr cb s' :
  (exists tag meta, c = CEvent a pt pr cb tag meta /\ iv = None) \/ (exists tag meta i, c = CRepeat a i pt pr cb tag meta /\ iv = Some i) ->
  (forall o, In o (tr s) -> forall t c', o <> OCall t (nexth s) c') ->
  clos_refl_trans_1n _ (step fadd act rng) (do_cmd s c) s' -> callee_inv (nexth s) (User cb) s'.
Proof.
  intros Hc Hno Hs. destruct (cmd_event s c a iv pt pr cb Hc) as (H1 & _ & _ & H2 & _ & _ & H3).
  assert (H0 : callee_inv (nexth s) (User cb) (do_cmd s c)).
  { split; [lia|]. split; [now left|]. intros post t c' pre Hx. exfalso.
    assert (Hi : In (OCall t (nexth s) c') (tr (do_cmd s c))) by (rewrite Hx; apply in_or_app; right; now left).
    rewrite H3 in Hi. destruct Hi as [Hi|Hi]; [discriminate|]. exact (Hno _ Hi _ _ eq_refl). }
  clear Hno H1 H2 H3 Hc. induction Hs as [|x y z Hxy _ IH]; auto. apply IH. eapply callee_preserved; eauto.
Qed.
