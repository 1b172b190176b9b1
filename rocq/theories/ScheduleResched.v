(** The times at which repeating events are rescheduled: the reschedules of an event are at the times [at], [at + iv], ...
    in this order, and there are not more of them than calls of the event. *)
From Coq Require Import List Arith ZArith Bool Lia.
From Verif Require Import PySort ScheduleModel ScheduleSpec.
Import ListNotations.
Open Scope Z_scope.

(** ** Invariants [P] that are broken between the call of an event [h] and its reschedule, where [R s h] holds *)
Section Preserve.
Variable fadd : Z -> Z -> Z.
Variable act : list obs -> nat -> list cmd.
Variable rng : nat -> nat.
Variable P : st -> Prop.
Variable R : st -> nat -> Prop.
Hypothesis R_P : forall s h, R s h -> P s.
Hypothesis P_g : forall s gr, P s -> P (set_g s gr).
Hypothesis P_rngk : forall s k, P s -> P (set_rngk s k).
Hypothesis P_fill : forall s q t, P s -> P (observe (set_tick (set_queue s q) t) (OTick t)).
Hypothesis P_cmd : forall s c, P s -> P (do_cmd s c).
Hypothesis R_cmd : forall s h c, R s h -> R (do_cmd s c) h.
Hypothesis R_call : forall s h, P s -> R (observe s (OCall (tick s) h (e_call (ev s h)))) h.
Hypothesis R_stop : forall s h, R s h -> R (set_go (observe s OStop) false) h.
Hypothesis P_resched : forall s h iv, R s h -> e_iv (ev s h) = Some iv ->
  P (set_queue (observe (set_ev s (upd (ev s) h (set_at (ev s h) (fadd (e_at (ev s h)) iv)))) (OResched h (e_at (ev s h)) (fadd (e_at (ev s h)) iv)))
       (qinsert (fadd (e_at (ev s h)) iv, e_order (ev s h), h) (queue s))).

Lemma rp_cmds l h : forall s, R s h -> R (do_cmds s l) h.
Proof. induction l as [|c l IH]; cbn; auto. intros s H. apply IH. now apply R_cmd. Qed.
Lemma rp_call s h : P s -> R (call_event act s h) h.
Proof.
  intros H. unfold call_event. pose proof (R_call s h H) as H1. destruct (e_call (ev s h)) eqn:E; auto.
  now apply rp_cmds.
Qed.
Lemma rp_reschedule s h : R s h -> P (reschedule fadd s h).
Proof.
  intros H. unfold reschedule. destruct (e_iv (ev s h)) as [iv|] eqn:E; destruct (e_type (ev s h)) eqn:Et;
    try exact (R_P _ _ H); apply (P_resched s h iv); auto.
Qed.
Lemma rp_run_list l : forall s s' rest i, run_list fadd act s l = (s', rest, i) -> P s -> P s'.
Proof.
  induction l as [|h l IH]; cbn [run_list]; intros s s' rest i H HP.
  - inversion H; subst; auto.
  - assert (P1 : P (reschedule fadd (call_event act (set_g s (set_size (g s) (g_size (g s) - 1))) h) h))
      by (apply rp_reschedule, rp_call; auto).
    destruct (g_intr _); [inversion H; subst; auto|eauto].
Qed.
Lemma rp_sort s : P s -> P (group_sort rng s).
Proof.
  intros H. unfold group_sort. destruct (match py_sort _ (g_prio (g s)) with [] => _ | _ => _ end) as [pr k]. auto.
Qed.
Lemma rp_execute_evts s w s' i : execute_evts fadd act rng s w = (s', i) -> P s -> P s'.
Proof.
  unfold execute_evts. intros H HP.
  destruct (run_list fadd act _ _) as [[s1 rest] b] eqn:E.
  assert (P1 : P s1) by (eapply rp_run_list; [exact E|auto]).
  destruct b; inversion H; subst; auto. apply P_g. unfold add_during_ex. apply P_g, rp_sort. auto.
Qed.
Lemma rp_group_execute s : P s -> P (group_execute fadd act rng s).
Proof.
  intros H. unfold group_execute.
  destruct (execute_evts _ _ _ _ WFirst) as [s1 i1] eqn:E1. apply rp_execute_evts in E1; auto. destruct i1; auto.
  destruct (execute_evts _ _ _ _ WPrio) as [s2 i2] eqn:E2. apply rp_execute_evts in E2; auto. destruct i2; auto.
  destruct (execute_evts _ _ _ _ WLast) as [s3 i3] eqn:E3. apply rp_execute_evts in E3; auto. destruct i3; auto.
Qed.
Lemma rp_iter k : forall s, P s -> P (Nat.iter k (group_execute fadd act rng) s).
Proof. induction k as [|k IH]; intros s H; [exact H|]. cbn. apply rp_group_execute. apply IH. exact H. Qed.
Lemma rp_loop fuel : forall s s', group_loop fadd act rng fuel s = Some s' -> P s -> P s'.
Proof.
  induction fuel as [|f IH]; intros s s' H HP; cbn [group_loop] in H; destruct (0 <? g_size (g s)); try discriminate;
    try (inversion H; subst; auto; fail).
  eapply IH; [exact H|]. now apply rp_group_execute.
Qed.
Lemma rp_fill s t : P s -> P (fill_group rng s t).
Proof.
  intros H. unfold fill_group. destruct (pop_tick t (queue s)) as [hs q]. apply rp_sort. apply (P_fill (set_g s _)). auto.
Qed.
Lemma rp_reachable s : P init -> reachable fadd act rng s -> P s.
Proof.
  intros H0 Hr. induction Hr as [|s s' _ IH Hst]; auto. destruct Hst as [s0 c|s0 fuel s1 H]; auto.
  revert H. unfold execute. destruct (queue s0) as [|[[t o] h] q]; intros H; [inversion H; subst; auto|].
  eapply rp_loop; [exact H|]. now apply rp_fill.
Qed.
Lemma rp_visible s : P init -> visible fadd act rng s -> P s.
Proof. intros H0 [s0 Hr|s0 t o h q k Hr _]; [now apply rp_reachable|]. apply rp_iter, rp_fill. now apply rp_reachable. Qed.
End Preserve.

(** ** The times of the reschedules *)
Fixpoint nres (h : nat) (l : list obs) : nat :=
  match l with
  | [] => 0
  | OResched k _ _ :: r => if Nat.eqb h k then S (nres h r) else nres h r
  | _ :: r => nres h r
  end.

Section Resched.
Variable fadd : Z -> Z -> Z.

Record ok (s : st) : Prop := mkOk {
  o_none : forall h, (nexth s <= h)%nat -> e_iv (ev s h) = None /\ nres h (tr s) = 0%nat;
  o_at : forall now a b h, In (OSched now a b h) (tr s) -> (h < nexth s)%nat /\
    (forall iv, e_iv (ev s h) = Some iv -> e_at (ev s h) = nth_time fadd a iv (nres h (tr s)));
  o_sched : forall h iv, e_iv (ev s h) = Some iv -> exists now a b, In (OSched now a b h) (tr s);
  o_res : forall h t t', In (OResched h t t') (tr s) -> exists now a b iv k, In (OSched now a b h) (tr s) /\ e_iv (ev s h) = Some iv /\
    (k < nres h (tr s))%nat /\ t = nth_time fadd a iv k /\ t' = nth_time fadd a iv (S k);
  o_le : forall h, (nres h (tr s) <= length (calls h (tr s)))%nat }.
Definition okr (s : st) (h : nat) : Prop := ok s /\ (nres h (tr s) < length (calls h (tr s)))%nat.

Definition dull (o : obs) : bool := match o with OSched _ _ _ _ | OResched _ _ _ => false | _ => true end.
Lemma nres_dull x : forall h l, forallb dull x = true -> nres h (x ++ l) = nres h l.
Proof. induction x as [|[]]; cbn; intros; auto; try discriminate. Qed.
Lemma calls_grow x : forall h l, (length (calls h l) <= length (calls h (x ++ l)))%nat.
Proof.
  induction x as [|o x IH]; intros h l; cbn [app]; auto. specialize (IH h l). destruct o; cbn [calls]; auto.
  destruct (Nat.eqb h h0); rewrite ?app_length; cbn; lia.
Qed.
Lemma in_dull x : forall o l, forallb dull x = true -> dull o = false -> In o (x ++ l) <-> In o l.
Proof.
  intros o l X O. split; intros H; [|apply in_or_app; now right]. apply in_app_or in H as [H|H]; auto.
  rewrite forallb_forall in X. rewrite (X _ H) in O. discriminate.
Qed.

Lemma ok_same s s' x : nexth s' = nexth s -> (forall h, e_iv (ev s' h) = e_iv (ev s h) /\ e_at (ev s' h) = e_at (ev s h)) ->
  tr s' = x ++ tr s -> forallb dull x = true -> ok s -> ok s'.
Proof.
  intros N E T D [H1 H2 H3 H4 H5]. split; rewrite ?N, ?T.
  - intros h L. rewrite (proj1 (E h)), nres_dull by auto. auto.
  - intros now a b h I. apply in_dull in I; auto. rewrite (proj1 (E h)), (proj2 (E h)), nres_dull by auto. eauto.
  - intros h iv V. rewrite (proj1 (E h)) in V. destruct (H3 _ _ V) as (n & a & b & I). exists n, a, b. apply in_or_app. now right.
  - intros h t t' I. apply in_dull in I; auto. destruct (H4 _ _ _ I) as (n & a & b & iv & k & I1 & I2 & I3).
    exists n, a, b, iv, k. rewrite (proj1 (E h)), nres_dull by auto. split; auto. apply in_or_app. now right.
  - intros h. rewrite nres_dull by auto. pose proof (calls_grow x h (tr s)). specialize (H5 h). lia.
Qed.

Lemma nres_fresh s e : nres (nexth s) (tr (alloc_push s e)) = nres (nexth s) (tr s).
Proof. unfold alloc_push, push_event; cbn. destruct (tick s <=? e_at e); cbn; try (destruct (e_at e =? tick s); cbn); auto. Qed.
Lemma alloc_facts s e : let s' := alloc_push s e in
  nexth s' = S (nexth s) /\ tr s' = OSched (tick s) (e_at e) (g_exec (g s)) (nexth s) :: tr s /\
  (forall h, h <> nexth s -> ev s' h = ev s h) /\ e_iv (ev s' (nexth s)) = e_iv e /\ e_at (ev s' (nexth s)) = e_at e.
Proof.
  unfold alloc_push, push_event; cbn. destruct (tick s <=? e_at e); cbn; try (destruct (e_at e =? tick s); cbn);
    (split; [reflexivity|]; split; [reflexivity|]; split; [intros h Hh; unfold upd; apply Nat.eqb_neq in Hh; rewrite ?Hh; reflexivity|]);
    unfold upd; rewrite ?Nat.eqb_refl; cbn; rewrite ?Nat.eqb_refl; auto.
Qed.
Lemma ok_alloc s e : ok s -> ok (alloc_push s e).
Proof.
  intros [H1 H2 H3 H4 H5]. destruct (alloc_facts s e) as (N & T & E & V & A). set (s' := alloc_push s e) in *. clearbody s'.
  split; rewrite ?N, ?T.
  - intros h L. rewrite E by lia. cbn [nres]. apply H1. lia.
  - intros now a b h [I|I].
    + inversion I; subst. split; [lia|]. intros iv Hv. cbn [nres]. rewrite (proj2 (H1 (nexth s) (le_n _))). cbn. exact A.
    + destruct (H2 _ _ _ _ I) as [L Hat]. split; [lia|]. rewrite E by lia. cbn [nres]. exact Hat.
  - intros h iv Hv. destruct (Nat.eq_dec h (nexth s)) as [->|Ne].
    + exists (tick s), (e_at e), (g_exec (g s)). now left.
    + rewrite E in Hv by auto. destruct (H3 _ _ Hv) as (n & a & b & I). exists n, a, b. now right.
  - intros h t t' [I|I]; [discriminate|]. destruct (H4 _ _ _ I) as (n & a & b & iv & k & I1 & I2 & I3).
    exists n, a, b, iv, k. split; [now right|]. rewrite E by (pose proof (proj1 (H2 _ _ _ _ I1)); lia). cbn [nres]. auto.
  - intros h. cbn [nres calls]. apply H5.
Qed.

Lemma ok_cmd s c : ok s -> ok (do_cmd s c).
Proof.
  intros H. destruct c; cbn [do_cmd]; try now apply ok_alloc.
  - destruct H as [H1 H2 H3 H4 H5]. split; cbn.
    + intros h L. unfold upd. destruct (Nat.eqb_spec h (nexth s)) as [->|]; cbn; split; auto; apply H1; lia.
    + intros now a b h I. destruct (H2 _ _ _ _ I) as [L Hat]. split; [lia|]. unfold upd. destruct (Nat.eqb_spec h (nexth s)); [lia|auto].
    + intros h iv. unfold upd. destruct (Nat.eqb_spec h (nexth s)); [discriminate|apply H3].
    + intros h t t' I. destruct (H4 _ _ _ I) as (n & a & b & iv & k & I1 & I2). exists n, a, b, iv, k. split; auto.
      unfold upd. destruct (Nat.eqb_spec h (nexth s)) as [->|]; auto. pose proof (proj1 (H2 _ _ _ _ I1)). lia.
    + exact H5.
  - destruct (Nat.ltb h (nexth s)); auto. apply (ok_same s _ [OVoid h]); auto. intros k. cbn. unfold upd.
    destruct (Nat.eqb_spec k h) as [->|]; auto.
  - apply (ok_same s _ [OStop]); auto.
Qed.
Lemma cmd_trace s c : exists x, tr (do_cmd s c) = x ++ tr s /\ (forall h, nres h x = 0%nat).
Proof.
  destruct c; cbn [do_cmd]; try (rewrite (proj1 (proj2 (alloc_facts s _))); eexists [_]; split; [reflexivity|auto]; fail).
  - now exists [].
  - destruct (Nat.ltb h (nexth s)); [exists [OVoid h]|exists []]; auto.
  - exists [OStop]; auto.
Qed.
Lemma nres_app x : forall h l, nres h (x ++ l) = (nres h x + nres h l)%nat.
Proof. induction x as [|o x IH]; intros h l; auto. destruct o as [| | | |k u v|]; cbn; auto; destruct (Nat.eqb h k); cbn; now rewrite IH. Qed.

Lemma ok_init : ok init.
Proof. split; cbn; auto; try tauto. intros; discriminate. Qed.

Lemma visible_ok act rng s : visible fadd act rng s -> ok s.
Proof.
  apply (rp_visible fadd act rng ok okr); auto using ok_init, ok_cmd.
  - intros s0 h [H _]; auto.
  - intros s0 gr. apply (ok_same s0 _ []); auto.
  - intros s0 k. apply (ok_same s0 _ []); auto.
  - intros s0 q t. apply (ok_same s0 _ [OTick t]); auto.
  - intros s0 h c [H L]. split; [now apply ok_cmd|]. destruct (cmd_trace s0 c) as (x & -> & X). rewrite nres_app, X.
    pose proof (calls_grow x h (tr s0)). cbn. lia.
  - intros s0 h H. split; [now apply (ok_same s0 _ [OCall (tick s0) h (e_call (ev s0 h))])|]. cbn. rewrite Nat.eqb_refl, app_length. cbn.
    pose proof (o_le _ H h). lia.
  - intros s0 h [H L]. split; [now apply (ok_same s0 _ [OStop])|]. exact L.
  - intros s0 h iv [[H1 H2 H3 H4 H5] L] Hv. split; cbn.
    + intros k Lk. unfold upd. destruct (Nat.eqb_spec k h) as [->|Ne].
      * rewrite (proj1 (H1 _ Lk)) in Hv. discriminate.
      * auto.
    + intros now a b k [I|I]; [discriminate|]. destruct (H2 _ _ _ _ I) as [Lk Hat]. split; auto. unfold upd.
      destruct (Nat.eqb_spec k h) as [->|Ne]; auto. cbn [e_iv e_at set_at]. intros iv' Hv'. cbn in Hv'. rewrite Hv in Hv'. injection Hv' as <-.
      cbn [nth_time]. now rewrite (Hat iv Hv).
    + intros k iv' Hv'. destruct (H3 k iv') as (n & a & b & I); [|exists n, a, b; now right]. unfold upd in Hv'.
      destruct (Nat.eqb_spec k h) as [->|]; auto.
    + intros k t t' I. destruct I as [I|I].
      * inversion I; subst k t t'. destruct (H3 _ _ Hv) as (n & a & b & I1). exists n, a, b, iv, (nres h (tr s0)).
        split; [now right|]. unfold upd. rewrite Nat.eqb_refl. cbn [e_iv set_at]. split; [exact Hv|]. split; [lia|].
        cbn [nth_time]. rewrite <- (proj2 (H2 _ _ _ _ I1) iv Hv). auto.
      * destruct (H4 _ _ _ I) as (n & a & b & iv' & j & I1 & I2 & I3 & I4). exists n, a, b, iv', j. split; [now right|].
        split; [unfold upd; destruct (Nat.eqb_spec k h) as [->|]; auto|]. split; auto. destruct (Nat.eqb k h); lia.
    + intros k. destruct (Nat.eqb_spec k h) as [->|]; [|apply H5]. lia.
Qed.

(** Every reschedule is one of the times of the event, and one at which the event was called before. *)
Lemma resched_times act rng s h t t' : visible fadd act rng s -> In (OResched h t t') (tr s) ->
  exists now a b iv k, In (OSched now a b h) (tr s) /\ e_iv (ev s h) = Some iv /\
    (k < length (calls h (tr s)))%nat /\ t = nth_time fadd a iv k /\ t' = nth_time fadd a iv (S k).
Proof.
  intros V I. apply visible_ok in V. destruct (o_res _ V _ _ _ I) as (n & a & b & iv & k & I1 & I2 & I3 & I4).
  exists n, a, b, iv, k. pose proof (o_le _ V h). repeat split; auto; try lia; tauto.
Qed.
End Resched.
