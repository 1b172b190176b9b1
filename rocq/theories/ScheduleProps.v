(** The properties C01-C12 of the schedule.  [fadd] (addition of doubles), [act] (what the user's callables
    do) and [rng] (random draws) are arbitrary throughout.  [reachable] states are those between two ticks;
    [visible] ones include all states in between the rounds of a running tick.
    [forward true] says that repeating events have moved forward in time so far, [forward false] that none has
    moved backwards; [C01_positive_intervals] derives them from the intervals. *)
From Coq Require Import List Arith ZArith Bool Lia Sorting.Permutation Relations.Relation_Operators Sorting.Sorted.
From Verif Require Import PySort ScheduleModel ScheduleSpec ScheduleProofs ScheduleOrder ScheduleFacts SchedulePreserve ScheduleDemo.
Import ListNotations.
Open Scope Z_scope.

Lemma run1_reachable : reachable Z.add act1 rng0 run1.
Proof. apply demo_reachable. Qed.
Lemma run1_forward : forward true (tr run1).
Proof. apply forwardb_ok. vm_compute. reflexivity. Qed.
Lemma run2_reachable : reachable Z.add act0 rng0 run2.
Proof. apply demo_reachable. Qed.
Lemma run2_forward : forward true (tr run2).
Proof. apply forwardb_ok. vm_compute. reflexivity. Qed.
Ltac find := vm_compute; repeat (first [left; reflexivity | right]).

(** ** C01 *)
Theorem C01_ticks_monotone fadd act rng s post o pre t o' t' :
  visible fadd act rng s -> forward false (tr s) ->
  tr s = post ++ o :: pre -> obs_tick o = Some t -> In o' post -> obs_tick o' = Some t' -> t <= t'.
Proof. intros Hv Hf Hs Ho Hi Ho'. exact (ticks_monotone fadd act rng s post o pre t Hv Hf Hs Ho o' t' Hi Ho'). Qed.
Print Assumptions C01_ticks_monotone.

(** With positive intervals each tick is started later than the one before, and every event
    is executed in the tick that is current. *)
Theorem C01_ticks_strict fadd act rng s :
  visible fadd act rng s -> forward true (tr s) ->
  tick s = cur_tick (tr s) /\
  (forall post t pre, tr s = post ++ OTick t :: pre -> cur_tick pre < t) /\
  (forall post t h c pre, tr s = post ++ OCall t h c :: pre -> t = cur_tick pre).
Proof.
  intros Hv Hf. destruct (visible_ticks fadd act rng s Hv Hf) as (G & H1 & H2 & H3).
  split; [now symmetry|]. split; [exact H2|]. intros post t h c pre Hs. symmetry. exact (H3 _ _ _ _ _ Hs).
Qed.
Print Assumptions C01_ticks_strict.

Theorem C01_positive_intervals fadd act rng strict s :
  visible fadd act rng s ->
  (forall h iv, (h < nexth s)%nat -> e_iv (ev s h) = Some iv -> forall t, tlt strict t (fadd t iv)) ->
  forward strict (tr s).
Proof. exact (visible_forward fadd act rng strict s). Qed.
Print Assumptions C01_positive_intervals.

Example C01_ex : visible Z.add act1 rng0 run1 /\ forward true (tr run1) /\ tick run1 = 6 /\ length (called (tr run1)) = 19%nat.
Proof. split; [apply vis_idle, run1_reachable|]. split; [apply run1_forward|]. split; vm_compute; reflexivity. Qed.
Example C01_intervals_ex : forall h iv, (h < nexth run1)%nat -> e_iv (ev run1 h) = Some iv -> forall t, tlt true t (t + iv).
Proof.
  intros h iv Hh Hiv t. unfold tlt. assert (iv = 1 \/ iv = 2); [|lia].
  vm_compute in Hh. do 13 (destruct h as [|h]; [vm_compute in Hiv; first [discriminate|inversion Hiv; auto]|]). lia.
Qed.

(** ** C02 *)
Theorem C02_one_time_exactly_once fadd act rng s now a busy h :
  reachable fadd act rng s -> forward true (tr s) ->
  In (OSched now a busy h) (tr s) -> e_iv (ev s h) = None -> now < a ->
  calls h (tr s) = if a <=? tick s then [a] else [].
Proof.
  intros Hr Hf Hi Hiv Hlt. rewrite (one_time_exact fadd act rng s now a busy h Hr Hf Hi Hiv).
  unfold one_time_calls, effective. apply Z.ltb_lt in Hlt. now rewrite Hlt.
Qed.
Print Assumptions C02_one_time_exactly_once.

Theorem C02_one_time_never_twice fadd act rng s now a busy h :
  visible fadd act rng s -> forward false (tr s) ->
  In (OSched now a busy h) (tr s) -> e_iv (ev s h) = None ->
  calls h (tr s) = [] \/ (calls h (tr s) = [a] /\ effective now a busy = true).
Proof. exact (one_time_at_most fadd act rng s now a busy h). Qed.
Print Assumptions C02_one_time_never_twice.

Example C02_ex : In (OSched tick0 4 false 7) (tr run1) /\ e_iv (ev run1 7) = None /\ calls 7 (tr run1) = [4].
Proof. split; [find|]. split; vm_compute; reflexivity. Qed.

(** The call records the event with the given tick, interval, callable, priority type and priority ... *)
Theorem C02_schedule_call s c a iv pt pr cb :
  (exists tag meta, c = CEvent a pt pr cb tag meta /\ iv = None) \/ (exists tag meta i, c = CRepeat a i pt pr cb tag meta /\ iv = Some i) ->
  let s' := do_cmd s c in
  nexth s' = S (nexth s) /\ e_at (ev s' (nexth s)) = a /\ e_iv (ev s' (nexth s)) = iv /\ e_call (ev s' (nexth s)) = User cb /\
  e_pt (ev s' (nexth s)) = pt /\ e_prio (ev s' (nexth s)) = pr /\
  tr s' = OSched (tick s) a (g_exec (g s)) (nexth s) :: tr s.
Proof. exact (cmd_event s c a iv pt pr cb). Qed.
Print Assumptions C02_schedule_call.

(** ... and whenever the event is executed later, it calls this callable, or nothing if it was voided before. *)
Theorem C02_callable fadd act rng s c a iv pt pr cb s' post t c' pre :
  (exists tag meta, c = CEvent a pt pr cb tag meta /\ iv = None) \/ (exists tag meta i, c = CRepeat a i pt pr cb tag meta /\ iv = Some i) ->
  reachable fadd act rng s -> forward false (tr s) -> clos_refl_trans_1n _ (step fadd act rng) (do_cmd s c) s' ->
  tr s' = post ++ OCall t (nexth s) c' :: pre -> c' = User cb \/ (c' = Noop /\ In (OVoid (nexth s)) pre).
Proof.
  intros Hc Hr Hf Hs Hx. destruct (reachable_Inv fadd act rng false s Hr Hf) as [HI _].
  assert (Hno : forall o, In o (tr s) -> forall t c', o <> OCall t (nexth s) c').
  { intros o Ho t0 c0 ->. pose proof (i_fresh _ _ _ _ _ _ _ _ _ _ HI _ (nexth s) Ho eq_refl). lia. }
  destruct (callee_star fadd act rng s c a iv pt pr cb s' Hc Hno Hs) as (_ & _ & H3). exact (H3 _ _ _ _ Hx).
Qed.
Print Assumptions C02_callable.

Example C02_callable_ex : exists s', clos_refl_trans_1n _ (step Z.add act1 rng0) (do_cmd init (one 4 PFirst None 5)) s' /\
  In (OCall 4 0 (User 5)) (tr s').
Proof.
  destruct (execute Z.add act1 rng0 50 (do_cmd init (one 4 PFirst None 5))) as [s'|] eqn:E.
  - exists s'. split; [eapply rt1n_trans; [eapply step_exec; exact E|constructor]|].
    assert (H : match execute Z.add act1 rng0 50 (do_cmd init (one 4 PFirst None 5)) with Some s => tr s | None => [] end =
      [OCall 4 0 (User 5); OTick 4; OSched tick0 4 false 0]) by (vm_compute; reflexivity).
    rewrite E in H. rewrite H. now left.
  - exfalso. assert (H : (if execute Z.add act1 rng0 50 (do_cmd init (one 4 PFirst None 5)) then true else false) = true) by (vm_compute; reflexivity).
    rewrite E in H. discriminate.
Qed.

(** ** C03 *)
Theorem C03_past_never_runs fadd act rng s now a busy h :
  visible fadd act rng s -> forward false (tr s) ->
  In (OSched now a busy h) (tr s) -> a < now -> calls h (tr s) = [].
Proof. exact (past_never fadd act rng s now a busy h). Qed.
Print Assumptions C03_past_never_runs.

(** The call itself changes nothing but adds the new event object: [same_but_new] compares all fields. *)
Theorem C03_past_frame s c :
  match c with
  | CEvent a _ _ _ _ _ | CRepeat a _ _ _ _ _ _ | CSchedStop a => a < tick s -> same_but_new s (do_cmd s c)
  | _ => True
  end.
Proof. destruct c; auto; intros H; apply past_frame; exact H. Qed.
Print Assumptions C03_past_frame.

Example C03_ex : In (OSched 5 1 true 12) (tr run1) /\ calls 12 (tr run1) = [] /\ 1 < tick run1.
Proof. split; [find|]. split; vm_compute; reflexivity. Qed.

(** ** C04 *)
Theorem C04_repeating_exact fadd act rng s now a busy h iv :
  reachable fadd act rng s -> forward true (tr s) ->
  In (OSched now a busy h) (tr s) -> e_iv (ev s h) = Some iv -> now < a -> ~ In (OVoid h) (tr s) ->
  exists n, calls h (tr s) = times fadd a iv n /\
            (forall m, (m < n)%nat -> nth_time fadd a iv m <= tick s) /\ tick s < nth_time fadd a iv n.
Proof.
  intros Hr Hf Hi Hiv Hlt Hv. apply (repeating_exact fadd act rng s now a busy h iv); auto.
  unfold effective. apply Z.ltb_lt in Hlt. now rewrite Hlt.
Qed.
Print Assumptions C04_repeating_exact.

Theorem C04_repeating_prefix fadd act rng s now a busy h iv :
  visible fadd act rng s -> forward false (tr s) ->
  In (OSched now a busy h) (tr s) -> e_iv (ev s h) = Some iv ->
  calls h (tr s) = times fadd a iv (length (calls h (tr s))).
Proof. exact (repeating_prefix fadd act rng s now a busy h iv). Qed.
Print Assumptions C04_repeating_prefix.

Example C04_ex : In (OSched tick0 1 false 5) (tr run1) /\ e_iv (ev run1 5) = Some 1 /\ calls 5 (tr run1) = [1; 2; 3; 4; 5; 6].
Proof. split; [find|]. split; vm_compute; reflexivity. Qed.

(** ** C05, C06 *)
Theorem C05_priority_classes fadd act rng s :
  visible fadd act rng s -> forward true (tr s) ->
  no_overtaking (fun _ h h' => (pclass (e_pt (ev s h)) <= pclass (e_pt (ev s h')))%nat) (tr s).
Proof.
  intros Hv Hf post t h c pre Hs h' c' Hi Hsch.
  destruct (class_no_overtaking fadd act rng s Hv Hf post t h c pre Hs h' c' Hi Hsch) as [H|[H _]]; lia.
Qed.
Print Assumptions C05_priority_classes.

Theorem C06_scheduling_order fadd act rng s :
  visible fadd act rng s -> forward true (tr s) ->
  no_overtaking (fun _ h h' => e_pt (ev s h) = e_pt (ev s h') -> (e_pt (ev s h) = PFirst \/ e_pt (ev s h) = PLast) -> (h < h')%nat) (tr s).
Proof.
  intros Hv Hf post t h c pre Hs h' c' Hi Hsch He Hp.
  destruct (class_no_overtaking fadd act rng s Hv Hf post t h c pre Hs h' c' Hi Hsch) as [H|[_ H]].
  - rewrite He in H. lia.
  - apply H. destruct Hp as [-> | ->]; discriminate.
Qed.
Print Assumptions C06_scheduling_order.

(** In tick 3 the FIRST events 2, 5, 6 and the added 10 run in that order, then RANDOM/BY_PRIORITY, then
    the LAST events 0 and 9. *)
Example C05_C06_ex :
  rev (called (tr run1)) = [5; 1; 5; 2; 5; 6; 10; 1; 4; 3; 0; 9; 5; 11; 7; 5; 1; 8; 5]%nat /\
  map (fun h => e_pt (ev run1 h)) [2; 5; 6; 10; 1; 4; 3; 0; 9]%nat =
    [PFirst; PFirst; PFirst; PFirst; PRandom; PPriority; PPriority; PLast; PLast].
Proof. split; vm_compute; reflexivity. Qed.

(** ** C07 *)
Theorem C07_priority_order fadd act rng s t0 :
  visible fadd act rng s -> forward true (tr s) ->
  (forall k, ~ In (OSched t0 t0 true k) (tr s)) ->
  (forall now a b h, In (OSched now a b h) (tr s) -> due fadd (ev s h) a t0 -> e_pt (ev s h) = PPriority -> e_prio (ev s h) <> None) ->
  no_overtaking (fun t h h' => t = t0 -> e_pt (ev s h) = PPriority -> e_pt (ev s h') = PPriority ->
                               prio_precede (ev s h) (ev s h') h h') (tr s).
Proof.
  intros Hv Hf Hno Hp. apply (prio_no_overtaking fadd act rng); auto.
  intros now a b h Hi Hd. split; [eauto|]. intros _ [k Hk]. destruct (Hno k Hk).
Qed.
Print Assumptions C07_priority_order.

(** BY_PRIORITY events 2 and 3 (priority 2) and 0 (priority 5), RANDOM events 1 and 5. *)
Example C07_ex :
  (forall k, ~ In (OSched 3 3 true k) (tr run2)) /\
  (forall now a b h, In (OSched now a b h) (tr run2) -> e_pt (ev run2 h) = PPriority -> e_prio (ev run2 h) <> None) /\
  rev (called (tr run2)) = [2; 4; 5; 2; 3; 0; 1]%nat /\
  map (fun h => e_prio (ev run2 h)) [5; 2; 3; 0; 1]%nat = [None; Some 2; Some 2; Some 5; None].
Proof.
  split; [|split; [|split; vm_compute; reflexivity]].
  - assert (Hp : no_addb 3 (tr run2) = true) by (vm_compute; reflexivity). exact (no_addb_ok _ _ Hp).
  - intros now a b h H. assert (Hp : priob false (ev run2) (tr run2) = true) by (vm_compute; reflexivity).
    exact (proj1 (priob_ok _ _ _ Hp _ _ _ _ H)).
Qed.

(** ** C08 *)
Theorem C08_tick_is_permutation fadd act rng fuel s s' t o h q :
  reachable fadd act rng s -> execute fadd act rng fuel s = Some s' -> forward true (tr s') ->
  queue s = (t, o, h) :: q ->
  exists x, tr s' = x ++ OTick t :: tr s /\ Permutation (called x) (pending t (queue s) ++ added x).
Proof. exact (execute_permutation fadd act rng fuel s s' t o h q). Qed.
Print Assumptions C08_tick_is_permutation.

(** Each event of the queue is executed once if its tick is the current one, and otherwise not. *)
Theorem C08_pending_exactly_once fadd act rng fuel s s' t o h q a o' k :
  reachable fadd act rng s -> execute fadd act rng fuel s = Some s' -> forward true (tr s') ->
  queue s = (t, o, h) :: q -> In (a, o', k) (queue s) ->
  calls k (tr s') = calls k (tr s) ++ (if a =? t then [t] else []).
Proof. exact (execute_pending fadd act rng fuel s s' t o h q a o' k). Qed.
Print Assumptions C08_pending_exactly_once.

(** No event is executed twice in a tick, also while the tick is running. *)
Theorem C08_no_duplicates fadd act rng s h :
  visible fadd act rng s -> forward true (tr s) -> StronglySorted Z.lt (calls h (tr s)).
Proof. intros Hv Hf. exact (visible_once fadd act rng s Hv Hf h). Qed.
Print Assumptions C08_no_duplicates.

Example C08_ex :
  let s := demo act1 rng0 (firstn 11 ops1) in
  match execute Z.add act1 rng0 50 s with
  | Some s' => forwardb true (tr s') = true /\ pending 3 (queue s) = [0; 1; 2; 3; 4; 5; 6]%nat /\
     rev (called (firstn 14 (tr s'))) = [2; 5; 6; 10; 1; 4; 3; 0; 9]%nat /\ rev (added (firstn 14 (tr s'))) = [9; 10]%nat /\
     nth_error (tr s') 14 = Some (OTick 3)
  | None => False
  end.
Proof. vm_compute. repeat split. Qed.

(** ** C09 *)
Theorem C09_same_tick_event_runs fadd act rng s t h post pre :
  reachable fadd act rng s -> forward true (tr s) ->
  tr s = post ++ OSched t t true h :: pre -> exists c, In (OCall t h c) post.
Proof. exact (same_tick_runs_after fadd act rng s t h post pre). Qed.
Print Assumptions C09_same_tick_event_runs.

Theorem C09_first_call fadd act rng s t h :
  reachable fadd act rng s -> forward true (tr s) ->
  In (OSched t t true h) (tr s) -> exists r, calls h (tr s) = t :: r.
Proof. exact (same_tick_runs fadd act rng s t h). Qed.
Print Assumptions C09_first_call.

Example C09_ex : In (OSched 3 3 true 9) (tr run1) /\ calls 9 (tr run1) = [3].
Proof. split; [find|vm_compute; reflexivity]. Qed.

(** ** C10 *)
(** False: event 1 (priority 5) is executed before event 3 (priority 1) after event 0 has added an event to
    the tick: the second sort compares with the NaN priority of the RANDOM event 2. *)
Theorem C10_priority_order_refuted :
  reachable Z.add act3 rng0 run3 /\ forward true (tr run3) /\
  ~ no_overtaking (fun _ h h' => e_pt (ev run3 h) = PPriority -> e_pt (ev run3 h') = PPriority ->
                                 prio_precede (ev run3 h) (ev run3 h') h h') (tr run3).
Proof. exact run3_refutes. Qed.
Print Assumptions C10_priority_order_refuted.

(** What is missing: ticks to which a running event adds events, with a RANDOM event without priority. *)
Theorem C10_priority_order_partial fadd act rng s t0 :
  visible fadd act rng s -> forward true (tr s) -> prio_guard fadd (ev s) (tr s) t0 ->
  no_overtaking (fun t h h' => t = t0 -> e_pt (ev s h) = PPriority -> e_pt (ev s h') = PPriority ->
                               prio_precede (ev s h) (ev s h') h h') (tr s).
Proof. exact (prio_no_overtaking fadd act rng t0 s). Qed.
Print Assumptions C10_priority_order_partial.

(** The same run, with a priority for the RANDOM event. *)
Example C10_ex : prio_guard Z.add (ev run5) (tr run5) 3 /\ In (OSched 3 3 true 4) (tr run5) /\
  rev (called (tr run5)) = [0; 4; 3; 1; 2]%nat.
Proof.
  split; [|split; [find|vm_compute; reflexivity]].
  intros now a b h H _. assert (Hp : priob true (ev run5) (tr run5) = true) by (vm_compute; reflexivity).
  destruct (priob_ok _ _ _ Hp _ _ _ _ H) as [H1 H2]. split; [exact H1|intros E _; exact (H2 eq_refl E)].
Qed.

(** ** C11 *)
Theorem C11_void_never_runs fadd act rng s post h pre :
  visible fadd act rng s -> forward false (tr s) -> tr s = post ++ OVoid h :: pre ->
  (forall t c, In (OCall t h c) post -> c = Noop) /\ (forall t t', ~ In (OResched h t t') post).
Proof.
  intros Hv Hf Hs. split.
  - intros t c. exact (void_silent fadd act rng s post h pre t c Hv Hf Hs).
  - intros t t'. exact (void_not_rescheduled fadd act rng s post h pre t t' Hv Hf Hs).
Qed.
Print Assumptions C11_void_never_runs.

Theorem C11_void_frame s h : (h < nexth s)%nat ->
  let s' := do_cmd s (CVoid h) in
  queue s' = queue s /\ tick s' = tick s /\ ctr s' = ctr s /\ g s' = g s /\ rngk s' = rngk s /\
  go s' = go s /\ ends s' = ends s /\ nexth s' = nexth s /\ (forall k, k <> h -> ev s' k = ev s k).
Proof. exact (void_frame s h). Qed.
Print Assumptions C11_void_frame.

(** Event 1 repeats at 1, 3, 5, ... and is voided at 4: at 5 only the no-op runs and it leaves the schedule. *)
Example C11_ex : In (OVoid 1) (tr run1) /\ In (OCall 5 1 Noop) (tr run1) /\ In (OCall 3 1 (User 0)) (tr run1) /\
  map snd (queue run1) = [5%nat].
Proof. split; [find|]. split; [find|]. split; [find|]. vm_compute. reflexivity. Qed.

(** ** C12 *)
(** False: event 1, scheduled for the current tick 3 between two ticks, is never executed in any continuation. *)
Theorem C12_not_lost_refuted :
  reachable Z.add act0 rng0 run4 /\ In (OSched 3 3 false 1) (tr run4) /\ tick run4 = 3 /\
  forall s', clos_refl_trans_1n _ (step Z.add act0 rng0) run4 s' -> forward false (tr s') -> calls 1 (tr s') = [].
Proof. exact run4_refutes. Qed.
Print Assumptions C12_not_lost_refuted.

(** What is missing: calls for the current tick between two ticks. *)
Theorem C12_not_lost_partial fadd act rng s now a busy h :
  reachable fadd act rng s -> forward true (tr s) -> In (OSched now a busy h) (tr s) ->
  now < a \/ (now = a /\ busy = true) -> a <= tick s ->
  exists r, calls h (tr s) = a :: r.
Proof. exact (not_lost fadd act rng s now a busy h). Qed.
Print Assumptions C12_not_lost_partial.

Example C12_ex : In (OSched 3 4 true 11) (tr run1) /\ 4 <= tick run1 /\ calls 11 (tr run1) = [4].
Proof. split; [find|]. split; [vm_compute; discriminate|vm_compute; reflexivity]. Qed.
