(** C66: a schedule that is saved by a scheduled event. [inside s0 s h todo r] (ScheduleModel.v): in the state [s], reached by [execute] from [s0], the callable of event [h]
    is running, it will still make the API calls [todo], and [r] are the other events of the tick that are not yet called. The save is made in [s]. *)
From Coq Require Import List Arith ZArith Bool Lia Sorting.Permutation Sorting.Sorted.
From Verif Require Import PySort ScheduleModel ScheduleSpec ScheduleProofs ScheduleExec ScheduleInside SchedulePreserve ScheduleDemo RunnerModel RunnerProofs
  CheckpointModel CheckpointSim CheckpointSpec CheckpointProofs CheckpointFacts CheckpointProps.
Import ListNotations.
Open Scope Z_scope.

Section Inside.
Variable fadd : Z -> Z -> Z.
Variable act : list obs -> nat -> list cmd.
Variable rng : nat -> nat.

Lemma inside_TInv s0 s h todo r : inside fadd act rng s0 s h todo r -> TInv s.
Proof.
  apply pres_inside; [..|apply TInv_init].
  - intros s1 gr. now apply TInv_same.
  - intros s1 k. now apply TInv_same.
  - intros s1 q t. now apply TInv_same.
  - apply TInv_cmd.
  - intros s1 k H _. revert H. now apply TInv_same.
  - intros s1 k H _. revert H. now apply TInv_same.
  - intros s1 k iv [T1 T2 T3 T4 T5 T6] Hiv Hv. constructor; cbn; unfold upd; auto.
    + intros j. destruct (Nat.eqb_spec j k); auto. subst. specialize (T1 k). unfold well_typed in *. cbn. rewrite Hiv in *.
      destruct (e_type (ev s1 k)); auto. destruct T1 as (_ & T1 & _). discriminate.
    + intros j Hk. destruct (Nat.eqb_spec j k); auto. subst. rewrite (T2 k Hk) in Hv. now destruct Hv.
    + intros j Hk. destruct (T3 j Hk) as [A B]. split; auto. destruct (Nat.eqb_spec j k); auto. subst. cbn. auto.
    + intros j. destruct (Nat.eqb_spec j k); auto. subst. cbn. auto.
    + intros j. destruct (Nat.eqb_spec j k); auto. subst. cbn. auto.
Qed.
Lemma inside_GoInv s0 s h todo r : inside fadd act rng s0 s h todo r -> GoInv s.
Proof.
  apply pres_inside; [..|apply GoInv_init].
  - intros s1 gr H. eapply (GoInv_obs s1 _ []); [..|exact H]; reflexivity.
  - intros s1 k H. eapply (GoInv_obs s1 _ []); [..|exact H]; reflexivity.
  - intros s1 q t H. eapply (GoInv_obs s1 _ [_]); [..|exact H]; reflexivity.
  - apply GoInv_cmd.
  - intros s1 k. apply GoInv_callobs.
  - intros s1 k H _. now apply GoInv_callstop.
  - intros s1 k iv H _ _. eapply (GoInv_obs s1 _ [_]); [..|exact H]; reflexivity.
Qed.
Lemma inside_saved s0 s h todo r q : inside fadd act rng s0 s h todo r -> forward true (tr s) -> Permutation q (queue s) -> saved s q.
Proof.
  intros H Hf Hq. exact (inv_saved fadd s q r (Some h) (inside_TInv _ _ _ _ _ H) (inside_GoInv _ _ _ _ _ H) (inside_Inv fadd act rng true _ _ _ _ _ H Hf) Hq).
Qed.
End Inside.

(** Every call of a callable by [execute] is one in which a save can be made: right after the call, the state is [inside] and all that the callable does is still to be done. *)
Theorem C66_every_call fadd act rng fuel s0 s' t h cb :
  reachable fadd act rng s0 -> execute fadd act rng fuel s0 = Some s' -> In (OCall t h (User cb)) (tr s') -> ~ In (OCall t h (User cb)) (tr s0) ->
  exists s x r, inside fadd act rng s0 s h (act (tr s) cb) r /\ tr s = OCall t h (User cb) :: x /\ tick s = t.
Proof.
  intros Hr E H Hn. destruct (inside_complete fadd act rng fuel s0 s' t h cb Hr E H) as [H1|(s & x & (r & H1) & H2)]; [contradiction|]. eauto.
Qed.
Print Assumptions C66_every_call.

(** What is restored: the tick, and the events that are in the queue when the event makes the save. *)
Theorem C66_restored fadd act rng s0 s h todo r q creator stop_at ts rk :
  inside fadd act rng s0 s h todo r -> forward true (tr s) -> Permutation q (queue s) -> faithful s creator -> NoDup ts -> ts <> [] ->
  let r' := rs (restore_tags s q creator stop_at ts rk) in
  tick r' = tick s /\ pend r' = filter (fun x => keep creator ts (snd x)) (pend s) /\
  Permutation (map (ev r') (ends r')) (filter (keep creator ts) (map (ev s) (ends s))).
Proof.
  intros Hi Hf Hq Hc Hn Hne r'. pose proof (inside_saved _ _ _ _ _ _ _ _ _ Hi Hf Hq) as Hs. split; [|split].
  - apply (restored_rest s q Hs creator stop_at Hc ts rk Hn Hne).
  - exact (restored_pend s q Hs creator stop_at Hc ts rk Hn Hne).
  - exact (restored_ends s q Hs creator stop_at Hc ts rk Hn Hne).
Qed.
Print Assumptions C66_restored.

(** The time of the next call of an event that was scheduled for tick [a] and has been called [n] times. *)
Definition next_time (fadd : Z -> Z -> Z) (e : event) (a : Z) (n : nat) : Z := match e_iv e with Some iv => nth_time fadd a iv n | None => a end.
(** Which events these are, in terms of what was scheduled and called so far: all events whose next call is after the current tick, except the one that makes the save. So the
    events of the tick that are not yet called are not saved; of those, repeating events are lost for all later ticks, too. *)
Theorem C66_which fadd act rng s0 s h todo r now a b k :
  inside fadd act rng s0 s h todo r -> forward true (tr s) -> In (OSched now a b k) (tr s) -> effective now a b = true -> e_type (ev s k) <> TVoid ->
  (In k (map snd (queue s)) <-> k <> h /\ tick s < next_time fadd (ev s k) a (length (calls k (tr s)))).
Proof.
  intros Hi Hf Ho He Hv. pose proof (inside_Inv fadd act rng true _ _ _ _ _ Hi Hf) as HI.
  pose proof (i_hist _ _ _ _ _ _ _ _ _ _ HI _ _ _ _ Ho) as Hs. unfold effective in He. unfold next_time.
  split.
  - intros Hk. assert (Hq : In k (map snd (queue s) ++ r)) by (apply in_or_app; auto).
    split; [intros ->; exact (i_cur _ _ _ _ _ _ _ _ _ _ HI _ eq_refl Hq)|].
    apply in_map_iff in Hk as ([[a' o] k'] & E & Hk). cbn in E. subst k'.
    destruct (i_queue _ _ _ _ _ _ _ _ _ _ HI _ _ _ Hk) as (E1 & _ & L). cbn in L.
    destruct Hs as [A B C|A B B' C|A B C D|A B C D|A B C D E]; try contradiction.
    destruct (e_iv (ev s k)); destruct D as [_ D]; lia.
  - intros [Hk Hlt]. destruct Hs as [A B C|A B B' C|A B C D|A B C D|A B C D E].
    + lia.
    + subst b. lia.
    + apply in_app_iff in B as [B|B]; [exact B|]. pose proof (i_grp _ _ _ _ _ _ _ _ _ _ HI k (or_introl B)) as E.
      destruct (e_iv (ev s k)); destruct D as [_ D]; lia.
    + congruence.
    + destruct (e_iv (ev s k)); [destruct E; contradiction|]. exfalso.
      assert (Hc : In a (calls k (tr s))) by (rewrite E; now left). apply calls_in in Hc as [c Hc].
      pose proof (i_tickle _ _ _ _ _ _ _ _ _ _ HI (OCall a k c) a Hc eq_refl). lia.
Qed.
Print Assumptions C66_which.

(** If the event is the last one of its tick and saves at the end, then the tick ends, and what a save after this tick would contain is saved - except the event itself,
    if it is a repeating one. *)
Theorem C66_last_partial fadd act rng s0 s h :
  inside fadd act rng s0 s h [] [] -> forward true (tr s) ->
  exists fuel s', execute fadd act rng fuel s0 = Some s' /\ tick s' = tick s /\ save_random s' = save_random s /\ ends s' = ends s /\
    (e_iv (ev s h) = None \/ e_type (ev s h) = TVoid -> queue s' = queue s /\ forall q, save_schedule q s' = save_schedule q s) /\
    (forall iv, e_iv (ev s h) = Some iv -> e_type (ev s h) <> TVoid ->
     exists e, Permutation (pend s') ((fadd (e_at (ev s h)) iv, e_order (ev s h), e) :: pend s) /\ e_call e = e_call (ev s h)).
Proof.
  intros Hi Hf. destruct (inside_last fadd act rng true s0 s h Hi Hf) as (fuel & gr & E).
  pose proof (inside_Inv fadd act rng true _ _ _ _ _ Hi Hf) as HI.
  exists fuel, (set_g (reschedule fadd s h) gr). split; [exact E|].
  assert (R : forall iv, e_iv (ev s h) = Some iv -> e_type (ev s h) <> TVoid -> reschedule fadd s h =
    set_queue (observe (set_ev s (upd (ev s) h (set_at (ev s h) (fadd (e_at (ev s h)) iv)))) (OResched h (e_at (ev s h)) (fadd (e_at (ev s h)) iv)))
      (qinsert (fadd (e_at (ev s h)) iv, e_order (ev s h), h) (queue s))).
  { intros iv E1 E2. unfold reschedule. rewrite E1. destruct (e_type (ev s h)); try reflexivity. contradiction. }
  split; [|split; [|split; [|split]]].
  - unfold reschedule. destruct (e_iv _), (e_type _); reflexivity.
  - unfold reschedule. destruct (e_iv _), (e_type _); reflexivity.
  - unfold reschedule. destruct (e_iv _), (e_type _); reflexivity.
  - intros D. assert (Er : reschedule fadd s h = s) by (unfold reschedule; destruct D as [->| ->]; [destruct (e_type _)|destruct (e_iv _)]; reflexivity).
    rewrite Er. split; reflexivity.
  - intros iv E1 E2. rewrite (R iv E1 E2). unfold pend. cbn [queue set_queue set_g observe set_ev ev].
    set (e := set_at (ev s h) (fadd (e_at (ev s h)) iv)). exists e. split; [|reflexivity].
    rewrite (Permutation_map _ (qinsert_perm _ _)). cbn [map fst snd]. rewrite upd_same. constructor.
    erewrite map_ext_in; [apply Permutation_refl|]. intros [[a o] k] Hk. cbn [fst snd]. f_equal. apply upd_other. intros ->.
    apply (i_cur _ _ _ _ _ _ _ _ _ _ HI h eq_refl). apply in_or_app. left. apply in_map_iff. exists (a, o, h). auto.
Qed.
Print Assumptions C66_last_partial.

(** So, with a one-time event: the restored run does the same as the original one after the tick. As in C17: all events have the tag [t], none is ignored or voided, [stop] was not
    called, something is pending; the random state is saved and restored, too; and the callables do the same in both runs. *)
Theorem C66_future_partial fadd act act' rng s0 s h q creator stop_at t rk :
  inside fadd act rng s0 s h [] [] -> forward true (tr s) -> e_iv (ev s h) = None -> Permutation q (queue s) -> faithful s creator ->
  (forall k, In k (ends s) \/ In k (map snd (queue s)) -> keep creator [t] (ev s k) = true) -> go s = true -> queue s <> [] ->
  let r0 := rs (restore_tags s q creator stop_at [t] (restore_random (save_random s) rk)) in
  (forall x c, act' (ren (new_name s q) x ++ tr r0) c = ren_cmds (new_name s q) (act (x ++ tr s) c)) ->
  exists f s', execute fadd act rng f s0 = Some s' /\ forall l s1 fuel s2,
    run_ops fadd act rng s' l = Some s1 -> forward false (tr s1) -> run_ends act fuel 0 s1 = Some s2 ->
    exists s1' s2' x y, run_ops fadd act' rng r0 (ren_ops (new_name s q) l) = Some s1' /\ run_ends act' fuel 0 s1' = Some s2' /\
      tick s1' = tick s1 /\ next_tick s1' = next_tick s1 /\ go s1' = go s1 /\ pend s1' = pend s1 /\
      tr s2 = x ++ tr s' /\ tr s2' = y ++ tr r0 /\ behaviour y = behaviour x.
Proof.
  intros Hi Hf Hiv Hq Hc Hk Hgo Hne r0 Hact. destruct (inside_last fadd act rng true s0 s h Hi Hf) as (fuel & gr & E).
  assert (Er : reschedule fadd s h = s) by (unfold reschedule; rewrite Hiv; destruct (e_type _); reflexivity). rewrite Er in E.
  exists fuel, (set_g s gr). split; [exact E|]. intros l s1 f s2 R1 F1 R2.
  assert (Hr : reachable fadd act rng (set_g s gr)).
  { destruct Hi. eapply reach_step; [eassumption|]. eapply step_exec. exact E. }
  exact (C17_future_partial fadd act act' rng (set_g s gr) q creator stop_at t (restore_random (save_random s) rk) l s1 f s2 Hr Hf Hq Hc Hk Hgo Hne eq_refl Hact R1 F1 R2).
Qed.
Print Assumptions C66_future_partial.

(** *** Runs with a save *)
(** The state in which the first event of the list [w] is running, in the first round of the tick [t]. *)
Definition list_state (s0 : st) (t : Z) (w : which) : st :=
  let s1 := set_g (fill_group rng0 s0 t) (set_exec (g (fill_group rng0 s0 t)) true) in
  match w with WFirst => s1 | WPrio => fst (execute_evts Z.add act0 rng0 s1 WFirst) | WLast => fst (execute_evts Z.add act0 rng0 (fst (execute_evts Z.add act0 rng0 s1 WFirst)) WPrio) end.
Definition at_call (s0 : st) (t : Z) (w : which) (h cb : nat) : st :=
  let s2 := list_state s0 t w in
  let s3 := set_g s2 (put_list w (g s2) []) in
  observe (set_g s3 (set_size (g s3) (g_size (g s3) - 1))) (OCall (tick s3) h (User cb)).
Definition uninterrupted (s0 : st) (t : Z) (w : which) : bool :=
  let s1 := set_g (fill_group rng0 s0 t) (set_exec (g (fill_group rng0 s0 t)) true) in
  match w with
  | WFirst => true
  | WPrio => negb (snd (execute_evts Z.add act0 rng0 s1 WFirst))
  | WLast => negb (snd (execute_evts Z.add act0 rng0 s1 WFirst)) && negb (snd (execute_evts Z.add act0 rng0 (fst (execute_evts Z.add act0 rng0 s1 WFirst)) WPrio))
  end.
Lemma at_call_inside s0 t w h cb rest r : reachable Z.add act0 rng0 s0 -> queue s0 <> [] -> next_tick s0 = t -> 0 < g_size (g (fill_group rng0 s0 t)) -> uninterrupted s0 t w = true ->
  get_list w (g (list_state s0 t w)) = h :: rest -> e_call (ev (list_state s0 t w) h) = User cb ->
  let s := at_call s0 t w h cb in r = rest ++ g_first (g s) ++ g_prio (g s) ++ g_last (g s) ++ g_added (g s) -> inside Z.add act0 rng0 s0 s h [] r.
Proof.
  intros Hr Hq Ht Hz Hu Hl Hc s ->. unfold next_tick in Ht. destruct (queue s0) as [|[[t' o] k] q] eqn:Eq; [contradiction|]. subst t'.
  eapply (in_call Z.add act0 rng0 s0 t o k q _ (list_state s0 t w) w); [exact Hr|exact Eq|apply loops_refl|exact Hz| |].
  - unfold uninterrupted, list_state in *. destruct w.
    + apply round_first.
    + apply round_prio. destruct (execute_evts _ _ _ _ WFirst) as [s1 []]; [discriminate|reflexivity].
    + destruct (execute_evts _ _ _ _ WFirst) as [s1 []] eqn:E1; [discriminate|]. cbn [fst snd negb andb] in *.
      apply (round_last _ _ _ _ s1); [exact E1|]. destruct (execute_evts _ _ _ _ WPrio) as [s2 []]; [discriminate|reflexivity].
  - rewrite Hl. exact (run_here Z.add act0 (set_g (list_state s0 t w) (put_list w (g (list_state s0 t w)) [])) h rest cb _ 0 Hc eq_refl).
Qed.
Ltac at_call_tac := apply (at_call_inside _ _ _ _ _ []); [apply demo_reachable|vm_compute; discriminate|vm_compute; reflexivity..].

(** Callable 1 is the step of the model, called at 1, 2, 3, ...; 2 makes the save at tick 3. *)
Definition st7 (c : cmd) : st := demo act0 rng0 [Api (CRepeat 1 1 PRandom None 1 None 1); Api c; Api (CEvent 9 PFirst None 4 None 4); Exec; Exec].
Definition once7 : st := st7 (CEvent 3 PLast None 2 None 2).
Definition in7 : st := at_call once7 3 WLast 1 2.
Lemma in7_inside : inside Z.add act0 rng0 once7 in7 1 [] [].
Proof. at_call_tac. Qed.
Example C66_ex : inside Z.add act0 rng0 once7 in7 1 [] [] /\ forward true (tr in7) /\ e_iv (ev in7 1) = None /\ faithful in7 Some /\
  (forall k, In k (ends in7) \/ In k (map snd (queue in7)) -> keep Some [default_tag] (ev in7 k) = true) /\ go in7 = true /\
  map (fun x => (fst x, e_call (snd x))) (pend in7) = [((4, 0), User 1); ((9, 2), User 4)] /\
  (let r0 := rs (restore_tags in7 (queue in7) Some false [default_tag] (restore_random (save_random in7) rank_init)) in
   pend r0 = pend in7 /\ forall x c, act0 (ren (new_name in7 (queue in7)) x ++ tr r0) c = ren_cmds (new_name in7 (queue in7)) (act0 (x ++ tr in7) c)) /\
  (In (OSched tick0 1 false 0) (tr in7) /\ effective tick0 1 false = true /\ e_type (ev in7 0) <> TVoid /\ next_time Z.add (ev in7 0) 1 (length (calls 0 (tr in7))) = 4).
Proof.
  split; [exact in7_inside|]. split; [apply forwardb_ok; vm_compute; reflexivity|]. split; [vm_compute; reflexivity|]. split; [apply faithfulb_ok; vm_compute; reflexivity|].
  split. { intros k Hi. assert (H : forallb (fun h => keep Some [default_tag] (ev in7 h)) (ends in7 ++ map snd (queue in7)) = true) by (vm_compute; reflexivity).
           rewrite forallb_forall in H. apply H. apply in_or_app. exact Hi. }
  split; [vm_compute; reflexivity|]. split; [vm_compute; reflexivity|]. split; [split; [vm_compute; reflexivity|reflexivity]|].
  split; [vm_compute; auto 20|]. split; [vm_compute; reflexivity|]. split; [vm_compute; discriminate|vm_compute; reflexivity].
Qed.

Example C66_every_call_ex : exists s', reachable Z.add act0 rng0 once7 /\ execute Z.add act0 rng0 9 once7 = Some s' /\ In (OCall 3 1 (User 2)) (tr s') /\ ~ In (OCall 3 1 (User 2)) (tr once7).
Proof.
  eexists. split; [apply demo_reachable|]. split; [vm_compute; reflexivity|]. split; [vm_compute; auto|].
  intros H. assert (F : forallb (fun o => match o with OCall _ 1 _ => false | _ => true end) (tr once7) = true) by (vm_compute; reflexivity).
  rewrite forallb_forall in F. specialize (F _ H). discriminate.
Qed.

(** With the default priority type the save may come before the step in its tick. Then the step is lost: it is called at 3, 4, 5 in the original run, and nothing is called before tick 9
    in the restored one. *)
Definition rand7 : st := st7 (CEvent 3 PRandom None 2 None 2).
Definition in8 : st := at_call rand7 3 WPrio 1 2.
Theorem C66_step_refuted : exists s0 s h r,
  inside Z.add act0 rng0 s0 s h [] r /\ forward true (tr s) /\ faithful s Some /\
  (forall k, In k (ends s) \/ In k (map snd (queue s)) -> keep Some [default_tag] (ev s k) = true) /\
  let r0 := rs (restore_tags s (queue s) Some false [default_tag] (restore_random (save_random s) rank_init)) in
  (exists s1, run_ops Z.add act0 rng0 s0 [OpTick 9; OpTick 9; OpTick 9] = Some s1 /\ tick s1 = 5 /\ calls 0 (tr s1) = [1; 2; 3; 4; 5] /\ e_call (ev s1 0) = User 1) /\
  tick r0 = 3 /\ next_tick r0 = 9 /\ forallb (fun x => negb (Nat.eqb (e_meta (snd x)) 1)) (pend r0) = true.
Proof.
  exists rand7, in8, 1%nat, [0%nat]. split; [apply (at_call_inside _ _ _ _ _ [0%nat]); [apply demo_reachable|vm_compute; discriminate|vm_compute; reflexivity..]|].
  split; [apply forwardb_ok; vm_compute; reflexivity|]. split; [apply faithfulb_ok; vm_compute; reflexivity|].
  split. { intros k Hi. assert (H : forallb (fun h => keep Some [default_tag] (ev in8 h)) (ends in8 ++ map snd (queue in8)) = true) by (vm_compute; reflexivity).
           rewrite forallb_forall in H. apply H. apply in_or_app. exact Hi. }
  split. { eexists. split; [vm_compute; reflexivity|]. split; [vm_compute; reflexivity|]. split; vm_compute; reflexivity. }
  split; [vm_compute; reflexivity|]. split; vm_compute; reflexivity.
Qed.
Print Assumptions C66_step_refuted.

(** A repeating event that makes the saves is not in the checkpoints that it makes, even as the last event of its tick: the restored run makes no more. *)
Definition rep7 : st := st7 (CRepeat 3 3 PLast None 2 None 2).
Definition in9 : st := at_call rep7 3 WLast 1 2.
Theorem C66_own_refuted : exists s0 s h s',
  inside Z.add act0 rng0 s0 s h [] [] /\ forward true (tr s) /\ faithful s Some /\ execute Z.add act0 rng0 9 s0 = Some s' /\
  map (fun x => (fst x, e_call (snd x))) (pend s') = [((4, 0), User 1); ((6, 1), User 2); ((9, 2), User 4)] /\
  let r0 := rs (restore_tags s (queue s) Some false [default_tag] rank_init) in map (fun x => (fst x, e_call (snd x))) (pend r0) = [((4, 0), User 1); ((9, 2), User 4)].
Proof.
  exists rep7, in9, 1%nat. eexists. split; [at_call_tac|].
  split; [apply forwardb_ok; vm_compute; reflexivity|]. split; [apply faithfulb_ok; vm_compute; reflexivity|].
  split; [vm_compute; reflexivity|]. split; vm_compute; reflexivity.
Qed.
Print Assumptions C66_own_refuted.
