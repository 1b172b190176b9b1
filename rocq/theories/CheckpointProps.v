(** The properties C17-C20 of saving and restoring a schedule. [fadd], [act] and [rng] are arbitrary; [q] is the heap array, some
    permutation of the pending entries. A save is made between two ticks, [reachable]; [restore_tags ts] is one call of [restore_schedule] for each
    tag of [ts], the first one with [initialize=True]. *)
From Coq Require Import List Arith ZArith Bool Lia Sorting.Permutation Sorting.Sorted.
From Verif Require Import PySort ScheduleModel ScheduleSpec ScheduleDemo RunnerModel CheckpointModel CheckpointSim CheckpointSpec CheckpointProofs CheckpointFacts.
Import ListNotations.
Open Scope Z_scope.

(** ** Concrete schedules *)
(** The metadata of an event is the number of its callable; callable 1 schedules an event and an end event. *)
Definition act4 : list obs -> nat -> list cmd := fun _ c =>
  match c with 1%nat => [CEvent 9 PFirst None 6 None 6; CEnd 7 None 7] | 3%nat => [CVoid 0] | _ => [] end.
Definition ops4 : list ScheduleDemo.op :=
  [Api (CEnd 5 None 5); Api (CRepeat 1 2 PRandom None 1 None 1); Api (CRepeat 2 2 PFirst None 2 None 2); Api (CEvent 5 PPriority (Some 3) 3 None 3);
   Api (CSchedStop 7); Exec; Exec].
Definition ck4 : st := demo act4 rng0 ops4.
Definition q4 : list (Z * Z * nat) := rev (queue ck4).
Definition fresh4 : rank := mkRank (set_rngk init (rngk ck4)) no_tick.
Definition res4 : st := rs (restore_tags ck4 q4 Some false [default_tag] fresh4).

(** Events with the tags 1, 2 and none; 3 is voided; metadata 8 is ignored. *)
Definition ops5 : list ScheduleDemo.op :=
  [Api (CEnd 5 (Some 1%nat) 5); Api (CEnd 6 (Some 2%nat) 6); Api (CEnd 7 (Some 1%nat) 7); Api (CEvent 5 PLast None 3 (Some 2%nat) 3);
   Api (CEvent 5 PRandom None 4 (Some 1%nat) 4); Api (CEvent 3 PRandom None 9 None 9); Api (CVoid 3); Api (CRepeat 2 4 PFirst None 8 (Some 1%nat) 8); Api (CSchedStop 8); Exec].
Definition ck5 : st := demo act0 rng0 ops5.
Definition creator5 (m : nat) : option nat := if Nat.eqb m 8 then None else Some m.
Definition res5 : st := rs (restore_tags ck5 (queue ck5) creator5 false [2; 1]%nat rank_init).

Lemma ck4_reachable : reachable Z.add act4 rng0 ck4.
Proof. apply demo_reachable. Qed.
Lemma ck4_forward : forward true (tr ck4).
Proof. apply forwardb_ok. vm_compute. reflexivity. Qed.
Lemma q4_perm : Permutation q4 (queue ck4).
Proof. apply Permutation_sym, Permutation_rev. Qed.

Definition faithfulb (s : st) (creator : nat -> option nat) : bool :=
  forallb (fun h => match e_call (ev s h), creator (e_meta (ev s h)) with User cb, Some cb' => Nat.eqb cb cb' | _, _ => true end) (ends s ++ map snd (queue s)).
Lemma faithfulb_ok s creator : faithfulb s creator = true -> faithful s creator.
Proof.
  unfold faithfulb. rewrite forallb_forall. intros H h cb Hi Hc. specialize (H h ltac:(apply in_or_app; exact Hi)). cbn beta in H. rewrite Hc in H.
  destruct (creator (e_meta (ev s h))); auto. apply Nat.eqb_eq in H. subst. auto.
Qed.
Lemma ck4_faithful : faithful ck4 Some.
Proof. apply faithfulb_ok. vm_compute. reflexivity. Qed.

(** To compute with concrete runs. *)
Lemma some_ex {A} (o : option A) (P : A -> bool) : match o with Some x => P x | None => false end = true -> exists x, o = Some x /\ P x = true.
Proof. destruct o as [x|]; [eauto|discriminate]. Qed.
Definition eqb_nats (l l' : list nat) : bool := if list_eq_dec Nat.eq_dec l l' then true else false.
Lemma eqb_nats_ok l l' : eqb_nats l l' = true -> l = l'.
Proof. unfold eqb_nats. destruct (list_eq_dec Nat.eq_dec l l'); [auto|discriminate]. Qed.

Lemma keepb_ok s creator ts : forallb (fun h => is_void (ev s h) || keep creator ts (ev s h)) (ends s ++ map snd (queue s)) = true ->
  forall h, In h (ends s) \/ In h (map snd (queue s)) -> is_void (ev s h) = false -> keep creator ts (ev s h) = true.
Proof.
  rewrite forallb_forall. intros H h Hi Hv. specialize (H h ltac:(apply in_or_app; exact Hi)). cbn beta in H. rewrite Hv in H. exact H.
Qed.

(** ** C17 *)
(** What is restored with one tag [t]: the tick; the pending events with this tag which are neither voided nor ignored by the creator, with the same tick, order number,
    interval, priority type, priority, callable and metadata, in the same order; and the end events, in the same order. *)
Theorem C17_pending fadd act rng s q creator stop_at t r :
  reachable fadd act rng s -> forward true (tr s) -> Permutation q (queue s) -> faithful s creator ->
  let r' := rs (restore_tags s q creator stop_at [t] r) in
  tick r' = tick s /\ pend r' = filter (fun x => keep creator [t] (snd x)) (pend s) /\
  map (ev r') (ends r') = filter (keep creator [t]) (map (ev s) (ends s)).
Proof.
  intros Hr Hf Hq Hc r'. pose proof (reachable_saved _ _ _ _ _ Hr Hf Hq) as Hs.
  assert (Hn : NoDup [t]) by (constructor; [intros []|constructor]).
  split; [|split].
  - apply (restored_rest s q Hs creator stop_at Hc [t] r Hn). discriminate.
  - apply (restored_pend s q Hs creator stop_at Hc [t] r Hn). discriminate.
  - exact (restored_ends_one s q Hs creator stop_at Hc t r).
Qed.
Print Assumptions C17_pending.

Example C17_pending_ex : reachable Z.add act4 rng0 ck4 /\ forward true (tr ck4) /\ Permutation q4 (queue ck4) /\ faithful ck4 Some /\
  tick ck4 = 2 /\ map (fun x => (fst x, e_call (snd x))) (pend ck4) = [((3, 0), User 1); ((4, 1), User 2); ((5, 2), User 3); ((7, 3), StopRunner); ((9, 4), User 6)] /\
  pend res4 = pend ck4 /\ map (ev res4) (ends res4) = map (ev ck4) (ends ck4) /\ length (ends ck4) = 2%nat.
Proof.
  split; [apply ck4_reachable|]. split; [apply ck4_forward|]. split; [apply q4_perm|]. split; [apply ck4_faithful|].
  split; [vm_compute; reflexivity|]. split; [vm_compute; reflexivity|]. split; [vm_compute; reflexivity|]. split; vm_compute; reflexivity.
Qed.

(** The future: if no voided event is pending, all events have the tag [t], none is ignored, [stop] was not called, something is pending, the
    random number generator is restored, too, and the callables do the same in both runs ([act'] is [act] up to the names of the events),
    then every continuation - API calls and ticks [l], then the end events - is the same for both: the same callables are called at the same ticks
    in the same order, and the schedules agree at the end. *)
Theorem C17_future_partial fadd act act' rng s q creator stop_at t r l s1 fuel s2 :
  reachable fadd act rng s -> forward true (tr s) -> Permutation q (queue s) -> faithful s creator ->
  (forall h, In h (ends s) \/ In h (map snd (queue s)) -> keep creator [t] (ev s h) = true) ->
  go s = true -> queue s <> [] -> rngk (rs r) = rngk s ->
  let r0 := rs (restore_tags s q creator stop_at [t] r) in
  (forall x c, act' (ren (new_name s q) x ++ tr r0) c = ren_cmds (new_name s q) (act (x ++ tr s) c)) ->
  run_ops fadd act rng s l = Some s1 -> forward false (tr s1) -> run_ends act fuel 0 s1 = Some s2 ->
  exists s1' s2' x y, run_ops fadd act' rng r0 (ren_ops (new_name s q) l) = Some s1' /\ run_ends act' fuel 0 s1' = Some s2' /\
    tick s1' = tick s1 /\ next_tick s1' = next_tick s1 /\ go s1' = go s1 /\ pend s1' = pend s1 /\
    tr s2 = x ++ tr s /\ tr s2' = y ++ tr r0 /\ behaviour y = behaviour x.
Proof. intros H1 H2 H3 H4 H5 H6 H7 H8 r0 H9 H10 H11 H12. exact (restored_future fadd act act' rng s q creator stop_at t r l s1 fuel s2 H1 H2 H3 H4 H5 H6 H7 H8 H9 H10 H11 H12). Qed.
Print Assumptions C17_future_partial.

(** Callable 3 voids event 0, an end event, which has another name in the restored schedule. *)
Definition act4' : list obs -> nat -> list cmd := fun l c => ren_cmds (new_name ck4 q4) (act4 l c).
Definition cont4 : list op := [OpTick 20; OpCall (CEvent 6 PPriority (Some 1) 8 None 8); OpTick 20; OpTick 20; OpTick 20].
Example C17_future_ex :
  (forall h, In h (ends ck4) \/ In h (map snd (queue ck4)) -> keep Some [default_tag] (ev ck4 h) = true) /\
  go ck4 = true /\ queue ck4 <> [] /\ rngk (rs fresh4) = rngk ck4 /\
  (forall x c, act4' (ren (new_name ck4 q4) x ++ tr res4) c = ren_cmds (new_name ck4 q4) (act4 (x ++ tr ck4) c)) /\
  match run_ops Z.add act4 rng0 ck4 cont4, run_ops Z.add act4' rng0 res4 (ren_ops (new_name ck4 q4) cont4) with
  | Some s1, Some s1' =>
    forwardb false (tr s1) = true /\
    match run_ends act4 20 0 s1, run_ends act4' 20 0 s1' with
    | Some s2, Some s2' =>
      let x := behaviour (firstn (length (tr s2) - length (tr ck4)) (tr s2)) in
      let y := behaviour (firstn (length (tr s2') - length (tr res4)) (tr s2')) in
      y = rev [BTick 3; BCall 3 (User 1); BTick 4; BCall 4 (User 2); BTick 5; BCall 5 (User 3); BCall 5 (User 1); BTick 6; BCall 6 (User 2); BCall 6 (User 8);
               BCall 6 Noop; BCall 6 (User 7); BCall 6 (User 7); BCall 6 (User 7)] /\ x = y
    | _, _ => False
    end
  | _, _ => False
  end.
Proof.
  split. { intros h Hi. assert (H : forallb (fun h => keep Some [default_tag] (ev ck4 h)) (ends ck4 ++ map snd (queue ck4)) = true) by (vm_compute; reflexivity).
           rewrite forallb_forall in H. apply H. apply in_or_app. exact Hi. }
  split; [vm_compute; reflexivity|]. split; [vm_compute; discriminate|]. split; [vm_compute; reflexivity|]. split; [intros x c; unfold act4', act4; reflexivity|].
  vm_compute. split; split; reflexivity.
Qed.

(** A voided event which is still pending is not saved. It would still have taken part in the shuffle of its tick (and would have caused
    a tick in which nothing is done); so the restored run calls the other events in a different order, with the same random numbers. *)
Definition ops6 : list ScheduleDemo.op :=
  [Api (CEvent 5 PRandom None 1 None 1); Api (CEvent 5 PRandom None 2 None 2); Api (CEvent 5 PRandom None 3 None 3); Api (CVoid 0)].
Definition ck6 : st := demo act0 rng0 ops6.
Definition res6 : st := rs (restore_tags ck6 (queue ck6) Some false [default_tag] (mkRank ck6 no_tick)).
Definition user_calls (l : list obs) : list nat := flat_map (fun o => match o with OCall _ _ (User c) => [c] | _ => [] end) l.
Theorem C17_future_refuted : exists act rng s creator r,
  reachable Z.add act rng s /\ forward true (tr s) /\ faithful s creator /\
  (forall h, In h (ends s) \/ In h (map snd (queue s)) -> is_void (ev s h) = false -> keep creator [default_tag] (ev s h) = true) /\
  go s = true /\ queue s <> [] /\ rngk (rs r) = rngk s /\ (forall l c, act l c = []) /\
  let r0 := rs (restore_tags s (queue s) creator true [default_tag] r) in
  exists s1 s1', execute Z.add act rng 10 s = Some s1 /\ execute Z.add act rng 10 r0 = Some s1' /\
    user_calls (tr s1) = [3; 2]%nat /\ user_calls (tr s1') = [2; 3]%nat.
Proof.
  exists act0, rng0, ck6, Some, (mkRank ck6 no_tick).
  split; [apply demo_reachable|]. split; [apply forwardb_ok; vm_compute; reflexivity|]. split; [apply faithfulb_ok; vm_compute; reflexivity|].
  split; [apply keepb_ok; vm_compute; reflexivity|].
  split; [vm_compute; reflexivity|]. split; [vm_compute; discriminate|]. split; [vm_compute; reflexivity|]. split; [intros l c; reflexivity|].
  intros r0.
  destruct (some_ex (execute Z.add act0 rng0 10 ck6) (fun s => eqb_nats (user_calls (tr s)) [3; 2]%nat)) as (s1 & E1 & P1); [vm_compute; reflexivity|].
  destruct (some_ex (execute Z.add act0 rng0 10 r0) (fun s => eqb_nats (user_calls (tr s)) [2; 3]%nat)) as (s1' & E2 & P2); [vm_compute; reflexivity|].
  exists s1, s1'. split; [exact E1|]. split; [exact E2|]. split; now apply eqb_nats_ok.
Qed.
Print Assumptions C17_future_refuted.

(** ** C18 *)
(** After a restore, whatever is scheduled ([l]): the order numbers of the pending events are pairwise distinct, and an event which was not
    restored has a greater one than every restored event. *)
Theorem C18_order_after_restore fadd act rng s q creator stop_at ts r l :
  reachable fadd act rng s -> forward true (tr s) -> Permutation q (queue s) -> faithful s creator -> NoDup ts -> ts <> [] ->
  let r0 := rs (restore_tags s q creator stop_at ts r) in
  let r1 := do_cmds r0 l in
  NoDup (map (fun x => snd (fst x)) (pend r1)) /\
  forall a o e, In (a, o, e) (pend r1) -> (exists e', In (a, o, e') (pend r0)) \/ (forall a' o' e', In (a', o', e') (pend r0) -> o' < o).
Proof.
  intros Hr Hf Hq Hc Hn Hne. exact (restored_orders s q creator stop_at ts r l (reachable_saved _ _ _ _ _ Hr Hf Hq) Hc Hn Hne).
Qed.
Print Assumptions C18_order_after_restore.

(** The event scheduled for tick 3 after the restore is placed after the restored event of tick 3. *)
Example C18_ex : map fst (pend (do_cmds res4 [CEvent 3 PFirst None 1 None 1; CEvent 8 PFirst None 1 None 1])) =
  [(3, 0); (3, 5); (4, 1); (5, 2); (7, 3); (8, 6); (9, 4)].
Proof. vm_compute. reflexivity. Qed.

(** But the second call of [restore_schedule] resets the counter: an event scheduled between the two calls and one scheduled after them have the
    same order number. *)
Theorem C18_between_restores_refuted : exists s creator t t' c c',
  reachable Z.add act0 rng0 s /\ forward true (tr s) /\ faithful s creator /\
  let ck := save_schedule (queue s) s in
  let r1 := runner_cmd (restore_schedule creator t true false ck rank_init) c in
  let r2 := runner_cmd (restore_schedule creator t' false false ck r1) c' in
  ~ NoDup (map (fun x => snd (fst x)) (pend (rs r2))).
Proof.
  exists ck5, creator5, 2%nat, 1%nat, (CEvent 7 PFirst None 1 None 1), (CEvent 7 PFirst None 2 None 2).
  split; [apply demo_reachable|]. split; [apply forwardb_ok; vm_compute; reflexivity|]. split; [apply faithfulb_ok; vm_compute; reflexivity|].
  vm_compute. intros H. inversion H; subst. inversion H3; subst. apply H4. now left.
Qed.
Print Assumptions C18_between_restores_refuted.

(** ** C19 *)
(** Restoring tag by tag, for any list [ts] of distinct tags: restored are exactly the pending events that have one of the tags, are not voided and
    not ignored by the creator, each once; the end events likewise, in some order. *)
Theorem C19_by_tags fadd act rng s q creator stop_at ts r :
  reachable fadd act rng s -> forward true (tr s) -> Permutation q (queue s) -> faithful s creator -> NoDup ts -> ts <> [] ->
  let r' := rs (restore_tags s q creator stop_at ts r) in
  pend r' = filter (fun x => keep creator ts (snd x)) (pend s) /\
  Permutation (map (ev r') (ends r')) (filter (keep creator ts) (map (ev s) (ends s))).
Proof.
  intros Hr Hf Hq Hc Hn Hne. pose proof (reachable_saved _ _ _ _ _ Hr Hf Hq) as Hs. split.
  - exact (restored_pend s q Hs creator stop_at Hc ts r Hn Hne).
  - exact (restored_ends s q Hs creator stop_at Hc ts r Hn Hne).
Qed.
Print Assumptions C19_by_tags.

(** If the tags cover all events and the creator ignores none, this is every event that is not voided. *)
Theorem C19_all_tags fadd act rng s q creator stop_at ts r :
  reachable fadd act rng s -> forward true (tr s) -> Permutation q (queue s) -> faithful s creator -> NoDup ts -> ts <> [] ->
  (forall h, In h (ends s) \/ In h (map snd (queue s)) -> tagged ts (ev s h) = true /\ creator (e_meta (ev s h)) <> None) ->
  let r' := rs (restore_tags s q creator stop_at ts r) in
  pend r' = filter (fun x => negb (is_void (snd x))) (pend s) /\
  Permutation (map (ev r') (ends r')) (filter (fun e => negb (is_void e)) (map (ev s) (ends s))).
Proof.
  intros Hr Hf Hq Hc Hn Hne Hall r'. destruct (C19_by_tags fadd act rng s q creator stop_at ts r Hr Hf Hq Hc Hn Hne) as [H1 H2].
  assert (Hk : forall h, In h (ends s) \/ In h (map snd (queue s)) -> keep creator ts (ev s h) = negb (is_void (ev s h))).
  { intros h Hi. destruct (Hall h Hi) as [A B]. unfold keep, wants. rewrite A. destruct (creator (e_meta (ev s h))); [|contradiction].
    destruct (e_type (ev s h)); now rewrite !andb_true_r. }
  split.
  - unfold r'. rewrite H1. apply filter_ext_in. intros [[a o] e] Hi. apply pend_in in Hi as (h & Hi & ->). cbn [snd]. apply Hk. right.
    apply in_map_iff. exists (a, o, h). auto.
  - unfold r'. rewrite H2. erewrite filter_ext_in; [apply Permutation_refl|]. intros e Hi. apply in_map_iff in Hi as (h & <- & Hi). apply Hk. now left.
Qed.
Print Assumptions C19_all_tags.

(** Restored with tags 2 and 1: not the voided event (meta 3), not the one without tag (9), not the ignored one (8), not the stop event, whose tag
    is the default one; the end events are in another order than before. *)
Example C19_ex : reachable Z.add act0 rng0 ck5 /\ forward true (tr ck5) /\ faithful ck5 creator5 /\ NoDup [2; 1]%nat /\
  map (fun x => (fst x, e_meta (snd x))) (pend ck5) = [((3, 2), 9%nat); ((5, 0), 3%nat); ((5, 1), 4%nat); ((6, 3), 8%nat); ((8, 4), 0%nat)] /\
  map (fun x => (fst x, e_meta (snd x))) (pend res5) = [((5, 1), 4%nat)] /\
  map (fun h => e_meta (ev ck5 h)) (ends ck5) = [5; 6; 7]%nat /\ map (fun h => e_meta (ev res5 h)) (ends res5) = [6; 5; 7]%nat.
Proof.
  split; [apply demo_reachable|]. split; [apply forwardb_ok; vm_compute; reflexivity|]. split; [apply faithfulb_ok; vm_compute; reflexivity|].
  split. { repeat constructor; cbn; intuition discriminate. }
  split; [vm_compute; reflexivity|]. split; [vm_compute; reflexivity|]. split; vm_compute; reflexivity.
Qed.
Example C19_all_ex : let r' := rs (restore_tags ck5 (queue ck5) Some false [2; 1; 0]%nat rank_init) in
  (forall h, In h (ends ck5) \/ In h (map snd (queue ck5)) -> tagged [2; 1; 0]%nat (ev ck5 h) = true /\ Some (e_meta (ev ck5 h)) <> None) /\
  map (fun x => (fst x, e_meta (snd x))) (pend r') = [((3, 2), 9%nat); ((5, 1), 4%nat); ((6, 3), 8%nat); ((8, 4), 0%nat)].
Proof.
  split; [|vm_compute; reflexivity]. intros h Hi. split; [|discriminate].
  assert (H : forallb (fun h => tagged [2; 1; 0]%nat (ev ck5 h)) (ends ck5 ++ map snd (queue ck5)) = true) by (vm_compute; reflexivity).
  rewrite forallb_forall in H. apply H. apply in_or_app. exact Hi.
Qed.

(** ** C20 *)
(** [restore_stop_at] makes no difference: in every case the same schedule results. *)
Theorem C20_stop_at_ignored creator t initialize ck r :
  restore_schedule creator t initialize false ck r = restore_schedule creator t initialize true ck r.
Proof. exact (stop_at_ignored creator t initialize ck r). Qed.
Print Assumptions C20_stop_at_ignored.

(** So a stop event is restored also with [restore_stop_at=False], and the restored run is stopped by it. *)
Theorem C20_stop_restored_refuted : exists s creator,
  reachable Z.add act0 rng0 s /\ forward true (tr s) /\ faithful s creator /\
  let r := rs (restore_schedule creator default_tag true false (save_schedule (queue s) s) rank_init) in
  (exists a o e, In (a, o, e) (pend r) /\ e_type e = TStop) /\
  exists s1, run_ops Z.add act0 rng0 r [OpTick 10; OpTick 10] = Some s1 /\ go s1 = false.
Proof.
  exists ck5, creator5. split; [apply demo_reachable|]. split; [apply forwardb_ok; vm_compute; reflexivity|]. split; [apply faithfulb_ok; vm_compute; reflexivity|].
  intros r. split.
  - assert (H : existsb (fun x => match e_type (snd x) with TStop => true | _ => false end) (pend r) = true) by (vm_compute; reflexivity).
    apply existsb_exists in H as ([[a o] e] & Hi & He). exists a, o, e. split; [exact Hi|]. cbn [snd] in He. destruct (e_type e); [reflexivity|discriminate He..].
  - destruct (some_ex (run_ops Z.add act0 rng0 r [OpTick 10; OpTick 10]) (fun s => negb (go s))) as (s1 & E & P); [vm_compute; reflexivity|].
    exists s1. split; [exact E|]. now apply negb_true_iff.
Qed.
Print Assumptions C20_stop_restored_refuted.
