(** C76: events that raise exceptions. *)
From Coq Require Import List Arith ZArith Bool Lia.
From Verif Require Import PySort ScheduleModel ScheduleSpec ScheduleProofs ScheduleDemo RunnerModel CkptInsideProps RaiseModel RaiseProofs.
Import ListNotations.
Open Scope Z_scope.

(** If no callable raises, [execute] is that of the properties C01-C12. *)
Theorem C76_no_exception_partial fadd act rng raises fuel s s' :
  execute_r fadd act rng raises fuel s = Some (s', false) -> execute fadd act rng fuel s = Some s'.
Proof. apply execute_same. Qed.

(** If one raises, [execute] ends in the state in which this callable ends: [h] is the last event that was called, its callable raised, and all that
    was observed is what is observed without the exception up to this moment. *)
Theorem C76_raised_partial fadd act rng raises fuel s0 s' :
  reachable fadd act rng s0 -> execute_r fadd act rng raises fuel s0 = Some (s', true) ->
  exists s h r x cb before, inside fadd act rng s0 s h [] r /\ s' = set_g s (g s') /\
    tr s' = x ++ OCall (tick s') h (User cb) :: before /\ (forall t k c, ~ In (OCall t k c) x) /\
    raises (OCall (tick s') h (User cb) :: before) cb = true.
Proof.
  intros H E. destruct (execute_raised fadd act rng raises fuel s0 s' H E) as (_ & s & h & r & x & cb & H1 & H2 & H3 & H4 & H5).
  exists s, h, r, x, cb, (tl (skipn (length x) (tr s'))). repeat split; auto. rewrite H3 in H5.
  rewrite skipn_app, skipn_all, Nat.sub_diag in H5. exact H5.
Qed.
(** Which events are still scheduled then: those with a time after the tick, but not the event that raised, even if it repeats. *)
Theorem C76_scheduled_partial fadd act rng raises fuel s0 s' :
  reachable fadd act rng s0 -> execute_r fadd act rng raises fuel s0 = Some (s', true) -> forward true (tr s') ->
  exists h cb x before, tr s' = x ++ OCall (tick s') h (User cb) :: before /\ (forall t k c, ~ In (OCall t k c) x) /\
  forall now a b k, In (OSched now a b k) (tr s') -> effective now a b = true -> e_type (ev s' k) <> TVoid ->
    (In k (map snd (queue s')) <-> k <> h /\ tick s' < next_time fadd (ev s' k) a (length (calls k (tr s')))).
Proof.
  intros H E F. destruct (C76_raised_partial _ _ _ _ _ _ _ H E) as (s & h & r & x & cb & be & H1 & H2 & H3 & H4 & _).
  exists h, cb, x, be. do 2 (split; [assumption|]). intros now a b k I1 I2 I3. rewrite H2 in F, I1, I3 |- *. cbn [set_g tr ev tick queue] in *.
  eapply C66_which; eauto.
Qed.

(** After the exception no event is called again, whatever the program schedules and however often it calls [execute]. *)
Theorem C76_after fadd act rng raises fuel s0 s1 s2 :
  reachable fadd act rng s0 -> execute_r fadd act rng raises fuel s0 = Some (s1, true) -> steps_r fadd act rng raises s1 s2 ->
  exists x, tr s2 = x ++ tr s1 /\ forall t h c, ~ In (OCall t h c) x.
Proof. intros H E S. destruct (execute_raised _ _ _ _ _ _ _ H E) as (G & _). apply (dead_steps fadd act rng raises s1 s2 G S). Qed.
(** Each [execute] takes the events of the next tick out of the queue, and that is all. *)
Theorem C76_thrown_away fadd act rng raises fuel s0 s1 s2 fuel' t o h q :
  reachable fadd act rng s0 -> execute_r fadd act rng raises fuel s0 = Some (s1, true) -> steps_r fadd act rng raises s1 s2 -> queue s2 = (t, o, h) :: q ->
  exists s3 gone, execute_r fadd act rng raises fuel' s2 = Some (s3, false) /\ tick s3 = t /\ tr s3 = OTick t :: tr s2 /\ ev s3 = ev s2 /\
    queue s2 = (t, o, h) :: gone ++ queue s3 /\ (forall x, In x gone -> fst (fst x) = t) /\ (forall x r, queue s3 = x :: r -> fst (fst x) <> t).
Proof.
  intros H E S Q. destruct (execute_raised _ _ _ _ _ _ _ H E) as (X & _). destruct (dead_steps fadd act rng raises s1 s2 X S) as (G & _).
  rewrite (dead_execute fadd act rng raises fuel' s2 G), Q. destruct (dead_fill rng s2 t G) as (_ & _ & T & _ & _ & V & K & QQ).
  exists (fill_group rng s2 t). rewrite QQ, Q. cbn [pop_tick]. rewrite Z.eqb_refl. destruct (pop_tick t q) as [l r] eqn:P.
  destruct (pop_tick_spec _ _ _ _ P) as (q1 & -> & _ & P1 & P2). exists q1. cbn [snd]. repeat split; auto.
Qed.
(** The runner's [execute] does not return any more. *)
Theorem C76_runner fadd act rng raises fuel s0 s1 s2 nt :
  reachable fadd act rng s0 -> execute_r fadd act rng raises fuel s0 = Some (s1, true) -> steps_r fadd act rng raises s1 s2 -> go s2 = true ->
  forall fuel' env, rank_loop_r fadd act rng raises fuel' env (mkRank s2 nt) = None.
Proof.
  intros H E S G fuel' env. destruct (execute_raised _ _ _ _ _ _ _ H E) as (X & _). apply dead_runner; auto.
  apply (dead_steps fadd act rng raises s1 s2 X S).
Qed.

(** * Where this is not what one expects *)
(** Events 0 at tick 1 and 1 at tick 2, and a stop at tick 3; the first one raises.  The program catches the exception and goes on: event 1 is
    never called, and the loop of the runner does not end.  If it does not raise, both are called and the loop ends. *)
Definition two_events : rank := setup [CEvent 1 PRandom None 0 None 0; CEvent 2 PRandom None 1 None 0; CSchedStop 3].
Definition quiet : list obs -> nat -> list cmd := fun _ _ => [].
Definition zeros : nat -> nat := fun _ => 0%nat.
Definition first_raises : list obs -> nat -> bool := fun _ c => Nat.eqb c 0.
Definition called_events (l : list obs) : list (Z * nat) := flat_map (fun o => match o with OCall t h _ => [(t, h)] | _ => [] end) (rev l).
Theorem C76_later_refuted : exists r r1 env,
  rank_loop_r Z.add quiet zeros first_raises 9 env r = Some (inr r1) /\ called_events (tr (rs r1)) = [(1, 0%nat)] /\
  map fst (queue (rs r1)) = [(2, 1); (3, 2)] /\
  (forall s2, steps_r Z.add quiet zeros first_raises (rs r1) s2 -> called_events (tr s2) = [(1, 0%nat)]) /\
  (forall fuel env, rank_loop_r Z.add quiet zeros first_raises fuel env r1 = None) /\
  exists r2, rank_loop_r Z.add quiet zeros (fun _ _ => false) 9 [(1, 0); (2, 0); (3, 0)] r = Some (inl r2) /\
    called_events (tr (rs r2)) = [(1, 0%nat); (2, 1%nat); (3, 2%nat)].
Proof.
  exists two_events. eexists. exists [(1, 2)]. split; [vm_compute; reflexivity|]. split; [reflexivity|]. split; [reflexivity|]. split; [|split].
  - intros s2 H. assert (D := fun G => dead_steps Z.add quiet zeros first_raises _ s2 G H). destruct (D eq_refl) as (_ & x & E & N). clear D. rewrite E. unfold called_events.
    rewrite rev_app_distr, flat_map_app.
    replace (flat_map _ (rev x)) with (@nil (Z * nat)); [reflexivity|]. symmetry.
    assert (G : forall l, (forall t h c, ~ In (OCall t h c) l) -> flat_map (fun o => match o with OCall t h _ => [(t, h)] | _ => [] end) l = []).
    { clear. induction l as [|o l IH]; intros N; auto. cbn [flat_map]. rewrite IH by (intros t h c F; apply (N t h c); now right).
      destruct o; auto. exfalso. eapply N. now left. }
    apply G. intros t h c F. apply (N t h c). now apply in_rev.
  - intros fuel env. apply dead_runner; reflexivity.
  - eexists. split; vm_compute; reflexivity.
Qed.

(** * Examples *)
(** Three events at the same tick, the second one raises: the third one is not called, the tick's repeating event that was called is scheduled
    again, the repeating one that raised is not. *)
Definition at_one : st := fold_left do_cmd
  [CRepeat 1 1 PFirst None 5 None 0; CRepeat 1 1 PFirst None 0 None 0; CRepeat 1 1 PLast None 6 None 0; CEvent 4 PFirst None 7 None 0] init.
Example C76_ex : exists s', execute_r Z.add quiet zeros first_raises 9 at_one = Some (s', true) /\ called_events (tr s') = [(1, 0%nat); (1, 1%nat)] /\
  map (fun x => (fst (fst x), snd x)) (queue s') = [(2, 0%nat); (4, 3%nat)] /\ g_exec (g s') = true.
Proof. eexists. split; [vm_compute; reflexivity|]. repeat split. Qed.
Example C76_ex_hyp : reachable Z.add quiet zeros at_one.
Proof. unfold at_one. cbn [fold_left]. repeat (eapply reach_step; [|apply step_api]). constructor. Qed.
Example C76_ex_forward : exists s', execute_r Z.add quiet zeros first_raises 9 at_one = Some (s', true) /\ forward true (tr s').
Proof. eexists. split; [vm_compute; reflexivity|]. apply forwardb_ok. vm_compute. reflexivity. Qed.
(** What is thrown away: the events of tick 2, then those of tick 4, also one that is scheduled after the exception. *)
Example C76_thrown_ex : exists s1 s2 s3, execute_r Z.add quiet zeros first_raises 9 at_one = Some (s1, true) /\
  execute_r Z.add quiet zeros first_raises 9 (do_cmd s1 (CEvent 2 PFirst None 8 None 0)) = Some (s2, false) /\
  execute_r Z.add quiet zeros first_raises 9 s2 = Some (s3, false) /\ tick s2 = 2 /\ tick s3 = 4 /\ queue s3 = [] /\
  called_events (tr s3) = [(1, 0%nat); (1, 1%nat)].
Proof. do 3 eexists. split; [vm_compute; reflexivity|]. split; [vm_compute; reflexivity|]. split; [vm_compute; reflexivity|]. repeat split. Qed.
(** End events: if one raises, the later ones are not called; a second [execute] calls all of them from the first one on. *)
Definition three_ends : st := fold_left do_cmd [CEnd 5 None 0; CEnd 0 None 0; CEnd 6 None 0; CStop] init.
Example C76_ends_ex : exists s1 s2, run_ends_r quiet first_raises 9 0 three_ends = Some (s1, true) /\
  run_ends_r quiet first_raises 9 0 s1 = Some (s2, true) /\ map snd (called_events (tr s2)) = [0; 1; 0; 1]%nat.
Proof. do 2 eexists. split; [vm_compute; reflexivity|]. split; [vm_compute; reflexivity|]. reflexivity. Qed.

Print Assumptions C76_no_exception_partial.
Print Assumptions C76_raised_partial.
Print Assumptions C76_scheduled_partial.
Print Assumptions C76_after.
Print Assumptions C76_thrown_away.
Print Assumptions C76_runner.
Print Assumptions C76_later_refuted.
